(** C129: exactly which epochs can be proved at all. *)
From Coq Require Import ZArith List Bool Lia.
Import ListNotations.
From Verif Require Import Base Env Circuit SparseMT SparseMTSpec SparseMTHeap SparseMTRep SparseMTProofs
  SparseMTGadget SparseMTGadgetProofs Data DataSpec DataFacts Gadgets GadgetsProofs Schnorr SchnorrProofs
  Contract Aggregator AggIntake AggCircuit AggCircuitFacts AggCircuitSpec CircuitRun PropsCircuit PropsCircuit2 PropsCircuit3
  ExactSpec PropsExact Claims.
Open Scope Z_scope.

Section props.
  Context {hs : Hashes} {G : Curve}.
  Variable contract : pt.
  Local Opaque merkle_root sib_path node.

  Lemma chain_app acc l1 l2 : chain_from acc (l1 ++ l2) = chain_from (chain_from acc l1) l2.
  Proof. unfold chain_from. apply fold_left_app. Qed.

  (** ** One step from the contents of the trees *)
  Lemma step_consistent to z (cu : contents utxoV_cfg) (ct : contents txV_cfg) (ck : contents keyV_cfg) x :
    p <= q -> z_utxo z = merkle_root cu -> z_tx z = merkle_root ct -> z_signer z = merkle_root ck ->
    consistent contract to z cu ct ck [x] ->
    exists y, same_claim x y /\ accepted contract to z y (outcome contract to z cu ct ck [x]).
  Proof.
    intros Hpq Hu Ht Hk [C1 C2 C3 C4 C5 C6 C7].
    cbn [flat_map tx_writes all_key_writes] in C4, C5, C6. rewrite app_nil_r in C4, C6.
    unfold outcome. cbn [flat_map tx_writes all_key_writes map length]. rewrite !app_nil_r.
    apply Forall_inv in C1. specialize (C2 x). specialize (C3 x (or_introl eq_refl)).
    destruct x as [tx tp dp dq ap aq sp sn sg].
    set (x := mkInputsV tx tp dp dq ap aq sp sn sg) in *.
    set (ws := coin_writes contract (z_tx_final z) x) in *.
    assert (Ews : ws = item_writes utxoV_cfg (del_write (is_signed (z_tx_final z) x)) (dels x)
                       ++ item_writes utxoV_cfg (add_write contract (is_applied contract (z_tx_final z) x)) (adds x)).
    { rewrite item_writes_dels, item_writes_adds. reflexivity. }
    rewrite Ews in C4 |- *. clearbody ws. clear ws Ews. rewrite written_app. apply genuine_app in C4 as [Hg1 Hg2].
    destruct (items_complete utxoV_cfg _ (proj1 (del_write_path _)) (proj2 (del_write_path _)) _ _ Hg1) as (pd & D1 & D2 & D3 & D4).
    destruct (items_complete utxoV_cfg _ (proj1 (add_write_path contract _)) (proj2 (add_write_path contract _)) _ _ Hg2)
      as (pa & A1 & A2 & A3 & A4).
    destruct (list4 pd D1) as [pda Epd]. destruct (list4 pa A1) as [paa Epa]. subst pd pa.
    pose proof (slot_range txV_cfg (z_step z)) as Rt. pose proof (slot_range keyV_cfg (z_step z)) as Rk.
    destruct (sib_path_roots txV_cfg ct (slot_of txV_cfg (z_step z)) tx Rt) as [Rt1 Rt2].
    destruct (sib_path_roots keyV_cfg ck (slot_of keyV_cfg (z_step z)) sn Rk) as [Rk1 Rk2].
    assert (Lt : length (sib_path 0 (HEIGHT txV_cfg - 1) (digests ct) (slot_of txV_cfg (z_step z))) = 12%nat) by apply sib_path_length.
    assert (Lk : length (sib_path 0 (HEIGHT keyV_cfg - 1) (digests ck) (slot_of keyV_cfg (z_step z))) = 12%nat) by apply sib_path_length.
    revert Rt1 Rt2 Rk1 Rk2 Lt Lk.
    generalize (sib_path 0 (HEIGHT txV_cfg - 1) (digests ct) (slot_of txV_cfg (z_step z))) as pt'.
    generalize (sib_path 0 (HEIGHT keyV_cfg - 1) (digests ck) (slot_of keyV_cfg (z_step z))) as pk'.
    intros pk' pt' Rt1 Rt2 Rk1 Rk2 Lt Lk.
    exists (mkInputsV tx pt' pda dq paa aq pk' sn sg). split; [ repeat split |].
    cbn [genuine] in C5. unfold tx_write in C5. cbn [w_pos w_old] in C5. destruct C5 as [C5 _].
    constructor; cbn [z_step z_utxo z_tx z_tx_final z_signer z_signer_acc z_deposit z_withdrawal
                      x_tx x_tx_proof x_del_proofs x_del_pos x_add_proofs x_add_pos x_signer_proof x_sender x_sig];
      try assumption; try reflexivity.
    - intros u Hi. exact (C2 u (or_introl eq_refl) Hi).
    - match goal with |- zval ?h < q => pose proof (F_range h) end. lia.
    - cbn [linked]. unfold tx_write. cbn [w_path w_pos w_old w_new x_tx x_tx_proof]. split.
      + rewrite C5 in Rt1. exact (eq_trans Ht (eq_sym Rt1)).
      + cbn [written w_pos w_new]. symmetry. exact Rt2.
    - unfold coin_writes at 1. cbn [x_tx x_del_proofs x_del_pos x_add_proofs x_add_pos].
      match goal with |- linked _ _ (?a ++ ?b) _ =>
        change a with (flat_map (fun upp : utxoV * list F * F => let '(u, path, pos) := upp in
                  if is_signed (z_tx_final z) x && negb (v_dummy u)
                  then [mkWrite (slot_of utxoV_cfg pos) u (utxo_alloc utxo_dummy) path] else [])
                  (dels (mkInputsV tx pt' pda dq paa aq pk' sn sg)));
        change b with (flat_map (fun upp : utxoV * list F * F => let '(u, path, pos) := upp in
                  if is_applied contract (z_tx_final z) x && negb (pt_eqb (v_pk u) contract) && negb (v_dummy u)
                  then [mkWrite (slot_of utxoV_cfg pos) (utxo_alloc utxo_dummy) u path] else [])
                  (adds (mkInputsV tx pt' pda dq paa aq pk' sn sg)))
      end.
      rewrite <- item_writes_dels, <- item_writes_adds. rewrite Hu.
      apply linked_app. eexists. split; apply (items_linked utxoV_cfg).
      + split; [ exact D3 | symmetry; exact D4 ].
      + split; [ exact A3 | symmetry; exact A4 ].
    - unfold key_writes in C6 |- *. change (is_applied contract (z_tx_final z) (mkInputsV tx pt' pda dq paa aq pk' sn sg))
        with (is_applied contract (z_tx_final z) x).
      destruct (is_applied contract (z_tx_final z) x); cbn [linked written genuine w_path w_pos w_old w_new x_sender x_signer_proof] in *.
      + destruct C6 as [C6 _]. split.
        * rewrite C6 in Rk1. exact (eq_trans Hk (eq_sym Rk1)).
        * symmetry. exact Rk2.
      + now symmetry.
    - destruct to; [ auto |]. destruct (C7 eq_refl x (or_introl eq_refl)) as [R1 R2]. auto.
  Qed.

  (** ** Sequences *)
  Lemma tx_writes_cons s x xs : tx_writes s (x :: xs) = [tx_write s x] ++ tx_writes (Fadd s Fone) xs.
  Proof. reflexivity. Qed.
  Lemma step_one z : Fof (zval z + 1) = Fadd z Fone.
  Proof. apply zval_inj. reflexivity. Qed.
  Lemma consistent_cons to z cu ct ck x xs :
    consistent contract to z cu ct ck (x :: xs) <->
    consistent contract to z cu ct ck [x] /\
    consistent contract to (outcome contract to z cu ct ck [x])
      (written utxoV_cfg cu (coin_writes contract (z_tx_final z) x))
      (written txV_cfg ct [tx_write (z_step z) x])
      (written keyV_cfg ck (key_writes contract (z_tx_final z) (z_step z) x)) xs.
  Proof.
    assert (Es : z_step (outcome contract to z cu ct ck [x]) = Fadd (z_step z) Fone).
    { unfold outcome. cbn [z_step length]. apply step_one. }
    split.
    - intros [C1 C2 C3 C4 C5 C6 C7]. cbn [flat_map all_key_writes] in C4, C6. rewrite tx_writes_cons in C5.
      apply genuine_app in C4 as [C4 D4], C5 as [C5 D5], C6 as [C6 D6].
      split; constructor.
      + constructor; [ exact (Forall_inv C1) | constructor ].
      + intros y u [<-|[]]. apply C2. now left.
      + intros y [<-|[]]. apply C3. now left.
      + cbn [flat_map]. rewrite app_nil_r. exact C4.
      + exact C5.
      + cbn [all_key_writes]. rewrite app_nil_r. exact C6.
      + intros E y [<-|[]]. apply C7; [ exact E | now left ].
      + exact (Forall_inv_tail C1).
      + intros y u Hy. apply C2. now right.
      + intros y Hy. apply C3. now right.
      + exact D4.
      + rewrite Es. exact D5.
      + rewrite Es. exact D6.
      + intros E y Hy. apply C7; [ exact E | now right ].
    - intros [[C1 C2 C3 C4 C5 C6 C7] [D1 D2 D3 D4 D5 D6 D7]]. rewrite Es in D5, D6.
      cbn [flat_map all_key_writes] in C4, C6. rewrite app_nil_r in C4, C6. constructor.
      + constructor; [ exact (Forall_inv C1) | exact D1 ].
      + intros y u [<-|Hy]; [ apply C2; now left | now apply D2 ].
      + intros y [<-|Hy]; [ apply C3; now left | now apply D3 ].
      + cbn [flat_map]. apply genuine_app. split; [ exact C4 | exact D4 ].
      + rewrite tx_writes_cons. apply genuine_app. split; [ exact C5 | exact D5 ].
      + cbn [all_key_writes]. apply genuine_app. split; [ exact C6 | exact D6 ].
      + intros E y [<-|Hy]; [ apply C7; [ exact E | now left ] | now apply D7 ].
  Qed.
  Lemma outcome_cons to z cu ct ck x xs :
    outcome contract to z cu ct ck (x :: xs) =
    outcome contract to (outcome contract to z cu ct ck [x])
      (written utxoV_cfg cu (coin_writes contract (z_tx_final z) x))
      (written txV_cfg ct [tx_write (z_step z) x])
      (written keyV_cfg ck (key_writes contract (z_tx_final z) (z_step z) x)) xs.
  Proof.
    assert (Es : Fof (zval (z_step z) + Z.of_nat (length [x])) = Fadd (z_step z) Fone) by apply step_one.
    unfold outcome. cbn [z_step z_utxo z_tx z_tx_final z_signer z_signer_acc z_deposit z_withdrawal].
    rewrite Es. cbn [flat_map all_key_writes map]. rewrite tx_writes_cons, !written_app, !app_nil_r. f_equal.
    - apply zval_inj. cbn [length]. change (zval (Fof ?a)) with (a mod p).
      change (zval (Fadd (z_step z) Fone)) with ((zval (z_step z) + 1) mod p).
      rewrite Zplus_mod_idemp_l. f_equal. lia.
    - destruct to; [ reflexivity | apply chain_app ].
    - destruct to; [ reflexivity | apply chain_app ].
  Qed.
  Lemma outcome_nil to z cu ct ck : z_utxo z = merkle_root cu -> z_tx z = merkle_root ct -> z_signer z = merkle_root ck ->
    outcome contract to z cu ct ck [] = z.
  Proof.
    intros Hu Ht Hk. destruct z as [e1 e2 e3 e4 e5 e6 e7 e8]. cbn [z_utxo z_tx z_signer] in *. subst.
    unfold outcome. cbn [z_step z_tx_final z_signer_acc z_deposit z_withdrawal length flat_map map tx_writes all_key_writes written].
    assert (E : Fof (zval e1 + Z.of_nat 0) = e1).
    { apply zval_inj. change (Z.of_nat 0) with 0. rewrite Z.add_0_r. change (zval (Fof ?a)) with (a mod p).
      apply Z.mod_small. apply F_range. }
    rewrite E. destruct to; reflexivity.
  Qed.
  Lemma run_consistent to xs : p <= q -> forall z (cu : contents utxoV_cfg) (ct : contents txV_cfg) (ck : contents keyV_cfg),
    z_utxo z = merkle_root cu -> z_tx z = merkle_root ct -> z_signer z = merkle_root ck ->
    consistent contract to z cu ct ck xs ->
    exists ys, Forall2 same_claim xs ys /\ all_accepted contract to z ys (outcome contract to z cu ct ck xs).
  Proof.
    intros Hpq. induction xs as [|x xs IH]; intros z cu ct ck Hu Ht Hk HC.
    - exists []. rewrite outcome_nil by assumption. split; constructor.
    - apply consistent_cons in HC as [H1 H2].
      destruct (step_consistent to z cu ct ck x Hpq Hu Ht Hk H1) as (y & S1 & S2).
      destruct (IH (outcome contract to z cu ct ck [x])
                  (written utxoV_cfg cu (coin_writes contract (z_tx_final z) x))
                  (written txV_cfg ct [tx_write (z_step z) x])
                  (written keyV_cfg ck (key_writes contract (z_tx_final z) (z_step z) x))) as (ys & S3 & S4).
      + unfold outcome. cbn [z_utxo flat_map]. now rewrite app_nil_r.
      + reflexivity.
      + unfold outcome. cbn [z_signer all_key_writes]. now rewrite app_nil_r.
      + exact H2.
      + exists (y :: ys). split; [ now constructor |]. rewrite outcome_cons. econstructor; eauto.
  Qed.

  (** ** Soundness *)
  Section sound.
    Variables (P : SparseConfig) (enc : Leaf P -> list F).
    Hypothesis (Henc : forall l, LeafHash P l = crh (enc l)) (Hinj : forall a b, enc a = enc b -> a = b).
    Lemma linked_sound ws : forall (c : contents P) r',
      Forall (fun w => in_range P (w_pos w) /\ length (w_path w) = (HEIGHT P - 1)%nat) ws ->
      linked (LeafHash P) (merkle_root c) ws r' ->
      (genuine P c ws /\ r' = merkle_root (written P c ws)) \/ collides P enc c ws.
    Proof.
      induction ws as [|w ws IH]; intros c r' Hw H; cbn [linked genuine written collides] in *; [ auto |].
      pose proof (Forall_inv Hw) as [Hi Hl]. apply Forall_inv_tail in Hw. destruct H as [E H].
      destruct (write_sound P enc Henc Hinj c w Hi Hl (eq_sym E)) as [[G1 G2]|[K|K]]; auto.
      rewrite G2 in H. destruct (IH _ _ Hw H) as [[G3 G4]|K]; auto.
    Qed.
  End sound.

  Lemma accepted_one to z x z1 : accepted contract to z x z1 -> forall cu ct ck,
    z_utxo z = merkle_root cu -> z_tx z = merkle_root ct -> z_signer z = merkle_root ck ->
    (consistent contract to z cu ct ck [x] /\ z1 = outcome contract to z cu ct ck [x])
    \/ collides utxoV_cfg utxo_encV cu (coin_writes contract (z_tx_final z) x)
    \/ collides txV_cfg tx_encV ct [tx_write (z_step z) x]
    \/ collides keyV_cfg pt_encV ck (key_writes contract (z_tx_final z) (z_step z) x).
  Proof.
    intros A cu ct ck Hu Ht Hk.
    pose proof (ac_coins _ _ _ _ _ A) as B1. pose proof (ac_tx _ _ _ _ _ A) as B2. pose proof (ac_keys _ _ _ _ _ A) as B3.
    rewrite Hu in B1. rewrite Ht in B2. rewrite Hk in B3.
    destruct (fun W => linked_sound utxoV_cfg utxo_encV (fun l => eq_refl) utxo_encV_inj _ cu _ W B1) as [[U1 U2]|K]; [| | now right; left ].
    { apply Forall_forall. intros w Hw. unfold coin_writes in Hw.
      pose proof (ac_del_paths _ _ _ _ _ A) as L1. pose proof (ac_add_paths _ _ _ _ _ A) as L2. rewrite Forall_forall in L1, L2.
      assert (Lp : forall (a : arr4 utxoV) (b : arr4 (list F)) (d : arr4 F) u pf pos,
                 In (u, pf, pos) (a4_zip3 a b d) -> In pf (a4_list b)).
      { intros a b d u pf pos Hin. change (a4_list b) with (map (fun y : utxoV * list F * F => snd (fst y)) (a4_zip3 a b d)).
        exact (in_map (fun y : utxoV * list F * F => snd (fst y)) _ _ Hin). }
      apply in_app_iff in Hw as [Hw|Hw]; apply in_flat_map in Hw as ([[u pf] pos] & Hin & Hw); apply Lp in Hin.
      - destruct (_ && _); [| destruct Hw ]. destruct Hw as [<-|[]]. cbn [w_pos w_path]. split; [ apply slot_range | exact (L1 _ Hin) ].
      - destruct (_ && _); [| destruct Hw ]. destruct Hw as [<-|[]]. cbn [w_pos w_path]. split; [ apply slot_range | exact (L2 _ Hin) ]. }
    destruct (fun W => linked_sound txV_cfg tx_encV (fun l => eq_refl) tx_encV_inj _ ct _ W B2) as [[T1 T2]|K]; [| | now right; right; left ].
    { constructor; [| constructor ]. cbn [tx_write w_pos w_path]. split; [ apply slot_range | exact (ac_tx_path _ _ _ _ _ A) ]. }
    destruct (fun W => linked_sound keyV_cfg pt_encV (fun l => eq_refl) pt_encV_inj _ ck _ W B3) as [[S1 S2]|K]; [| | now right; right; right ].
    { unfold key_writes. destruct (is_applied _ _ _); constructor; [| constructor ]. cbn [w_pos w_path].
      split; [ apply slot_range | exact (ac_signer_path _ _ _ _ _ A) ]. }
    left. split.
    - constructor.
      + constructor; [ exact (ac_bits _ _ _ _ _ A) | constructor ].
      + intros y u [<-|[]]. apply (ac_owner _ _ _ _ _ A).
      + intros y [<-|[]]. exact (ac_balance _ _ _ _ _ A).
      + cbn [flat_map]. rewrite app_nil_r. exact U1.
      + exact T1.
      + cbn [all_key_writes]. rewrite app_nil_r. exact S1.
      + intros E y [<-|[]]. pose proof (ac_chains _ _ _ _ _ A) as C. rewrite E in C. destruct C as (C1 & C2 & _). auto.
    - pose proof (ac_chains _ _ _ _ _ A) as C.
      assert (Es : z_step z1 = Fof (zval (z_step z) + Z.of_nat (length [x]))).
      { apply zval_inj. rewrite (ac_step _ _ _ _ _ A). reflexivity. }
      pose proof (ac_final _ _ _ _ _ A) as Ef. pose proof (ac_signers _ _ _ _ _ A) as Ea. clear A B1 B2 B3.
      unfold outcome. cbn [flat_map all_key_writes tx_writes map]. rewrite !app_nil_r.
      destruct z1 as [e1 e2 e3 e4 e5 e6 e7 e8]. cbn [z_step z_utxo z_tx z_tx_final z_signer z_signer_acc z_deposit z_withdrawal] in *.
      destruct to.
      + destruct C as [-> ->]. congruence.
      + destruct C as (_ & _ & -> & ->). congruence.
  Qed.
  Lemma accepted_sound to z xs z' : all_accepted contract to z xs z' -> forall cu ct ck,
    z_utxo z = merkle_root cu -> z_tx z = merkle_root ct -> z_signer z = merkle_root ck ->
    (consistent contract to z cu ct ck xs /\ z' = outcome contract to z cu ct ck xs)
    \/ collides utxoV_cfg utxo_encV cu (flat_map (coin_writes contract (z_tx_final z)) xs)
    \/ collides txV_cfg tx_encV ct (tx_writes (z_step z) xs)
    \/ collides keyV_cfg pt_encV ck (all_key_writes contract (z_tx_final z) (z_step z) xs).
  Proof.
    induction 1 as [z|z x z1 xs z' Ha Hr IH]; intros cu ct ck Hu Ht Hk.
    - left. split; [| symmetry; now apply outcome_nil ].
      constructor; cbn [flat_map tx_writes all_key_writes genuine]; auto; try constructor; contradiction.
    - cbn [flat_map all_key_writes]. rewrite tx_writes_cons, !collides_app.
      destruct (accepted_one to z x z1 Ha cu ct ck Hu Ht Hk) as [[H1 H2]|[K|[K|K]]];
        [| right; left; left; exact K | right; right; left; left; exact K | right; right; right; left; exact K ].
      specialize (IH (written utxoV_cfg cu (coin_writes contract (z_tx_final z) x))
                     (written txV_cfg ct [tx_write (z_step z) x])
                     (written keyV_cfg ck (key_writes contract (z_tx_final z) (z_step z) x))).
      assert (Ef : z_tx_final z1 = z_tx_final z) by exact (ac_final _ _ _ _ _ Ha).
      assert (Es : z_step z1 = Fadd (z_step z) Fone) by (rewrite H2; apply step_one).
      rewrite Ef, Es in IH. subst z1.
      destruct IH as [[H3 H4]|[K|[K|K]]].
      + unfold outcome. cbn [z_utxo flat_map]. now rewrite app_nil_r.
      + reflexivity.
      + unfold outcome. cbn [z_signer all_key_writes]. now rewrite app_nil_r.
      + left. split; [ apply consistent_cons; auto | rewrite outcome_cons; exact H4 ].
      + right. left. right. exact K.
      + right. right. left. right. exact K.
      + right. right. right. right. exact K.
  Qed.

  (** ** C129 *)
  Theorem C129_consistent_is_provable to z (cu : contents utxoV_cfg) (ct : contents txV_cfg) (ck : contents keyV_cfg) xs :
    p <= q -> z_utxo z = merkle_root cu -> z_tx z = merkle_root ct -> z_signer z = merkle_root ck ->
    consistent contract to z cu ct ck xs ->
    exists ys, Forall2 same_claim xs ys /\
      forall bs, concat bs = ys -> ivc contract to (z_list z) bs (z_list (outcome contract to z cu ct ck xs)).
  Proof.
    intros Hpq Hu Ht Hk HC. destruct (run_consistent to xs Hpq z cu ct ck Hu Ht Hk HC) as (ys & S1 & S2).
    exists ys. split; [ exact S1 |]. intros bs E. apply C106_aggregator_proof. eexists. split; [ reflexivity |].
    rewrite E. exact S2.
  Qed.
  Theorem C129_provable_is_consistent to z bs zl' (cu : contents utxoV_cfg) (ct : contents txV_cfg) (ck : contents keyV_cfg) :
    ivc contract to (z_list z) bs zl' ->
    z_utxo z = merkle_root cu -> z_tx z = merkle_root ct -> z_signer z = merkle_root ck ->
    let xs := concat bs in
    (consistent contract to z cu ct ck xs /\ zl' = z_list (outcome contract to z cu ct ck xs))
    \/ collides utxoV_cfg utxo_encV cu (flat_map (coin_writes contract (z_tx_final z)) xs)
    \/ collides txV_cfg tx_encV ct (tx_writes (z_step z) xs)
    \/ collides keyV_cfg pt_encV ck (all_key_writes contract (z_tx_final z) (z_step z) xs).
  Proof.
    intros H Hu Ht Hk xs. apply C106_aggregator_proof in H as (z' & -> & H).
    destruct (accepted_sound to z xs z' H cu ct ck Hu Ht Hk) as [[H1 H2]|K]; [ left | now right ].
    split; [ exact H1 | now rewrite H2 ].
  Qed.
End props.
Print Assumptions C129_consistent_is_provable.
Print Assumptions C129_provable_is_consistent.

(** Property C106: exactly what one step of either circuit accepts. *)
From Coq Require Import ZArith List Bool Lia Sorted.
Import ListNotations.
From Verif Require Import Base Env Circuit SparseMT SparseMTSpec SparseMTHeap SparseMTRep SparseMTProofs
  SparseMTGadget SparseMTGadgetProofs Data DataSpec DataFacts Gadgets GadgetsProofs Schnorr SchnorrProofs
  Contract Aggregator AggCircuit AggCircuitFacts AggCircuitSpec PropsCircuit CircuitRun Client ClientSpec ClientFacts
  PropsClient ExactSpec.
Open Scope Z_scope.

Section agg.
  Context {hs : Hashes} {G : Curve}.
  Variable contract : pt.

  Lemma linked_app {L} (h : L -> F) a b : forall root root',
    linked h root (a ++ b) root' <-> exists m, linked h root a m /\ linked h m b root'.
  Proof.
    induction a as [|w a IH]; intros root root'; cbn [app linked].
    - split; [ intros H; exists root; auto | intros (m & -> & H); exact H ].
    - rewrite IH. split.
      + intros (E & m & H1 & H2). exists m. auto.
      + intros (m & (E & H1) & H2). split; [ exact E |]. exists m. auto.
  Qed.
  Lemma linked_det {L} (h : L -> F) ws : forall root r1 r2, linked h root ws r1 -> linked h root ws r2 -> r1 = r2.
  Proof.
    induction ws as [|w ws IH]; intros root r1 r2; cbn [linked].
    - congruence.
    - intros [_ H1] [_ H2]. exact (IH _ _ _ H1 H2).
  Qed.
  Lemma items_linked (P : SparseConfig) {I} (wr : I -> option (write (Leaf P))) l : forall r r',
    (ok_fold (CircuitRun.item_ok P wr) (CircuitRun.item_next P wr) l r = true /\ r' = fold_left (CircuitRun.item_next P wr) l r)
    <-> linked (LeafHash P) r (item_writes P wr l) r'.
  Proof.
    induction l as [|x l IH]; intros r r'; cbn [ok_fold fold_left].
    - unfold item_writes. cbn [flat_map linked]. tauto.
    - unfold item_writes. cbn [flat_map]. fold (item_writes P wr l).
      specialize (IH (CircuitRun.item_next P wr r x) r').
      unfold CircuitRun.item_ok at 1. unfold CircuitRun.item_next in IH at 2 4 5. unfold CircuitRun.item_next at 2 4.
      destruct (wr x) as [w|]; cbn [app linked].
      + rewrite andb_true_iff, Feqb_eq, and_assoc, IH. reflexivity.
      + cbn [andb]. exact IH.
  Qed.
  Lemma outs_ok_back to sc tv l : Forall (fun y : utxoV * list F * F => length (snd (fst y)) = 31%nat) l -> forall st,
    ok_fold (CircuitRun.item_ok utxoV_cfg (add_write contract tv)) (CircuitRun.item_next utxoV_cfg (add_write contract tv)) l (fst (fst st)) = true ->
    (to = false -> Forall (fun y => zval (v_amount (fst (fst y))) < 2 ^ 64) l) ->
    ok_fold (out_ok contract to tv) (out_next contract to sc tv) l st = true.
  Proof.
    induction l as [|[[u pf] pos] l IH]; intros H [[r d] w]; cbn [ok_fold fst snd]; [ reflexivity |].
    pose proof (Forall_inv H) as H1. cbn [fst snd] in H1. apply Forall_inv_tail in H.
    intros Ho Hr. apply andb_prop in Ho as [Ho1 Ho2].
    assert (E1 : fst (fst (out_next contract to sc tv (r, d, w) (u, pf, pos)))
                 = CircuitRun.item_next utxoV_cfg (add_write contract tv) r (u, pf, pos)).
    { unfold out_next, CircuitRun.item_next, add_write, out_en, climb_u. cbn [fst snd].
      destruct (tv && negb (pt_eqb (v_pk u) contract) && negb (v_dummy u)); cbn [w_path w_pos w_old w_new]; auto.
      now rewrite (slot_fold utxoV_cfg) by exact H1. }
    rewrite (IH H) ; [ rewrite andb_true_r | rewrite E1; exact Ho2 | intros Hto; specialize (Hr Hto); now apply Forall_inv_tail in Hr ].
    unfold out_ok. apply andb_true_iff. split.
    - destruct to; [ reflexivity |]. specialize (Hr eq_refl). apply Forall_inv in Hr. cbn [fst] in Hr.
      cbn [orb]. now apply Z.ltb_lt.
    - unfold CircuitRun.item_ok, add_write, out_en, climb_u in *.
      destruct (tv && negb (pt_eqb (v_pk u) contract) && negb (v_dummy u)); cbn [negb orb w_path w_pos w_old w_new] in *; auto.
      rewrite (slot_fold utxoV_cfg) by exact H1. exact Ho1.
  Qed.

  Lemma zip_paths {A C} (a : arr4 A) (b : arr4 (list F)) (c : arr4 C) (Q : list F -> Prop) :
    Forall (fun y => Q (snd (fst y))) (a4_zip3 a b c) <-> Forall Q (a4_list b).
  Proof.
    rewrite <- (Forall_map (fun y => snd (fst y)) Q).
    replace (map _ (a4_zip3 a b c)) with (a4_list b) by reflexivity. reflexivity.
  Qed.

  Lemma facts_accepted to z x z' : wf_input x -> step_facts contract to z x z' -> accepted contract to z x z'.
  Proof.
    intros Hw S. destruct (sf_shape _ _ _ _ _ S) as (L1 & L2 & L3 & L4). constructor.
    - exact Hw.
    - exact L1.
    - exact L2.
    - exact (proj1 (zip_paths (v_inputs (x_tx x)) (x_del_proofs x) (x_del_pos x) _) L3).
    - exact (proj1 (zip_paths (v_outputs (x_tx x)) (x_add_proofs x) (x_add_pos x) _) L4).
    - exact (proj1 (sf_valid _ _ _ _ _ S)).
    - exact (proj2 (sf_valid _ _ _ _ _ S)).
    - exact (sf_hash _ _ _ _ _ S).
    - cbn [linked tx_write w_path w_pos w_old w_new]. split; [ exact (sf_tx_old _ _ _ _ _ S) | exact (sf_tx_new _ _ _ _ _ S) ].
    - unfold coin_writes. fold (dels x). fold (adds x). rewrite <- item_writes_dels, <- item_writes_adds.
      apply linked_app.
      exists (fold_left (CircuitRun.item_next utxoV_cfg (del_write (is_signed (z_tx_final z) x))) (dels x) (z_utxo z)). split.
      + apply (items_linked utxoV_cfg). split; [ exact (sf_dels _ _ _ _ _ S) | reflexivity ].
      + apply (items_linked utxoV_cfg). split; [ exact (sf_adds _ _ _ _ _ S) | exact (sf_utxo _ _ _ _ _ S) ].
    - pose proof (sf_signer _ _ _ _ _ S) as K. unfold key_writes.
      destruct (is_applied contract (z_tx_final z) x); cbn [linked w_path w_pos w_old w_new]; exact K.
    - rewrite (sf_step _ _ _ _ _ S). reflexivity.
    - exact (sf_final _ _ _ _ _ S).
    - exact (sf_acc _ _ _ _ _ S).
    - pose proof (sf_range _ _ _ _ _ S). pose proof (sf_deposit _ _ _ _ _ S).
      pose proof (sf_wrange _ _ _ _ _ S). pose proof (sf_withdraw _ _ _ _ _ S).
      destruct to; auto.
  Qed.

  Lemma accepted_det to z x z1 z2 : accepted contract to z x z1 -> accepted contract to z x z2 -> z1 = z2.
  Proof.
    intros A B.
    assert (E1 : z_step z1 = z_step z2) by (apply zval_inj; rewrite (ac_step _ _ _ _ _ A), (ac_step _ _ _ _ _ B); reflexivity).
    pose proof (linked_det _ _ _ _ _ (ac_tx _ _ _ _ _ A) (ac_tx _ _ _ _ _ B)) as E2.
    pose proof (linked_det _ _ _ _ _ (ac_coins _ _ _ _ _ A) (ac_coins _ _ _ _ _ B)) as E3.
    pose proof (linked_det _ _ _ _ _ (ac_keys _ _ _ _ _ A) (ac_keys _ _ _ _ _ B)) as E4.
    assert (E5 : z_tx_final z1 = z_tx_final z2) by (rewrite (ac_final _ _ _ _ _ A), (ac_final _ _ _ _ _ B); reflexivity).
    assert (E6 : z_signer_acc z1 = z_signer_acc z2) by (rewrite (ac_signers _ _ _ _ _ A), (ac_signers _ _ _ _ _ B); reflexivity).
    assert (E7 : z_deposit z1 = z_deposit z2 /\ z_withdrawal z1 = z_withdrawal z2).
    { pose proof (ac_chains _ _ _ _ _ A) as CA. pose proof (ac_chains _ _ _ _ _ B) as CB. destruct to.
      - destruct CA as [-> ->], CB as [-> ->]. auto.
      - destruct CA as (_ & _ & -> & ->), CB as (_ & _ & -> & ->). auto. }
    destruct E7 as [E7 E8]. destruct z1 as [a1 a2 a3 a4 a5 a6 a7 a8], z2 as [b1 b2 b3 b4 b5 b6 b7 b8].
    cbn [z_step z_tx z_utxo z_signer z_tx_final z_signer_acc z_deposit z_withdrawal] in *. congruence.
  Qed.

  Lemma accepted_ok to z x z' : accepted contract to z x z' -> well_shaped x /\ step_ok contract to z x = true.
  Proof.
    intros A. pose proof (ac_bits _ _ _ _ _ A) as Hw.
    assert (L3 : Forall (fun y : utxoV * list F * F => length (snd (fst y)) = 31%nat) (dels x))
      by exact (proj2 (zip_paths (v_inputs (x_tx x)) (x_del_proofs x) (x_del_pos x) _) (ac_del_paths _ _ _ _ _ A)).
    assert (L4 : Forall (fun y : utxoV * list F * F => length (snd (fst y)) = 31%nat) (adds x))
      by exact (proj2 (zip_paths (v_outputs (x_tx x)) (x_add_proofs x) (x_add_pos x) _) (ac_add_paths _ _ _ _ _ A)).
    pose proof (ac_tx_path _ _ _ _ _ A) as L1. pose proof (ac_signer_path _ _ _ _ _ A) as L2.
    split; [ exact (conj L1 (conj L2 (conj L3 L4))) |].
    pose proof (ac_challenge _ _ _ _ _ A) as Hq. change (hash_of z x < q) in Hq.
    pose proof (is_signed_eq z x Hq) as Hs.
    assert (Hv : valid_tx contract z x = is_applied contract (z_tx_final z) x)
      by (unfold valid_tx, is_applied; now rewrite Hs).
    pose proof (dels_items (signed z x) (dels x) L3 (z_utxo z)) as [D1 D2].
    pose proof (ac_coins _ _ _ _ _ A) as C. unfold coin_writes in C. fold (dels x) in C. fold (adds x) in C.
    rewrite <- item_writes_dels, <- item_writes_adds in C.
    apply linked_app in C as (m & C1 & C2).
    apply (items_linked utxoV_cfg) in C1 as [C1 ->]. apply (items_linked utxoV_cfg) in C2 as [C2 _].
    rewrite <- Hs in C1, C2. rewrite <- Hv in C2. rewrite <- D1 in C1. rewrite <- D2 in C2.
    assert (Hr : to = false -> Forall (fun y : utxoV * list F * F => zval (v_amount (fst (fst y))) < 2 ^ 64) (adds x)).
    { intros ->. destruct (ac_chains _ _ _ _ _ A) as [R _].
      apply Forall_map with (f := fun y : utxoV * list F * F => fst (fst y)) (P := fun u => zval (v_amount u) < 2 ^ 64).
      change (Forall (fun u => zval (v_amount u) < 2 ^ 64) (a4_list (v_outputs (x_tx x)))). apply Forall_forall. exact R. }
    pose proof (outs_ok_back to (pt_eqb (x_sender x) contract) (valid_tx contract z x) (adds x) L4
                  (after_dels z x, z_deposit z, Fzero) C2 Hr) as O.
    unfold step_ok. rewrite !andb_true_iff. repeat split.
    - assert (V : sat (enforce_valid (x_tx x) (x_sender x)) tt).
      { apply enforce_valid_sat. split; [ exact (ac_owner _ _ _ _ _ A) | exact (ac_balance _ _ _ _ _ A) ]. }
      destruct (enforce_valid_computes x) as [_ Hc]. apply Hc in V as [V _]. exact V.
    - apply Feqb_eq. rewrite (slot_fold txV_cfg) by exact L1. symmetry. exact (proj1 (ac_tx _ _ _ _ _ A)).
    - now apply Z.ltb_lt.
    - exact C1.
    - exact O.
    - pose proof (ac_keys _ _ _ _ _ A) as K. unfold key_writes in K. rewrite <- Hv in K.
      destruct (valid_tx contract z x); [| reflexivity ]. cbn [negb orb].
      apply Feqb_eq. rewrite (slot_fold keyV_cfg) by exact L2. symmetry. exact (proj1 K).
    - destruct to; [ reflexivity |]. cbn [orb]. apply Z.ltb_lt.
      destruct (ac_chains _ _ _ _ _ A) as (R & W & _).
      enough (E : zval (snd (after_outs contract false z x)) = withdrawn contract x) by (rewrite E; exact W).
      pose proof (outs_items contract false (pt_eqb (x_sender x) contract) (valid_tx contract z x) (adds x) L4
                  (after_dels z x, z_deposit z, Fzero)) as (_ & _ & _ & O4).
      cbv zeta in O4. cbn [fst snd] in O4. fold (after_outs contract false z x) in O4.
      rewrite O4, fold_Fadd, withdrawn_sum. change (zval Fzero) with 0. rewrite Z.add_0_l.
      apply Z.mod_small. split; [| eapply Z.lt_trans; [ exact W | exact two64_lt_p ] ].
      unfold withdrawn. generalize (filter (fun u => pt_eqb (v_pk u) contract) (a4_list (v_outputs (x_tx x)))) as l.
      induction l as [|u l IH]; cbn [vtotal]; [ lia |]. pose proof (F_range (v_amount u)). destruct (v_dummy u); lia.
  Qed.

  Theorem step_accepted to z x z' : wf_input x ->
    sat (c_step contract to z x) z' <-> accepted contract to z x z'.
  Proof.
    intros Hw. split.
    - intros H. apply facts_accepted; [ exact Hw |]. now apply step_facts_of.
    - intros A. destruct (accepted_ok _ _ _ _ A) as [S O].
      assert (H : sat (c_step contract to z x) (step_next contract to z x)) by (apply step_sat; auto).
      assert (B : accepted contract to z x (step_next contract to z x)).
      { apply facts_accepted; [ exact Hw |]. now apply step_facts_of. }
      rewrite (accepted_det _ _ _ _ _ A B). exact H.
  Qed.

  Lemma crun_accepted to xs : forall z z', crun contract to z xs z' <-> all_accepted contract to z xs z'.
  Proof.
    induction xs as [|x xs IH]; intros z z'.
    - split; intros H; inversion H; subst; constructor.
    - split; intros H.
      + inversion H as [|? ? z1 ? ? Hw Hs Hr]; subst. apply (step_accepted to z x z1 Hw) in Hs.
        apply IH in Hr. econstructor; eauto.
      + inversion H as [|? ? z1 ? ? Ha Hr]; subst. pose proof (ac_bits _ _ _ _ _ Ha) as Hw.
        apply IH in Hr. apply (step_accepted to z x z1 Hw) in Ha. econstructor; eauto.
  Qed.

  (** ** C106 *)
  (** (entries of the input vector beyond the eighth are ignored) *)
  Theorem C106_aggregator_step to zl x zl' : wf_input x ->
    (sat (generate_step_constraints contract to zl [x]) zl' <->
     exists z rest z', zl = z_list z ++ rest /\ zl' = z_list z' /\ accepted contract to z x z').
  Proof.
    intros Hw.
    assert (K : forall z, z_of_list zl = Some z -> zl = z_list z ++ skipn 8 zl).
    { intros z E. unfold z_of_list in E.
      do 8 (destruct zl as [|? zl]; [ discriminate E |]).
      match type of E with Some ?v = Some _ => assert (z = v) as -> by congruence end. reflexivity. }
    assert (I : forall z rest, z_of_list (z_list z ++ rest) = Some z) by (intros [] ?; reflexivity).
    unfold generate_step_constraints. split.
    - intros H. destruct (z_of_list zl) as [z|] eqn:E; [| contradiction ].
      apply sat_bind in H as (z' & H & H2). apply cfold_crun in H; [| now constructor ].
      exists z, (skipn 8 zl), z'. split; [ now apply K |]. split; [ cbn in H2; congruence |].
      inversion H as [|? ? z1 ? ? _ Hs Hr]; subst. inversion Hr; subst. now apply (step_accepted to z x z' Hw).
    - intros (z & rest & z' & -> & -> & A). rewrite I. apply sat_bind. exists z'. split; [| reflexivity ].
      apply cfold_crun; [ now constructor |].
      apply (step_accepted to z x z' Hw) in A. econstructor; eauto. constructor.
  Qed.
  Theorem C106_aggregator_proof to z bs zl' :
    ivc contract to (z_list z) bs zl' <-> exists z', zl' = z_list z' /\ all_accepted contract to z (concat bs) z'.
  Proof.
    rewrite ivc_crun. split; intros (z' & E & H); exists z'; split; auto; now apply crun_accepted.
  Qed.

  (** the two variants of the circuit compared *)
  Theorem C106_transfer_only z x z' :
    accepted contract true z x z' /\
      (forall u, In u (a4_list (v_outputs (x_tx x))) -> zval (v_amount u) < 2 ^ 64) /\ withdrawn contract x < 2 ^ 64 <->
    z_deposit z' = z_deposit z /\ z_withdrawal z' = z_withdrawal z /\
    accepted contract false z x
      {| z_step := z_step z'; z_utxo := z_utxo z'; z_tx := z_tx z'; z_tx_final := z_tx_final z';
         z_signer := z_signer z'; z_signer_acc := z_signer_acc z';
         z_deposit := chain_from (z_deposit z) (deposit_entries contract x);
         z_withdrawal := chain_from (z_withdrawal z) (withdrawal_entries contract x) |}.
  Proof.
    split.
    - intros (A & R & W). destruct (ac_chains _ _ _ _ _ A) as [D1 D2]. split; [ exact D1 |]. split; [ exact D2 |].
      destruct A. constructor; cbn [z_step z_tx z_utxo z_signer z_tx_final z_signer_acc z_deposit z_withdrawal]; auto.
    - intros (D1 & D2 & A). destruct (ac_chains _ _ _ _ _ A) as (R & W & _). split; [| auto ].
      destruct A. cbn [z_step z_tx z_utxo z_signer z_tx_final z_signer_acc z_deposit z_withdrawal] in *. constructor; auto.
  Qed.
End agg.

Section client.
  Context {hs : Hashes} {G : Curve}.
  Variables (acc : accumulator) (N : nat).

  Lemma chain_leads path : forall i h r, chain path i h = Some r <-> leads_to path i h r.
  Proof.
    induction path as [|[l r0] path IH]; intros i h r; cbn [chain leads_to].
    - split; [ intros H; congruence | intros ->; reflexivity ].
    - rewrite <- IH. rewrite <- Feqb_eq. destruct (Feqb h (if Z.even i then l else r0)).
      + tauto.
      + split; [ discriminate | intros [? _]; discriminate ].
  Qed.
  Lemma loop_leads path h r : length path = 12%nat ->
    (verify_loop path h = Some r <-> exists j, 0 <= j < 4096 /\ leads_to path j h r).
  Proof.
    intros L. split.
    - intros H. apply verify_loop_chain in H as (j & Hj & C). exists j. rewrite L in Hj. split; [ exact Hj |]. now apply chain_leads.
    - intros (j & _ & C). apply chain_leads in C. exact (chain_verify_loop _ _ _ _ C).
  Qed.
  Lemma regular_iff t : regular t = true <-> tx_hashV t <> tx_hash tx_default.
  Proof. unfold regular. rewrite negb_true_iff. apply Feqb_neq. Qed.
  Lemma start_eq s a : zval (start_index s a) = continues_at s a.
  Proof.
    unfold start_index, continues_at, step_block. destruct (F_eq_dec _ _) as [E|E].
    - apply Feqb_eq in E. now rewrite E.
    - apply Feqb_neq in E. now rewrite E.
  Qed.
  Lemma some_match (o : option F) root : (match o with Some y => Feqb root y | None => false end) = true <-> o = Some root.
  Proof. destruct o as [y|]; [ rewrite Feqb_eq | ]; split; congruence. Qed.

  Lemma last_small s a l : Sorted Z.lt (continues_at s a :: l) -> Forall (fun i => 0 <= i < p) l -> 0 <= last l (continues_at s a) < p.
  Proof.
    intros _. assert (H0 : 0 <= continues_at s a < p) by (rewrite <- start_eq; apply F_range).
    revert H0. generalize (continues_at s a) as d. induction l as [|x l IH]; intros d Hd H; cbn [last]; [ exact Hd |].
    destruct l; [ exact (Forall_inv H) |]. apply IH; [ exact Hd | now apply Forall_inv_tail in H ].
  Qed.
  Lemma indices_field a : Forall (fun i => 0 <= i < p) (indices a).
  Proof. unfold indices. apply Forall_map, Forall_forall. intros [t i] _. apply F_range. Qed.

  Lemma client_step_iff s a s' :
    step_conditions N s a /\ s' = step_result acc s a <-> client_accepts acc N s a s'.
  Proof.
    unfold step_conditions. rewrite start_eq. split.
    - intros ((L & H1 & H2 & H2' & H3 & H4 & H5) & ->). destruct L as (L1 & L2 & L3).
      constructor; [ exact L2 | exact L1 | exact L3 | exact H1 | | exact H3 | exact H4 | | | | reflexivity | reflexivity | reflexivity | reflexivity | ].
      + unfold step_height, max_cmp in *. lia.
      + intros n t i tp sp Hi. destruct (H5 n t i tp sp Hi) as (T1 & T2 & T3 & T4).
        split; [ exact T1 |]. split; [ exact T2 |]. split; [ exact T3 |].
        intros Hr. apply regular_iff in Hr. destruct (T4 Hr) as [T5 T6]. unfold tx_ok in T5. unfold signer_ok in T6.
        apply some_match in T5, T6. split; [ now apply chain_leads | now apply loop_leads ].
      + unfold step_result. cbn [us_balance]. apply zval_Fof.
      + unfold step_result. cbn [us_nonce]. apply zval_Fof.
      + unfold step_result. cbn [us_index]. rewrite start_eq, zval_Fof. apply Z.mod_small, last_small; [ exact H4 | apply indices_field ].
    - intros C. split.
      + split; [ exact (conj (ca_tx_paths _ _ _ _ _ C) (conj (ca_txs _ _ _ _ _ C) (ca_signer_paths _ _ _ _ _ C))) |].
        split; [ exact (ca_key _ _ _ _ _ C) |]. pose proof (ca_height _ _ _ _ _ C) as Hh.
        split; [ unfold step_height; lia |]. split; [ unfold step_height, max_cmp; lia |].
        split; [ exact (ca_start _ _ _ _ _ C) |]. split; [ exact (ca_sorted _ _ _ _ _ C) |].
        intros n t i tp sp Hi. destruct (ca_items _ _ _ _ _ C n t i tp sp Hi) as (T1 & T2 & T3 & T4).
        split; [ exact T1 |]. split; [ exact T2 |]. split; [ exact T3 |].
        intros Hr. apply regular_iff in Hr. destruct (T4 Hr) as [T5 T6]. unfold tx_ok, signer_ok.
        rewrite !some_match. split; [ now apply chain_leads | now apply loop_leads ].
      + pose proof (ca_balance _ _ _ _ _ C) as E1. pose proof (ca_nonce _ _ _ _ _ C) as E2.
        pose proof (ca_pk _ _ _ _ _ C) as E3. pose proof (ca_acc _ _ _ _ _ C) as E4.
        pose proof (ca_block _ _ _ _ _ C) as E5. pose proof (ca_new_height _ _ _ _ _ C) as E6.
        pose proof (ca_index _ _ _ _ _ C) as E7. clear C.
        destruct s' as [b1 b2 b3 b4 b5 b6 b7]. cbn [us_balance us_nonce us_pk us_acc us_block us_height us_index] in *.
        unfold step_result. rewrite start_eq. subst b3 b4 b5 b6.
        assert (b1 = Fof (zval (us_balance s) + step_gain a)) as -> by (apply zval_inj; rewrite zval_Fof; exact E1).
        assert (b2 = Fof (zval (us_nonce s) + step_signed a)) as -> by (apply zval_inj; rewrite zval_Fof; exact E2).
        assert (b7 = Fof (last (indices a) (continues_at s a))) as ->.
        { rewrite <- (Fof_zval b7). now rewrite E7. }
        reflexivity.
  Qed.

  (** (entries of the input vector beyond the seventh are ignored) *)
  Theorem C106_client_step zl a zl' :
    satisfied acc N zl a zl' <->
    exists s rest s', zl = u_list s ++ rest /\ zl' = u_list s' /\ client_accepts acc N s a s'.
  Proof.
    rewrite satisfied_iff. split.
    - intros (s & E & C & ->).
      assert (K : zl = u_list s ++ skipn 7 zl).
      { unfold u_of_list in E. do 7 (destruct zl as [|? zl]; [ discriminate E |]).
        match type of E with Some ?v = Some _ => assert (s = v) as -> by congruence end. reflexivity. }
      exists s, (skipn 7 zl), (step_result acc s a). split; [ exact K |]. split; [ reflexivity |]. now apply client_step_iff.
    - intros (s & rest & s' & -> & -> & C). apply client_step_iff in C as [C ->].
      exists s. split; [ destruct s; reflexivity |]. auto.
  Qed.
  Theorem C106_client_proof s l zl' :
    urun acc N (u_list s) l zl' <-> exists s', zl' = u_list s' /\ client_accepts_all acc N s l s'.
  Proof.
    revert s. induction l as [|a l IH]; intros s.
    - split.
      + intros H. apply urun_nil_inv in H as ->. exists s. split; [ reflexivity | constructor ].
      + intros (s' & -> & H). inversion H; subst. constructor.
    - split.
      + intros H. apply urun_inv in H as [C H]. apply IH in H as (s' & -> & H). exists s'. split; [ reflexivity |].
        econstructor; [| exact H ]. apply client_step_iff. auto.
      + intros (s' & -> & H). inversion H as [|? ? s1 ? ? C Hr]; subst. apply client_step_iff in C as [C ->].
        econstructor; [ apply satisfied_state; split; [ exact C | reflexivity ] |]. apply IH. exists s'. auto.
  Qed.
End client.

Print Assumptions C106_aggregator_step.
Print Assumptions C106_aggregator_proof.
Print Assumptions C106_transfer_only.
Print Assumptions C106_client_step.
Print Assumptions C106_client_proof.

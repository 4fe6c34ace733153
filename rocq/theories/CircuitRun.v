(** Satisfied steps and runs of the aggregator circuit, against the specification. *)
From Coq Require Import ZArith List Bool Lia Permutation.
Import ListNotations.
From Verif Require Import Base Env Circuit SparseMT SparseMTSpec SparseMTHeap SparseMTRep SparseMTProofs
  SparseMTGadget SparseMTGadgetProofs Data DataSpec DataFacts Gadgets GadgetsProofs Schnorr SchnorrProofs
  Contract Aggregator AggCircuit AggCircuitFacts AggCircuitSpec.
Open Scope Z_scope.

Section run.
  Context {hs : Hashes} {G : Curve}.

  (** ** Encodings of allocated values are injective *)
  Lemma utxo_encV_length u : length (utxo_encV u) = 5%nat.
  Proof. unfold utxo_encV. rewrite app_length. change (pt_encV (v_pk u)) with (pt_enc (v_pk u)). now rewrite pt_enc_length. Qed.
  Lemma utxo_encV_inj u u' : utxo_encV u = utxo_encV u' -> u = u'.
  Proof.
    unfold utxo_encV. intros H. apply app_inj_len in H as [H1 H2]; [| reflexivity ].
    change (pt_enc (v_pk u) = pt_enc (v_pk u')) in H2. apply pt_enc_inj in H2.
    assert (E1 : v_amount u = v_amount u') by exact (f_equal (hd Fzero) H1).
    assert (E2 : Fbool (v_dummy u) = Fbool (v_dummy u')) by exact (f_equal (fun l => hd Fzero (tl l)) H1).
    apply Fbool_inj in E2. destruct u, u'. cbn in *. congruence.
  Qed.
  Lemma a4_list_inj {A} (a b : arr4 A) : a4_list a = a4_list b -> a = b.
  Proof.
    destruct a as [a0 a1 a2 a3], b as [b0 b1 b2 b3]. unfold a4_list. cbn [a4_0 a4_1 a4_2 a4_3]. intros H.
    assert (H0 := f_equal (fun l => nth_error l 0) H). assert (H1 := f_equal (fun l => nth_error l 1) H).
    assert (H2 := f_equal (fun l => nth_error l 2) H). assert (H3 := f_equal (fun l => nth_error l 3) H).
    cbn [nth_error] in *. clear H. congruence.
  Qed.
  Lemma tx_encV_inj t t' : tx_encV t = tx_encV t' -> t = t'.
  Proof.
    unfold tx_encV. intros H. apply (flat_map_inj _ 4) in H; [| apply utxo_encV_length | apply utxo_encV_inj ].
    apply app_inj_len in H as [H1 H2]; [| reflexivity ].
    apply a4_list_inj in H1, H2. destruct t, t'. cbn in *. congruence.
  Qed.
  Lemma pt_encV_inj k k' : pt_encV k = pt_encV k' -> k = k'.
  Proof. apply pt_enc_inj. Qed.

  (** ** One write *)
  Section write.
    Variables (P : SparseConfig) (enc : Leaf P -> list F).
    Hypothesis (Hok : cfg_ok P) (Henc : forall l, LeafHash P l = crh (enc l))
               (Hinj : forall a b, enc a = enc b -> a = b).
    Lemma cap_pos : 0 < capacity P.
    Proof. apply Z.pow_pos_nonneg; lia. Qed.
    Lemma slot_range pos : in_range P (slot_of P pos).
    Proof. apply Z.mod_pos_bound. apply cap_pos. Qed.
    Lemma slot_fold path pos x : length path = (HEIGHT P - 1)%nat ->
      fold_sibs path (zval pos) x = fold_sibs path (slot_of P pos) x.
    Proof. intros Hl. symmetry. apply (fold_sibs_mod path (HEIGHT P - 1)). exact Hl. Qed.

    Lemma write_sound (c : contents P) (w : write (Leaf P)) :
      in_range P (w_pos w) -> length (w_path w) = (HEIGHT P - 1)%nat ->
      fold_sibs (w_path w) (w_pos w) (LeafHash P (w_old w)) = merkle_root c ->
      (c (w_pos w) = w_old w /\
       fold_sibs (w_path w) (w_pos w) (LeafHash P (w_new w)) = merkle_root (set_leaf c (w_pos w) (w_new w)))
      \/ collision2 (climb_pairs (w_path w) (w_pos w) (LeafHash P (w_old w)) ++ genuine_path c (w_pos w))
      \/ crh_collision (enc (w_old w)) (enc (c (w_pos w))).
    Proof.
      intros Hi Hl H.
      destruct (update_sound P c (w_path w) (LeafHash P (w_old w)) (w_new w) (w_pos w) Hi Hl H) as [(E & R & _)|Hc].
      - destruct (list_eq_dec F_eq_dec (enc (w_old w)) (enc (c (w_pos w)))) as [E'|N].
        + left. apply Hinj in E'. auto.
        + right. right. split; auto. now rewrite <- !Henc.
      - right. now left.
    Qed.

    (** items that may write *)
    Section items.
      Context {I : Type} (wr : I -> option (write (Leaf P))).
      Definition item_ok (root : F) (x : I) : bool :=
        match wr x with
        | Some w => Feqb root (fold_sibs (w_path w) (w_pos w) (LeafHash P (w_old w)))
        | None => true
        end.
      Definition item_next (root : F) (x : I) : F :=
        match wr x with
        | Some w => fold_sibs (w_path w) (w_pos w) (LeafHash P (w_new w))
        | None => root
        end.
      Definition item_writes (l : list I) : list (write (Leaf P)) :=
        flat_map (fun x => match wr x with Some w => [w] | None => [] end) l.
      Lemma items_sound l : forall c : contents P,
        (forall x w, In x l -> wr x = Some w -> in_range P (w_pos w) /\ length (w_path w) = (HEIGHT P - 1)%nat) ->
        ok_fold item_ok item_next l (merkle_root c) = true ->
        (genuine P c (item_writes l) /\ fold_left item_next l (merkle_root c) = merkle_root (written P c (item_writes l)))
        \/ collides P enc c (item_writes l).
      Proof.
        induction l as [|x l IH]; intros c Hw H; [ left; split; [ exact Logic.I | reflexivity ] |].
        cbn [ok_fold fold_left item_writes flat_map] in *. apply andb_prop in H as [H1 H2].
        unfold item_ok in H1. unfold item_next at 2. unfold item_next at 2 in H2.
        destruct (wr x) as [w|] eqn:E.
        - destruct (Hw x w (or_introl eq_refl) E) as [Hi Hl]. apply Feqb_eq in H1. symmetry in H1.
          cbn [app genuine written collides].
          destruct (write_sound c w Hi Hl H1) as [[G1 G2]|[G1|G1]]; [| right; now left | right; right; now left ].
          rewrite G2 in H2 |- *.
          destruct (IH (set_leaf c (w_pos w) (w_new w))) as [[G3 G4]|G3]; auto.
          intros y v Hy. apply Hw. now right.
        - cbn [app]. apply IH; auto. intros y v Hy. apply Hw. now right.
      Qed.
    End items.
    Lemma written_app c a b : written P c (a ++ b) = written P (written P c a) b.
    Proof. revert c. induction a as [|w a IH]; intros c; cbn; auto. Qed.
    Lemma genuine_app c a b : genuine P c (a ++ b) <-> genuine P c a /\ genuine P (written P c a) b.
    Proof. revert c. induction a as [|w a IH]; intros c; cbn; [ tauto |]. rewrite IH. tauto. Qed.
    Lemma collides_app c a b : collides P enc c (a ++ b) <-> collides P enc c a \/ collides P enc (written P c a) b.
    Proof. revert c. induction a as [|w a IH]; intros c; cbn; [ tauto |]. rewrite IH. tauto. Qed.
  End write.

  Lemma ok_fold_ext {A S} (ok ok' : S -> A -> bool) (nx nx' : S -> A -> S) l : forall s,
    (forall s x, In x l -> ok s x = ok' s x /\ nx s x = nx' s x) ->
    ok_fold ok nx l s = ok_fold ok' nx' l s /\ fold_left nx l s = fold_left nx' l s.
  Proof.
    induction l as [|x l IH]; intros s H; cbn [ok_fold fold_left]; auto.
    destruct (H s x (or_introl eq_refl)) as [-> ->].
    destruct (IH (nx' s x)) as [-> ->]; auto. intros s' y Hy. apply H. now right.
  Qed.

  (** ** Signatures *)
  Lemma is_signed_eq z x : hash_of z x < q -> signed z x = is_signed (z_tx_final z) x.
  Proof.
    intros Hq. unfold signed, is_signed. set (e := bits_val (v_e (x_sig x))). set (s := bits_val (v_s (x_sig x))).
    assert (He0 : 0 <= e) by apply (bits_val_bounds (v_e (x_sig x))).
    destruct (e <? q) eqn:El.
    - apply Z.ltb_lt in El. rewrite andb_true_r. apply eq_iff_eq_true. rewrite Z.eqb_eq, verify_spec.
      unfold given_signature. cbn [sig_s sig_e]. fold e. fold s.
      assert (Ze : zval (scalar_of e) = e) by (cbn; apply Z.mod_small; unfold q in El; lia).
      assert (Zs : pmul (zval (scalar_of s)) pgen = pmul s pgen) by (cbn; apply pmul_mod).
      unfold challenge_hash at 1. rewrite Ze, Zs. reflexivity.
    - rewrite andb_false_r. apply Z.ltb_ge in El. apply Z.eqb_neq. lia.
  Qed.

  (** ** Coins *)
  Definition del_write (sv : bool) (y : utxoV * list F * F) : option (write utxoV) :=
    let '(u, pf, pos) := y in
    if sv && negb (v_dummy u) then Some (mkWrite (slot_of utxoV_cfg pos) u (utxo_alloc utxo_dummy) pf) else None.
  Definition add_write (contract : pt) (tv : bool) (y : utxoV * list F * F) : option (write utxoV) :=
    let '(u, pf, pos) := y in
    if tv && negb (pt_eqb (v_pk u) contract) && negb (v_dummy u)
    then Some (mkWrite (slot_of utxoV_cfg pos) (utxo_alloc utxo_dummy) u pf) else None.

  Lemma utxoV_ok : cfg_ok utxoV_cfg. Proof. unfold cfg_ok. cbn. lia. Qed.
  Lemma txV_ok : cfg_ok txV_cfg. Proof. unfold cfg_ok. cbn. lia. Qed.
  Lemma keyV_ok : cfg_ok keyV_cfg. Proof. unfold cfg_ok. cbn. lia. Qed.

  Lemma dels_items sv l : Forall (fun y => length (snd (fst y)) = 31%nat) l -> forall r,
    ok_fold (del_ok sv) (del_next sv) l r = ok_fold (item_ok utxoV_cfg (del_write sv)) (item_next utxoV_cfg (del_write sv)) l r /\
    fold_left (del_next sv) l r = fold_left (item_next utxoV_cfg (del_write sv)) l r.
  Proof.
    intros H r. apply ok_fold_ext. intros s [[u pf] pos] Hy. rewrite Forall_forall in H. specialize (H _ Hy). cbn [fst snd] in H.
    unfold del_ok, del_next, item_ok, item_next, del_write, del_en, climb_u.
    destruct (sv && negb (v_dummy u)); cbn [w_path w_pos w_old w_new negb orb]; auto.
    rewrite !(slot_fold utxoV_cfg) by exact H. split; reflexivity.
  Qed.
  Lemma outs_items contract to sc tv l : Forall (fun y => length (snd (fst y)) = 31%nat) l -> forall st,
    let o := ok_fold (out_ok contract to tv) (out_next contract to sc tv) l st in
    let f := fold_left (out_next contract to sc tv) l st in
    (o = true -> ok_fold (item_ok utxoV_cfg (add_write contract tv)) (item_next utxoV_cfg (add_write contract tv)) l (fst (fst st)) = true
       /\ (to = false -> Forall (fun y => zval (v_amount (fst (fst y))) < 2 ^ 64) l)) /\
    fst (fst f) = fold_left (item_next utxoV_cfg (add_write contract tv)) l (fst (fst st)) /\
    snd (fst f) = (if to then snd (fst st)
                   else chain_from (snd (fst st))
                     (flat_map (fun y => if sc && negb (v_dummy (fst (fst y)))
                                         then [amount_entry (v_pk (fst (fst y))) (zval (v_amount (fst (fst y))))] else []) l)) /\
    snd f = fold_left Fadd (map (fun y => if to_contract contract (fst (fst y)) then v_amount (fst (fst y)) else Fzero) l) (snd st).
  Proof.
    induction l as [|[[u pf] pos] l IH]; intros H [[r d] w]; cbn [ok_fold fold_left map flat_map fst snd].
    - split; [ intros _; split; [ reflexivity | intros _; constructor ] |].
      split; [ reflexivity |]. split; [ destruct to; reflexivity | reflexivity ].
    - pose proof (Forall_inv H) as H1. cbn [fst snd] in H1. apply Forall_inv_tail in H.
      destruct (IH H (out_next contract to sc tv (r, d, w) (u, pf, pos))) as (I1 & I2 & I3 & I4). clear IH.
      assert (E1 : fst (fst (out_next contract to sc tv (r, d, w) (u, pf, pos)))
                   = item_next utxoV_cfg (add_write contract tv) r (u, pf, pos)).
      { unfold out_next, item_next, add_write, out_en, climb_u. cbn [fst snd].
        destruct (tv && negb (pt_eqb (v_pk u) contract) && negb (v_dummy u)); cbn [w_path w_pos w_old w_new]; auto.
        now rewrite (slot_fold utxoV_cfg) by exact H1. }
      rewrite E1 in I1, I2.
      split; [| split; [| split ] ].
      + intros Ho. apply andb_prop in Ho as [Ho1 Ho2]. destruct (I1 Ho2) as [J1 J2].
        unfold out_ok in Ho1. apply andb_prop in Ho1 as [Ha Hb].
        split.
        * rewrite J1, andb_true_r. unfold item_ok, add_write, out_en, climb_u in *.
          destruct (tv && negb (pt_eqb (v_pk u) contract) && negb (v_dummy u)); cbn [negb orb w_path w_pos w_old w_new] in *; auto.
          rewrite (slot_fold utxoV_cfg) in Hb by exact H1. exact Hb.
        * intros ->. cbn [orb] in Ha. apply Z.ltb_lt in Ha. constructor; auto.
      + exact I2.
      + rewrite I3. unfold out_next. cbn [fst snd]. destruct to; cbn [negb andb]; auto.
        destruct (sc && negb (v_dummy u)); reflexivity.
      + rewrite I4. reflexivity.
  Qed.

  (** ** A satisfied step, piece by piece *)
  Record step_facts (contract : pt) (to : bool) (z : zstate) (x : agg_inputsV) (z' : zstate) : Prop :=
    { sf_shape : well_shaped x;
      sf_valid : vowned_by (x_sender x) (x_tx x) /\ vtotal_in (x_tx x) mod p = vtotal_out (x_tx x) mod p;
      sf_step : z_step z' = Fadd (z_step z) Fone;
      sf_final : z_tx_final z' = z_tx_final z;
      sf_hash : hash_of z x < q;
      sf_tx_old : z_tx z = fold_sibs (x_tx_proof x) (slot_of txV_cfg (z_step z)) (tx_hashV (tx_alloc tx_default));
      sf_tx_new : z_tx z' = fold_sibs (x_tx_proof x) (slot_of txV_cfg (z_step z)) (tx_hashV (x_tx x));
      sf_dels : ok_fold (item_ok utxoV_cfg (del_write (is_signed (z_tx_final z) x)))
                        (item_next utxoV_cfg (del_write (is_signed (z_tx_final z) x))) (dels x) (z_utxo z) = true;
      sf_adds : ok_fold (item_ok utxoV_cfg (add_write contract (is_applied contract (z_tx_final z) x)))
                        (item_next utxoV_cfg (add_write contract (is_applied contract (z_tx_final z) x))) (adds x)
                        (fold_left (item_next utxoV_cfg (del_write (is_signed (z_tx_final z) x))) (dels x) (z_utxo z)) = true;
      sf_utxo : z_utxo z' = fold_left (item_next utxoV_cfg (add_write contract (is_applied contract (z_tx_final z) x))) (adds x)
                        (fold_left (item_next utxoV_cfg (del_write (is_signed (z_tx_final z) x))) (dels x) (z_utxo z));
      sf_signer : if is_applied contract (z_tx_final z) x
                  then z_signer z = fold_sibs (x_signer_proof x) (slot_of keyV_cfg (z_step z)) (pk_hashV pzero) /\
                       z_signer z' = fold_sibs (x_signer_proof x) (slot_of keyV_cfg (z_step z)) (pk_hashV (x_sender x))
                  else z_signer z' = z_signer z;
      sf_acc : z_signer_acc z' = chain_from (z_signer_acc z) [signer_entry contract (z_tx_final z) x];
      sf_range : to = false -> forall u, In u (a4_list (v_outputs (x_tx x))) -> zval (v_amount u) < 2 ^ 64;
      sf_deposit : z_deposit z' = if to then z_deposit z else chain_from (z_deposit z) (deposit_entries contract x);
      sf_wrange : to = false -> withdrawn contract x < 2 ^ 64;
      sf_withdraw : z_withdrawal z' = if to then z_withdrawal z else chain_from (z_withdrawal z) (withdrawal_entries contract x) }.

  Lemma zip3_fst {A B C} (a : arr4 A) (b : arr4 B) (c : arr4 C) :
    map (fun y => fst (fst y)) (a4_zip3 a b c) = a4_list a.
  Proof. reflexivity. Qed.

  Lemma deposit_entries_eq contract x :
    flat_map (fun y : utxoV * list F * F => if pt_eqb (x_sender x) contract && negb (v_dummy (fst (fst y)))
                then [amount_entry (v_pk (fst (fst y))) (zval (v_amount (fst (fst y))))] else []) (adds x)
    = deposit_entries contract x.
  Proof.
    unfold deposit_entries, by_contract, realV. rewrite <- (zip3_fst (v_outputs (x_tx x)) (x_add_proofs x) (x_add_pos x)).
    change (a4_zip3 _ _ _) with (adds x). generalize (adds x) as l.
    destruct (pt_eqb (x_sender x) contract); cbn [andb]; intros l.
    - induction l as [|y l IH]; cbn [map flat_map filter]; auto.
      destruct (v_dummy (fst (fst y))); cbn [negb filter map app]; rewrite IH; reflexivity.
    - induction l as [|y l IH]; cbn [flat_map]; auto.
  Qed.

  Lemma fold_Fadd l : forall a, zval (fold_left Fadd l a) = (zval a + zsum (map zval l)) mod p.
  Proof.
    induction l as [|x l IH]; intros a; cbn [fold_left map].
    - cbn [zsum]. rewrite Z.add_0_r, Z.mod_small; auto. apply F_range.
    - rewrite IH. change (zval (Fadd a x)) with ((zval a + zval x) mod p).
      rewrite Zplus_mod_idemp_l. f_equal. change (zsum (zval x :: map zval l)) with (zval x + zsum (map zval l)). lia.
  Qed.
  Lemma withdrawn_sum contract x :
    zsum (map zval (map (fun y : utxoV * list F * F => if to_contract contract (fst (fst y)) then v_amount (fst (fst y)) else Fzero) (adds x)))
    = withdrawn contract x.
  Proof.
    unfold withdrawn. rewrite <- (zip3_fst (v_outputs (x_tx x)) (x_add_proofs x) (x_add_pos x)).
    change (a4_zip3 _ _ _) with (adds x). generalize (adds x) as l.
    induction l as [|y l IH]; cbn [map filter]; auto.
    match goal with |- zsum (?a :: ?b) = _ => change (zsum (a :: b)) with (a + zsum b) end. rewrite IH.
    unfold to_contract. destruct (pt_eqb (v_pk (fst (fst y))) contract); cbn [andb vtotal].
    - destruct (v_dummy (fst (fst y))); cbn [negb]; reflexivity.
    - reflexivity.
  Qed.

  Lemma filter_len {A} (f : A -> bool) l : (length (filter f l) <= length l)%nat.
  Proof. induction l as [|x l IH]; cbn; [ lia |]. destruct (f x); cbn; lia. Qed.

  Theorem step_facts_of contract to z x z' : wf_input x ->
    sat (c_step contract to z x) z' -> step_facts contract to z x z'.
  Proof.
    intros He H. apply (step_sat contract to z x z' He) in H as (Hw & Hok & ->).
    unfold step_ok in Hok. rewrite !andb_true_iff in Hok.
    destruct Hok as ((((((H1 & H2) & H3) & H4) & H5) & H6) & H7).
    apply Z.ltb_lt in H3. pose proof (is_signed_eq z x H3) as Hs.
    assert (Hv : valid_tx contract z x = is_applied contract (z_tx_final z) x)
      by (unfold valid_tx, is_applied; now rewrite Hs).
    pose proof Hw as (Lt & Ls & Ld & La).
    pose proof (dels_items (signed z x) (dels x) Ld (z_utxo z)) as [D1 D2].
    pose proof (outs_items contract to (pt_eqb (x_sender x) contract) (valid_tx contract z x) (adds x) La
                  (after_dels z x, z_deposit z, Fzero)) as (O1 & O2 & O3 & O4).
    cbv zeta in O1, O2, O3, O4. cbn [fst snd] in O1, O2, O3, O4.
    destruct (O1 H5) as [O5 O6].
    fold (after_outs contract to z x) in O2, O3, O4.
    assert (Ew : to = false -> zval (snd (after_outs contract to z x)) = withdrawn contract x).
    { intros Hto. rewrite O4. rewrite fold_Fadd, withdrawn_sum. change (zval Fzero) with 0. rewrite Z.add_0_l.
      apply Z.mod_small. pose proof two64_lt_p as Hp.
      assert (B : forall l, Forall (fun u => zval (v_amount u) < 2 ^ 64) l -> 0 <= vtotal l <= Z.of_nat (length l) * 2 ^ 64).
      { induction l as [|u l IH]; intros Hl; cbn [vtotal length]; [ lia |].
        pose proof (Forall_inv Hl) as Hu. cbv beta in Hu. apply Forall_inv_tail in Hl. specialize (IH Hl).
        pose proof (F_range (v_amount u)). rewrite Nat2Z.inj_succ. destruct (v_dummy u); lia. }
      assert (Fl : Forall (fun u => zval (v_amount u) < 2 ^ 64) (a4_list (v_outputs (x_tx x)))).
      { rewrite <- (zip3_fst (v_outputs (x_tx x)) (x_add_proofs x) (x_add_pos x)). apply Forall_map. exact (O6 Hto). }
      assert (Ff : Forall (fun u => zval (v_amount u) < 2 ^ 64) (filter (fun u => pt_eqb (v_pk u) contract) (a4_list (v_outputs (x_tx x))))).
      { rewrite Forall_forall in *. intros u Hu. apply filter_In in Hu as [Hu _]. auto. }
      specialize (B _ Ff). unfold withdrawn.
      assert (Hl4 : (length (filter (fun u => pt_eqb (v_pk u) contract) (a4_list (v_outputs (x_tx x)))) <= 4)%nat).
      { etransitivity; [ apply filter_len |]. cbn. lia. }
      pose proof p_254 as Hp4. assert (H64 : 4 * 2 ^ 64 < 2 ^ 253) by reflexivity.
      assert (Hb : 4 * 2 ^ 64 < p) by (eapply Z.lt_trans; [ exact H64 | exact (proj1 Hp4) ]).
      set (T := 2 ^ 64) in *. set (PP := p) in *. nia. }
    constructor.
    - exact Hw.
    - apply enforce_valid_sat.
      destruct (enforce_valid_computes x) as [_ Hc]. apply Hc. auto.
    - reflexivity.
    - reflexivity.
    - exact H3.
    - apply Feqb_eq in H2. symmetry. rewrite <- (slot_fold txV_cfg) by exact Lt. exact H2.
    - cbn [step_next z_tx]. apply (slot_fold txV_cfg). exact Lt.
    - rewrite <- Hs, <- D1. exact H4.
    - rewrite <- Hs, <- Hv, <- D2. exact O5.
    - rewrite <- Hs, <- Hv, <- D2. exact O2.
    - cbn [step_next z_signer]. rewrite <- Hv. destruct (valid_tx contract z x); cbn [negb orb] in H6; auto.
      apply Feqb_eq in H6. split.
      + symmetry. rewrite <- (slot_fold keyV_cfg) by exact Ls. exact H6.
      + apply (slot_fold keyV_cfg). exact Ls.
    - cbn [step_next z_signer_acc]. unfold signer_entry. rewrite <- Hv. reflexivity.
    - intros Hto. specialize (O6 Hto). intros u Hu.
      rewrite <- (zip3_fst (v_outputs (x_tx x)) (x_add_proofs x) (x_add_pos x)) in Hu.
      apply in_map_iff in Hu as (y & <- & Hy). rewrite Forall_forall in O6. now apply O6.
    - cbn [step_next z_deposit]. rewrite O3. now rewrite deposit_entries_eq.
    - intros Hto. rewrite <- (Ew Hto). rewrite Hto in H7. cbn [orb] in H7. apply Z.ltb_lt in H7. rewrite Hto. exact H7.
    - cbn [step_next z_withdrawal]. destruct to; cbn [negb andb]; auto.
      unfold withdrawal_entries. rewrite <- (Ew eq_refl).
      set (w := snd (after_outs contract false z x)).
      destruct (Feqb w Fzero) eqn:Ez; cbn [negb].
      + apply Feqb_eq in Ez. rewrite Ez. reflexivity.
      + destruct (zval w =? 0) eqn:Ez'; [| reflexivity ].
        apply Z.eqb_eq in Ez'. apply Feqb_neq in Ez. exfalso. apply Ez. now apply zval_inj.
  Qed.
End run.

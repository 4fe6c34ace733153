(** The inputs recorded by the aggregator satisfy the circuit: lemmas. *)
From Coq Require Import ZArith List Bool Lia Permutation.
Import ListNotations.
From Verif Require Import Base Env Circuit SparseMT SparseMTSpec SparseMTHeap SparseMTRep SparseMTNew
  SparseMTProofs SparseMTGadget SparseMTGadgetProofs Data DataSpec DataFacts Gadgets GadgetsProofs Schnorr SchnorrProofs
  HMap Contract ContractSpec PropsContract PropsBlock Aggregator AggSpec AggFacts AggSign AggIntake AggCircuit AggCircuitFacts AggCircuitSpec CircuitRun PropsCircuit PropsCircuit2 PropsCircuit3.
Open Scope Z_scope.

(** [v[j]] *)
Definition a4_nth {A} (j : nat) (v : arr4 A) : A :=
  match j with 0%nat => a4_0 v | 1%nat => a4_1 v | 2%nat => a4_2 v | _ => a4_3 v end.
Lemma a4_set_nth {A} j (v : arr4 A) : a4_set j (a4_nth j v) v = v.
Proof. destruct v as [v0 v1 v2 v3]. destruct j as [|[|[|j]]]; reflexivity. Qed.

Lemma mfold_filter {S E A B} (f : S -> A -> B -> mres S E A) (g : B -> bool) l : forall s a,
  mfold f (filter g l) s a = mfold (fun s a x => if g x then f s a x else MOk s a) l s a.
Proof.
  induction l as [|x l IH]; intros s a; [ reflexivity |].
  cbn [filter mfold]. destruct (g x); cbn [mfold mbind]; [| apply IH ].
  destruct (f s a x); cbn [mbind]; auto.
Qed.

Section honest.
  Context {hs : Hashes} {G : Curve} (dbg : bool) (contract : pt).

  Lemma hash_alloc_u u : utxo_hashV (utxo_alloc u) = LeafHash utxo_cfg u.
  Proof. reflexivity. Qed.

  Lemma climb_recorded (c : contents utxo_cfg) i u : in_range utxo_cfg i -> 
    c i = u -> climb_u (sib_path 0 31 (digests c) i) (Fof i) (utxo_alloc u) = merkle_root c.
  Proof.
    intros Hi <-. unfold climb_u. rewrite zval_Fof_small.
    - exact (proj1 (sib_path_roots utxo_cfg c i utxo_dummy Hi)).
    - unfold in_range in Hi. rewrite utxo_capacity in Hi. split; [ lia |].
      eapply Z.lt_trans; [ apply Hi |]. eapply Z.lt_trans; [| exact p_big ]. reflexivity.
  Qed.
  Lemma climb_recorded_new (c : contents utxo_cfg) i u : in_range utxo_cfg i -> 
    climb_u (sib_path 0 31 (digests c) i) (Fof i) (utxo_alloc u) = merkle_root (set_leaf c i u).
  Proof.
    intros Hi. unfold climb_u. rewrite zval_Fof_small.
    - exact (proj2 (sib_path_roots utxo_cfg c i u Hi)).
    - unfold in_range in Hi. rewrite utxo_capacity in Hi. split; [ lia |].
      eapply Z.lt_trans; [ apply Hi |]. eapply Z.lt_trans; [| exact p_big ]. reflexivity.
  Qed.

  (** ** One input *)
  Lemma del_step (sv : bool) (s : agg) c w (a : arr4 F * arr4 (list F)) j u (s' : agg) a' : CoinInv dbg s c w ->
    (is_dummy u = false -> if sv then pk u <> contract else pk u = contract) ->
    length (a4_nth j (snd a)) = 31%nat ->
    (if negb (is_dummy u) then delete_one dbg contract s a (j, u) else MOk s a) = MOk s' a' ->
    exists c' w' pos pf, CoinInv dbg s' c' w' /\
      s' = with_coins s (a_utxos s') (a_utxo_tree s') (a_index s) /\
      a' = (a4_set j pos (fst a), a4_set j pf (snd a)) /\ length pf = 31%nat /\
      del_ok sv (merkle_root c) (utxo_alloc u, pf, pos) = true /\
      del_next sv (merkle_root c) (utxo_alloc u, pf, pos) = merkle_root c'.
  Proof.
    intros HI Hsv Hl H.
    assert (Hskip : s' = s -> a' = a -> del_en sv (utxo_alloc u) = false ->
      exists c' w' pos pf, CoinInv dbg s' c' w' /\
      s' = with_coins s (a_utxos s') (a_utxo_tree s') (a_index s) /\
      a' = (a4_set j pos (fst a), a4_set j pf (snd a)) /\ length pf = 31%nat /\
      del_ok sv (merkle_root c) (utxo_alloc u, pf, pos) = true /\
      del_next sv (merkle_root c) (utxo_alloc u, pf, pos) = merkle_root c').
    { intros -> -> Hen. exists c, w, (a4_nth j (fst a)), (a4_nth j (snd a)).
      split; [ exact HI |]. split; [ now destruct s |].
      split; [ rewrite !a4_set_nth; now destruct a |]. split; [ exact Hl |].
      unfold del_ok, del_next. rewrite Hen. split; reflexivity. }
    destruct (is_dummy u) eqn:Ed; cbn [negb] in H.
    - apply Hskip; [ congruence | congruence |]. unfold del_en. cbn [utxo_alloc v_dummy]. rewrite Ed. apply andb_false_r.
    - specialize (Hsv eq_refl). destruct sv.
      + destruct (utxo_in_dec u (coins s)) as [Hu|Hu].
        2:{ exfalso. destruct (delete_one_absent dbg contract s c w a j u HI Hsv Hu) as [E|E]; rewrite E in H; discriminate. }
        destruct (delete_one_present dbg contract s c w a j u HI Hsv Hu) as (index & s1 & w1 & Hin & E & Es & HP & HI1).
        rewrite E in H. assert (s1 = s') as -> by congruence.
        assert (Ea : a' = (a4_set j (Fof index) (fst a), a4_set j (sib_path 0 31 (digests c) index) (snd a))) by congruence.
        destruct (ci_pos _ _ _ _ HI _ _ Hin) as [Hr Hc].
        assert (Hir : in_range utxo_cfg index). { unfold in_range. pose proof (ci_index _ _ _ _ HI). lia. }
        exists (set_leaf c index utxo_dummy), w1, (Fof index), (sib_path 0 31 (digests c) index).
        split; [ exact HI1 |]. split; [ exact Es |]. split; [ exact Ea |]. split; [ apply sib_path_length |].
        unfold del_ok, del_next, del_en. cbn [utxo_alloc v_dummy]. rewrite Ed. cbn [andb negb orb]. split.
        * apply Feqb_eq. symmetry. now apply climb_recorded.
        * unfold dummyV. now apply climb_recorded_new.
      + rewrite delete_one_contract in H by auto. apply Hskip; [ congruence | congruence | reflexivity ].
  Qed.

  (** ** All inputs *)
  Definition start_arrays : arr4 F * arr4 (list F) := (a4_const Fzero, a4_const (default_two_paths utxo_cfg)).
  Lemma default_length : length (default_two_paths utxo_cfg) = 31%nat.
  Proof. reflexivity. Qed.

  Lemma del_trace (sv : bool) t s c w s' a' : CoinInv dbg s c w ->
    (forall u, In u (a4_list (inputs t)) -> is_dummy u = false -> if sv then pk u <> contract else pk u = contract) ->
    mfold (delete_one dbg contract) (enum_real (inputs t)) s start_arrays = MOk s' a' ->
    let l := a4_zip3 (a4_map utxo_alloc (inputs t)) (snd a') (fst a') in
    exists c' w', CoinInv dbg s' c' w' /\
      s' = with_coins s (a_utxos s') (a_utxo_tree s') (a_index s) /\
      Forall (fun y => length (snd (fst y)) = 31%nat) l /\
      ok_fold (del_ok sv) (del_next sv) l (merkle_root c) = true /\
      fold_left (del_next sv) l (merkle_root c) = merkle_root c'.
  Proof.
    intros HI Hsv H. unfold enum_real in H. rewrite mfold_filter in H.
    destruct (inputs t) as [u0 u1 u2 u3]. unfold a4_list in Hsv. cbn [a4_0 a4_1 a4_2 a4_3 In] in Hsv.
    unfold enum, a4_list in H. cbn [a4_0 a4_1 a4_2 a4_3 length seq combine mfold snd] in H.
    match type of H with mbind ?x _ = _ => destruct x as [s1 a1|s1 e|] eqn:E0; cbn [mbind] in H; try discriminate end.
    match type of H with mbind ?x _ = _ => destruct x as [s2 a2|s2 e|] eqn:E1; cbn [mbind] in H; try discriminate end.
    match type of H with mbind ?x _ = _ => destruct x as [s3 a3|s3 e|] eqn:E2; cbn [mbind] in H; try discriminate end.
    match type of H with mbind ?x _ = _ => destruct x as [s4 a4|s4 e|] eqn:E3; cbn [mbind] in H; try discriminate end.
    assert (s4 = s') as -> by congruence. assert (a4 = a') as -> by congruence. clear H.
    apply (del_step sv s c w) in E0 as (c1 & w1 & p0 & f0 & I1 & S1 & A1 & L1 & O1 & N1); [| exact HI | apply Hsv; tauto | reflexivity ].
    subst a1.
    apply (del_step sv s1 c1 w1) in E1 as (c2 & w2 & p1 & f1 & I2 & S2 & A2 & L2 & O2 & N2); [| exact I1 | apply Hsv; tauto | reflexivity ].
    subst a2.
    apply (del_step sv s2 c2 w2) in E2 as (c3 & w3 & p2 & f2 & I3 & S3 & A3 & L3 & O3 & N3); [| exact I2 | apply Hsv; tauto | reflexivity ].
    subst a3.
    apply (del_step sv s3 c3 w3) in E3 as (c4 & w4 & p3 & f3 & I4 & S4 & A4 & L4 & O4 & N4); [| exact I3 | apply Hsv; tauto | reflexivity ].
    subst a'. exists c4, w4. split; [ exact I4 |]. split.
    { apply (with_coins_trans s s3); [| exact S4 ]. apply (with_coins_trans s s2); [| exact S3 ]. now apply (with_coins_trans s s1). }
    unfold a4_zip3. cbn [fst snd a4_set a4_0 a4_1 a4_2 a4_3 a4_map start_arrays a4_const].
    split. { repeat constructor; assumption. }
    cbn [ok_fold fold_left]. rewrite O1, N1, O2, N2, O3, N3, O4, N4. split; reflexivity.
  Qed.

  (** ** One output *)
  Definition creates1 (u : utxo) : bool := negb (is_dummy u) && negb (pt_eqb (pk u) contract).
  Definition flag (b : bool) : Z := if b then 1 else 0.
  Lemma item_add_rec (pf : list F) (pos : F) (u : utxo) (r r' : F) : length pf = 31%nat ->
    is_dummy u = false -> pk u <> contract ->
    climb_u pf pos (utxo_alloc utxo_dummy) = r -> climb_u pf pos (utxo_alloc u) = r' ->
    item_ok utxoV_cfg (add_write contract true) r (utxo_alloc u, pf, pos) = true /\
    item_next utxoV_cfg (add_write contract true) r (utxo_alloc u, pf, pos) = r'.
  Proof.
    intros Hl Ed Hk R1 R2. apply pt_eqb_neq in Hk.
    assert (Ew : add_write contract true (utxo_alloc u, pf, pos) =
                 Some (mkWrite (slot_of utxoV_cfg pos) (utxo_alloc utxo_dummy) (utxo_alloc u) pf)).
    { unfold add_write. cbn [utxo_alloc v_pk v_dummy]. now rewrite Ed, Hk. }
    unfold item_ok, item_next. rewrite Ew. cbn [w_path w_pos w_old w_new].
    rewrite <- !(slot_fold utxoV_cfg) by exact Hl. unfold climb_u in R1, R2. split.
    - apply Feqb_eq. symmetry. exact R1.
    - exact R2.
  Qed.
  Lemma add_step k (s : agg) c w (a : arr4 F * arr4 (list F) * u64) j u (s' : agg) a' : CoinInv dbg s c w ->
    a_index s + flag (creates1 u) <= capacity utxo_cfg ->
    length (a4_nth j (snd (fst a))) = 31%nat ->
    (if negb (is_dummy u) then add_one dbg contract k s a (j, u) else MOk s a) = MOk s' a' ->
    exists c' w' pos pf wd, CoinInv dbg s' c' w' /\
      a_index s' = a_index s + flag (creates1 u) /\
      a' = (a4_set j pos (fst (fst a)), a4_set j pf (snd (fst a)), wd) /\ length pf = 31%nat /\
      item_ok utxoV_cfg (add_write contract true) (merkle_root c) (utxo_alloc u, pf, pos) = true /\
      item_next utxoV_cfg (add_write contract true) (merkle_root c) (utxo_alloc u, pf, pos) = merkle_root c'.
  Proof.
    intros HI Hcap Hl H. destruct a as [[pos pf] wd]. cbn [fst snd] in *.
    assert (Hskip : CoinInv dbg s' c w -> a_index s' = a_index s -> creates1 u = false -> (exists wd', a' = (pos, pf, wd')) ->
      exists c' w' pos1 pf1 wd, CoinInv dbg s' c' w' /\
      a_index s' = a_index s + flag (creates1 u) /\
      a' = (a4_set j pos1 pos, a4_set j pf1 pf, wd) /\ length pf1 = 31%nat /\
      item_ok utxoV_cfg (add_write contract true) (merkle_root c) (utxo_alloc u, pf1, pos1) = true /\
      item_next utxoV_cfg (add_write contract true) (merkle_root c) (utxo_alloc u, pf1, pos1) = merkle_root c').
    { intros HI' Ei Hen (wd' & ->). exists c, w, (a4_nth j pos), (a4_nth j pf), wd'.
      split; [ exact HI' |]. split; [ rewrite Hen; cbn [flag]; lia |].
      split; [ rewrite !a4_set_nth; reflexivity |]. split; [ exact Hl |].
      assert (E : add_write contract true (utxo_alloc u, a4_nth j pf, a4_nth j pos) = None).
      { unfold add_write. cbn [utxo_alloc v_pk v_dummy]. unfold creates1 in Hen. rewrite andb_true_l, andb_comm, Hen. reflexivity. }
      unfold item_ok, item_next. rewrite E. split; reflexivity. }
    destruct (is_dummy u) eqn:Ed; cbn [negb] in H.
    - assert (s' = s) as -> by congruence. apply Hskip; [ exact HI | reflexivity | unfold creates1; now rewrite Ed |].
      exists wd. congruence.
    - destruct (pt_eqb (pk u) contract) eqn:Ek.
      + assert (Hc0 : creates1 u = false) by (unfold creates1; now rewrite Ed, Ek).
        apply pt_eqb_eq in Ek. rewrite add_one_withdraw in H by exact Ek.
        destruct (@add64 no_error dbg wd (amount u)) as [w1| |]; try discriminate.
        assert (s' = logged contract k s u) as -> by congruence.
        apply Hskip; [ now apply coin_inv_logged | unfold logged; now destruct (pt_eqb k contract) | exact Hc0 | exists w1; congruence ].
      + assert (Hc1 : creates1 u = true) by (unfold creates1; now rewrite Ed, Ek).
        assert (Hk : pk u <> contract) by now apply pt_eqb_neq. rewrite Hc1 in *. cbn [flag] in *.
        destruct (add_one_create dbg contract k s c w pos pf wd j u HI Hk) as (s1 & w1 & E & Es & HP & HI1); [ lia |].
        rewrite E in H. assert (s1 = s') as -> by congruence.
        assert (Hir : in_range utxo_cfg (a_index s)). { unfold in_range. pose proof (ci_index _ _ _ _ HI). lia. }
        exists (set_leaf c (a_index s) u), w1, (Fof (a_index s)), (sib_path 0 31 (digests c) (a_index s)), wd.
        split; [ exact HI1 |]. split; [ rewrite Es; reflexivity |]. split; [ congruence |].
        split; [ apply sib_path_length |].
        pose proof (climb_recorded c (a_index s) utxo_dummy Hir (index_free dbg s c w HI ltac:(lia))) as R1.
        pose proof (climb_recorded_new c (a_index s) u Hir) as R2.
        exact (item_add_rec _ _ u _ _ (sib_path_length _ _ _ _) Ed Hk R1 R2).
  Qed.

  Lemma add_trace k t s c w s' pos pf wd : CoinInv dbg s c w ->
    a_index s + Z.of_nat (length (creates contract t)) <= capacity utxo_cfg ->
    mfold (add_one dbg contract k) (enum_real (outputs t)) s (a4_const Fzero, a4_const (default_two_paths utxo_cfg), u64of 0)
      = MOk s' (pos, pf, wd) ->
    let l := a4_zip3 (a4_map utxo_alloc (outputs t)) pf pos in
    exists c' w', CoinInv dbg s' c' w' /\
      Forall (fun y => length (snd (fst y)) = 31%nat) l /\
      ok_fold (item_ok utxoV_cfg (add_write contract true)) (item_next utxoV_cfg (add_write contract true)) l (merkle_root c) = true /\
      fold_left (item_next utxoV_cfg (add_write contract true)) l (merkle_root c) = merkle_root c'.
  Proof.
    intros HI Hcap H. unfold enum_real in H. rewrite mfold_filter in H.
    assert (Ec : Z.of_nat (length (creates contract t)) =
                 flag (creates1 (a4_0 (outputs t))) + flag (creates1 (a4_1 (outputs t))) + flag (creates1 (a4_2 (outputs t)))
                 + flag (creates1 (a4_3 (outputs t)))).
    { unfold creates, a4_list. cbn [filter]. fold (creates1 (a4_0 (outputs t))). fold (creates1 (a4_1 (outputs t))).
      fold (creates1 (a4_2 (outputs t))). fold (creates1 (a4_3 (outputs t))).
      destruct (creates1 (a4_0 (outputs t))), (creates1 (a4_1 (outputs t))), (creates1 (a4_2 (outputs t))), (creates1 (a4_3 (outputs t))); reflexivity. }
    rewrite Ec in Hcap. clear Ec.
    assert (Fl : forall b, 0 <= flag b) by (intros []; cbn; lia).
    destruct (outputs t) as [u0 u1 u2 u3]. cbn [a4_0 a4_1 a4_2 a4_3] in Hcap.
    pose proof (Fl (creates1 u1)). pose proof (Fl (creates1 u2)). pose proof (Fl (creates1 u3)).
    unfold enum, a4_list in H. cbn [a4_0 a4_1 a4_2 a4_3 length seq combine mfold snd] in H.
    match type of H with mbind ?x _ = _ => destruct x as [s1 a1|s1 e|] eqn:E0; cbn [mbind] in H; try discriminate end.
    match type of H with mbind ?x _ = _ => destruct x as [s2 a2|s2 e|] eqn:E1; cbn [mbind] in H; try discriminate end.
    match type of H with mbind ?x _ = _ => destruct x as [s3 a3|s3 e|] eqn:E2; cbn [mbind] in H; try discriminate end.
    match type of H with mbind ?x _ = _ => destruct x as [s4 a4|s4 e|] eqn:E3; cbn [mbind] in H; try discriminate end.
    assert (s4 = s') as -> by congruence. assert (Ea : a4 = (pos, pf, wd)) by congruence. clear H.
    apply (add_step k s c w) in E0 as (c1 & w1 & p0 & f0 & v0 & I1 & S1 & A1 & L1 & O1 & N1); [| exact HI | lia | reflexivity ].
    subst a1.
    apply (add_step k s1 c1 w1) in E1 as (c2 & w2 & p1 & f1 & v1 & I2 & S2 & A2 & L2 & O2 & N2); [| exact I1 | lia | reflexivity ].
    subst a2.
    apply (add_step k s2 c2 w2) in E2 as (c3 & w3 & p2 & f2 & v2 & I3 & S3 & A3 & L3 & O3 & N3); [| exact I2 | lia | reflexivity ].
    subst a3.
    apply (add_step k s3 c3 w3) in E3 as (c4 & w4 & p3 & f3 & v3 & I4 & S4 & A4 & L4 & O4 & N4); [| exact I3 | lia | reflexivity ].
    rewrite Ea in A4. apply pair_equal_spec in A4 as [A4 _]. apply pair_equal_spec in A4 as [-> ->].
    exists c4, w4. split; [ exact I4 |].
    unfold a4_zip3. cbn [fst snd a4_set a4_0 a4_1 a4_2 a4_3 a4_map a4_const].
    split. { repeat constructor; assumption. }
    cbn [ok_fold fold_left].
    rewrite O1, N1, O2, N2, O3, N3, O4, N4. split; reflexivity.
  Qed.

  (** ** A satisfied step from its parts *)
  Lemma step_intro z x (sv tv : bool) :
    p <= q -> wf_input x -> well_shaped x ->
    is_signed (z_tx_final z) x = sv -> is_applied contract (z_tx_final z) x = tv ->
    vowned_by (x_sender x) (x_tx x) -> vtotal_in (x_tx x) mod p = vtotal_out (x_tx x) mod p ->
    fold_sibs (x_tx_proof x) (zval (z_step z)) (tx_hashV (tx_alloc tx_default)) = z_tx z ->
    ok_fold (del_ok sv) (del_next sv) (dels x) (z_utxo z) = true ->
    ok_fold (item_ok utxoV_cfg (add_write contract tv)) (item_next utxoV_cfg (add_write contract tv)) (adds x)
      (fold_left (del_next sv) (dels x) (z_utxo z)) = true ->
    (tv = true -> fold_sibs (x_signer_proof x) (zval (z_step z)) (pk_hashV pzero) = z_signer z) ->
    AggCircuitSpec.withdrawn contract x < 2 ^ 64 ->
    (forall u, In u (a4_list (v_outputs (x_tx x))) -> zval (v_amount u) < 2 ^ 64) ->
    exists z', sat (c_step contract false z x) z' /\
      z_utxo z' = fold_left (item_next utxoV_cfg (add_write contract tv)) (adds x) (fold_left (del_next sv) (dels x) (z_utxo z)) /\
      z_tx z' = fold_sibs (x_tx_proof x) (zval (z_step z)) (tx_hashV (x_tx x)) /\
      z_signer z' = if tv then fold_sibs (x_signer_proof x) (zval (z_step z)) (pk_hashV (x_sender x)) else z_signer z.
  Proof.
    intros Hpq Hw Hsh Hsv Htv Ho Hm Ht Hd Ha Hk Hwd Hr.
    assert (Hh : hash_of z x < q).
    { unfold hash_of. pose proof (F_range (challenge_hash (x_sender x) (m_of z x) (bits_val (v_s (x_sig x))) (bits_val (v_e (x_sig x))))). lia. }
    assert (Esv : signed z x = sv) by (rewrite (is_signed_eq z x Hh); exact Hsv).
    assert (Etv : valid_tx contract z x = tv).
    { unfold valid_tx. rewrite Esv, <- Hsv. exact Htv. }
    pose proof Hsh as (_ & _ & Sd & Sa).
    pose proof (outs_items contract false (pt_eqb (x_sender x) contract) tv (adds x) Sa (after_dels z x, z_deposit z, Fzero))
      as (_ & Eu & _ & Ew). cbv zeta in Eu, Ew.
    assert (Eok : AggCircuitFacts.step_ok contract false z x = true).
    { unfold AggCircuitFacts.step_ok. apply andb_true_intro; split; [ apply andb_true_intro; split; [ apply andb_true_intro; split; [ apply andb_true_intro; split; [ apply andb_true_intro; split; [ apply andb_true_intro; split |] |] |] |] |].
      - unfold valid_ok. apply andb_true_intro. split.
        + apply forallb_forall. intros u Hin. destruct (v_dummy u) eqn:Ed; [ reflexivity |]. cbn [orb].
          apply pt_eqb_eq. exact (Ho u Hin Ed).
        + apply Feqb_eq. now apply amount_diff_zero.
      - apply Feqb_eq. exact Ht.
      - apply Z.ltb_lt. exact Hh.
      - rewrite Esv. exact Hd.
      - rewrite Etv. apply outs_items_complete; [ exact Sa | |].
        + cbn [fst snd]. unfold after_dels. rewrite Esv. exact Ha.
        + intros _. apply Forall_forall. intros y Hy. apply Hr.
          apply (in_map (fun y => fst (fst y))) in Hy. exact Hy.
      - rewrite Etv. destruct tv; [| reflexivity ]. cbn [negb orb]. apply Feqb_eq. now apply Hk.
      - cbn [orb]. apply Z.ltb_lt. unfold after_outs. rewrite Etv, Ew.
        rewrite fold_Fadd, withdrawn_sum. change (zval (snd (after_dels z x, z_deposit z, Fzero))) with 0. rewrite Z.add_0_l.
        pose proof p_big. pose proof (vtotal_nonneg (filter (fun u => pt_eqb (v_pk u) contract) (a4_list (v_outputs (x_tx x))))) as Hn.
        fold (AggCircuitSpec.withdrawn contract x) in Hn. rewrite Z.mod_small; [ exact Hwd |]. split; [ exact Hn |].
        eapply Z.lt_trans; [ exact Hwd |]. eapply Z.lt_trans; [| exact H ]. reflexivity. }
    exists (step_next contract false z x). split.
    { apply step_sat; [ exact Hw |]. auto. }
    unfold step_next. cbn [z_utxo z_tx z_signer]. unfold after_outs. rewrite Etv. split.
    - rewrite Eu. cbn [fst snd]. unfold after_dels. rewrite Esv. reflexivity.
    - split; reflexivity.
  Qed.
End honest.

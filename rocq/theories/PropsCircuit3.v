(** C77: completeness of the aggregator circuit; C58, C61: transactions it accepts although one
    might expect it not to. *)
From Coq Require Import ZArith List Bool Lia Permutation.
Import ListNotations.
From Verif Require Import Base Env Circuit SparseMT SparseMTSpec SparseMTHeap SparseMTRep SparseMTProofs
  SparseMTGadget SparseMTGadgetProofs Data DataSpec DataFacts Gadgets GadgetsProofs Schnorr SchnorrProofs
  PropsSchnorr Contract ContractSpec Aggregator AggCircuit AggCircuitFacts AggCircuitSpec CircuitRun PropsCircuit
  PropsCircuit2.
Open Scope Z_scope.

Section props.
  Context {hs : Hashes} {G : Curve}.
  Variable (contract : pt).

  Local Opaque merkle_root sib_path node.
  (** ** Paths for genuine writes *)
  Section paths.
    Variable P : SparseConfig.
    Definition repath (l : list (Leaf P * list F * F)) (pfs : list (list F)) : list (Leaf P * list F * F) :=
      map (fun yp : (Leaf P * list F * F) * list F => let '((u, _, pos), pf) := yp in (u, pf, pos)) (combine l pfs).
    Lemma items_complete (wr : Leaf P * list F * F -> option (write (Leaf P))) :
      (forall u pf pos w pf', wr (u, pf, pos) = Some w ->
         wr (u, pf', pos) = Some (mkWrite (w_pos w) (w_old w) (w_new w) pf') /\ in_range P (w_pos w)) ->
      (forall u pf pos pf', wr (u, pf, pos) = None -> wr (u, pf', pos) = None) ->
      forall l (c : contents P), genuine P c (item_writes P wr l) ->
      exists pfs, length pfs = length l /\ Forall (fun pf : list F => length pf = HEIGHT P - 1)%nat pfs /\
        ok_fold (item_ok P wr) (item_next P wr) (repath l pfs) (merkle_root c) = true /\
        fold_left (item_next P wr) (repath l pfs) (merkle_root c)
          = merkle_root (written P c (item_writes P wr l)).
    Proof.
      intros HS HN. induction l as [|[[u pf0] pos] l IH]; intros c Hg.
      - exists []. repeat split. constructor.
      - unfold item_writes in Hg |- *. cbn [flat_map] in Hg |- *. destruct (wr (u, pf0, pos)) as [w|] eqn:E.
        + cbn [app genuine written] in Hg |- *. destruct Hg as [H1 H2]. destruct (IH _ H2) as (pfs & L1 & L2 & L3 & L4).
          pose proof (sib_path_length 0 (HEIGHT P - 1) (digests c) (w_pos w)) as Lp.
          destruct (HS u pf0 pos w (sib_path 0 (HEIGHT P - 1) (digests c) (w_pos w)) E) as [E' Hi].
          destruct (sib_path_roots P c (w_pos w) (w_new w) Hi) as [R1 R2]. rewrite H1 in R1.
          revert Lp E' R1 R2. generalize (sib_path 0 (HEIGHT P - 1) (digests c) (w_pos w)) as path. intros path Lp E' R1 R2.
          exists (path :: pfs). split; [ cbn [length]; now rewrite L1 |]. split; [ constructor; [ exact Lp | exact L2 ] |].
          unfold repath. cbn [combine map ok_fold fold_left]. fold (repath l pfs).
          assert (N : item_next P wr (merkle_root c) (u, path, pos) = merkle_root (set_leaf c (w_pos w) (w_new w))).
          { unfold item_next. rewrite E'. cbn [w_path w_pos w_new]. exact R2. }
          rewrite N. split; [| exact L4 ]. apply andb_true_intro. split; [| exact L3 ].
          unfold item_ok. rewrite E'. cbn [w_path w_pos w_old]. rewrite R1. apply Feqb_refl.
        + cbn [app] in Hg |- *. destruct (IH _ Hg) as (pfs & L1 & L2 & L3 & L4).
          pose proof (repeat_length Fzero (HEIGHT P - 1)) as Lp. pose proof (HN u pf0 pos (repeat Fzero (HEIGHT P - 1)) E) as E'.
          revert Lp E'. generalize (repeat Fzero (HEIGHT P - 1)) as path. intros path Lp E'.
          exists (path :: pfs). split; [ cbn [length]; now rewrite L1 |]. split; [ constructor; [ exact Lp | exact L2 ] |].
          unfold repath. cbn [combine map ok_fold fold_left]. fold (repath l pfs).
          assert (N : item_next P wr (merkle_root c) (u, path, pos) = merkle_root c).
          { unfold item_next. now rewrite E'. }
          rewrite N. split; [| exact L4 ]. apply andb_true_intro. split; [| exact L3 ].
          unfold item_ok. now rewrite E'.
    Qed.
  End paths.
  Lemma del_write_path sv : (forall u pf pos w pf', del_write sv (u, pf, pos) = Some w ->
       del_write sv (u, pf', pos) = Some (mkWrite (w_pos w) (w_old w) (w_new w) pf') /\ in_range utxoV_cfg (w_pos w)) /\
    (forall u pf pos pf', del_write sv (u, pf, pos) = None -> del_write sv (u, pf', pos) = None).
  Proof.
    split; intros u pf pos; unfold del_write; destruct (sv && negb (v_dummy u)); try discriminate; auto.
    intros w pf' E. assert (Ew : w = mkWrite (slot_of utxoV_cfg pos) u (utxo_alloc utxo_dummy) pf) by congruence.
    subst w. cbn [w_pos w_old w_new]. split; [ reflexivity | apply slot_range ].
  Qed.
  Lemma add_write_path tv : (forall u pf pos w pf', add_write contract tv (u, pf, pos) = Some w ->
       add_write contract tv (u, pf', pos) = Some (mkWrite (w_pos w) (w_old w) (w_new w) pf') /\ in_range utxoV_cfg (w_pos w)) /\
    (forall u pf pos pf', add_write contract tv (u, pf, pos) = None -> add_write contract tv (u, pf', pos) = None).
  Proof.
    split; intros u pf pos; unfold add_write; destruct (tv && negb (pt_eqb (v_pk u) contract) && negb (v_dummy u)); try discriminate; auto.
    intros w pf' E. assert (Ew : w = mkWrite (slot_of utxoV_cfg pos) (utxo_alloc utxo_dummy) u pf) by congruence.
    subst w. cbn [w_pos w_old w_new]. split; [ reflexivity | apply slot_range ].
  Qed.
  Lemma list4 {A} (l : list A) : length l = 4%nat -> exists a : arr4 A, a4_list a = l.
  Proof.
    intros H. destruct l as [|a0 [|a1 [|a2 [|a3 [|]]]]]; try discriminate. now exists (A4 a0 a1 a2 a3).
  Qed.
  Lemma repath_zip3 (u : arr4 utxoV) (p0 pf : arr4 (list F)) (pos : arr4 F) :
    repath utxoV_cfg (a4_zip3 u p0 pos) (a4_list pf) = a4_zip3 u pf pos.
  Proof. reflexivity. Qed.

  (** conversely to [outs_items] *)
  Lemma outs_items_complete to sc tv l : Forall (fun y : utxoV * list F * F => length (snd (fst y)) = 31%nat) l -> forall st,
    ok_fold (item_ok utxoV_cfg (add_write contract tv)) (item_next utxoV_cfg (add_write contract tv)) l (fst (fst st)) = true ->
    (to = false -> Forall (fun y => zval (v_amount (fst (fst y))) < 2 ^ 64) l) ->
    ok_fold (out_ok contract to tv) (out_next contract to sc tv) l st = true.
  Proof.
    induction l as [|[[u pf] pos] l IH]; intros H [[r d] w] Ho Hr; [ reflexivity |].
    cbn [ok_fold fst snd] in *. apply andb_prop in Ho as [Ho1 Ho2].
    pose proof (Forall_inv H) as H1. cbn [fst snd] in H1. apply Forall_inv_tail in H.
    apply andb_true_intro. split.
    - unfold out_ok. apply andb_true_intro. split.
      + destruct to; [ reflexivity |]. specialize (Hr eq_refl). apply Forall_inv in Hr. cbn [fst snd] in Hr.
        apply Z.ltb_lt in Hr. now rewrite Hr.
      + unfold item_ok, add_write, out_en, climb_u in *.
        destruct (tv && negb (pt_eqb (v_pk u) contract) && negb (v_dummy u)); cbn [negb orb w_path w_pos w_old w_new] in *; auto.
        rewrite (slot_fold utxoV_cfg) by exact H1. exact Ho1.
    - apply IH; [ exact H | | intros E; specialize (Hr E); now apply Forall_inv_tail in Hr ].
      assert (E1 : fst (fst (out_next contract to sc tv (r, d, w) (u, pf, pos)))
                   = item_next utxoV_cfg (add_write contract tv) r (u, pf, pos)).
      { unfold out_next, item_next, add_write, out_en, climb_u. cbn [fst snd].
        destruct (tv && negb (pt_eqb (v_pk u) contract) && negb (v_dummy u)); cbn [w_path w_pos w_old w_new]; auto.
        now rewrite (slot_fold utxoV_cfg) by exact H1. }
      rewrite E1. exact Ho2.
  Qed.

  Lemma vtotal_nonneg l : 0 <= vtotal l.
  Proof.
    induction l as [|u l IH]; cbn [vtotal]; [ lia |]. pose proof (F_range (v_amount u)). destruct (v_dummy u); lia.
  Qed.

  (** the same transaction, sender, signature and positions: only Merkle paths may differ *)
  Definition same_claim (x x' : agg_inputsV) : Prop :=
    x_tx x' = x_tx x /\ x_sender x' = x_sender x /\ x_sig x' = x_sig x /\
    x_del_pos x' = x_del_pos x /\ x_add_pos x' = x_add_pos x.

  (** ** Completeness: a well-formed, balanced transaction whose inputs are where it says, whose
      output slots are free, and whose slots in the transaction tree and (if applied) the signer
      tree are blank, has Merkle paths that satisfy the circuit. *)
  Theorem C77_complete to z x (cu : contents utxoV_cfg) (ct : contents txV_cfg) (ck : contents keyV_cfg) :
    let final := z_tx_final z in
    p <= q -> wf_input x ->
    z_utxo z = merkle_root cu -> z_tx z = merkle_root ct -> z_signer z = merkle_root ck ->
    vowned_by (x_sender x) (x_tx x) -> vtotal_in (x_tx x) mod p = vtotal_out (x_tx x) mod p ->
    genuine utxoV_cfg cu (coin_writes contract final x) ->
    ct (slot_of txV_cfg (z_step z)) = tx_alloc tx_default ->
    (is_applied contract final x = true -> ck (slot_of keyV_cfg (z_step z)) = pzero) ->
    (to = false -> withdrawn contract x < 2 ^ 64 /\
                   forall u, In u (a4_list (v_outputs (x_tx x))) -> zval (v_amount u) < 2 ^ 64) ->
    exists x' z', same_claim x x' /\ wf_input x' /\ ivc contract to (z_list z) [[x']] (z_list z').
  Proof.
    intros final Hpq Hw Hu Ht Hk Ho Hm Hg Hct Hck Hrng.
    assert (Hh : forall x0, hash_of z x0 < q).
    { intros x0. unfold hash_of. pose proof (F_range (challenge_hash (x_sender x0) (m_of z x0) (bits_val (v_s (x_sig x0))) (bits_val (v_e (x_sig x0))))). lia. }
    unfold coin_writes in Hg. fold (dels x) in Hg. fold (adds x) in Hg.
    rewrite <- item_writes_dels, <- item_writes_adds in Hg.
    set (sv := is_signed final x) in *. set (tv := is_applied contract final x) in *.
    apply genuine_app in Hg as [Hg1 Hg2].
    destruct (items_complete utxoV_cfg (del_write sv) (proj1 (del_write_path sv)) (proj2 (del_write_path sv)) _ _ Hg1)
      as (pd & D1 & D2 & D3 & D4).
    destruct (items_complete utxoV_cfg (add_write contract tv) (proj1 (add_write_path tv)) (proj2 (add_write_path tv)) _ _ Hg2)
      as (pa & A1 & A2 & A3 & A4).
    destruct (list4 pd D1) as [pda Epd]. destruct (list4 pa A1) as [paa Epa].
    set (x' := mkInputsV (x_tx x) (sib_path 0 (HEIGHT txV_cfg - 1) (digests ct) (slot_of txV_cfg (z_step z)))
                 pda (x_del_pos x) paa (x_add_pos x)
                 (sib_path 0 (HEIGHT keyV_cfg - 1) (digests ck) (slot_of keyV_cfg (z_step z)))
                 (x_sender x) (x_sig x)).
    assert (Ld : dels x' = repath utxoV_cfg (dels x) pd).
    { rewrite <- Epd. reflexivity. }
    assert (La : adds x' = repath utxoV_cfg (adds x) pa).
    { rewrite <- Epa. reflexivity. }
    assert (Sd : Forall (fun y => length (snd (fst y)) = 31%nat) (dels x')).
    { unfold dels, a4_zip3, x'. cbn [x_del_proofs x_tx x_del_pos]. rewrite <- Epd in D2. unfold a4_list in D2.
      repeat (apply Forall_cons; [ apply Forall_inv in D2; exact D2 | apply Forall_inv_tail in D2 ]). constructor. }
    assert (Sa : Forall (fun y => length (snd (fst y)) = 31%nat) (adds x')).
    { unfold adds, a4_zip3, x'. cbn [x_add_proofs x_tx x_add_pos]. rewrite <- Epa in A2. unfold a4_list in A2.
      repeat (apply Forall_cons; [ apply Forall_inv in A2; exact A2 | apply Forall_inv_tail in A2 ]). constructor. }
    assert (Hsh : well_shaped x').
    { split; [ apply sib_path_length |]. split; [ apply sib_path_length |]. split; [ exact Sd | exact Sa ]. }
    assert (Esv : signed z x' = sv).
    { rewrite (is_signed_eq z x' (Hh x')). reflexivity. }
    assert (Etv : valid_tx contract z x' = tv).
    { unfold valid_tx. rewrite Esv. reflexivity. }
    pose proof (slot_range txV_cfg (z_step z)) as Rt. pose proof (slot_range keyV_cfg (z_step z)) as Rk.
    destruct (sib_path_roots txV_cfg ct (slot_of txV_cfg (z_step z)) (x_tx x) Rt) as [Rt1 _]. rewrite Hct in Rt1.
    assert (Eok : step_ok contract to z x' = true).
    { unfold step_ok. apply andb_true_intro; split; [ apply andb_true_intro; split; [ apply andb_true_intro; split; [ apply andb_true_intro; split; [ apply andb_true_intro; split; [ apply andb_true_intro; split |] |] |] |] |].
      - unfold valid_ok. apply andb_true_intro. split.
        + apply forallb_forall. intros u Hin. destruct (v_dummy u) eqn:Ed; [ reflexivity |]. cbn [orb].
          apply pt_eqb_eq. exact (Ho u Hin Ed).
        + apply Feqb_eq. now apply amount_diff_zero.
      - apply Feqb_eq. rewrite (slot_fold txV_cfg) by apply sib_path_length. rewrite Ht. exact Rt1.
      - apply Z.ltb_lt. apply Hh.
      - rewrite Esv. rewrite (proj1 (dels_items sv (dels x') Sd (z_utxo z))), Ld, Hu. exact D3.
      - rewrite Etv. apply outs_items_complete; [ exact Sa | |].
        + cbn [fst snd]. unfold after_dels. rewrite Esv, (proj2 (dels_items sv (dels x') Sd (z_utxo z))), Ld, La, Hu.
          refine (eq_trans (f_equal (ok_fold (item_ok utxoV_cfg (add_write contract tv)) (item_next utxoV_cfg (add_write contract tv))
                              (repath utxoV_cfg (adds x) pa)) _) A3). exact D4.
        + intros E. destruct (Hrng E) as [_ Hr]. apply Forall_forall. intros y Hy. apply Hr.
          apply (in_map (fun y => fst (fst y))) in Hy. exact Hy.
      - rewrite Etv. destruct tv eqn:Etv'; [| reflexivity ]. cbn [negb orb]. specialize (Hck eq_refl).
        apply Feqb_eq. rewrite (slot_fold keyV_cfg) by apply sib_path_length. rewrite Hk.
        destruct (sib_path_roots keyV_cfg ck (slot_of keyV_cfg (z_step z)) (x_sender x) Rk) as [Rk1 _]. rewrite Hck in Rk1. exact Rk1.
      - destruct to eqn:Eto; [ reflexivity |]. cbn [orb]. destruct (Hrng eq_refl) as [Hwd Hr].
        apply Z.ltb_lt. unfold after_outs.
        pose proof (outs_items contract false (pt_eqb (x_sender x') contract) (valid_tx contract z x') (adds x') Sa
                      (after_dels z x', z_deposit z, Fzero)) as (_ & _ & _ & Ew). cbv zeta in Ew. rewrite Ew.
        rewrite fold_Fadd, withdrawn_sum. change (withdrawn contract x') with (withdrawn contract x).
        change (zval (snd (after_dels z x', z_deposit z, Fzero))) with 0. rewrite Z.add_0_l.
        pose proof p_big. pose proof (vtotal_nonneg (filter (fun u => pt_eqb (v_pk u) contract) (a4_list (v_outputs (x_tx x))))) as Hn.
        fold (withdrawn contract x) in Hn. rewrite Z.mod_small; [ exact Hwd |]. split; [ exact Hn |].
        eapply Z.lt_trans; [ exact Hwd |]. eapply Z.lt_trans; [| exact H ]. reflexivity. }
    exists x', (step_next contract to z x'). split; [ repeat split |]. split; [ exact Hw |].
    apply ivc_crun. exists (step_next contract to z x'). split; [ reflexivity |]. cbn [concat app].
    econstructor; [ exact Hw | | constructor ]. apply step_sat; [ exact Hw |]. auto.
  Qed.

  (** ** C58: without range checks, value can be created *)
  Lemma sign_exists sk m (r : scalar) : p <= q -> zval r <> 0 ->
    exists sg, sign sk m [r] = Ok (Some sg) /\ verify_signature (public_key sk) m sg = true.
  Proof.
    intros Hpq Hr. destruct (C30_sign_verify sk m [r]) as (V & Pn & Nn).
    destruct (sign sk m [r]) as [[sg|]|e|] eqn:E.
    - exists sg. split; [ reflexivity |]. now apply V.
    - exfalso. pose proof (proj1 Nn eq_refl) as Hf. apply Forall_inv in Hf. unfold rejected in Hf.
      destruct Hf as (x & y & _ & Hf).
      pose proof (F_range (crh ([x; y] ++ m))). lia.
    - destruct e.
    - exfalso. pose proof (proj1 Pn eq_refl) as (pre & k & post & E1 & Hf & Hk).
      destruct pre as [|a pre].
      + cbn [app] in E1. assert (k = r) by congruence. subst k. contradiction.
      + assert (length [r] = length ((a :: pre) ++ k :: post)) by now rewrite E1.
        cbn [app length] in H. rewrite app_length in H. cbn [length] in H. lia.
  Qed.
  Lemma slot_Fof_u i : in_range utxoV_cfg i -> slot_of utxoV_cfg (Fof i) = i.
  Proof.
    intros H. unfold slot_of. unfold in_range in H. rewrite zval_Fof_small.
    - now apply Z.mod_small.
    - split; [ lia |]. eapply Z.lt_trans; [ exact (proj2 H) |]. eapply Z.lt_trans; [| exact p_big ]. reflexivity.
  Qed.
  Lemma alloc_given (sg : signature) x : x_sig x = sig_alloc sg -> given_signature x = sg.
  Proof.
    intros E. unfold given_signature. rewrite E. unfold sig_alloc. cbn [v_s v_e]. rewrite !sig_alloc_bits.
    destruct sg as [s e]. cbn [sig_s sig_e]. f_equal; apply of_Z_zval.
  Qed.
  Lemma alloc_e_lt (sg : signature) x : x_sig x = sig_alloc sg -> bits_val (v_e (x_sig x)) <? q = true.
  Proof.
    intros E. rewrite E. unfold sig_alloc. cbn [v_e]. rewrite sig_alloc_bits. apply Z.ltb_lt. apply zval_range.
  Qed.

  Lemma ivc_single to z x z' : ivc contract to (z_list z) [[x]] (z_list z') -> wf_input x /\ sat (c_step contract to z x) z'.
  Proof.
    intros H. apply ivc_crun in H as (z1 & Ez & Hc). apply z_list_inj in Ez. subst z1. cbn [concat app] in Hc.
    inversion Hc as [|? ? z1 ? ? Hwx Hsx Hrx]; subst. inversion Hrx; subst. auto.
  Qed.

  Theorem C58_wraparound z (cu : contents utxoV_cfg) (ct : contents txV_cfg) (ck : contents keyV_cfg)
    (sk r : scalar) (i j : Z) :
    p <= q -> zval r <> 0 -> public_key sk <> contract ->
    z_utxo z = merkle_root cu -> z_tx z = merkle_root ct -> z_signer z = merkle_root ck ->
    ct (slot_of txV_cfg (z_step z)) = tx_alloc tx_default -> ck (slot_of keyV_cfg (z_step z)) = pzero ->
    in_range utxoV_cfg i -> in_range utxoV_cfg j -> i <> j ->
    v_pk (cu i) = public_key sk -> v_dummy (cu i) = false -> zval (v_amount (cu i)) < 2 ^ 64 ->
    cu j = utxo_alloc utxo_dummy ->
    exists x z', wf_input x /\ ivc contract true (z_list z) [[x]] (z_list z') /\
      consumed (z_tx_final z) x = [cu i] /\
      vtotal (created contract (z_tx_final z) x) = zval (v_amount (cu i)) + p.
  Proof.
    intros Hpq Hr Hkc Hu Ht Hk Hct Hck Hi Hj Hij Hown Hreal Ha Hfree.
    set (k := public_key sk) in *. set (u := cu i) in *. set (d := utxo_alloc utxo_dummy) in *.
    set (o1 := mkUtxoV (Fof (zval (v_amount u) + 1)) k false). set (o2 := mkUtxoV (Fof (p - 1)) k false).
    set (t := mkTxV (A4 u d d d) (A4 o1 o2 d d)).
    destruct (sign_exists sk (tx_encV t ++ [z_tx_final z]) r Hpq Hr) as (sg & _ & Hv). fold k in Hv.
    pose proof p_big as Hp. pose proof (F_range (v_amount u)) as Hur.
    assert (B64 : 2 ^ 64 < 4 * 2 ^ 64) by reflexivity.
    assert (A1 : zval (v_amount o1) = zval (v_amount u) + 1) by (apply zval_Fof_small; lia).
    assert (A2 : zval (v_amount o2) = p - 1) by (apply zval_Fof_small; lia).
    set (x := mkInputsV t [] (A4 [] [] [] []) (A4 (Fof i) Fzero Fzero Fzero) (A4 [] [] [] [])
                (A4 (Fof i) (Fof j) Fzero Fzero) [] k (sig_alloc sg)).
    assert (Hsig : is_signed (z_tx_final z) x = true).
    { unfold is_signed. rewrite (alloc_given sg x eq_refl), (alloc_e_lt sg x eq_refl), andb_true_r. exact Hv. }
    apply pt_eqb_neq in Hkc.
    assert (Happ : is_applied contract (z_tx_final z) x = true) by (unfold is_applied; now rewrite Hsig).
    assert (Hwf : wf_input x) by (unfold wf_input, x; cbn [x_sig]; unfold sig_alloc; cbn [v_e]; rewrite firstn_length, bits_le_length; reflexivity).
    destruct (C77_complete true z x cu ct ck) as (x' & z' & (E1 & E2 & E3 & E4 & E5) & Hw' & Hivc); auto; try discriminate.
    - intros v Hv' Hd. unfold x, t, a4_list in Hv'. cbn [x_tx v_inputs a4_0 a4_1 a4_2 a4_3] in Hv'.
      destruct Hv' as [<-|Hv']; [ exact Hown |]. exfalso.
      repeat (destruct Hv' as [<-|Hv']; [ discriminate |]). exact Hv'.
    - change (vtotal_in (x_tx x)) with (vtotal [u; d; d; d]). change (vtotal_out (x_tx x)) with (vtotal [o1; o2; d; d]).
      cbn [vtotal]. change (v_dummy d) with true. change (v_dummy o1) with false. change (v_dummy o2) with false.
      rewrite Hreal, A1, A2. replace (zval (v_amount u) + 1 + (p - 1 + (0 + (0 + 0)))) with (zval (v_amount u) + 1 * p) by lia.
      rewrite Z.mod_add by lia. f_equal. lia.
    - assert (Ecw : coin_writes contract (z_tx_final z) x =
                [mkWrite i u d []; mkWrite i d o1 []; mkWrite j d o2 []]).
      { unfold coin_writes. rewrite Hsig, Happ. unfold x, t, a4_zip3.
        cbn [x_tx v_inputs v_outputs x_del_proofs x_del_pos x_add_proofs x_add_pos a4_0 a4_1 a4_2 a4_3 flat_map andb].
        change (v_dummy d) with true. change (v_dummy o1) with false. change (v_dummy o2) with false.
        change (v_pk o1) with k. change (v_pk o2) with k. rewrite Hreal, Hkc, !andb_false_r. cbn [negb andb app].
        rewrite !slot_Fof_u by assumption. reflexivity. }
      rewrite Ecw. cbn [genuine w_pos w_old w_new]. split; [ reflexivity |]. split; [ unfold set_leaf; now rewrite Z.eqb_refl |].
      split; [| exact Logic.I ]. unfold set_leaf. assert (Eji : j =? i = false) by (apply Z.eqb_neq; auto). rewrite !Eji. exact Hfree.
    - exists x', z'. split; [ exact Hw' |]. split; [ exact Hivc |].
      assert (Hs' : is_signed (z_tx_final z) x' = true).
      { rewrite <- Hsig. unfold is_signed, given_signature. now rewrite E1, E2, E3. }
      assert (Ha' : is_applied contract (z_tx_final z) x' = true) by (unfold is_applied; now rewrite Hs').
      unfold consumed, created. rewrite Hs', Ha', E1. unfold realV, x, t, a4_list. cbn [x_tx v_inputs v_outputs a4_0 a4_1 a4_2 a4_3 filter].
      rewrite Hreal. change (v_dummy d) with true. change (v_dummy o1) with false. change (v_dummy o2) with false.
      cbn [negb filter]. change (v_pk o1) with k. change (v_pk o2) with k. rewrite Hkc. cbn [negb vtotal].
      change (v_dummy o1) with false. change (v_dummy o2) with false. cbv iota. split; [ reflexivity |]. lia.
  Qed.

  (** ** C61: a transaction nobody signed extends the withdrawal chain - for any key and amount,
      from any state whose transaction slot is blank - and changes nothing else. *)
  Theorem C61_unsigned_withdrawal z (ct : contents txV_cfg) (k : pt) (a : Z) :
    p <= q -> k <> contract -> 0 < a < 2 ^ 64 ->
    (exists cu : contents utxoV_cfg, z_utxo z = merkle_root cu) ->
    (exists ck : contents keyV_cfg, z_signer z = merkle_root ck) ->
    z_tx z = merkle_root ct -> ct (slot_of txV_cfg (z_step z)) = tx_alloc tx_default ->
    exists x z', wf_input x /\ x_sender x = k /\ is_signed (z_tx_final z) x = false /\
      ivc contract false (z_list z) [[x]] (z_list z') /\
      z_withdrawal z' = chain_from (z_withdrawal z) [amount_entry k a] /\
      z_utxo z' = z_utxo z /\ z_signer z' = z_signer z /\ z_deposit z' = z_deposit z.
  Proof.
    intros Hpq Hkc Ha (cu & Hu) (ck & Hk) Ht Hct.
    set (d := utxo_alloc utxo_dummy). set (u := mkUtxoV (Fof a) k false). set (o := mkUtxoV (Fof a) contract false).
    set (t := mkTxV (A4 u d d d) (A4 o d d d)).
    pose proof p_big as Hp. assert (B64 : 2 ^ 64 < 4 * 2 ^ 64) by reflexivity.
    assert (Av : zval (Fof a) = a) by (apply zval_Fof_small; lia).
    set (x := mkInputsV t [] (A4 [] [] [] []) (A4 Fzero Fzero Fzero Fzero) (A4 [] [] [] [])
                (A4 Fzero Fzero Fzero Fzero) [] k (mkSigV (repeat false 254) (repeat true 254))).
    assert (Hns : forall x', x_sig x' = x_sig x -> is_signed (z_tx_final z) x' = false).
    { intros x' E. unfold is_signed. rewrite E. unfold x. cbn [x_sig v_e].
      assert (Eb : bits_val (repeat true 254) = 2 ^ 254 - 1) by (vm_compute; reflexivity). rewrite Eb.
      replace (2 ^ 254 - 1 <? q) with false; [ apply andb_false_r |]. symmetry. apply Z.ltb_ge.
      pose proof (proj2 q_bounds). unfold q. lia. }
    apply pt_eqb_neq in Hkc.
    assert (Hna : is_applied contract (z_tx_final z) x = false).
    { unfold is_applied, by_contract. rewrite (Hns x eq_refl). exact Hkc. }
    assert (Hwd : withdrawn contract x = a).
    { unfold withdrawn, x, t, a4_list. cbn [x_tx v_outputs a4_0 a4_1 a4_2 a4_3 filter].
      change (v_pk o) with contract. rewrite pt_eqb_refl.
      assert (Ed : forall l, vtotal (if pt_eqb (v_pk d) contract then d :: l else l) = vtotal l)
        by (intros l; destruct (pt_eqb (v_pk d) contract); reflexivity).
      cbn [vtotal]. change (v_dummy o) with false. cbv iota. rewrite !Ed. change (v_amount o) with (Fof a). rewrite Av. cbn [vtotal]. lia. }
    destruct (C77_complete false z x cu ct ck) as (x' & z' & (E1 & E2 & E3 & E4 & E5) & Hw' & Hivc); auto.
    - apply repeat_length.
    - intros v Hv' Hd. unfold x, t, a4_list in Hv'. cbn [x_tx v_inputs a4_0 a4_1 a4_2 a4_3] in Hv'.
      destruct Hv' as [<-|Hv']; [ reflexivity |]. exfalso.
      repeat (destruct Hv' as [<-|Hv']; [ discriminate |]). exact Hv'.
    - assert (Ecw : coin_writes contract (z_tx_final z) x = []).
      { unfold coin_writes. rewrite (Hns x eq_refl), Hna. reflexivity. }
      rewrite Ecw. exact Logic.I.
    - rewrite Hna. discriminate.
    - intros _. split; [ rewrite Hwd; lia |]. intros v Hv'. unfold x, t, a4_list in Hv'.
      cbn [x_tx v_outputs a4_0 a4_1 a4_2 a4_3] in Hv'.
      destruct Hv' as [<-|Hv']; [ change (v_amount o) with (Fof a); rewrite Av; lia |].
      repeat (destruct Hv' as [<-|Hv']; [ reflexivity |]). destruct Hv'.
    - exists x', z'. split; [ exact Hw' |]. split; [ exact E2 |]. split; [ exact (Hns x' E3) |]. split; [ exact Hivc |].
      pose proof (C61_withdrawal_chain contract false z [[x']] z' Hivc) as W.
      pose proof (C62_deposit_chain contract false z [[x']] z' Hivc) as D. cbn [concat app flat_map] in W, D.
      rewrite app_nil_r in W, D.
      assert (Ewe : withdrawal_entries contract x' = [amount_entry k a]).
      { unfold withdrawal_entries. assert (Ew : withdrawn contract x' = a) by (rewrite <- Hwd; unfold withdrawn; now rewrite E1).
        rewrite Ew, E2. replace (a =? 0) with false by (symmetry; apply Z.eqb_neq; lia). reflexivity. }
      assert (Ede : deposit_entries contract x' = []).
      { unfold deposit_entries, by_contract. rewrite E2. change (x_sender x) with k. now rewrite Hkc. }
      rewrite Ewe in W. rewrite Ede in D. split; [ exact W |].
      destruct (ivc_single false z x' z' Hivc) as [Hwx Hsx].
      destruct (C56_unsigned_changes_nothing contract false z x' z' Hwx Hsx (Hns x' E3)) as [U S].
      { rewrite E2. now apply pt_eqb_neq. }
      split; [ exact U |]. split; [ exact S | exact D ].
  Qed.
End props.

Print Assumptions C77_complete.
Print Assumptions C58_wraparound.
Print Assumptions C61_unsigned_withdrawal.

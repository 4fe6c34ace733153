(** C54-C57, C59-C62, C76: what proofs of the aggregator circuit guarantee. *)
From Coq Require Import ZArith List Bool Lia Permutation.
Import ListNotations.
From Verif Require Import Base Env Circuit SparseMT SparseMTSpec SparseMTHeap SparseMTRep SparseMTProofs
  SparseMTGadget SparseMTGadgetProofs Data DataSpec DataFacts Gadgets GadgetsProofs Schnorr SchnorrProofs
  Contract Aggregator AggCircuit AggCircuitFacts AggCircuitSpec CircuitRun.
Open Scope Z_scope.

Section props.
  Context {hs : Hashes} {G : Curve}.
  Variables (contract : pt) (to : bool).

  (** ** Runs, transaction by transaction *)
  Inductive crun : zstate -> list agg_inputsV -> zstate -> Prop :=
  | crun_nil z : crun z [] z
  | crun_cons z x z1 xs z' : wf_input x -> sat (c_step contract to z x) z1 -> crun z1 xs z' -> crun z (x :: xs) z'.

  Lemma z_of_z_list z : z_of_list (z_list z) = Some z.
  Proof. now destruct z. Qed.
  Lemma z_list_inj z z' : z_list z = z_list z' -> z = z'.
  Proof. intros H. apply (f_equal z_of_list) in H. rewrite !z_of_z_list in H. congruence. Qed.
  Lemma crun_app xs : forall z ys z', crun z (xs ++ ys) z' <-> exists z1, crun z xs z1 /\ crun z1 ys z'.
  Proof.
    induction xs as [|x xs IH]; intros z ys z'; cbn [app].
    - split; [ intros H; exists z; split; [ constructor | exact H ] |].
      intros (z1 & H1 & H2). inversion H1; subst. exact H2.
    - split.
      + intros H. inversion H as [|? ? zz ? ? Hw Hs Hr]; subst. apply IH in Hr as (z1 & H1 & H2).
        exists z1. split; auto. econstructor; eauto.
      + intros (z1 & H1 & H2). inversion H1 as [|? ? zz ? ? Hw Hs Hr]; subst.
        econstructor; eauto. apply IH. eauto.
  Qed.
  Lemma cfold_crun xs : forall z z', Forall wf_input xs ->
    sat (cfold (c_step contract to) xs z) z' <-> crun z xs z'.
  Proof.
    induction xs as [|x xs IH]; intros z z' Hw; cbn [cfold].
    - cbn. split; [ intros ->; constructor | intros H; now inversion H ].
    - rewrite sat_bind. pose proof (Forall_inv Hw) as Hx. apply Forall_inv_tail in Hw. split.
      + intros (z1 & H1 & H2). econstructor; eauto. now apply IH.
      + intros H. inversion H as [|? ? zz ? ? Hw' Hs Hr]; subst. exists zz. split; auto. now apply IH.
  Qed.
  Lemma batch_crun b z zl : Forall wf_input b ->
    sat (generate_step_constraints contract to (z_list z) b) zl <-> exists z', zl = z_list z' /\ crun z b z'.
  Proof.
    intros Hw. unfold generate_step_constraints. rewrite z_of_z_list, sat_bind. split.
    - intros (z' & H1 & H2). cbn in H2. exists z'. split; auto. now apply cfold_crun.
    - intros (z' & -> & H). exists z'. split; [ now apply cfold_crun | reflexivity ].
  Qed.
  Theorem ivc_crun bs : forall z zl,
    ivc contract to (z_list z) bs zl <-> exists z', zl = z_list z' /\ crun z (concat bs) z'.
  Proof.
    induction bs as [|b bs IH]; intros z zl; cbn [concat].
    - split.
      + intros H. inversion H; subst. exists z. split; auto. constructor.
      + intros (z' & -> & H). inversion H; subst. constructor.
    - split.
      + intros H. inversion H as [|? ? z1 ? ? Hw Hs Hr]; subst.
        apply batch_crun in Hs as (z1' & -> & H1); auto. apply IH in Hr as (z' & -> & H2).
        exists z'. split; auto. apply crun_app. eauto.
      + intros (z' & -> & H). apply crun_app in H as (z1 & H1 & H2).
        assert (Hw : Forall wf_input b).
        { clear -H1. induction H1; constructor; auto. }
        apply (ivc_cons _ _ _ _ (z_list z1)); auto.
        * apply batch_crun; eauto.
        * apply IH. eauto.
  Qed.

  (** ** C54: coins *)
  Lemma step_final z x z1 : wf_input x -> sat (c_step contract to z x) z1 -> z_tx_final z1 = z_tx_final z.
  Proof. intros Hw H. exact (sf_final _ _ _ _ _ (step_facts_of contract to z x z1 Hw H)). Qed.

  Lemma item_writes_dels sv x :
    item_writes utxoV_cfg (del_write sv) (dels x) =
    flat_map (fun upp => let '(u, path, pos) := upp in
                if sv && negb (v_dummy u)
                then [mkWrite (slot_of utxoV_cfg pos) u (utxo_alloc utxo_dummy) path] else []) (dels x).
  Proof.
    unfold item_writes. apply flat_map_ext. intros [[u pf] pos]. unfold del_write.
    now destruct (sv && negb (v_dummy u)).
  Qed.
  Lemma item_writes_adds tv x :
    item_writes utxoV_cfg (add_write contract tv) (adds x) =
    flat_map (fun upp => let '(u, path, pos) := upp in
                if tv && negb (pt_eqb (v_pk u) contract) && negb (v_dummy u)
                then [mkWrite (slot_of utxoV_cfg pos) (utxo_alloc utxo_dummy) u path] else []) (adds x).
  Proof.
    unfold item_writes. apply flat_map_ext. intros [[u pf] pos]. unfold add_write.
    now destruct (tv && negb (pt_eqb (v_pk u) contract) && negb (v_dummy u)).
  Qed.

  Lemma step_coins z x z' (c : contents utxoV_cfg) : wf_input x -> sat (c_step contract to z x) z' ->
    z_utxo z = merkle_root c ->
    (genuine utxoV_cfg c (coin_writes contract (z_tx_final z) x) /\
     z_utxo z' = merkle_root (written utxoV_cfg c (coin_writes contract (z_tx_final z) x)))
    \/ collides utxoV_cfg utxo_encV c (coin_writes contract (z_tx_final z) x).
  Proof.
    intros Hw H Hr. pose proof (step_facts_of contract to z x z' Hw H) as S.
    pose proof (sf_shape _ _ _ _ _ S) as (_ & _ & Ld & La).
    pose proof (sf_dels _ _ _ _ _ S) as Hd. pose proof (sf_adds _ _ _ _ _ S) as Ha. pose proof (sf_utxo _ _ _ _ _ S) as Hu.
    rewrite Hr in Hd, Ha, Hu.
    unfold coin_writes. fold (dels x). fold (adds x). rewrite <- item_writes_dels, <- item_writes_adds.
    set (sv := is_signed (z_tx_final z) x) in *. set (tv := is_applied contract (z_tx_final z) x) in *.
    assert (HI : forall l, LeafHash utxoV_cfg l = crh (utxo_encV l)) by reflexivity.
    destruct (items_sound utxoV_cfg utxo_encV HI utxo_encV_inj (del_write sv) (dels x) c) as [[G1 G2]|G1]; auto.
    { intros [[u pf] pos] w Hx Ew. unfold del_write in Ew. destruct (sv && negb (v_dummy u)); [| discriminate ].
      injection Ew as <-. cbn [w_pos w_path]. split; [ apply slot_range |].
      rewrite Forall_forall in Ld. exact (Ld _ Hx). }
    2:{ right. apply collides_app. now left. }
    rewrite G2 in Ha, Hu.
    destruct (items_sound utxoV_cfg utxo_encV HI utxo_encV_inj (add_write contract tv) (adds x)
                (written utxoV_cfg c (item_writes utxoV_cfg (del_write sv) (dels x)))) as [[G3 G4]|G3]; auto.
    { intros [[u pf] pos] w Hx Ew. unfold add_write in Ew.
      destruct (tv && negb (pt_eqb (v_pk u) contract) && negb (v_dummy u)); [| discriminate ].
      injection Ew as <-. cbn [w_pos w_path]. split; [ apply slot_range |].
      rewrite Forall_forall in La. exact (La _ Hx). }
    - left. rewrite genuine_app, written_app. rewrite <- G4. auto.
    - right. apply collides_app. now right.
  Qed.

  Lemma run_coins xs : forall z z' (c : contents utxoV_cfg), crun z xs z' -> z_utxo z = merkle_root c ->
    let ws := flat_map (coin_writes contract (z_tx_final z)) xs in
    (genuine utxoV_cfg c ws /\ z_utxo z' = merkle_root (written utxoV_cfg c ws))
    \/ collides utxoV_cfg utxo_encV c ws.
  Proof.
    induction xs as [|x xs IH]; intros z z' c H Hr ws; unfold ws; cbn [flat_map].
    - inversion H; subst. left. split; [ exact Logic.I | exact Hr ].
    - inversion H as [|? ? z1 ? ? Hw Hs Hrun]; subst.
      destruct (step_coins z x z1 c Hw Hs Hr) as [[G1 G2]|G1]; [| right; apply collides_app; now left ].
      specialize (IH z1 z' _ Hrun G2). cbv zeta in IH. rewrite (step_final z x z1 Hw Hs) in IH.
      rewrite genuine_app, written_app, collides_app.
      destruct IH as [[G3 G4]|G3]; [ left; auto | right; auto ].
  Qed.

  Theorem C54_coin_writes z bs z' (c : contents utxoV_cfg) :
    ivc contract to (z_list z) bs (z_list z') ->
    z_utxo z = merkle_root c ->
    let ws := flat_map (coin_writes contract (z_tx_final z)) (concat bs) in
    (genuine utxoV_cfg c ws /\ z_utxo z' = merkle_root (written utxoV_cfg c ws))
    \/ collides utxoV_cfg utxo_encV c ws.
  Proof.
    intros H Hr. apply ivc_crun in H as (z1 & E & H). apply z_list_inj in E. subst z1.
    now apply run_coins.
  Qed.

  (** ** C55: the multiset of live coins *)
  Lemma leaves_split (P : SparseConfig) (c : contents P) i : in_range P i ->
    exists l1 l2, leaves_of c = l1 ++ c i :: l2 /\ forall v, leaves_of (set_leaf c i v) = l1 ++ v :: l2.
  Proof.
    intros Hi. unfold leaves_of. set (n := Z.to_nat (capacity P)).
    assert (Hn : (Z.to_nat i < n)%nat) by (unfold in_range in Hi; unfold n; lia).
    exists (map (fun n => c (Z.of_nat n)) (seq 0 (Z.to_nat i))),
           (map (fun n => c (Z.of_nat n)) (seq (S (Z.to_nat i)) (n - S (Z.to_nat i)))).
    assert (E : seq 0 n = seq 0 (Z.to_nat i) ++ Z.to_nat i :: seq (S (Z.to_nat i)) (n - S (Z.to_nat i))).
    { replace n with (Z.to_nat i + S (n - S (Z.to_nat i)))%nat at 1 by lia. now rewrite seq_app. }
    rewrite E. split.
    - rewrite map_app. cbn [map]. rewrite Z2Nat.id by (unfold in_range in Hi; lia). reflexivity.
    - intros v. rewrite map_app. cbn [map]. f_equal; [| f_equal ].
      + apply map_ext_in. intros j Hj. apply in_seq in Hj. unfold set_leaf.
        destruct (Z.of_nat j =? i) eqn:E'; auto. apply Z.eqb_eq in E'. lia.
      + unfold set_leaf. rewrite Z2Nat.id by (unfold in_range in Hi; lia). now rewrite Z.eqb_refl.
      + apply map_ext_in. intros j Hj. apply in_seq in Hj. unfold set_leaf.
        destruct (Z.of_nat j =? i) eqn:E'; auto. apply Z.eqb_eq in E'. unfold in_range in Hi. lia.
  Qed.
  Definition nd (l : list utxoV) : list utxoV := filter (fun u => negb (v_dummy u)) l.
  Lemma live_write (c : contents utxoV_cfg) i v : in_range utxoV_cfg i ->
    Permutation (live (set_leaf c i v) ++ nd [c i]) (live c ++ nd [v]).
  Proof.
    intros Hi. destruct (leaves_split utxoV_cfg c i Hi) as (l1 & l2 & E1 & E2).
    unfold live. rewrite E1, (E2 v). fold (nd (l1 ++ v :: l2)). fold (nd (l1 ++ c i :: l2)).
    unfold nd. rewrite !filter_app. cbn [filter].
    destruct (negb (v_dummy v)), (negb (v_dummy (c i))); rewrite ?app_nil_r; auto.
    - rewrite <- !app_assoc. apply Permutation_app_head. cbn [app].
      etransitivity; [ apply perm_skip, Permutation_app_comm |]. cbn [app].
      etransitivity; [ apply perm_swap |]. apply perm_skip. apply Permutation_cons_append.
    - rewrite <- app_assoc. apply Permutation_app_head. apply Permutation_cons_append.
    - rewrite <- app_assoc. apply Permutation_app_head. symmetry. apply Permutation_cons_append.
  Qed.
  Lemma live_writes ws : forall c : contents utxoV_cfg, Forall (fun w => in_range utxoV_cfg (w_pos w)) ws ->
    genuine utxoV_cfg c ws ->
    Permutation (live (written utxoV_cfg c ws) ++ nd (map w_old ws)) (live c ++ nd (map w_new ws)).
  Proof.
    induction ws as [|w ws IH]; intros c Hr Hg; [ reflexivity |].
    cbn [written genuine map] in *. destruct Hg as [H1 H2]. pose proof (Forall_inv Hr) as Hi. apply Forall_inv_tail in Hr.
    specialize (IH _ Hr H2). pose proof (live_write c (w_pos w) (w_new w) Hi) as Hw. rewrite H1 in Hw.
    change (nd (w_old w :: map w_old ws)) with (nd ([w_old w] ++ map w_old ws)).
    change (nd (w_new w :: map w_new ws)) with (nd ([w_new w] ++ map w_new ws)).
    unfold nd in *. rewrite !filter_app.
    etransitivity; [ apply Permutation_app_head, Permutation_app_comm |].
    rewrite app_assoc. etransitivity; [ apply Permutation_app_tail, IH |].
    rewrite <- app_assoc. etransitivity; [ apply Permutation_app_head, Permutation_app_comm |].
    rewrite app_assoc. etransitivity; [ apply Permutation_app_tail, Hw |].
    now rewrite <- app_assoc.
  Qed.
  Lemma writes_in_range final x : Forall (fun w => in_range utxoV_cfg (w_pos w)) (coin_writes contract final x).
  Proof.
    unfold coin_writes. rewrite Forall_app. split; rewrite Forall_forall; intros w Hw;
      apply in_flat_map in Hw as ([[u pf] pos] & _ & Hw);
      match type of Hw with In _ (if ?b then _ else _) => destruct b; [| destruct Hw ] end;
      destruct Hw as [<-|[]]; cbn [w_pos]; apply slot_range.
  Qed.
  Lemma filter_flat_map {A B} (f : B -> bool) (g : A -> list B) l :
    filter f (flat_map g l) = flat_map (fun x => filter f (g x)) l.
  Proof. induction l as [|x l IH]; cbn; auto. now rewrite filter_app, IH. Qed.
  Lemma map_flat_map {A B C} (f : B -> C) (g : A -> list B) l :
    map f (flat_map g l) = flat_map (fun x => map f (g x)) l.
  Proof. induction l as [|x l IH]; cbn; auto. now rewrite map_app, IH. Qed.
  Lemma flat_map_nil {A B} (l : list A) : flat_map (fun _ => @nil B) l = [].
  Proof. induction l; cbn; auto. Qed.
  Lemma writes_old final x : nd (map w_old (coin_writes contract final x)) = consumed final x.
  Proof.
    unfold coin_writes, nd. rewrite map_app, filter_app, !map_flat_map, !filter_flat_map.
    assert (E2 : flat_map (fun y : utxoV * list F * F => filter (fun u => negb (v_dummy u))
        (map w_old (let '(u, path, pos) := y in
           if is_applied contract final x && negb (pt_eqb (v_pk u) contract) && negb (v_dummy u)
           then [mkWrite (slot_of utxoV_cfg pos) (utxo_alloc utxo_dummy) u path] else [])))
        (a4_zip3 (v_outputs (x_tx x)) (x_add_proofs x) (x_add_pos x)) = []).
    { etransitivity; [| apply (@flat_map_nil (utxoV * list F * F)) ]. apply flat_map_ext. intros [[u pf] pos].
      destruct (_ && _ && _); reflexivity. }
    rewrite E2, app_nil_r. unfold consumed, realV.
    rewrite <- (zip3_fst (v_inputs (x_tx x)) (x_del_proofs x) (x_del_pos x)).
    generalize (a4_zip3 (v_inputs (x_tx x)) (x_del_proofs x) (x_del_pos x)) as l.
    destruct (is_signed final x); cbn [andb]; intros l.
    - induction l as [|[[u pf] pos] l IH]; cbn [flat_map map filter fst]; auto.
      rewrite IH. destruct (v_dummy u) eqn:E; cbn [negb map filter app]; auto. cbn [w_old]. now rewrite E.
    - induction l as [|[[u pf] pos] l IH]; cbn [flat_map map filter fst app]; auto.
  Qed.
  Lemma writes_new final x : nd (map w_new (coin_writes contract final x)) = created contract final x.
  Proof.
    unfold coin_writes, nd. rewrite map_app, filter_app, !map_flat_map, !filter_flat_map.
    assert (E2 : flat_map (fun y : utxoV * list F * F => filter (fun u => negb (v_dummy u))
        (map w_new (let '(u, path, pos) := y in
           if is_signed final x && negb (v_dummy u)
           then [mkWrite (slot_of utxoV_cfg pos) u (utxo_alloc utxo_dummy) path] else [])))
        (a4_zip3 (v_inputs (x_tx x)) (x_del_proofs x) (x_del_pos x)) = []).
    { etransitivity; [| apply (@flat_map_nil (utxoV * list F * F)) ]. apply flat_map_ext. intros [[u pf] pos].
      destruct (_ && _); reflexivity. }
    rewrite E2. cbn [app]. unfold created, realV.
    rewrite <- (zip3_fst (v_outputs (x_tx x)) (x_add_proofs x) (x_add_pos x)).
    generalize (a4_zip3 (v_outputs (x_tx x)) (x_add_proofs x) (x_add_pos x)) as l.
    destruct (is_applied contract final x); cbn [andb]; intros l.
    - induction l as [|[[u pf] pos] l IH]; cbn [flat_map map filter fst]; auto.
      rewrite IH. destruct (v_dummy u) eqn:E; cbn [negb map filter app]; rewrite ?andb_false_r; auto.
      rewrite andb_true_r. destruct (negb (pt_eqb (v_pk u) contract)); cbn [map filter app]; auto.
      cbn [w_new]. now rewrite E.
    - induction l as [|[[u pf] pos] l IH]; cbn [flat_map map filter fst app]; auto.
  Qed.
  Lemma run_live xs final (c : contents utxoV_cfg) :
    let ws := flat_map (coin_writes contract final) xs in
    genuine utxoV_cfg c ws ->
    Permutation (live (written utxoV_cfg c ws) ++ flat_map (consumed final) xs)
                (live c ++ flat_map (created contract final) xs).
  Proof.
    intros ws Hg.
    assert (Hr : Forall (fun w => in_range utxoV_cfg (w_pos w)) ws).
    { unfold ws. rewrite Forall_forall. intros w Hw. apply in_flat_map in Hw as (x & _ & Hw).
      pose proof (writes_in_range final x) as Hf. rewrite Forall_forall in Hf. now apply Hf. }
    pose proof (live_writes ws c Hr Hg) as HP. unfold ws, nd in HP.
    rewrite !map_flat_map, !filter_flat_map in HP.
    erewrite (flat_map_ext (fun x => filter _ (map w_old _))) in HP by (intros x; apply (writes_old final x)).
    erewrite (flat_map_ext (fun x => filter _ (map w_new _))) in HP by (intros x; apply (writes_new final x)).
    exact HP.
  Qed.

  Theorem C55_no_double_spend z bs z' (c : contents utxoV_cfg) :
    ivc contract to (z_list z) bs (z_list z') ->
    z_utxo z = merkle_root c ->
    ~ collides utxoV_cfg utxo_encV c (flat_map (coin_writes contract (z_tx_final z)) (concat bs)) ->
    exists c' : contents utxoV_cfg,
      z_utxo z' = merkle_root c' /\
      Permutation (live c' ++ flat_map (consumed (z_tx_final z)) (concat bs))
                  (live c ++ flat_map (created contract (z_tx_final z)) (concat bs)).
  Proof.
    intros H Hr Hc. destruct (C54_coin_writes z bs z' c H Hr) as [[G1 G2]|G1]; [| contradiction ].
    eexists. split; [ exact G2 |]. now apply run_live.
  Qed.

  (** ** C56 *)
  Theorem C56_unsigned_changes_nothing z x z' :
    wf_input x -> sat (c_step contract to z x) z' ->
    is_signed (z_tx_final z) x = false -> x_sender x <> contract ->
    z_utxo z' = z_utxo z /\ z_signer z' = z_signer z.
  Proof.
    intros Hw H Hs Hc. pose proof (step_facts_of contract to z x z' Hw H) as S.
    apply pt_eqb_neq in Hc.
    assert (Ha : is_applied contract (z_tx_final z) x = false) by (unfold is_applied, by_contract; now rewrite Hs, Hc).
    split.
    - rewrite (sf_utxo _ _ _ _ _ S), Hs, Ha.
      assert (E1 : forall l r, fold_left (item_next utxoV_cfg (del_write false)) l r = r).
      { induction l as [|[[u pf] pos] l IH]; intros r; cbn [fold_left]; auto. }
      assert (E2 : forall l r, fold_left (item_next utxoV_cfg (add_write contract false)) l r = r).
      { induction l as [|[[u pf] pos] l IH]; intros r; cbn [fold_left]; auto. }
      now rewrite E1, E2.
    - pose proof (sf_signer _ _ _ _ _ S) as Hsg. now rewrite Ha in Hsg.
  Qed.
End props.

Print Assumptions C54_coin_writes.
Print Assumptions C55_no_double_spend.
Print Assumptions C56_unsigned_changes_nothing.

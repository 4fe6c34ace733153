(** Intake of transactions and the invariants of reachable aggregator states. *)
From Coq Require Import ZArith List Bool Lia Permutation.
Import ListNotations.
From Verif Require Import Base Env Circuit SparseMT SparseMTSpec SparseMTHeap SparseMTRep SparseMTNew
  SparseMTProofs TreeTotal Data DataSpec DataFacts Schnorr HMap Contract Aggregator AggSpec AggFacts AggSign.
Open Scope Z_scope.

Section intake.
  Context {hs : Hashes} {G : Curve} (dbg : bool).

  Lemma tx_contents_app l x i : in_range tx_cfg i ->
    tx_contents (l ++ [x]) i = set_leaf (tx_contents l) (Z.of_nat (length l)) x i.
  Proof.
    intros Hi. unfold tx_contents, set_leaf. destruct (i <? 0) eqn:E0.
    { apply Z.ltb_lt in E0. unfold in_range in Hi. lia. }
    apply Z.ltb_ge in E0. destruct (i =? Z.of_nat (length l)) eqn:E.
    - apply Z.eqb_eq in E. subst i. rewrite Nat2Z.id, app_nth2, Nat.sub_diag by lia. reflexivity.
    - apply Z.eqb_neq in E. destruct (Nat.lt_ge_cases (Z.to_nat i) (length l)).
      + now rewrite app_nth1.
      + rewrite app_nth2 by lia. rewrite (nth_overflow l) by lia.
        destruct (Z.to_nat i - length l)%nat as [|n] eqn:En; [ lia |]. now destruct n.
  Qed.

  Lemma root_ext P (c c' : contents P) :
    (forall i, in_range P i -> c i = c' i) -> merkle_root c = merkle_root c'.
  Proof.
    intros H. apply node_ext. intros i Hi. unfold digests. f_equal. apply H.
    unfold in_range, capacity. fold (pw (HEIGHT P - 1)). lia.
  Qed.

  Lemma tree_holds_ext P t (c c' : contents P) :
    (forall i, in_range P i -> c i = c' i) -> tree_holds dbg P t c -> tree_holds dbg P t c'.
  Proof. intros H (c0 & w & Hb & Hc). exists c0, w. split; auto. intros i Hi. rewrite Hc; auto. Qed.
  Lemma tree_holds_root P (Hok : cfg_ok P) t (c : contents P) :
    tree_holds dbg P t c -> root t = Ok (merkle_root c).
  Proof.
    intros (c0 & w & Hb & Hc). pose proof (built_rep dbg P Hok _ _ _ Hb) as HR.
    unfold root. rewrite (rep_root _ _ _ _ HR). cbn. f_equal. apply root_ext. intros i Hi. now rewrite Hc.
  Qed.
  Lemma tree_holds_update P (Hok : cfg_ok P) t (c : contents P) i l : tree_holds dbg P t c -> in_range P i ->
    exists t' pf, update_and_prove dbg P t i l = Ok (t', pf) /\ tree_holds dbg P t' (set_leaf c i l) /\
      pf = sib_path 0 (HEIGHT P - 1) (digests c) i /\
      verify_update dbg P pf (merkle_root c) (merkle_root (set_leaf c i l)) (c i) l i = Ok true.
  Proof.
    intros (c0 & w & Hb & Hc) Hi. pose proof (built_rep dbg P Hok _ _ _ Hb) as HR.
    destruct (update_rep dbg P Hok _ _ _ i l HR Hi) as (t' & E & HR').
    destruct (update_verifies dbg P Hok _ _ _ i l HR Hi) as (t2 & pf2 & E2 & _ & _ & Hv).
    rewrite E in E2. injection E2 as <- <-.
    assert (Hset : forall j, in_range P j -> set_leaf c0 i l j = set_leaf c i l j).
    { intros j Hj. unfold set_leaf. destruct (j =? i); auto. }
    assert (Esib : sib_path 0 (HEIGHT P - 1) (digests c0) i = sib_path 0 (HEIGHT P - 1) (digests c) i).
    { assert (Hgen : forall n d k, (n + d = HEIGHT P - 1)%nat -> 0 <= k < pw n ->
         sib_path d n (digests c0) k = sib_path d n (digests c) k).
      { induction n as [|n IHn]; intros d k Hn Hk; cbn [sib_path]; auto.
        rewrite pw_S in Hk.
        assert (Hs : 0 <= sibk k < pw (S n)).
        { rewrite pw_S. unfold sibk. pose proof (pw_pos n). destruct (Z.even k) eqn:Ek.
          - pose proof (even_half k Ek). lia.
          - pose proof (odd_half k Ek). assert (0 <= k / 2) by (apply Z.div_pos; lia). lia. }
        f_equal.
        - apply node_ext. intros j Hj. unfold digests. f_equal. apply Hc.
          unfold in_range, capacity. fold (pw (HEIGHT P - 1)). rewrite <- Hn.
          rewrite Nat.add_comm, pw_add. pose proof (pw_pos d). nia.
        - apply IHn; [ lia |]. split; [ apply Z.div_pos; lia | apply Z.div_lt_upper_bound; lia ]. }
      apply Hgen; [ lia | exact Hi ]. }
    exists t', (sib_path 0 (HEIGHT P - 1) (digests c0) i). split; [ exact E |]. split.
    - exists (set_leaf c0 i l), (fun j => (j =? i) || w j). split; auto.
      exact (built_update dbg P _ _ _ _ _ _ _ Hb Hi E).
    - split; [ exact Esib |]. rewrite <- Hv. f_equal; auto.
      + symmetry. apply root_ext. intros j Hj. now rewrite Hc.
      + symmetry. apply root_ext. intros j Hj. now rewrite Hset.
      + symmetry. now apply Hc.
  Qed.

  (** The state of an epoch's transactions. *)
  Record EpochInv (s : agg) : Prop := mkEpoch
    { ei_len : length (a_tx_proofs s) = length (a_txs s);
      ei_empty : t_empty (a_tx_tree s) = gen_empty_hashes tx_cfg;
      ei_root : t_root (a_tx_tree s) <> None;
      ei_holds : Z.of_nat (length (a_txs s)) <= 4096 ->
        tree_holds dbg tx_cfg (a_tx_tree s) (tx_contents (a_txs s));
      ei_proofs : Z.of_nat (length (a_txs s)) <= 4096 ->
        forall k t, nth_error (a_txs s) k = Some t ->
          nth_error (a_tx_proofs s) k =
            Some (sib_path 0 12 (digests (tx_contents (firstn k (a_txs s)))) (Z.of_nat k)) }.

  Lemma epoch_fresh s : a_txs s = [] -> a_tx_tree s = blank tx_cfg -> a_tx_proofs s = [] -> EpochInv s.
  Proof.
    intros H1 H2 H3. constructor; rewrite ?H1, ?H2, ?H3; auto.
    - cbn. discriminate.
    - intros _. exists (empty_contents tx_cfg), (fun _ => false). split; [ constructor |].
      intros i Hi. unfold tx_contents, empty_contents. destruct (i <? 0); auto. now destruct (Z.to_nat i).
    - intros _ k t E. destruct k; discriminate.
  Qed.

  Lemma intake_one_spec s k x : EpochInv s ->
    match is_valid dbg x (Some k) with
    | Ok _ => match intake_one dbg s tt (k, x) with
              | MOk s' _ => EpochInv s' /\ a_txs s' = a_txs s ++ [x] /\ same_but_intake s s'
              | MErr _ _ => False
              | MPanic => two64 <= Z.of_nat (length (a_txs s)) + 4096
              end
    | Err e => intake_one dbg s tt (k, x) = MErr s e
    | Panic => intake_one dbg s tt (k, x) = MPanic
    end.
  Proof.
    intros HE. unfold intake_one. destruct (is_valid dbg x (Some k)) as [u|e|]; auto.
    destruct (update_and_prove dbg tx_cfg (a_tx_tree s) (Z.of_nat (length (a_txs s))) x) as [[t' pf]|e|] eqn:E;
      [| exfalso; now apply (update_no_err dbg tx_cfg _ _ _ e E) |]; cycle 1.
    { cbn [mlift mbind]. apply Z.nlt_ge. intros Hlen.
      destruct (update_total dbg tx_cfg tx_cfg_ok (a_tx_tree s) (Z.of_nat (length (a_txs s))) x) as
        (t' & pf & E' & _); [ lia | rewrite tx_capacity; lia | apply HE |]. congruence. }
    cbn [mlift mbind fst snd].
    assert (He : t_empty t' = gen_empty_hashes tx_cfg).
    { rewrite (update_empty _ _ _ _ _ _ _ E). apply HE. }
    pose proof (update_root_some _ _ _ _ _ _ _ E) as Hr.
    split; [| split ]; auto.
    2:{ unfold same_but_intake. cbn. tauto. }
    assert (Hin : Z.of_nat (length (a_txs s ++ [x])) <= 4096 ->
              in_range tx_cfg (Z.of_nat (length (a_txs s))) /\ Z.of_nat (length (a_txs s)) <= 4096).
    { intros H. rewrite app_length in H. cbn in H. unfold in_range. rewrite tx_capacity. lia. }
    constructor; cbn [with_tx a_txs a_tx_tree a_tx_proofs]; auto.
    - rewrite !app_length, (ei_len _ HE). reflexivity.
    - intros H. apply Hin in H as [H1 H2].
      destruct (tree_holds_update tx_cfg tx_cfg_ok _ _ _ x (ei_holds _ HE H2) H1) as (t2 & pf2 & E2 & Hh & _).
      rewrite E in E2. injection E2 as <- <-.
      apply (tree_holds_ext _ _ (set_leaf (tx_contents (a_txs s)) (Z.of_nat (length (a_txs s))) x)); auto.
      intros i Hi. symmetry. now apply tx_contents_app.
    - intros H j t Ej. apply Hin in H as [H1 H2].
      destruct (Nat.lt_ge_cases j (length (a_txs s))) as [Hj|Hj].
      + rewrite nth_error_app1 in Ej by auto.
        rewrite nth_error_app1 by (rewrite (ei_len _ HE); auto).
        rewrite firstn_app. replace (j - length (a_txs s))%nat with 0%nat by lia. cbn [firstn].
        rewrite app_nil_r. now apply (ei_proofs _ HE H2 j t).
      + assert (j = length (a_txs s)).
        { assert (j < length (a_txs s ++ [x]))%nat by (apply nth_error_Some; congruence).
          rewrite app_length in H. cbn in H. lia. }
        subst j. rewrite nth_error_app2 by (rewrite (ei_len _ HE); auto).
        rewrite (ei_len _ HE), Nat.sub_diag. cbn [nth_error].
        rewrite firstn_app, Nat.sub_diag. cbn [firstn]. rewrite app_nil_r, firstn_all.
        destruct (tree_holds_update tx_cfg tx_cfg_ok _ _ _ x (ei_holds _ HE H2) H1) as (t2 & pf2 & E2 & _ & Hp & _).
        rewrite E in E2. injection E2 as _ <-. rewrite Hp. reflexivity.
  Qed.

  Lemma same_but_intake_trans s1 s2 s3 : same_but_intake s1 s2 -> same_but_intake s2 s3 -> same_but_intake s1 s3.
  Proof.
    unfold same_but_intake. intros (a1&a2&a3&a4&a5&a6&a7&a8&a9&a10&a11) (b1&b2&b3&b4&b5&b6&b7&b8&b9&b10&b11).
    repeat split; congruence.
  Qed.
  Lemma same_but_intake_refl s : same_but_intake s s.
  Proof. unfold same_but_intake. tauto. Qed.

  Definition valid_pair (kx : pt * tx) : Prop := is_valid dbg (snd kx) (Some (fst kx)) = Ok tt.

  (** Whole calls: success, the first invalid pair, or a panic. *)
  Lemma intake_run l : forall s, EpochInv s ->
    match process_transactions dbg s l with
    | MOk s' _ => Forall valid_pair l /\ EpochInv s' /\ a_txs s' = a_txs s ++ map snd l /\ same_but_intake s s'
    | MErr s' e => exists l1 k x l2, l = l1 ++ (k, x) :: l2 /\ Forall valid_pair l1 /\
                     is_valid dbg x (Some k) = Err e /\
                     process_transactions dbg s l1 = MOk s' tt /\
                     EpochInv s' /\ a_txs s' = a_txs s ++ map snd l1 /\ same_but_intake s s'
    | MPanic => (exists l1 k x l2, l = l1 ++ (k, x) :: l2 /\ Forall valid_pair l1 /\
                     is_valid dbg x (Some k) = Panic) \/
                two64 <= Z.of_nat (length (a_txs s)) + Z.of_nat (length l) + 4096
    end.
  Proof.
    unfold process_transactions.
    induction l as [|[k x] l IH]; intros s HE; cbn [mfold map].
    - rewrite app_nil_r. split; [ constructor | split; auto; split; auto; apply same_but_intake_refl ].
    - cbn [length]. rewrite Nat2Z.inj_succ. pose proof (intake_one_spec s k x HE) as H1.
      destruct (is_valid dbg x (Some k)) as [[]|e|] eqn:Ev.
      + destruct (intake_one dbg s tt (k, x)) as [s1 []|s1 e|] eqn:E1; [| tauto | cbn [mbind]; right; lia ].
        destruct H1 as (HE1 & Ht1 & Hs1). cbn [mbind].
        specialize (IH s1 HE1). rewrite Ht1, app_length in IH. cbn [length] in IH.
        assert (Hv : valid_pair (k, x)) by exact Ev.
        destruct (mfold (intake_one dbg) l s1 tt) as [s' u|s' e|].
        * destruct IH as (A & B & C & D). split; [ now constructor |]. split; auto. split.
          -- cbn [snd]. rewrite C, <- app_assoc. reflexivity.
          -- now apply (same_but_intake_trans s s1).
        * destruct IH as (l1 & k1 & x1 & l2 & -> & A & B & C & D & E & H).
          exists ((k, x) :: l1), k1, x1, l2. split; auto. split; [ now constructor |]. split; auto.
          split; [ cbn [mfold]; rewrite E1; cbn [mbind]; exact C |]. split; auto. split.
          -- cbn [map snd]. rewrite E, <- app_assoc. reflexivity.
          -- now apply (same_but_intake_trans s s1).
        * destruct IH as [(l1 & k1 & x1 & l2 & -> & A & B)|IH]; [ left | right; lia ].
          exists ((k, x) :: l1), k1, x1, l2. split; auto.
      + rewrite H1. cbn [mbind]. exists [], k, x, l. cbn [mfold map]. rewrite app_nil_r.
        split; [ reflexivity |]. split; [ constructor |]. split; [ exact Ev |]. split; [ reflexivity |].
        split; [ exact HE |]. split; [ reflexivity | apply same_but_intake_refl ].
      + rewrite H1. cbn [mbind]. left. exists [], k, x, l. split; [ reflexivity |]. split; [ constructor | exact Ev ].
  Qed.

  (** * Reachable states *)
  Record ReachInv (s : agg) : Prop := mkReach
    { ri_epoch : EpochInv s;
      ri_coins : exists c w, CoinInv dbg s c w;
      ri_height : a_height s = u64of 0;
      ri_signer_empty : t_empty (a_signer_tree s) = gen_empty_hashes signer_cfg;
      ri_signer_root : t_root (a_signer_tree s) <> None }.

  Lemma coin_inv_intake s s' c w : same_but_intake s s' -> CoinInv dbg s c w -> CoinInv dbg s' c w.
  Proof.
    intros (E1 & E2 & E3 & _) [H1 H2 H3 H4 H5 H6].
    assert (Ep : positions s' = positions s) by (unfold positions; now rewrite E1).
    constructor; rewrite ?Ep, ?E1, ?E2, ?E3; auto.
  Qed.

  Lemma epoch_same s s' : EpochInv s -> a_txs s' = a_txs s -> a_tx_tree s' = a_tx_tree s ->
    a_tx_proofs s' = a_tx_proofs s -> EpochInv s'.
  Proof. intros [H1 H2 H3 H4 H5] E1 E2 E3. constructor; rewrite ?E1, ?E2, ?E3; auto. Qed.

  Lemma steps_signer contract n l s s' : steps dbg contract n l s s' ->
    t_empty (a_signer_tree s) = gen_empty_hashes signer_cfg -> t_root (a_signer_tree s) <> None ->
    t_empty (a_signer_tree s') = gen_empty_hashes signer_cfg /\ t_root (a_signer_tree s') <> None.
  Proof.
    induction 1 as [|n k osg l s s1 s' t r H1 H2 IH]; intros A B; [ auto |].
    pose proof (so_signer_tree _ _ _ _ _ _ _ _ _ H1) as Ht.
    destruct (authorised contract r t (k, osg)).
    - destruct Ht as (pf & E). apply IH.
      + rewrite (update_empty _ _ _ _ _ _ _ E). exact A.
      + exact (update_root_some _ _ _ _ _ _ _ E).
    - apply IH; congruence.
  Qed.

  Lemma reach_root s : ReachInv s -> exists r, root (a_tx_tree s) = Ok r.
  Proof.
    intros H. pose proof (ei_root _ (ri_epoch _ H)) as Hr. unfold root.
    destruct (t_root (a_tx_tree s)) as [r|]; [ now exists r | tauto ].
  Qed.

  Theorem reached_inv s : reached dbg s -> ReachInv s.
  Proof.
    induction 1 as [|s l s' H IH Hl|s contract l s' H IH Hf Hl|s H IH].
    - constructor; auto.
      + now apply epoch_fresh.
      + exists (empty_contents utxo_cfg), (fun _ => false). apply coin_inv_new.
      + cbn. discriminate.
    - pose proof (intake_run l s (ri_epoch _ IH)) as HR.
      assert (EpochInv s' /\ same_but_intake s s') as [HE Hs].
      { destruct Hl as [[a E]|[e E]]; rewrite E in HR; [ tauto |].
        destruct HR as (l1 & k & x & l2 & _ & _ & _ & _ & A & _ & B). auto. }
      destruct (ri_coins _ IH) as (c & w & HC). pose proof IH as [_ _ Hh He Hr].
      constructor; auto.
      + exists c, w. now apply (coin_inv_intake s).
      + destruct Hs as (_&_&_&_&_&_&_&E&_). congruence.
      + destruct Hs as (_&_&_&_&_&E&_). congruence.
      + destruct Hs as (_&_&_&_&_&E&_). congruence.
    - destruct (ri_coins _ IH) as (c & w & HC). destruct (reach_root s IH) as (r & Hr).
      pose proof (sign_run dbg contract l 0 s c w r HC Hr (Hf r Hr)) as HR.
      unfold process_signatures, enum in Hl.
      destruct Hl as [[a E]|[e E]]; rewrite E in HR.
      + pose proof (steps_same _ _ _ _ _ _ HR) as (E1 & E2 & E3 & E4 & _).
        destruct (steps_signer _ _ _ _ _ HR (ri_signer_empty _ IH) (ri_signer_root _ IH)) as [A B].
        constructor; auto.
        * now apply (epoch_same s); [ apply IH | | | ].
        * apply (steps_inv _ _ _ _ _ _ HR). eauto.
        * rewrite E4. apply IH.
      + destruct HR as (l1 & k & osg & l2 & s1 & t & r' & _ & HR & He & _).
        pose proof (steps_same _ _ _ _ _ _ HR) as (E1 & E2 & E3 & E4 & _).
        destruct (steps_signer _ _ _ _ _ HR (ri_signer_empty _ IH) (ri_signer_root _ IH)) as [A B].
        destruct (se_same _ _ _ _ _ _ _ _ _ _ He) as (_ & F1 & F2 & _ & _ & F4 & _ & _ & F3 & _).
        destruct (se_signer_tree _ _ _ _ _ _ _ _ _ _ He) as (pf & Eu).
        constructor.
        * apply (epoch_same s); [ apply IH | | | ]; congruence.
        * apply He.
        * rewrite F4, E4. apply IH.
        * rewrite (update_empty _ _ _ _ _ _ _ Eu). exact A.
        * exact (update_root_some _ _ _ _ _ _ _ Eu).
    - destruct IH as [_ (c & w & HC) Hh He Hr]. constructor; auto.
      + now apply epoch_fresh.
      + exists c, w. destruct HC as [H1 H2 H3 H4 H5 H6]. constructor; auto.
  Qed.
End intake.

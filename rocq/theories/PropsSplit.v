(** Property C114: how a client spreads the transactions of a block over fold steps. *)
From Coq Require Import ZArith List Bool Lia Sorted.
Import ListNotations.
From Verif Require Import Base Env Circuit SparseMT SparseMTSpec Data DataSpec AggCircuit AggCircuitSpec
  Client ClientSpec ClientFacts PropsClient PropsClient2.
Open Scope Z_scope.

Section props.
  Context {hs : Hashes} {G : Curve}.

  (** the entries of a step: a transaction with its index, its path and the path of its signer *)
  Definition entries (a : user_auxV) : list u_item :=
    combine (combine (ux_txs a) (ux_tx_proofs a)) (ux_signer_proofs a).
  Definition entry_tx (x : u_item) : txV := fst (fst (fst x)).
  Definition entry_index (x : u_item) : Z := zval (snd (fst (fst x))).
  (** those that are not padding *)
  Definition work (a : user_auxV) : list u_item := filter (fun x => regular (entry_tx x)) (entries a).

  (** a step of [N] entries for key [k] on block [b] in which whatever is not regular is the default
      transaction, with paths of the right length and an index in the range of the comparisons *)
  Record step_for (N : nat) (k : pt) (b : blockV) (a : user_auxV) : Prop :=
    { sf_txs : length (ux_txs a) = N; sf_tx_paths : length (ux_tx_proofs a) = N;
      sf_signer_paths : length (ux_signer_proofs a) = N; sf_key : ux_pk a = k; sf_block : ux_block a = b;
      sf_pads : forall x, In x (entries a) -> regular (entry_tx x) = false ->
        entry_tx x = tx_alloc tx_default /\ length (snd (fst x)) = 12%nat /\ length (snd x) = 12%nat /\
        entry_index x <= max_cmp }.

  (** [n] times the same block on an accumulator *)
  Fixpoint times (n : nat) (f : F -> F) (x : F) : F := match n with O => x | S m => times m f (f x) end.

  (** ** Proof *)
  Definition first_index (b : blockV) (s : ustate) : F := if Feqb (block_hashV b) (us_block s) then us_index s else Fzero.
  Definition good (b : blockV) (x : u_item) : Prop :=
    length (snd (fst x)) = 12%nat /\ length (snd x) = 12%nat /\ entry_index x <= max_cmp /\
    (regular (entry_tx x) = true ->
       tx_ok b (entry_tx x) (snd (fst (fst x))) (snd (fst x)) = true /\ signer_ok b (entry_tx x) (snd x) = true).
  Record allowed (k : pt) (b : blockV) (s : ustate) (w : list u_item) : Prop :=
    { al_key : pk_hashV k = us_pk s;
      al_low : zval (us_height s) <= zval (vb_height b);
      al_high : zval (vb_height b) + 1 <= max_cmp;
      al_start : zval (first_index b s) <= max_cmp;
      al_sorted : StronglySorted Z.lt (zval (first_index b s) :: map entry_index w);
      al_good : Forall (good b) w }.

  Lemma lengths_of N k b a : step_for N k b a -> lengths_ok N a.
  Proof. intros [? ? ? _ _ _]. repeat split; assumption. Qed.
  Lemma work_indices N k b a : step_for N k b a -> indices a = map entry_index (work a).
  Proof. intros H. rewrite <- (item_indices_eq N a (lengths_of _ _ _ _ H)). reflexivity. Qed.
  Lemma conditions_iff N k b s a : N <> 0%nat -> step_for N k b a ->
    step_conditions N s a <-> allowed k b s (work a).
  Proof.
    intros HN H. pose proof H as [_ _ _ Ek Eb Hp].
    assert (Es : start_index s a = first_index b s) by (unfold start_index, first_index, step_block; now rewrite Eb).
    unfold step_conditions, step_height. rewrite Es, (work_indices _ _ _ _ H), Ek, Eb.
    assert (Hi : (forall n t i tp sp, item_at a n t i tp sp ->
       length tp = 12%nat /\ length sp = 12%nat /\ zval i <= max_cmp /\
       (regular t = true -> tx_ok b t i tp = true /\ signer_ok b t sp = true)) <-> Forall (good b) (work a)).
    { split.
      - intros Hi. apply Forall_forall. intros x Hx. apply filter_In in Hx as [Hx _].
        assert (Hall : Forall (good b) (entries a)) by (apply (Forall_items a (good b)); exact Hi).
        exact (proj1 (Forall_forall _ _) Hall x Hx).
      - intros Hw. apply (Forall_items a (good b)). apply Forall_forall. intros x Hx.
        destruct (regular (entry_tx x)) eqn:Er.
        + apply (proj1 (Forall_forall _ _) Hw). apply filter_In. auto.
        + destruct (Hp x Hx Er) as (_ & P1 & P2 & P3). unfold good. rewrite Er. repeat (split; [ assumption |]). discriminate. }
    rewrite Hi. split.
    - intros (_ & H1 & H2 & H3 & H4 & H5 & H6). constructor; auto. apply sorted_strong. exact H5.
    - intros [H1 H2 H3 H4 H5 H6]. split; [ exact (lengths_of _ _ _ _ H) |]. split; [ exact H1 |]. split; [ exact H2 |].
      split; [ exact H3 |]. split; [ auto |]. split; [ apply StronglySorted_Sorted; exact H5 | exact H6 ].
  Qed.

  Lemma sorted_split x l l' : StronglySorted Z.lt (x :: l ++ l') ->
    StronglySorted Z.lt (x :: l) /\ StronglySorted Z.lt (last l x :: l').
  Proof.
    revert x. induction l as [|y l IH]; intros x H; cbn [app] in H.
    - split; [ repeat constructor | exact H ].
    - inversion H as [|? ? H1 H2]; subst. destruct (IH y H1) as [A B]. split.
      + constructor; [ exact A |]. constructor; [ exact (Forall_inv H2) |].
        apply Forall_inv_tail in H2. apply Forall_app in H2. apply H2.
      + assert (E : forall (m : list Z) d e, last (d :: m) e = last m d).
        { induction m as [|c m IHm]; intros d e; [ reflexivity |].
          change (last (d :: c :: m) e) with (last (c :: m) e). rewrite !IHm. reflexivity. }
        rewrite E. exact B.
  Qed.
  Lemma last_in (l : list Z) x : In (last l x) (x :: l).
  Proof.
    revert x. induction l as [|y l IH]; intros x; [ now left |]. destruct l as [|z l]; [ right; now left |].
    change (last (y :: z :: l) x) with (last (z :: l) x). destruct (IH x) as [H|H]; [ now left | right; now right ].
  Qed.
  Lemma allowed_step acc N k b s a w : N <> 0%nat -> step_for N k b a ->
    allowed k b s (work a ++ w) <-> step_conditions N s a /\ allowed k b (step_result acc s a) w.
  Proof.
    intros HN H. pose proof H as [_ _ _ Ek Eb _]. rewrite (conditions_iff N k b s a HN H).
    assert (Ef : first_index b (step_result acc s a) = us_index (step_result acc s a)).
    { unfold first_index, step_result. cbn [us_block us_index]. unfold step_block. now rewrite Eb, Feqb_refl. }
    assert (Ei : allowed k b s (work a) ->
      zval (first_index b (step_result acc s a)) = last (map entry_index (work a)) (zval (first_index b s))).
    { intros A. apply (conditions_iff N k b s a HN H) in A. rewrite Ef, (index_after acc N s a A), (work_indices _ _ _ _ H).
      unfold start_index, first_index, step_block. now rewrite Eb. }
    split.
    - intros [H1 H2 H3 H4 H5 H6]. rewrite map_app in H5. apply sorted_split in H5 as [H5 H5']. apply Forall_app in H6 as [H6 H6'].
      assert (A : allowed k b s (work a)) by (constructor; assumption). split; [ exact A |].
      constructor.
      + exact H1.
      + unfold step_result. cbn [us_height]. rewrite Eb. apply Z.le_refl.
      + exact H3.
      + rewrite (Ei A). destruct (last_in (map entry_index (work a)) (zval (first_index b s))) as [E|E]; [ rewrite <- E; exact H4 |].
        apply in_map_iff in E as (x & E & Hx). rewrite <- E. exact (proj1 (proj2 (proj2 (proj1 (Forall_forall _ _) H6 x Hx)))).
      + rewrite (Ei A). exact H5'.
      + exact H6'.
    - intros [A [_ _ _ _ B5 B6]]. rewrite (Ei A) in B5. destruct A as [H1 H2 H3 H4 H5 H6].
      constructor; [ exact H1 | exact H2 | exact H3 | exact H4 | |].
      + rewrite map_app. now apply sorted_app.
      + apply Forall_app. auto.
  Qed.

  Lemma run_iff acc N k b l : N <> 0%nat -> Forall (step_for N k b) l -> l <> [] -> forall s,
    (exists z', urun acc N (u_list s) l z') <-> allowed k b s (flat_map work l).
  Proof.
    intros HN. induction l as [|a l IH]; intros Hl Hne s; [ contradiction |].
    inversion Hl as [|? ? Ha Hl']; subst. cbn [flat_map].
    rewrite (allowed_step acc N k b s a _ HN Ha).
    destruct l as [|a2 l].
    - split.
      + intros (z' & H). apply urun_inv in H as [C H]. split; [ exact C |].
        assert (A : allowed k b s (work a ++ [])) by (rewrite app_nil_r; now apply (conditions_iff N)).
        apply (allowed_step acc N k b s a [] HN Ha) in A. apply A.
      + intros [C _]. exists (u_list (step_result acc s a)). econstructor; [ apply satisfied_state; split; [ exact C | reflexivity ] | constructor ].
    - rewrite <- (IH Hl' ltac:(discriminate) (step_result acc s a)). split.
      + intros (z' & H). apply urun_inv in H as [C H]. split; [ exact C | now exists z' ].
      + intros [C (z' & H)]. exists z'. econstructor; [ apply satisfied_state; split; [ exact C | reflexivity ] | exact H ].
  Qed.

  Lemma work_gain N k b a : step_for N k b a -> step_gain a = zsumm (map (fun x => gain k (entry_tx x)) (work a)).
  Proof.
    intros H. pose proof H as [_ _ _ Ek _ Hp]. rewrite <- (item_gains N a (lengths_of _ _ _ _ H)), Ek. unfold work. fold (entries a).
    change (items a) with (entries a). induction (entries a) as [|x l IH]; [ reflexivity |]. cbn [map zsumm filter].
    assert (IH' := IH (fun y Hy => Hp y (or_intror Hy))). fold (entry_tx x). destruct (regular (entry_tx x)) eqn:Er.
    - cbn [map zsumm]. rewrite <- IH'. reflexivity.
    - destruct (Hp x (or_introl eq_refl) Er) as (E & _). rewrite E, gain_default. exact IH'.
  Qed.
  Lemma work_signed N k b a : k <> pzero -> step_for N k b a ->
    step_signed a = Z.of_nat (length (filter (fun x => pt_eqb (signer_of (entry_tx x)) k) (work a))).
  Proof.
    intros Hk H. pose proof H as [_ _ _ Ek _ Hp]. rewrite <- (item_signers N a (lengths_of _ _ _ _ H)), Ek. unfold work.
    f_equal. change (items a) with (entries a). induction (entries a) as [|x l IH]; [ reflexivity |]. cbn [filter].
    assert (IH' := IH (fun y Hy => Hp y (or_intror Hy))). fold (entry_tx x). destruct (regular (entry_tx x)) eqn:Er.
    - cbn [filter]. destruct (pt_eqb (signer_of (entry_tx x)) k); cbn [length]; [ now f_equal | exact IH' ].
    - destruct (Hp x (or_introl eq_refl) Er) as (E & _). rewrite E, signer_default.
      destruct (pt_eqb pzero k) eqn:E0; [ apply pt_eqb_eq in E0; congruence |]. exact IH'.
  Qed.
  Lemma run_end acc N k b l : N <> 0%nat -> Forall (step_for N k b) l -> forall s z',
    urun acc N (u_list s) l z' -> exists s', z' = u_list s' /\
      zval (us_balance s') = (zval (us_balance s) + zsumm (map (fun x => gain k (entry_tx x)) (flat_map work l))) mod p /\
      (k <> pzero -> zval (us_nonce s') = (zval (us_nonce s) +
         Z.of_nat (length (filter (fun x => pt_eqb (signer_of (entry_tx x)) k) (flat_map work l)))) mod p) /\
      us_pk s' = us_pk s /\ us_acc s' = times (length l) (fun x => acc x (block_hashV b)) (us_acc s) /\
      (l <> [] -> us_block s' = block_hashV b /\ us_height s' = vb_height b /\
         zval (us_index s') = last (map entry_index (flat_map work l)) (zval (first_index b s))).
  Proof.
    intros HN. assert (Hz : forall u v : list Z, zsumm (u ++ v) = zsumm u + zsumm v).
    { induction u as [|x u IHu]; intros v; cbn [app zsumm]; [ reflexivity | rewrite IHu; lia ]. }
    induction l as [|a l IH]; intros Hl s z' R.
    - apply urun_nil_inv in R as ->. exists s. cbn [flat_map map zsumm filter length times].
      change (Z.of_nat 0) with 0. rewrite !Z.add_0_r, !Z.mod_small by apply F_range.
      split; [ reflexivity |]. split; [ reflexivity |]. split; [ reflexivity |]. split; [ reflexivity |]. split; [ reflexivity |].
      intros X. now destruct X.
    - inversion Hl as [|? ? Ha Hl']; subst. pose proof Ha as [_ _ _ Ek Eb _]. apply urun_inv in R as [C R].
      destruct (IH Hl' _ _ R) as (s' & -> & B & M & P & A & L). exists s'. split; [ reflexivity |].
      cbn [flat_map length times]. rewrite map_app, Hz, filter_app, app_length, Nat2Z.inj_add.
      unfold step_result in B, M, P, A. cbn [us_balance us_nonce us_pk us_acc] in B, M, P, A.
      rewrite zval_Fof, Zplus_mod_idemp_l in B. rewrite zval_Fof, Zplus_mod_idemp_l in M.
      split; [ rewrite B, (work_gain _ _ _ _ Ha); f_equal; lia |].
      split; [ intros Hk; rewrite (M Hk), (work_signed _ _ _ _ Hk Ha); f_equal; lia |].
      split; [ exact P |]. split; [ rewrite A; unfold step_block; now rewrite Eb |]. intros _.
      assert (E1 : zval (us_index (step_result acc s a)) = last (map entry_index (work a)) (zval (first_index b s))).
      { rewrite (index_after acc N s a C), (work_indices _ _ _ _ Ha). unfold start_index, first_index, step_block. now rewrite Eb. }
      destruct l as [|a2 l].
      + apply urun_nil_inv in R. apply u_list_inj in R. subst s'. cbn [flat_map map]. rewrite app_nil_r.
        split; [ unfold step_result, step_block; cbn [us_block]; now rewrite Eb |].
        split; [ unfold step_result; cbn [us_height]; now rewrite Eb |]. exact E1.
      + destruct (L ltac:(discriminate)) as (L1 & L2 & L3). split; [ exact L1 |]. split; [ exact L2 |]. rewrite L3.
        assert (Ef : first_index b (step_result acc s a) = us_index (step_result acc s a)).
        { unfold first_index, step_result. cbn [us_block us_index]. unfold step_block. now rewrite Eb, Feqb_refl. }
        rewrite Ef, E1, map_app.
        assert (Hlast : forall (u v : list Z) d, last (u ++ v) d = last v (last u d)).
        { clear. induction u as [|x u IHu]; intros v d; [ reflexivity |]. destruct u as [|y u].
          - cbn [app]. destruct v as [|z v]; [ reflexivity |]. change (last (x :: z :: v) d) with (last (z :: v) d).
            clear. revert z. induction v as [|w v IHv]; intros z; [ reflexivity |]. exact (IHv w).
          - change (last ((y :: u) ++ v) d = last v (last (y :: u) d)). apply IHu. }
        symmetry. apply Hlast.
  Qed.

  (** ** C114 *)
  (** Two ways to spread the same regular transactions, in the same order and with the same paths,
      over steps on one block - with any number of transactions per step, padded with the default
      transaction anywhere: if one is accepted, so is the other, with the same balance, nonce, key, block,
      height and index. The accumulator, however, absorbs the block once per step. *)
  Theorem C114_split acc N1 N2 k b s l1 l2 z' :
    N1 <> 0%nat -> N2 <> 0%nat -> l1 <> [] -> l2 <> [] ->
    Forall (step_for N1 k b) l1 -> Forall (step_for N2 k b) l2 -> flat_map work l1 = flat_map work l2 ->
    urun acc N1 (u_list s) l1 z' ->
    exists s1 s2, z' = u_list s1 /\ urun acc N2 (u_list s) l2 (u_list s2) /\
      us_balance s2 = us_balance s1 /\ (k <> pzero -> us_nonce s2 = us_nonce s1) /\
      us_pk s2 = us_pk s1 /\ us_block s2 = us_block s1 /\ us_height s2 = us_height s1 /\ us_index s2 = us_index s1 /\
      us_acc s1 = times (length l1) (fun x => acc x (block_hashV b)) (us_acc s) /\
      us_acc s2 = times (length l2) (fun x => acc x (block_hashV b)) (us_acc s).
  Proof.
    intros HN1 HN2 Hn1 Hn2 H1 H2 Hw R1.
    assert (A : allowed k b s (flat_map work l1)) by (apply (run_iff acc N1 k b l1 HN1 H1 Hn1); now exists z').
    rewrite Hw in A. apply (run_iff acc N2 k b l2 HN2 H2 Hn2) in A as (z2 & R2).
    destruct (run_end acc N1 k b l1 HN1 H1 s z' R1) as (s1 & -> & B1 & M1 & P1 & A1 & L1).
    destruct (run_end acc N2 k b l2 HN2 H2 s z2 R2) as (s2 & -> & B2 & M2 & P2 & A2 & L2).
    destruct (L1 Hn1) as (L11 & L12 & L13). destruct (L2 Hn2) as (L21 & L22 & L23). rewrite Hw in B1, M1, L13.
    exists s1, s2. split; [ reflexivity |]. split; [ exact R2 |].
    split; [ apply zval_inj; now rewrite B1, B2 |]. split; [ intros Hk; apply zval_inj; now rewrite (M1 Hk), (M2 Hk) |].
    split; [ now rewrite P1, P2 |]. split; [ now rewrite L11, L21 |]. split; [ now rewrite L12, L22 |].
    split; [ apply zval_inj; now rewrite L13, L23 |]. split; [ exact A1 | exact A2 ].
  Qed.

  (** Absorbing the block a different number of times gives a different accumulator, unless the hash
      collides or its chain comes back to where it started. *)
  Lemma times_out n f : forall x, times (S n) f x = f (times n f x).
  Proof. induction n as [|n IH]; intros x; [ reflexivity |]. change (times (S (S n)) f x) with (times (S n) f (f x)). now rewrite IH. Qed.
  Lemma times_eq f n : forall m x, times n f x = times (n + m) f x ->
    (exists u v, u <> v /\ f u = f v) \/ times m f x = x.
  Proof.
    induction n as [|n IH]; intros m x H; [ right; symmetry; exact H |].
    change (S n + m)%nat with (S (n + m)) in H. rewrite !times_out in H.
    destruct (F_eq_dec (times n f x) (times (n + m) f x)) as [E|E]; [ exact (IH m x E) |].
    left. exists (times n f x), (times (n + m) f x). auto.
  Qed.

  Lemma filter_le {A} (q : A -> bool) l : (length (filter q l) <= length l)%nat.
  Proof. induction l as [|x l IH]; cbn [filter length]; [ lia |]. destruct (q x); cbn [length]; lia. Qed.
  (** A user with more transactions in a block than fit one step needs several, and ends with another
      accumulator than the users who needed one. *)
  Theorem C114_busy acc N k b s l z' :
    N <> 0%nat -> Forall (step_for N k b) l -> (N < length (flat_map work l))%nat ->
    urun acc N (u_list s) l z' ->
    (2 <= length l)%nat /\ exists s', z' = u_list s' /\
      (us_acc s' = acc (us_acc s) (block_hashV b) ->
       (exists u v, u <> v /\ acc u (block_hashV b) = acc v (block_hashV b)) \/
       exists n, (0 < n)%nat /\ times n (fun x => acc x (block_hashV b)) (us_acc s) = us_acc s).
  Proof.
    intros HN Hl Hw R.
    assert (Hlen : (length (flat_map work l) <= N * length l)%nat).
    { clear - Hl. induction Hl as [|a l Ha Hl IH]; cbn [flat_map length]; [ lia |]. rewrite app_length.
      assert (X : (length (work a) <= N)%nat).
      { unfold work. etransitivity; [ apply filter_le |]. apply Nat.eq_le_incl. exact (items_length N a (lengths_of _ _ _ _ Ha)). }
      lia. }
    assert (H2 : (2 <= length l)%nat) by (destruct l as [|a [|a2 l]]; cbn [length] in *; lia).
    split; [ exact H2 |].
    destruct (run_end acc N k b l HN Hl s z' R) as (s' & -> & _ & _ & _ & A & _). exists s'. split; [ reflexivity |].
    intros E. rewrite A in E. set (f := fun x => acc x (block_hashV b)) in *.
    assert (E' : times 1 f (us_acc s) = times (1 + (length l - 1)) f (us_acc s)).
    { replace (1 + (length l - 1))%nat with (length l) by lia. symmetry. exact E. }
    apply times_eq in E' as [E'|E']; [ now left | right; exists (length l - 1)%nat; split; [ lia | exact E' ] ].
  Qed.
End props.

Print Assumptions C114_split.
Print Assumptions C114_busy.

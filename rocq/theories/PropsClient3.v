(** Properties C69, C72 (accumulator), C74 (default input): histories of a user's steps. *)
From Coq Require Import ZArith List Bool Lia Sorted.
Import ListNotations.
From Verif Require Import Base Env Circuit SparseMT SparseMTSpec SparseMTHeap SparseMTRep SparseMTProofs
  SparseMTGadget SparseMTGadgetProofs Data DataSpec DataFacts Gadgets GadgetsProofs PropsData AggCircuit AggCircuitFacts AggCircuitSpec CircuitRun
  PropsTree Client ClientSpec ClientFacts PropsClient PropsClient2.
Open Scope Z_scope.

Section props.
  Context {hs : Hashes} {G : Curve}.
  Variables (acc : accumulator) (N : nat).

  (** ** C69 *)
  Theorem C69_heights l s z' :
    urun acc N (u_list s) l z' ->
    StronglySorted Z.le (zval (us_height s) :: map step_height l) /\
    Forall (fun a => step_height a < max_cmp) l.
  Proof.
    intros H. assert (H' : Sorted Z.le (zval (us_height s) :: map step_height l) /\ Forall (fun a => step_height a < max_cmp) l).
    { revert s H. induction l as [|a l IH]; intros s H; cbn [map]; [ repeat constructor |].
      apply urun_inv in H as [C H]. destruct (IH _ H) as [H1 H2]. destruct C as (_ & _ & C1 & C2 & _).
      split; [ constructor; [ exact H1 | constructor; exact C1 ] |]. constructor; [ lia | exact H2 ]. }
    destruct H' as [H1 H2]. split; [| exact H2 ]. apply Sorted_StronglySorted; [ intros x y w; lia | exact H1 ].
  Qed.

  Definition block_pre (a : user_auxV) : list F :=
    [vb_utxo_root (ux_block a); vb_tx_root (ux_block a); vb_signer_root (ux_block a); vb_height (ux_block a)].
  (** two steps of the run on different blocks with one hash *)
  Definition block_collision (l : list user_auxV) : Prop :=
    exists a b, In a l /\ In b l /\ crh_collision (block_pre a) (block_pre b).
  Lemma exists_dec {A} (Q : A -> Prop) l : (forall x, Q x \/ ~ Q x) -> (exists x, In x l /\ Q x) \/ (forall x, In x l -> ~ Q x).
  Proof.
    intros D. induction l as [|y l IH]; [ right; intros x [] |].
    destruct (D y) as [H|H]; [ left; exists y; split; [ now left | exact H ] |].
    destruct IH as [(x & Hx & Q1)|IH]; [ left; exists x; split; [ now right | exact Q1 ] |].
    right. intros x [<-|Hx]; auto.
  Qed.
  Lemma block_collision_dec l : block_collision l \/
    forall a b, In a l -> In b l -> step_block a = step_block b -> block_pre a = block_pre b.
  Proof.
    assert (D : forall a b, crh_collision (block_pre a) (block_pre b) \/ ~ crh_collision (block_pre a) (block_pre b)).
    { intros a b. unfold crh_collision. destruct (list_eq_dec (fun x y : F => F_eq_dec x y) (block_pre a) (block_pre b)) as [E|E]; [ tauto |].
      destruct (F_eq_dec (crh (block_pre a)) (crh (block_pre b))); tauto. }
    destruct (exists_dec (fun a => exists b, In b l /\ crh_collision (block_pre a) (block_pre b)) l) as [(a & Ha & b & Hb & H)|H].
    - intros a. destruct (exists_dec (fun b => crh_collision (block_pre a) (block_pre b)) l (D a)) as [H|H]; [ now left |].
      right. intros (b & Hb & Hc). exact (H b Hb Hc).
    - left. exists a, b. auto.
    - right. intros a b Ha Hb E. destruct (list_eq_dec (fun x y : F => F_eq_dec x y) (block_pre a) (block_pre b)) as [E'|E']; [ exact E' |].
      exfalso. apply (H a Ha). exists b. split; [ exact Hb |]. split; [ exact E' | exact E ].
  Qed.

  Lemma filter_none {A} (f : A -> bool) l : (forall x, In x l -> f x = false) -> filter f l = [].
  Proof.
    induction l as [|x l IH]; intros H; [ reflexivity |]. cbn [filter]. rewrite (H x) by now left. apply IH. intros y Hy. apply H. now right.
  Qed.
  (** once a run has left a block it does not come back *)
  Lemma contiguous b l : forall s z', urun acc N (u_list s) l z' -> us_block s = b ->
    (forall a a', In a l -> In a' l -> step_height a = step_height a' <-> step_block a = step_block a') ->
    (forall a, In a l -> step_block a = b <-> step_height a = zval (us_height s)) ->
    exists l1 l2, l = l1 ++ l2 /\ Forall (fun a => step_block a = b) l1 /\ forall a, In a l2 -> step_block a <> b.
  Proof.
    induction l as [|a l IH]; intros s z' H Es Hd Hs; [ exists [], []; split; [ reflexivity |]; split; [ constructor | intros a [] ] |].
    destruct (F_eq_dec (step_block a) b) as [E|E].
    - apply urun_inv in H as [C H]. destruct (IH _ _ H E) as (l1 & l2 & -> & H1 & H2).
      + intros x y Hx Hy. apply Hd; now right.
      + intros x Hx. change (zval (us_height (step_result acc s a))) with (step_height a).
        rewrite (Hs x (or_intror Hx)). rewrite (proj1 (Hs a (or_introl eq_refl)) E). reflexivity.
      + exists (a :: l1), l2. split; [ reflexivity |]. split; [ constructor; assumption | assumption ].
    - exists [], (a :: l). split; [ reflexivity |]. split; [ constructor |].
      pose proof (proj1 (C69_heights _ _ _ H)) as Hh. cbn [map] in Hh. inversion Hh as [|? ? Hh1 Hh2]; subst.
      inversion Hh1 as [|? ? Hh3 Hh4]; subst. pose proof (Forall_inv Hh2) as Hh5. cbv beta in Hh5.
      assert (Hne : step_height a <> zval (us_height s)) by (intros E'; apply E; now apply Hs; [ left |]).
      intros x [<-|Hx] E'; [ contradiction |]. apply (Hs x (or_intror Hx)) in E'.
      rewrite Forall_forall in Hh4. specialize (Hh4 (step_height x) (in_map _ _ _ Hx)). lia.
  Qed.
  Lemma indices_for_app b l l' : indices_for b (l ++ l') = indices_for b l ++ indices_for b l'.
  Proof. unfold indices_for. rewrite filter_app, flat_map_app. reflexivity. Qed.
  Lemma indices_for_all b l : Forall (fun a => step_block a = b) l -> indices_for b l = flat_map indices l.
  Proof.
    unfold indices_for. induction 1 as [|a l E _ IH]; [ reflexivity |]. cbn [filter]. rewrite E, Feqb_refl. cbn [flat_map]. now rewrite IH.
  Qed.
  Lemma indices_for_none b l : (forall a, In a l -> step_block a <> b) -> indices_for b l = [].
  Proof.
    intros H. unfold indices_for. rewrite filter_none; [ reflexivity |]. intros a Ha. apply Feqb_neq. now apply H.
  Qed.
  Lemma urun_app l1 : forall l2 s z', urun acc N (u_list s) (l1 ++ l2) z' ->
    exists s1, urun acc N (u_list s) l1 (u_list s1) /\ urun acc N (u_list s1) l2 z'.
  Proof.
    induction l1 as [|a l1 IH]; intros l2 s z' H; cbn [app] in H; [ exists s; split; [ constructor | exact H ] |].
    apply urun_inv in H as [C H]. destruct (IH _ _ _ H) as (s1 & H1 & H2). exists s1. split; [| exact H2 ].
    econstructor; [| exact H1 ]. apply satisfied_state. split; [ exact C | reflexivity ].
  Qed.
  Theorem C69_one_pass l s z' b :
    urun acc N (u_list s) l z' ->
    (forall a a', In a l -> In a' l -> step_height a = step_height a' -> step_block a = step_block a') ->
    StronglySorted Z.lt (indices_for b l) \/ block_collision l.
  Proof.
    intros H Hd. destruct (block_collision_dec l) as [Hc|Hc]; [ now right | left ].
    assert (Hd' : forall a a', In a l -> In a' l -> step_height a = step_height a' <-> step_block a = step_block a').
    { intros a a' Ha Ha'. split; [ now apply Hd |]. intros E. apply (Hc a a' Ha Ha') in E.
      apply (f_equal (fun l => nth 3 l Fzero)) in E. unfold step_height. exact (f_equal zval E). }
    clear Hd Hc. revert s H. induction l as [|a l IH]; intros s H; [ constructor |].
    destruct (F_eq_dec (step_block a) b) as [E|E].
    - pose proof H as H0. apply urun_inv in H0 as [C H0].
      destruct (contiguous b l _ _ H0 E) as (l1 & l2 & -> & H1 & H2).
      + intros x y Hx Hy. apply Hd'; now right.
      + intros x Hx. change (zval (us_height (step_result acc s a))) with (step_height a). rewrite <- E. symmetry. apply Hd'; [ now right | now left ].
      + change (a :: l1 ++ l2) with ((a :: l1) ++ l2) in *. rewrite indices_for_app, (indices_for_none b l2 H2), app_nil_r.
        rewrite indices_for_all by (constructor; assumption).
        apply urun_app in H as (s1 & H & _). apply (C66_one_block acc N b _ _ _ H). constructor; assumption.
    - apply urun_inv in H as [C H].
      replace (indices_for b (a :: l)) with (indices_for b l); [ eapply IH; [| exact H ]; intros x y Hx Hy; apply Hd'; now right |].
      unfold indices_for. cbn [filter]. apply Feqb_neq in E. now rewrite E.
  Qed.

  (** what a run credits: block and position in its transaction tree *)
  Definition credits (l : list user_auxV) : list (F * Z) :=
    flat_map (fun a => map (fun i => (step_block a, i mod 4096)) (indices a)) l.
  Lemma credits_for b l : map snd (filter (fun c => Feqb (fst c) b) (credits l)) = map (fun i => i mod 4096) (indices_for b l).
  Proof.
    unfold credits, indices_for. induction l as [|a l IH]; [ reflexivity |]. cbn [flat_map filter].
    rewrite filter_app, map_app, IH. destruct (Feqb (step_block a) b) eqn:E.
    - cbn [flat_map]. rewrite map_app. f_equal. clear IH. induction (indices a) as [|i r IHr]; [ reflexivity |].
      cbn [map filter fst]. rewrite E. cbn [map snd]. now rewrite IHr.
    - replace (filter _ (map _ (indices a))) with (@nil (F * Z)); [ reflexivity |]. symmetry. apply filter_none.
      intros x Hx. apply in_map_iff in Hx as (i & <- & _). exact E.
  Qed.
  Lemma NoDup_by_fst (l : list (F * Z)) : (forall b, NoDup (map snd (filter (fun c => Feqb (fst c) b) l))) -> NoDup l.
  Proof.
    induction l as [|[b z] l IH]; intros H; constructor.
    - intros Hin. specialize (H b). cbn [filter fst] in H. rewrite Feqb_refl in H. cbn [map snd] in H.
      inversion H as [|? ? H1 _]; subst. apply H1. apply in_map_iff. exists (b, z). split; [ reflexivity |].
      apply filter_In. split; [ exact Hin |]. apply Feqb_refl.
    - apply IH. intros b'. specialize (H b'). cbn [filter fst] in H. destruct (Feqb b b'); [| exact H ].
      cbn [map] in H. now inversion H.
  Qed.
  Lemma all_bounds l : forall s z', urun acc N (u_list s) l z' -> forall a i, In a l -> In i (indices a) -> 0 < i <= max_cmp.
  Proof.
    induction l as [|a l IH]; intros s z' H x i Hx Hi; [ destruct Hx |]. apply urun_inv in H as [C H].
    destruct Hx as [<-|Hx]; [ eapply indices_bound; eauto | eauto ].
  Qed.
  Theorem C69_each_position_once l s z' :
    urun acc N (u_list s) l z' ->
    (forall a a', In a l -> In a' l -> step_height a = step_height a' -> step_block a = step_block a') ->
    (forall a i, In a l -> In i (indices a) -> i < 4096) ->
    NoDup (credits l) \/ block_collision l.
  Proof.
    intros H Hd Hi. destruct (block_collision_dec l) as [Hc|Hc]; [ now right |].
    assert (Hnc : ~ block_collision l).
    { intros (a & b & Ha & Hb & Hne & Eh). apply Hne. apply Hc; auto. }
    left. apply NoDup_by_fst. intros b. rewrite credits_for.
    destruct (C69_one_pass l s z' b H Hd) as [Hs|Hs]; [| contradiction ].
    rewrite mod_small_map; [ now apply sorted_nodup |].
    intros i Hin. unfold indices_for in Hin. apply in_flat_map in Hin as (a & Ha & Hin). apply filter_In in Ha as [Ha _].
    pose proof (all_bounds l s z' H a i Ha Hin). specialize (Hi a i Ha Hin). lia.
  Qed.

  (** a step on a made-up block with only default transactions *)
  Definition idle_on (blk : blockV) (k : pt) : user_auxV :=
    {| ux_tx_proofs := repeat (default_path tx_cfg) N; ux_signer_proofs := repeat (default_path signer_cfg) N;
       ux_block := blk; ux_txs := repeat (tx_alloc tx_default, Fzero) N; ux_pk := k |}.
  Lemma idle_lengths blk k : lengths_ok N (idle_on blk k).
  Proof. unfold lengths_ok, idle_on. cbn [ux_tx_proofs ux_txs ux_signer_proofs]. now rewrite !repeat_length. Qed.
  Lemma idle_indices blk k : indices (idle_on blk k) = [].
  Proof.
    unfold indices, regular_entries. rewrite filter_none; [ reflexivity |].
    intros x Hx. apply repeat_spec in Hx as ->. exact default_not_regular.
  Qed.
  Lemma max_cmp_pos : 0 <= max_cmp.
  Proof. unfold max_cmp. pose proof p_bounds. apply Z.div_pos; lia. Qed.
  Lemma idle_conditions blk k s : pk_hashV k = us_pk s -> zval (us_height s) <= zval (vb_height blk) -> zval (vb_height blk) < max_cmp ->
    (N <> 0%nat -> zval (start_index s (idle_on blk k)) <= max_cmp) -> step_conditions N s (idle_on blk k).
  Proof.
    intros H1 H2 H3 H4. unfold step_conditions. rewrite idle_indices.
    split; [ apply idle_lengths |]. split; [ exact H1 |]. split; [ exact H2 |].
    split; [ unfold step_height; cbn [ux_block idle_on]; lia |]. split; [ exact H4 |]. split; [ repeat constructor |].
    intros n t i tp sp (E1 & E2 & E3). unfold idle_on in E1, E2, E3. cbn [ux_tx_proofs ux_txs ux_signer_proofs] in E1, E2, E3.
    apply nth_error_In, repeat_spec in E1, E2, E3. apply pair_equal_spec in E1 as [-> ->]. subst tp sp.
    split; [ apply repeat_length |]. split; [ apply repeat_length |]. split; [ rewrite zval_F0; apply max_cmp_pos |].
    rewrite default_not_regular. discriminate.
  Qed.
  Lemma idle_gain blk k : step_gain (idle_on blk k) = 0.
  Proof.
    unfold step_gain, transactions, idle_on. cbn [ux_txs ux_pk]. clear. induction N as [|n IH]; [ reflexivity |].
    cbn [repeat map zsumm fst]. now rewrite gain_default, IH.
  Qed.

  Theorem C69_replay s a z1 blk :
    satisfied acc N (u_list s) a z1 ->
    vb_height blk = vb_height (ux_block a) -> block_hashV blk <> step_block a ->
    exists s1 s2 s3, z1 = u_list s1 /\
      satisfied acc N (u_list s1) (idle_on blk (ux_pk a)) (u_list s2) /\
      satisfied acc N (u_list s2) a (u_list s3) /\
      zval (us_balance s3) = (zval (us_balance s1) + step_gain a) mod p.
  Proof.
    rewrite satisfied_state. intros [C ->] Hh Hb. pose proof C as (L & H1 & H2 & H3 & H4 & H5 & H6).
    set (s1 := step_result acc s a). set (w := idle_on blk (ux_pk a)).
    assert (Hw : start_index s1 w = Fzero).
    { unfold start_index. change (us_block s1) with (step_block a). change (step_block w) with (block_hashV blk).
      apply Feqb_neq in Hb. now rewrite Hb. }
    assert (Cw : step_conditions N s1 w).
    { apply idle_conditions; [ exact H1 | rewrite Hh; apply Z.le_refl | rewrite Hh; unfold step_height in H3; lia |].
      intros _. fold w. rewrite Hw, zval_F0. apply max_cmp_pos. }
    set (s2 := step_result acc s1 w).
    assert (Ha : start_index s2 a = Fzero).
    { unfold start_index. change (us_block s2) with (block_hashV blk). rewrite Feqb_sym. apply Feqb_neq in Hb. now rewrite Hb. }
    exists s1, s2, (step_result acc s2 a). split; [ reflexivity |].
    split; [ apply satisfied_state; split; [ exact Cw | reflexivity ] |].
    split; [ apply satisfied_state; split; [| reflexivity ] |].
    - unfold step_conditions. rewrite Ha. split; [ exact L |]. split; [ exact H1 |].
      split; [ change (zval (vb_height blk) <= step_height a); rewrite Hh; apply Z.le_refl |]. split; [ exact H3 |].
      split; [ intros _; rewrite zval_F0; apply max_cmp_pos |]. split; [| exact H6 ].
      rewrite zval_F0. inversion H5 as [|? ? S1 S2]; subst. constructor; [ exact S1 |].
      pose proof (F_range (start_index s a)). inversion S2; subst; constructor. lia.
    - change (us_balance (step_result acc s2 a)) with (Fof (zval (us_balance s2) + step_gain a)).
      rewrite zval_Fof. f_equal. f_equal.
      change (us_balance s2) with (Fof (zval (us_balance s1) + step_gain w)). unfold w. rewrite idle_gain, Z.add_0_r, Fof_zval. reflexivity.
  Qed.

  (** ** C74: the default auxiliary input *)
  Theorem C74_default s z' :
    let blank_hash := crh [Fzero; Fzero; Fzero; Fzero] in
    satisfied acc N (u_list s) (aux_alloc (aux_default N)) z' <->
    pk_hash pzero = us_pk s /\ zval (us_height s) = 0 /\
    (N <> 0%nat -> step_block (aux_alloc (aux_default N)) = us_block s -> zval (us_index s) <= max_cmp) /\
    exists s', z' = u_list s' /\
      us_balance s' = us_balance s /\ zval (us_nonce s') = (zval (us_nonce s) + Z.of_nat N) mod p /\
      us_pk s' = us_pk s /\ us_acc s' = acc (us_acc s) (blank_hash) /\
      us_block s' = blank_hash /\ us_height s' = Fzero /\
      us_index s' = if Feqb (blank_hash) (us_block s) then us_index s else Fzero.
  Proof.
    intros blank_hash. change blank_hash with (block_hash block_default). clear blank_hash.
    assert (Ea : aux_alloc (aux_default N) = idle_on (block_alloc block_default) pzero).
    { unfold aux_alloc, aux_default, idle_on. cbn [u_tx_proofs u_signer_proofs u_block u_txs u_pk].
      assert (R : forall {A} (x : A) n m, map (fun _ => x) (seq m n) = repeat x n).
      { intros A x n. induction n as [|n IH]; intros m; cbn; [ reflexivity | now rewrite IH ]. }
      rewrite map_map. cbn [fst snd]. rewrite !R. reflexivity. }
    rewrite Ea, satisfied_state. set (w := idle_on (block_alloc block_default) pzero).
    assert (Eh : step_height w = 0) by reflexivity.
    assert (Er : step_result acc s w = mkU (us_balance s) (Fof (zval (us_nonce s) + Z.of_nat N)) (us_pk s)
              (acc (us_acc s) (block_hash block_default)) (block_hash block_default) Fzero
              (if Feqb (block_hash block_default) (us_block s) then us_index s else Fzero)).
    { unfold step_result. unfold w. rewrite idle_gain, idle_indices, Z.add_0_r, Fof_zval. cbn [last]. rewrite Fof_zval.
      assert (Es : step_signed (idle_on (block_alloc block_default) pzero) = Z.of_nat N).
      { unfold step_signed, transactions, idle_on. cbn [ux_txs ux_pk]. f_equal. clear. induction N as [|n IH]; [ reflexivity |].
        cbn [repeat map filter fst]. rewrite signer_default, pt_eqb_refl. cbn [length]. now rewrite IH. }
      rewrite Es. reflexivity. }
    rewrite Er. split.
    - intros [(_ & H1 & H2 & H3 & H4 & _) ->].
      split; [ exact H1 |]. split; [ pose proof (F_range (us_height s)); lia |].
      split.
      { intros Hn E. specialize (H4 Hn). unfold start_index in H4. rewrite E, Feqb_refl in H4. exact H4. }
      eexists. split; [ reflexivity |]. cbn [us_balance us_nonce us_pk us_acc us_block us_height us_index]. rewrite zval_Fof. auto 10.
    - intros (H1 & H2 & H3 & s' & -> & B1 & B2 & B3 & B4 & B5 & B6 & B7). split.
      + assert (Hs : N <> 0%nat -> zval (start_index s w) <= max_cmp).
        { intros Hn. unfold start_index. destruct (Feqb (step_block w) (us_block s)) eqn:E; [| rewrite zval_F0; apply max_cmp_pos ].
          apply Feqb_eq in E. now apply H3. }
        apply idle_conditions; [ exact H1 | change (zval (us_height s) <= 0); lia | change (0 < max_cmp) | exact Hs ].
        unfold max_cmp. pose proof p_bounds. apply Z.div_str_pos. pose proof p_254. lia.
      + f_equal. destruct s' as [b n k ac bl he ix]. cbn [us_balance us_nonce us_pk us_acc us_block us_height us_index] in *.
        subst. f_equal. apply zval_F. rewrite zval_Fof. exact B2.
  Qed.

  (** ** C72: the accumulator fixes the blocks *)
  Fixpoint absorbed (a : F) (l : list F) : list (F * F) :=
    match l with [] => [] | h :: r => (a, h) :: absorbed (acc a h) r end.
  Lemma acc_sound l : forall l' a a', length l = length l' -> fold_left acc l a = fold_left acc l' a' ->
    (a = a' /\ l = l') \/
    exists x y, In x (absorbed a l) /\ In y (absorbed a' l') /\ x <> y /\ acc (fst x) (snd x) = acc (fst y) (snd y).
  Proof.
    induction l as [|h l IH]; intros [|h' l'] a a' Hl E; try discriminate Hl; cbn [fold_left absorbed] in *; [ left; auto |].
    destruct (IH l' (acc a h) (acc a' h') ltac:(now injection Hl) E) as [[E1 ->]|(x & y & Hx & Hy & H)].
    - destruct (F_eq_dec a a') as [->|Hn]; [ destruct (F_eq_dec h h') as [->|Hn] |].
      + left; auto.
      + right. exists (a', h), (a', h'). repeat split; [ now left | now left | congruence | exact E1 ].
      + right. exists (a, h), (a', h'). repeat split; [ now left | now left | congruence | exact E1 ].
    - right. exists x, y. split; [ now right |]. split; [ now right |]. exact H.
  Qed.
  Theorem C72_accumulator_commits l l' s s' t t' :
    urun acc N (u_list s) l (u_list t) -> urun acc N (u_list s') l' (u_list t') ->
    length l = length l' -> us_acc t = us_acc t' ->
    (us_acc s = us_acc s' /\ map step_block l = map step_block l') \/
    exists x y, In x (absorbed (us_acc s) (map step_block l)) /\ In y (absorbed (us_acc s') (map step_block l')) /\
      x <> y /\ acc (fst x) (snd x) = acc (fst y) (snd y).
  Proof.
    intros H H' Hl E.
    destruct (C72_bindings acc N l s _ H) as (t1 & E1 & _ & _ & Ha & _). apply u_list_inj in E1. subst t1.
    destruct (C72_bindings acc N l' s' _ H') as (t1 & E1 & _ & _ & Ha' & _). apply u_list_inj in E1. subst t1.
    apply acc_sound; [ now rewrite !map_length | congruence ].
  Qed.
End props.

Print Assumptions C69_heights.
Print Assumptions C69_one_pass.
Print Assumptions C69_each_position_once.
Print Assumptions C69_replay.
Print Assumptions C74_default.
Print Assumptions C72_accumulator_commits.

(** Totality of tree operations on arbitrary tree values (also ones damaged by out-of-range
    updates). *)
From Coq Require Import ZArith List Bool Lia.
Import ListNotations.
From Verif Require Import Base Env SparseMT SparseMTSpec SparseMTHeap SparseMTRep SparseMTNew SparseMTProofs.
Open Scope Z_scope.

Section total.
  Context {hs : Hashes} (dbg : bool) (P : SparseConfig) (Hok : cfg_ok P).
  Let h := (HEIGHT P - 1)%nat.

  Lemma sibling_some idx : 0 < idx -> idx + 1 < two64 ->
    exists s, sibling dbg idx = @Ok mt_error _ (Some s).
  Proof.
    intros H1 H2. unfold sibling. assert (idx =? 0 = false) as -> by (apply Z.eqb_neq; lia).
    destruct (is_left_child idx).
    - rewrite uadd_ok by (unfold is_u64; lia). eexists; reflexivity.
    - rewrite usub_ok by (unfold is_u64; lia). eexists; reflexivity.
  Qed.
  Lemma parent_some idx : 0 < idx -> parent idx = Some ((idx - 1) / 2) /\ (idx - 1) / 2 + 1 = (idx + 1) / 2.
  Proof.
    intros H. unfold parent. assert (0 <? idx = true) as -> by (apply Z.ltb_lt; lia).
    rewrite Z.shiftr_div_pow2 by lia. change (2 ^ 1) with 2. split; auto.
    replace (idx + 1) with (idx - 1 + 1 * 2) by lia. rewrite Z.div_add; lia.
  Qed.

  Lemma siblings_loop_total t n : forall i idx, (n + i <= length (t_empty t))%nat ->
    pw n <= idx + 1 < two64 ->
    exists l, siblings_loop dbg t n i idx = Ok l /\ length l = n.
  Proof.
    induction n as [|n IH]; intros i idx Hn Hidx; cbn [siblings_loop].
    - exists []; auto.
    - rewrite pw_S in Hidx. pose proof (pw_pos n).
      destruct (sibling_some idx) as (s & ->); try lia. cbn [rbind unwrap].
      destruct (nth_error (t_empty t) i) as [e|] eqn:Ee.
      2:{ apply nth_error_None in Ee. lia. }
      cbn [rbind unwrap]. destruct (parent_some idx ltac:(lia)) as [-> Es]. cbn [rbind unwrap].
      destruct (IH (S i) ((idx - 1) / 2)) as (l & -> & Hl); auto; try lia.
      { rewrite Es. split; [ apply Z.div_le_lower_bound; lia | apply Z.div_lt_upper_bound; lia ]. }
      cbn [rbind]. eexists; split; [ reflexivity |]. cbn; lia.
  Qed.
  Lemma up_loop_total sibs : forall m idx x, pw (length sibs) <= idx + 1 ->
    exists m' y, up_loop m sibs idx x = @Ok mt_error _ (m', y).
  Proof.
    induction sibs as [|s sibs IH]; intros m idx x Hidx; cbn [up_loop length] in *.
    - eexists _, _; reflexivity.
    - rewrite pw_S in Hidx. pose proof (pw_pos (length sibs)).
      destruct (parent_some idx ltac:(lia)) as [-> Es]. cbn [rbind unwrap].
      apply IH. rewrite Es. apply Z.div_le_lower_bound; lia.
  Qed.
  Theorem update_total t i l : 0 <= i -> i + capacity P < two64 -> t_empty t = gen_empty_hashes P ->
    exists t' pf, update_and_prove dbg P t i l = Ok (t', pf) /\ length pf = h /\
                  t_empty t' = gen_empty_hashes P /\ t_root t' <> None.
  Proof.
    intros Hi Hlt He. unfold capacity in Hlt. fold h in Hlt. fold (pw h) in Hlt. pose proof (pw_pos h).
    assert (Hl : (h <= length (t_empty t))%nat).
    { rewrite He. unfold gen_empty_hashes, h. unfold cfg_ok in Hok.
      assert (forall n e, length (empty_from n e) = S n) as ->
        by (induction n as [|n IH]; intros e; cbn; auto). lia. }
    unfold update_and_prove, siblings, convert_index_to_last_level. fold h. fold (pw h).
    rewrite uadd_ok by (unfold is_u64; lia). cbn [rbind].
    rewrite usub_ok by (unfold is_u64; lia). cbn [rbind].
    destruct (siblings_loop_total t h 0 (i + pw h - 1)) as (sl & -> & Hsl); try lia.
    cbn [rbind].
    destruct (up_loop_total sl (t_map t) (i + pw h - 1) (LeafHash P l)) as (m' & y & ->); [ rewrite Hsl; lia |].
    cbn [rbind]. eexists _, sl. split; [ reflexivity |]. split; auto. cbn. split; auto. discriminate.
  Qed.

  Lemma gmp_loop_total m iter : forall idx acc, 0 <= idx -> idx + 1 < two64 -> idx + 1 <= pw (length iter) ->
    exists path, gmp_loop dbg m iter idx acc = @Ok mt_error _ path.
  Proof.
    induction iter as [|e iter IH]; intros idx acc H0 H1 H2; cbn [gmp_loop]; unfold is_root.
    - change (pw (length (@nil F))) with 1 in H2. assert (idx =? 0 = true) as -> by (apply Z.eqb_eq; lia). eauto.
    - destruct (idx =? 0) eqn:E; [ eauto |]. apply Z.eqb_neq in E.
      destruct (sibling_some idx) as (s & ->); try lia. cbn [rbind unwrap].
      destruct (parent_some idx ltac:(lia)) as [-> Es]. cbn [rbind unwrap].
      cbn [length] in H2. rewrite pw_S in H2.
      assert ((idx + 1) / 2 <= pw (length iter)).
      { apply Z.lt_succ_r. apply Z.div_lt_upper_bound; lia. }
      assert ((idx + 1) / 2 <= (idx + 1)) by (apply Z.div_le_upper_bound; lia).
      assert (1 <= (idx + 1) / 2) by (apply Z.div_le_lower_bound; lia).
      apply IH; lia.
  Qed.
  Lemma gmp_no_panic t i : 0 <= i <= capacity P -> t_empty t = gen_empty_hashes P ->
    generate_membership_proof dbg P t i <> Panic.
  Proof.
    intros Hi He. unfold generate_membership_proof, convert_index_to_last_level. fold h.
    unfold capacity in Hi. fold h in Hi. fold (pw h) in Hi |- *. pose proof (pw_pos h).
    assert (pw h <= pw 61) by (apply pw_le; unfold h, cfg_ok in *; lia).
    assert (pw 61 * 4 < two64) by reflexivity.
    rewrite uadd_ok by (unfold is_u64; lia). cbn [rbind].
    rewrite usub_ok by (unfold is_u64; lia). cbn [rbind].
    assert (Hl : length (t_empty t) = S (S h)).
    { rewrite He. unfold gen_empty_hashes, h. unfold cfg_ok in Hok.
      assert (forall n e, length (empty_from n e) = S n) as ->
        by (induction n as [|n IH]; intros e; cbn; auto). lia. }
    destruct (gmp_loop_total (t_map t) (t_empty t) (i + pw h - 1) []) as (path & ->); try lia.
    { rewrite Hl, !pw_S. lia. }
    cbn [rbind]. destruct (_ =? _)%nat; discriminate.
  Qed.
  Lemma generate_proof_no_panic t i l : 0 <= i <= capacity P -> t_empty t = gen_empty_hashes P ->
    generate_proof dbg P t i l <> Panic.
  Proof.
    intros Hi He. pose proof (gmp_no_panic t i Hi He) as Hg. unfold generate_proof, convert_index_to_last_level.
    unfold capacity in Hi. fold h in Hi |- *. fold (pw h) in Hi |- *. pose proof (pw_pos h).
    assert (pw h <= pw 61) by (apply pw_le; unfold h, cfg_ok in *; lia).
    assert (pw 61 * 4 < two64) by reflexivity.
    rewrite uadd_ok by (unfold is_u64; lia). cbn [rbind].
    rewrite usub_ok by (unfold is_u64; lia). cbn [rbind].
    destruct (bm_get _ _); auto. destruct (negb _); auto. discriminate.
  Qed.
  Lemma update_empty t i l t' pf : update_and_prove dbg P t i l = Ok (t', pf) -> t_empty t' = t_empty t.
  Proof.
    unfold update_and_prove.
    destruct (siblings dbg P t i) as [sb| |]; cbn [rbind]; try discriminate.
    destruct (convert_index_to_last_level dbg P i) as [k| |]; cbn [rbind]; try discriminate.
    destruct (up_loop (t_map t) sb k (LeafHash P l)) as [[m x]| |]; cbn [rbind]; try discriminate.
    now intros [= <- _].
  Qed.
End total.

(** Heap-index arithmetic and basic facts about maps and specification nodes. *)
From Coq Require Import ZArith List Bool Lia.
Import ListNotations.
From Verif Require Import Base Env SparseMT SparseMTSpec.
Open Scope Z_scope.

(** * Powers of two *)
Definition pw (n : nat) : Z := 2 ^ Z.of_nat n.
Lemma pw_0 : pw 0 = 1.
Proof. reflexivity. Qed.
Lemma pw_S n : pw (S n) = 2 * pw n.
Proof. unfold pw; rewrite Nat2Z.inj_succ, Z.pow_succ_r; lia. Qed.
Lemma pw_pos n : 1 <= pw n.
Proof. induction n; [ rewrite pw_0 | rewrite pw_S ]; lia. Qed.
Lemma pw_add a b : pw (a + b) = pw a * pw b.
Proof. unfold pw; rewrite Nat2Z.inj_add, Z.pow_add_r; lia. Qed.
Lemma pw_le a b : (a <= b)%nat -> pw a <= pw b.
Proof. intros; unfold pw; apply Z.pow_le_mono_r; lia. Qed.
Lemma pw_lt a b : (a < b)%nat -> pw a < pw b.
Proof. intros; unfold pw; apply Z.pow_lt_mono_r; lia. Qed.
Lemma pw_64 : pw 64 = two64.
Proof. reflexivity. Qed.

(** * Maps *)
Lemma bm_get_insert {V} (m : bmap V) k v k' :
  bm_get (bm_insert m k v) k' = if k' =? k then Some v else bm_get m k'.
Proof.
  induction m as [|[k0 v0] m IH]; cbn.
  - destruct (k' =? k); reflexivity.
  - destruct (k =? k0) eqn:E.
    + apply Z.eqb_eq in E; subst; cbn. destruct (k' =? k0); reflexivity.
    + destruct (k <? k0) eqn:L; cbn.
      * destruct (k' =? k) eqn:E2; reflexivity.
      * rewrite IH. destruct (k' =? k0) eqn:E2, (k' =? k) eqn:E3; auto.
        apply Z.eqb_eq in E2, E3; subst. rewrite Z.eqb_refl in E; discriminate.
Qed.
Lemma bm_get_In {V} (m : bmap V) k : In k (bm_keys m) <-> bm_get m k <> None.
Proof.
  induction m as [|[k0 v0] m IH]; cbn.
  - split; [ tauto | congruence ].
  - destruct (k =? k0) eqn:E.
    + apply Z.eqb_eq in E; subst. split; [ congruence | auto ].
    + apply Z.eqb_neq in E. rewrite <- IH. split; [ intros [->|]; tauto | tauto ].
Qed.
Lemma bm_contains_In {V} (m : bmap V) k : bm_contains m k = true <-> In k (bm_keys m).
Proof.
  rewrite bm_get_In. unfold bm_contains. destruct (bm_get m k); split; congruence.
Qed.
Lemma bs_insert_In s k x : In x (bs_insert s k) <-> x = k \/ In x s.
Proof.
  induction s as [|k0 s IH]; cbn; [ intuition congruence |].
  destruct (k =? k0) eqn:E.
  - apply Z.eqb_eq in E; subst; cbn; intuition congruence.
  - destruct (k <? k0); cbn; [ intuition congruence |]. rewrite IH; intuition congruence.
Qed.

(** * Heap positions *)

(** The heap index of the node of depth [d] (0 = leaves) and position [k] in a tree with [h]
    levels above the leaves. *)
Definition heap (h d : nat) (k : Z) : Z := pw (h - d) - 1 + k.

Section heap.
  Context (h : nat) (Hh : (1 <= h <= 61)%nat).

  Definition vpos (d : nat) (k : Z) : Prop := (d <= h)%nat /\ 0 <= k < pw (h - d).

  Lemma vpos_up d k : (d < h)%nat -> vpos d k -> vpos (S d) (k / 2).
  Proof.
    intros Hd [_ Hk]. replace (h - d)%nat with (S (h - S d)) in Hk by lia.
    rewrite pw_S in Hk. split; [ lia |].
    split; [ apply Z.div_pos; lia | apply Z.div_lt_upper_bound; lia ].
  Qed.
  Lemma vpos_down d k b : (b = 0 \/ b = 1) -> vpos (S d) k -> vpos d (2 * k + b).
  Proof.
    intros Hb [Hd Hk]. replace (h - d)%nat with (S (h - S d)) by lia.
    split; [ lia |]. replace (h - d)%nat with (S (h - S d)) by lia. rewrite pw_S. lia.
  Qed.
  Lemma vpos_sib d k : (d < h)%nat -> vpos d k ->
    vpos d (if Z.even k then k + 1 else k - 1).
  Proof.
    intros Hd [Hd' Hk]. split; auto.
    replace (h - d)%nat with (S (h - S d)) in * by lia. rewrite pw_S in *.
    destruct (Z.even k) eqn:E.
    - apply Z.even_spec in E as [x ->]. lia.
    - assert (Z.odd k = true) by (now rewrite <- Z.negb_even, E).
      apply Z.odd_spec in H as [x ->]. lia.
  Qed.
  Lemma heap_bound d k : vpos d k -> 0 <= heap h d k < pw (S h) - 1.
  Proof.
    intros [Hd Hk]. unfold heap. pose proof (pw_pos (h - d)).
    pose proof (pw_le (h - d) h ltac:(lia)). rewrite pw_S. lia.
  Qed.
  Lemma pw_S_h_small : pw (S h) <= pw 62.
  Proof. apply pw_le; lia. Qed.
  Lemma heap_u64 d k : vpos d k -> is_u64 (heap h d k).
  Proof.
    intros H%heap_bound. pose proof pw_S_h_small. unfold is_u64.
    assert (pw 62 < two64) by reflexivity. lia.
  Qed.
  Lemma heap_0_iff d k : vpos d k -> (heap h d k = 0 <-> d = h).
  Proof.
    intros [Hd Hk]; unfold heap; split.
    - intros E. destruct (Nat.eq_dec d h) as [|Hn]; auto.
      pose proof (pw_lt 0 (h - d) ltac:(lia)). rewrite pw_0 in *. lia.
    - intros ->. rewrite Nat.sub_diag in *. rewrite pw_0 in *. lia.
  Qed.
  Lemma heap_pos d k : (d < h)%nat -> vpos d k -> 0 < heap h d k.
  Proof.
    intros Hd Hv. pose proof (heap_bound d k Hv). pose proof (heap_0_iff d k Hv). lia.
  Qed.
  Lemma heap_inj d k d' k' :
    vpos d k -> vpos d' k' -> heap h d k = heap h d' k' -> d = d' /\ k = k'.
  Proof.
    intros [Hd Hk] [Hd' Hk'] E. unfold heap in E.
    assert (d = d').
    { destruct (lt_eq_lt_dec d d') as [[L|]|L]; auto; exfalso.
      - pose proof (pw_le (S (h - d')) (h - d) ltac:(lia)). rewrite pw_S in *. lia.
      - pose proof (pw_le (S (h - d)) (h - d') ltac:(lia)). rewrite pw_S in *. lia. }
    subst; split; auto; lia.
  Qed.
  Lemma heap_surj i : 0 <= i < pw (S h) - 1 -> exists d k, vpos d k /\ i = heap h d k.
  Proof.
    intros Hi.
    assert (exists e, (e <= h)%nat /\ pw e <= i + 1 < pw (S e)) as (e & He & Hb).
    { clear Hh. revert Hi. generalize h; clear. intros n; induction n; intros Hi.
      - exists 0%nat. rewrite pw_0, pw_S, pw_0 in *. lia.
      - destruct (Z_lt_le_dec (i + 1) (pw (S n))).
        + destruct IHn as (e & He & Hb); [ lia |]. exists e; split; [lia | auto].
        + exists (S n). split; auto; lia. }
    exists (h - e)%nat, (i + 1 - pw e). unfold vpos, heap.
    replace (h - (h - e))%nat with e by lia. rewrite pw_S in Hb. lia.
  Qed.
  Lemma heap_parent d k : (d < h)%nat -> vpos d k ->
    parent (heap h d k) = Some (heap h (S d) (k / 2)).
  Proof.
    intros Hd Hv. pose proof (heap_pos d k Hd Hv) as Hp.
    unfold parent. apply Z.ltb_lt in Hp as ->. f_equal.
    rewrite Z.shiftr_div_pow2 by lia. change (2 ^ 1) with 2.
    unfold heap. replace (h - d)%nat with (S (h - S d)) by lia. rewrite pw_S.
    replace (2 * pw (h - S d) - 1 + k - 1) with (k + (pw (h - S d) - 1) * 2) by lia.
    rewrite Z.div_add by lia. lia.
  Qed.
  Lemma heap_left d k : (d < h)%nat -> vpos d k ->
    is_left_child (heap h d k) = Z.even k.
  Proof.
    intros Hd Hv. unfold is_left_child, heap.
    replace (h - d)%nat with (S (h - S d)) by lia. rewrite pw_S.
    rewrite Zmod_odd, Z.odd_add, Z.odd_sub, Z.odd_mul; cbn.
    rewrite <- Z.negb_even. now destruct (Z.even k).
  Qed.
  Lemma heap_mod2 d k : (d < h)%nat -> vpos d k ->
    (heap h d k mod 2 =? 1) = Z.even k.
  Proof. apply heap_left. Qed.
  Lemma heap_sibling dbg d k : (d < h)%nat -> vpos d k ->
    sibling dbg (heap h d k) = Ok (Some (heap h d (if Z.even k then k + 1 else k - 1))).
  Proof.
    intros Hd Hv. unfold sibling.
    pose proof (heap_pos d k Hd Hv) as Hp.
    destruct (heap h d k =? 0) eqn:E; [ apply Z.eqb_eq in E; lia |].
    rewrite heap_left by auto.
    pose proof (heap_u64 _ _ (vpos_sib d k Hd Hv)) as Hu.
    destruct (Z.even k).
    - replace (heap h d (k + 1)) with (heap h d k + 1) in * by (unfold heap; lia).
      rewrite uadd_ok by exact Hu. reflexivity.
    - replace (heap h d (k - 1)) with (heap h d k - 1) in * by (unfold heap; lia).
      rewrite usub_ok by exact Hu. reflexivity.
  Qed.
  Lemma heap_children dbg d k : vpos (S d) k ->
    left_child dbg (heap h (S d) k) = Ok (heap h d (2 * k)) /\
    right_child dbg (heap h (S d) k) = Ok (heap h d (2 * k + 1)).
  Proof.
    intros Hv.
    pose proof (heap_u64 d _ (vpos_down d k 0 ltac:(auto) Hv)) as H0.
    pose proof (heap_u64 d _ (vpos_down d k 1 ltac:(auto) Hv)) as H1.
    pose proof (heap_bound _ _ Hv) as Hb. destruct Hv as [Hd Hk].
    assert (E : 2 * heap h (S d) k + 1 = heap h d (2 * k)).
    { unfold heap. replace (h - d)%nat with (S (h - S d)) by lia. rewrite pw_S; lia. }
    rewrite Z.add_0_r in H0.
    assert (E' : 2 * heap h (S d) k + 2 = heap h d (2 * k + 1)).
    { unfold heap in *. lia. }
    unfold left_child, right_child. rewrite umul_ok by (unfold is_u64 in *; lia).
    cbn [rbind]. rewrite !uadd_ok by (rewrite ?E, ?E'; auto). now rewrite E, E'.
  Qed.
End heap.

(** * Specification nodes *)
Section node.
  Context {hs : Hashes}.

  Lemma node_ext d f g k :
    (forall i, k * pw d <= i < (k + 1) * pw d -> f i = g i) -> node d f k = node d g k.
  Proof.
    revert k; induction d as [|d IH]; intros k H; cbn [node].
    - apply H. rewrite pw_0. lia.
    - rewrite pw_S in H. f_equal; apply IH; intros i Hi; apply H; lia.
  Qed.
  Lemma node_const d e k k' : node d (fun _ => e) k = node d (fun _ => e) k'.
  Proof.
    revert k k'; induction d as [|d IH]; intros; cbn [node]; auto.
    f_equal; apply IH.
  Qed.
  Lemma nth_empty_from n e d : (d <= n)%nat ->
    nth_error (empty_from n e) d = Some (node d (fun _ => e) 0).
  Proof.
    revert n e; induction d as [|d IH]; intros n e Hd.
    - destruct n; reflexivity.
    - destruct n as [|n]; [ lia |]. cbn [empty_from nth_error].
      rewrite IH by lia. f_equal. clear. revert e; induction d as [|d IH]; intros e.
      + reflexivity.
      + cbn [node]. rewrite (node_const d _ (2 * 0) 0), (node_const d _ (2 * 0 + 1) 0).
        rewrite IH. cbn [node].
        f_equal; f_equal; apply node_const.
  Qed.
  Lemma empty_from_length n e : length (empty_from n e) = S n.
  Proof. revert e; induction n; cbn; intros; auto. Qed.
End node.

(** Representation invariant of the sparse tree: established by [blank] and [new], preserved by
    [update_and_prove]. *)
From Coq Require Import ZArith List Bool Lia.
Import ListNotations.
From Verif Require Import Base Env SparseMT SparseMTSpec SparseMTHeap.
Open Scope Z_scope.

(** Position of the sibling. *)
Definition sibk (k : Z) : Z := if Z.even k then k + 1 else k - 1.

Lemma even_half k : Z.even k = true -> 2 * (k / 2) = k.
Proof.
  intros H. apply Z.even_spec in H as [x ->].
  rewrite (Z.mul_comm 2 x), Z.div_mul by lia. lia.
Qed.
Lemma odd_half k : Z.even k = false -> 2 * (k / 2) + 1 = k.
Proof.
  intros H. assert (Z.odd k = true) as H1 by (now rewrite <- Z.negb_even, H).
  apply Z.odd_spec in H1 as [x ->].
  replace (2 * x + 1) with (1 + x * 2) by lia. rewrite Z.div_add by lia. change (1 / 2) with 0. lia.
Qed.
Lemma div_pw_S i d : i / pw (S d) = i / pw d / 2.
Proof. rewrite pw_S, Z.mul_comm, Z.div_div; pose proof (pw_pos d); lia. Qed.
Lemma div_pw_0 i : i / pw 0 = i.
Proof. rewrite pw_0; apply Z.div_1_r. Qed.
Lemma div_pw_add i a b : i / pw a / pw b = i / pw (a + b).
Proof. rewrite pw_add, Z.div_div; pose proof (pw_pos a); pose proof (pw_pos b); lia. Qed.

Section paths.
  Context {hs : Hashes}.

  (** Siblings on the way up from position [k] at depth [d], [n] levels. *)
  Fixpoint sib_path (d n : nat) (f : Z -> F) (k : Z) : list F :=
    match n with
    | O => []
    | S n' => node d f (sibk k) :: sib_path (S d) n' f (k / 2)
    end.
  (** Hash upwards from [x] at position [k]. *)
  Fixpoint fold_sibs (sibs : list F) (k : Z) (x : F) : F :=
    match sibs with
    | [] => x
    | s :: r => fold_sibs r (k / 2) (if Z.even k then two x s else two s x)
    end.

  Lemma sib_path_length d n f k : length (sib_path d n f k) = n.
  Proof. revert d k; induction n; cbn; intros; auto. Qed.

  Lemma node_step d f k :
    (if Z.even k then two (node d f k) (node d f (sibk k)) else two (node d f (sibk k)) (node d f k))
    = node (S d) f (k / 2).
  Proof.
    unfold sibk; cbn [node]. destruct (Z.even k) eqn:E.
    - now rewrite (even_half k E).
    - rewrite (odd_half k E). do 2 f_equal. pose proof (odd_half k E). lia.
  Qed.
  Lemma fold_sib_path d n f k :
    fold_sibs (sib_path d n f k) k (node d f k) = node (n + d) f (k / pw n).
  Proof.
    revert d k; induction n as [|n IH]; intros d k; cbn [sib_path fold_sibs].
    - now rewrite div_pw_0.
    - rewrite node_step, IH. rewrite (div_pw_add k 1 n : k / 2 / pw n = _).
      f_equal; lia.
  Qed.

  (** Replacing the leaf below position [k] does not change the siblings of its path. *)
  Lemma sib_path_ext d n f g k :
    (forall i, i / pw d <> k -> f i = g i) -> sib_path d n f k = sib_path d n g k.
  Proof.
    revert d k; induction n as [|n IH]; intros d k H; cbn [sib_path]; auto.
    f_equal.
    - apply node_ext. intros i Hi. apply H. intros E.
      pose proof (pw_pos d).
      assert (sibk k = i / pw d) by (apply Z.div_unique with (i - sibk k * pw d); lia).
      unfold sibk in *; destruct (Z.even k); lia.
    - apply IH. intros i Hi. apply H. intros E. apply Hi. now rewrite div_pw_S, E.
  Qed.
  Lemma node_upd_other d f k i v :
    i / pw d <> k -> node d (fun j => if j =? i then v else f j) k = node d f k.
  Proof.
    intros H. apply node_ext. intros j Hj.
    destruct (j =? i) eqn:E; auto. apply Z.eqb_eq in E; subst. exfalso; apply H.
    symmetry; apply Z.div_unique with (i - k * pw d); pose proof (pw_pos d); lia.
  Qed.
End paths.

Section rep.
  Context {hs : Hashes} (dbg : bool) (P : SparseConfig) (Hok : cfg_ok P).
  Let h := (HEIGHT P - 1)%nat.
  Lemma h_ok : (1 <= h <= 61)%nat.
  Proof. unfold cfg_ok in Hok. lia. Qed.
  Let Hh := h_ok.
  Lemma H_h : HEIGHT P = S h.
  Proof. unfold cfg_ok in Hok. lia. Qed.

  (** Root of an empty subtree of depth [d]. *)
  Definition eh (d : nat) : F := node d (fun _ => LeafHash P (LeafDefault P)) 0.

  Lemma nth_eh d : (d <= S h)%nat -> nth_error (gen_empty_hashes P) d = Some (eh d).
  Proof. intros; unfold gen_empty_hashes. rewrite H_h. now apply nth_empty_from. Qed.

  Record Rep (t : tree) (c : contents P) (w : Z -> bool) : Prop := mkRep
    { rep_empty : t_empty t = gen_empty_hashes P;
      rep_node : forall d k, vpos h d k ->
          get_or (t_map t) (eh d) (heap h d k) = node d (digests c) k;
      rep_up : forall d k, (d < h)%nat -> vpos h d k ->
          bm_get (t_map t) (heap h d k) <> None ->
          bm_get (t_map t) (heap h (S d) (k / 2)) <> None;
      rep_range : forall key, bm_get (t_map t) key <> None -> 0 <= key < pw (S h) - 1;
      rep_root : t_root t = Some (merkle_root c);
      rep_leaf : forall i, in_range P i ->
          bm_get (t_map t) (heap h 0 i) = if w i then Some (LeafHash P (c i)) else None;
      rep_unw : forall i, in_range P i -> w i = false -> c i = LeafDefault P }.

  Lemma in_range_vpos i : in_range P i <-> vpos h 0 i.
  Proof.
    unfold in_range, capacity, vpos. fold h. rewrite Nat.sub_0_r. fold (pw h).
    split; [ intros; split; [ lia | auto ] | tauto ].
  Qed.
  Lemma anc_vpos i d : in_range P i -> (d <= h)%nat -> vpos h d (i / pw d).
  Proof.
    intros Hi. induction d as [|d IH]; intros Hd.
    - rewrite div_pw_0. now apply in_range_vpos.
    - rewrite div_pw_S. apply vpos_up; auto; try lia. apply IH; lia.
  Qed.

  (** ** blank *)
  Lemma blank_rep : Rep (blank P) (empty_contents P) (fun _ => false).
  Proof.
    constructor; cbn; auto; try congruence.
    - intros d k _. unfold get_or; cbn. unfold eh, digests, empty_contents. apply node_const.
    - fold h. rewrite (nth_error_nth _ _ Fzero (nth_eh h ltac:(lia))). reflexivity.
  Qed.

  (** ** update *)
  Lemma conv_ok i : in_range P i ->
    convert_index_to_last_level dbg P i = @Ok mt_error _ (heap h 0 i).
  Proof.
    intros Hi. unfold convert_index_to_last_level.
    pose proof (proj1 (in_range_vpos i) Hi) as Hv.
    pose proof (heap_u64 h Hh 0 i Hv) as Hu.
    unfold in_range, capacity in Hi. fold h in Hi |- *. fold (pw h) in Hi |- *.
    assert (pw h <= pw 61) by (apply pw_le; lia).
    assert (pw 61 * 2 < two64) by reflexivity.
    rewrite uadd_ok; [| unfold is_u64; lia ]. cbn [rbind].
    unfold heap in *. rewrite Nat.sub_0_r in *.
    replace (i + pw h - 1) with (pw h - 1 + i) by lia.
    rewrite usub_ok; replace (i + pw h - 1) with (pw h - 1 + i) by lia; auto.
  Qed.

  Lemma siblings_loop_rep t c w : Rep t c w ->
    forall n d k, (n + d = h)%nat -> vpos h d k ->
      siblings_loop dbg t n d (heap h d k) = Ok (sib_path d n (digests c) k).
  Proof.
    intros HR. induction n as [|n IH]; intros d k Hn Hv; cbn [siblings_loop sib_path]; auto.
    assert (Hd : (d < h)%nat) by lia.
    rewrite (heap_sibling h Hh dbg d k Hd Hv). cbn [rbind unwrap].
    rewrite (rep_empty _ _ _ HR), nth_eh by lia. cbn [rbind unwrap].
    rewrite (heap_parent h Hh d k Hd Hv). cbn [rbind unwrap].
    rewrite IH; [| lia | now apply vpos_up ]. cbn [rbind].
    rewrite (rep_node _ _ _ HR) by (now apply vpos_sib). reflexivity.
  Qed.

  Lemma up_loop_spec f' : forall n d k m sibs,
    (n + d = h)%nat -> vpos h d k -> sibs = sib_path d n f' k ->
    exists m', up_loop m sibs (heap h d k) (node d f' k) = @Ok mt_error _ (m', node h f' 0) /\
      (forall e k', vpos h e k' ->
         bm_get m' (heap h e k') =
         if ((d <=? e)%nat && (e <? h)%nat && (k' =? k / pw (e - d)))%bool
         then Some (node e f' k') else bm_get m (heap h e k')) /\
      (forall key, ~ (0 <= key < pw (S h) - 1) -> bm_get m' key = bm_get m key).
  Proof.
    induction n as [|n IH]; intros d k m sibs Hn Hv ->; cbn [up_loop sib_path].
    - assert (d = h) by lia. subst d. exists m. split; [| split ]; auto.
      + destruct Hv as [_ Hk]. rewrite Nat.sub_diag, pw_0 in Hk.
        replace k with 0 by lia. reflexivity.
      + intros e k' [He _].
        destruct (h <=? e)%nat eqn:E1, (e <? h)%nat eqn:E2; cbn; auto.
        apply Nat.leb_le in E1; apply Nat.ltb_lt in E2; lia.
    - assert (Hd : (d < h)%nat) by lia.
      rewrite (heap_left h Hh d k Hd Hv), (heap_parent h Hh d k Hd Hv). cbn [rbind unwrap].
      rewrite node_step.
      destruct (IH (S d) (k / 2) (bm_insert m (heap h d k) (node d f' k))
                   (sib_path (S d) n f' (k / 2))) as (m' & H1 & H2 & H3); auto; try lia.
      { now apply vpos_up. }
      exists m'. split; [ exact H1 | split ].
      + intros e k' Hv'. rewrite (H2 e k' Hv'), bm_get_insert.
        destruct (heap h e k' =? heap h d k) eqn:E.
        * apply Z.eqb_eq in E. apply heap_inj in E as [-> ->]; auto.
          rewrite Nat.sub_diag, div_pw_0, Z.eqb_refl.
          assert ((S d <=? d)%nat = false) as -> by (apply Nat.leb_gt; lia).
          assert ((d <=? d)%nat = true) as -> by (apply Nat.leb_le; lia).
          assert ((d <? h)%nat = true) as -> by (now apply Nat.ltb_lt). reflexivity.
        * destruct (S d <=? e)%nat eqn:E1.
          -- apply Nat.leb_le in E1.
             assert ((d <=? e)%nat = true) as -> by (apply Nat.leb_le; lia).
             replace (k / pw (e - d)) with (k / 2 / pw (e - S d)); auto.
             rewrite (div_pw_add k 1 (e - S d) : k / 2 / pw (e - S d) = _).
             f_equal; f_equal; lia.
          -- apply Nat.leb_gt in E1. cbn [andb].
             destruct (d <=? e)%nat eqn:E2; auto. apply Nat.leb_le in E2.
             assert (e = d) by lia. subst e.
             rewrite Nat.sub_diag, div_pw_0.
             destruct (k' =? k) eqn:E3; [| now rewrite andb_false_r ].
             apply Z.eqb_eq in E3; subst. rewrite Z.eqb_refl in E; discriminate.
      + intros key Hk. rewrite (H3 key Hk), bm_get_insert.
        destruct (key =? heap h d k) eqn:E; auto.
        apply Z.eqb_eq in E; subst. exfalso; apply Hk. now apply heap_bound.
  Qed.

  Lemma digests_set_leaf (c : contents P) i l :
    forall j, digests (set_leaf c i l) j = (if j =? i then LeafHash P l else digests c j).
  Proof. intros j; unfold digests, set_leaf. destruct (j =? i); reflexivity. Qed.

  Theorem update_rep t c w i l : Rep t c w -> in_range P i ->
    exists t', update_and_prove dbg P t i l
               = Ok (t', sib_path 0 h (digests c) i) /\
               Rep t' (set_leaf c i l) (fun j => (j =? i) || w j).
  Proof.
    intros HR Hi. pose proof (proj1 (in_range_vpos i) Hi) as Hv.
    unfold update_and_prove, siblings. rewrite (conv_ok i Hi). cbn [rbind]. fold h.
    rewrite (siblings_loop_rep t c w HR h 0 i) by (auto; lia). cbn [rbind].
    set (f' := digests (set_leaf c i l)).
    assert (Ex : LeafHash P l = node 0 f' i).
    { cbn. unfold f'. now rewrite digests_set_leaf, Z.eqb_refl. }
    rewrite Ex.
    assert (Es : sib_path 0 h (digests c) i = sib_path 0 h f' i).
    { apply sib_path_ext. intros j Hj. rewrite div_pw_0 in Hj. unfold f'.
      rewrite digests_set_leaf. apply Z.eqb_neq in Hj. now rewrite Hj. }
    destruct (up_loop_spec f' h 0 i (t_map t) (sib_path 0 h (digests c) i)) as (m' & H1 & H2 & H3);
      auto; try lia.
    rewrite H1. cbn [rbind].
    eexists; split; [ reflexivity |].
    assert (Hget : forall e k, vpos h e k ->
              bm_get (bm_insert m' 0 (node h f' 0)) (heap h e k) =
              if k =? i / pw e then Some (node e f' k) else bm_get (t_map t) (heap h e k)).
    { intros e k Hvk. rewrite bm_get_insert.
      destruct (heap h e k =? 0) eqn:E.
      - apply Z.eqb_eq in E. pose proof (proj1 (heap_0_iff h Hh e k Hvk) E). subst e.
        destruct Hvk as [_ Hk]. rewrite Nat.sub_diag, pw_0 in Hk.
        assert (k = 0) by lia. subst k.
        pose proof (anc_vpos i h Hi ltac:(lia)) as [_ Ha].
        rewrite Nat.sub_diag, pw_0 in Ha.
        assert (i / pw h = 0) as -> by lia. reflexivity.
      - rewrite (H2 e k Hvk). cbn [Nat.leb]. rewrite Nat.sub_0_r.
        apply Z.eqb_neq in E. rewrite (heap_0_iff h Hh e k Hvk) in E.
        destruct Hvk as [He _].
        assert ((e <? h)%nat = true) as -> by (apply Nat.ltb_lt; lia). reflexivity. }
    constructor; cbn [t_map t_root t_empty].
    - apply (rep_empty _ _ _ HR).
    - intros d k Hvk. unfold get_or. rewrite (Hget d k Hvk). fold f'.
      destruct (k =? i / pw d) eqn:E; auto.
      apply Z.eqb_neq in E. pose proof (rep_node _ _ _ HR d k Hvk) as HN.
      unfold get_or in HN. rewrite HN.
      transitivity (node d (fun j => if j =? i then LeafHash P l else digests c j) k).
      + symmetry. apply node_upd_other. congruence.
      + apply node_ext. intros j _. unfold f'. now rewrite digests_set_leaf.
    - intros d k Hd Hvk. rewrite (Hget d k Hvk), (Hget (S d) (k / 2)) by (now apply vpos_up).
      rewrite div_pw_S.
      destruct (k / 2 =? i / pw d / 2) eqn:E; [ congruence |].
      destruct (k =? i / pw d) eqn:E2.
      + apply Z.eqb_eq in E2; subst k. rewrite Z.eqb_refl in E; discriminate.
      + apply (rep_up _ _ _ HR d k Hd Hvk).
    - intros key. rewrite bm_get_insert. destruct (key =? 0) eqn:E.
      + apply Z.eqb_eq in E; subst. intros _. pose proof (pw_lt 0 (S h) ltac:(lia)).
        rewrite pw_0 in *. lia.
      + intros Hk. destruct (Z_le_gt_dec 0 key) as [G1|G1];
          [ destruct (Z_lt_ge_dec key (pw (S h) - 1)) as [G2|G2]; [ lia |] |];
          rewrite H3 in Hk by lia; now apply (rep_range _ _ _ HR) in Hk.
    - reflexivity.
    - intros j Hj. pose proof (proj1 (in_range_vpos j) Hj) as Hvj.
      rewrite (Hget 0%nat j Hvj), div_pw_0. cbn [node]. unfold f'. rewrite digests_set_leaf.
      destruct (j =? i) eqn:E; cbn [orb].
      + unfold set_leaf; now rewrite E.
      + rewrite (rep_leaf _ _ _ HR j Hj). unfold set_leaf. now rewrite E.
    - intros j Hj Hw. apply orb_false_elim in Hw as [E Hw].
      unfold set_leaf; rewrite E. now apply (rep_unw _ _ _ HR).
  Qed.
End rep.

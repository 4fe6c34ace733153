(** [MerkleSparseTree::new] establishes the representation invariant; every tree obtained
    through the API satisfies it. *)
From Coq Require Import ZArith List Bool Lia.
Import ListNotations.
From Verif Require Import Base Env SparseMT SparseMTSpec SparseMTHeap SparseMTRep.
Open Scope Z_scope.

Lemma rfold_ok {E A B} (f : B -> A -> res E B) (g : B -> A -> B) l b :
  (forall b x, In x l -> f b x = Ok (g b x)) -> rfold f l b = Ok (fold_left g l b).
Proof.
  revert b; induction l as [|x l IH]; intros b H; cbn; auto.
  rewrite (H b x (or_introl eq_refl)). cbn [rbind]. apply IH. intros; apply H; now right.
Qed.

Section new.
  Context {hs : Hashes} (dbg : bool) (P : SparseConfig) (Hok : cfg_ok P).
  Let h := (HEIGHT P - 1)%nat.
  Let Hh : (1 <= h <= 61)%nat := h_ok P Hok.
  Context (leaves : bmap (Leaf P)).
  Context (Hnd : NoDup (bm_keys leaves)).
  Context (Hin : forall i, In i (bm_keys leaves) -> in_range P i).
  Let c : contents P := map_contents leaves.
  Let f := digests c.

  Definition touched (d : nat) (k : Z) : bool := existsb (fun i => i / pw d =? k) (bm_keys leaves).
  Lemma touched_spec d k : touched d k = true <-> exists i, In i (bm_keys leaves) /\ k = i / pw d.
  Proof.
    unfold touched. rewrite existsb_exists. split; intros (i & H1 & H2); exists i; split; auto.
    - apply Z.eqb_eq in H2; auto.
    - now apply Z.eqb_eq.
  Qed.
  Lemma touched_vpos d k : (d <= h)%nat -> touched d k = true -> vpos h d k.
  Proof.
    intros Hd (i & Hi & ->)%touched_spec. apply (anc_vpos P Hok); auto.
  Qed.
  Lemma untouched_node d k : touched d k = false -> node d f k = eh P d.
  Proof.
    intros Ht. unfold eh. rewrite (node_const d _ 0 k). apply node_ext. intros i Hi.
    unfold f, digests, c, map_contents. destruct (bm_get leaves i) eqn:E; auto.
    exfalso. rewrite <- not_true_iff_false in Ht. apply Ht, touched_spec.
    exists i. split.
    - apply bm_get_In. congruence.
    - apply Z.div_unique with (i - k * pw d); pose proof (pw_pos d); lia.
  Qed.

  (** Leaf level. *)
  Lemma leaf_key i : In i (bm_keys leaves) ->
    uadd dbg (last_level_index P) i = @Ok mt_error _ (heap h 0 i).
  Proof.
    intros Hi. pose proof (proj1 (in_range_vpos P Hok i) (Hin i Hi)) as Hv. fold h in Hv.
    pose proof (heap_u64 h Hh 0 i Hv) as Hu.
    unfold last_level_index. fold h. fold (pw h). unfold heap in *. rewrite Nat.sub_0_r in *.
    now apply uadd_ok.
  Qed.

  Lemma leaf_fold (l : bmap (Leaf P)) m : NoDup (bm_keys l) ->
    (forall i, In i (bm_keys l) -> In i (bm_keys leaves)) ->
    exists m', rfold (fun m (il : Z * Leaf P) => let '(i, leaf) := il in
                        do k <- uadd dbg (last_level_index P) i;
                        @Ok mt_error _ (bm_insert m k (LeafHash P leaf))) l m = Ok m' /\
      (forall i, in_range P i -> bm_get m' (heap h 0 i) =
          match bm_get l i with Some x => Some (LeafHash P x) | None => bm_get m (heap h 0 i) end) /\
      (forall key, (forall i, In i (bm_keys l) -> key <> heap h 0 i) -> bm_get m' key = bm_get m key).
  Proof.
    revert m. induction l as [|[i0 x0] l IH]; intros m Hl Hsub.
    - exists m. cbn. auto.
    - cbn [rfold]. cbn [bm_keys map fst] in Hl, Hsub. inversion Hl; subst.
      rewrite leaf_key by (apply Hsub; now left). cbn [rbind].
      destruct (IH (bm_insert m (heap h 0 i0) (LeafHash P x0))) as (m' & E1 & E2 & E3); auto.
      { intros; apply Hsub; now right. }
      exists m'. split; [ exact E1 | split ].
      + intros i Hi. rewrite (E2 i Hi). cbn [bm_get]. rewrite bm_get_insert.
        destruct (i =? i0) eqn:E.
        * apply Z.eqb_eq in E; subst.
          destruct (bm_get l i0) eqn:G.
          { exfalso; apply H1. apply bm_get_In. congruence. }
          now rewrite Z.eqb_refl.
        * apply Z.eqb_neq in E.
          destruct (bm_get l i); auto.
          destruct (heap h 0 i =? heap h 0 i0) eqn:E'; auto.
          apply Z.eqb_eq in E'. unfold heap in E'. lia.
      + intros key Hk. rewrite (E3 key), bm_get_insert.
        * destruct (key =? heap h 0 i0) eqn:E; auto.
          apply Z.eqb_eq in E. exfalso. now apply (Hk i0 (or_introl eq_refl)).
        * intros; apply Hk; now right.
  Qed.

  Lemma middle0 :
    exists l, rfold (fun s i => do k <- uadd dbg (last_level_index P) i;
                                do q <- unwrap (parent k);
                                @Ok mt_error _ (bs_insert s q)) (bm_keys leaves) [] = Ok l /\
      forall x, In x l <-> exists i, In i (bm_keys leaves) /\ x = heap h 1 (i / pw 1).
  Proof.
    rewrite rfold_ok with (g := fun s i => bs_insert s (heap h 1 (i / pw 1))).
    - eexists; split; [ reflexivity |].
      assert (G : forall l s x, In x (fold_left (fun s i => bs_insert s (heap h 1 (i / pw 1))) l s)
                  <-> (exists i, In i l /\ x = heap h 1 (i / pw 1)) \/ In x s).
      { induction l as [|i l IH]; intros s x; cbn.
        - split; auto. intros [(i & [] & _)|]; auto.
        - rewrite IH, bs_insert_In. split.
          + intros [(j & Hj & E)|[E|Hs]]; eauto.
          + intros [(j & [->|Hj] & E)|Hs]; eauto. }
      intros x. rewrite G. cbn. split; [ intros [|[]]; auto | auto ].
    - intros b i Hi. rewrite leaf_key by auto. cbn [rbind].
      rewrite (heap_parent h Hh 0 i); [ reflexivity | lia |].
      apply (in_range_vpos P Hok); auto.
  Qed.

  (** One level. *)
  Lemma level_fold L l : (L < h)%nat -> forall m,
    (forall x, In x l -> exists k, vpos h (S L) k /\ x = heap h (S L) k) ->
    (forall k, vpos h L k -> get_or m (eh P L) (heap h L k) = node L f k) ->
    exists m', rfold (new_node dbg (gen_empty_hashes P) L) l m = Ok m' /\
      (forall k, vpos h (S L) k -> In (heap h (S L) k) l ->
         bm_get m' (heap h (S L) k) = Some (node (S L) f k)) /\
      (forall key, ~ In key l -> bm_get m' key = bm_get m key).
  Proof.
    intros HL. induction l as [|x l IH]; intros m Hl Hm.
    - exists m; cbn; intuition.
    - destruct (Hl x (or_introl eq_refl)) as (k & Hv & ->).
      destruct (heap_children h Hh dbg L k Hv) as [Hlc Hrc].
      pose proof (vpos_down h Hh L k 0 ltac:(auto) Hv) as Hv0. rewrite Z.add_0_r in Hv0.
      pose proof (vpos_down h Hh L k 1 ltac:(auto) Hv) as Hv1.
      assert (E : new_node dbg (gen_empty_hashes P) L m (heap h (S L) k)
                  = @Ok mt_error _ (bm_insert m (heap h (S L) k) (node (S L) f k))).
      { unfold new_node. rewrite Hlc, Hrc. cbn [rbind].
        rewrite nth_eh by (auto; fold h; lia). cbn [rbind unwrap].
        rewrite !Hm by auto. reflexivity. }
      cbn [rfold]. rewrite E. cbn [rbind].
      destruct (IH (bm_insert m (heap h (S L) k) (node (S L) f k))) as (m' & E1 & E2 & E3).
      + intros; apply Hl; now right.
      + intros k' Hk'. unfold get_or. rewrite bm_get_insert.
        destruct (heap h L k' =? heap h (S L) k) eqn:G; [| now apply Hm ].
        apply Z.eqb_eq in G. apply heap_inj in G as [G _]; auto. lia.
      + exists m'. split; [ exact E1 | split ].
        * intros k' Hk' [G|G]; [| now apply E2 ].
          destruct (in_dec Z.eq_dec (heap h (S L) k') l) as [G'|G']; [ now apply E2 |].
          rewrite (E3 _ G'), bm_get_insert.
          apply heap_inj in G as [_ ->]; auto. now rewrite Z.eqb_refl.
        * intros key Hk. rewrite (E3 key), bm_get_insert.
          -- destruct (key =? heap h (S L) k) eqn:G; auto.
             apply Z.eqb_eq in G; subst. exfalso; apply Hk; now left.
          -- intros G; apply Hk; now right.
  Qed.

  Lemma parents_spec L l : (1 <= L <= h)%nat ->
    (forall x, In x l <-> exists i, In i (bm_keys leaves) /\ x = heap h L (i / pw L)) ->
    exists l', parents l = @Ok mt_error _ l' /\
      (forall x, In x l' <-> (L < h)%nat /\
          exists i, In i (bm_keys leaves) /\ x = heap h (S L) (i / pw (S L))).
  Proof.
    intros HL Hl. unfold parents.
    rewrite rfold_ok with (g := fun s i => if is_root i then s else
              bs_insert s (match parent i with Some q => q | None => 0 end)).
    2:{ intros s x Hx. unfold is_root, parent.
        apply Hl in Hx as (i & Hi & ->).
        pose proof (anc_vpos P Hok i L (Hin i Hi) ltac:(fold h; lia)) as Hv. fold h in Hv.
        pose proof (heap_bound h Hh _ _ Hv).
        destruct (heap h L (i / pw L) =? 0) eqn:E; auto.
        apply Z.eqb_neq in E.
        assert (0 <? heap h L (i / pw L) = true) as -> by (apply Z.ltb_lt; lia). reflexivity. }
    eexists; split; [ reflexivity |].
    assert (G : forall l0 s x, (forall y, In y l0 -> In y l) ->
      In x (fold_left (fun s i => if is_root i then s else
              bs_insert s (match parent i with Some q => q | None => 0 end)) l0 s) <->
      ((L < h)%nat /\ exists y k, In y l0 /\ vpos h L k /\ y = heap h L k /\ x = heap h (S L) (k / 2)) \/ In x s).
    { induction l0 as [|y l0 IH]; intros s x Hsub; cbn [fold_left].
      - split; auto. intros [(_ & y & k & [] & _)|]; auto.
      - rewrite IH by (intros; apply Hsub; now right).
        assert (Hy : In y l) by (apply Hsub; now left).
        apply Hl in Hy as (i & Hi & ->).
        pose proof (anc_vpos P Hok i L (Hin i Hi) ltac:(fold h; lia)) as Hv. fold h in Hv.
        unfold is_root.
        destruct (heap h L (i / pw L) =? 0) eqn:E.
        + apply Z.eqb_eq in E. apply heap_0_iff in E; auto.
          split; intros [(G & _)|]; auto; lia.
        + apply Z.eqb_neq in E. rewrite heap_0_iff in E by auto.
          assert (L < h)%nat by lia.
          rewrite heap_parent by auto. rewrite bs_insert_In. split.
          * intros [(G1 & y & k & G2 & G3)|[->|G]]; auto.
            -- left; split; auto. exists y, k. split; auto. now right.
            -- left. split; auto. exists (heap h L (i / pw L)), (i / pw L).
               split; [ now left | auto ].
          * intros [(G1 & y & k & [<-|G2] & G3 & G4 & G5)|G]; auto.
            -- right; left. apply heap_inj in G4 as [_ G4]; auto. now rewrite G5, G4.
            -- left. split; auto. exists y, k. auto. }
    intros x. rewrite G by auto. split.
    - intros [(G1 & y & k & G2 & G3 & -> & ->)|[]]. split; auto.
      apply Hl in G2 as (i & Hi & G2). exists i. split; auto.
      pose proof (anc_vpos P Hok i L (Hin i Hi) ltac:(fold h; lia)) as Hv. fold h in Hv.
      apply heap_inj in G2 as [_ ->]; auto. now rewrite div_pw_S.
    - intros (G1 & i & Hi & ->). left. split; auto.
      pose proof (anc_vpos P Hok i L (Hin i Hi) ltac:(fold h; lia)) as Hv. fold h in Hv.
      exists (heap h L (i / pw L)), (i / pw L). repeat split; try apply Hv.
      + apply Hl. eauto.
      + now rewrite div_pw_S.
  Qed.

  Definition lvl (L : nat) (m : bmap F) : Prop :=
    (forall d k, vpos h d k -> bm_get m (heap h d k) =
        if ((d <=? L)%nat && touched d k)%bool then Some (node d f k) else None) /\
    (forall key, ~ (0 <= key < pw (S h) - 1) -> bm_get m key = None).

  Lemma levels_spec n : forall L middle m, (n + L = S h)%nat -> (L <= h)%nat -> lvl L m ->
    (forall x, In x middle <-> (L < h)%nat /\
          exists i, In i (bm_keys leaves) /\ x = heap h (S L) (i / pw (S L))) ->
    exists m', new_levels dbg (gen_empty_hashes P) n L middle m = Ok m' /\ lvl h m'.
  Proof.
    induction n as [|n IH]; intros L middle m Hn HL Hm Hmid; [ lia |].
    cbn [new_levels].
    destruct (Nat.eq_dec L h) as [->|HLh].
    - assert (n = 0)%nat by lia. subst n.
      destruct middle as [|x middle].
      + cbn. exists m; auto.
      + exfalso. destruct (proj1 (Hmid x) (or_introl eq_refl)). lia.
    - assert (HL' : (L < h)%nat) by lia.
      destruct (level_fold L middle HL' m) as (m1 & E1 & E2 & E3).
      + intros x Hx. apply Hmid in Hx as (_ & i & Hi & ->). exists (i / pw (S L)).
        split; auto. apply (anc_vpos P Hok); [ auto | fold h; lia ].
      + intros k Hv. unfold get_or. rewrite (proj1 Hm L k Hv), Nat.leb_refl. cbn [andb].
        destruct (touched L k) eqn:E; auto. symmetry. now apply untouched_node.
      + rewrite E1. cbn [rbind].
        assert (Hmid' : forall x, In x middle <->
                  exists i, In i (bm_keys leaves) /\ x = heap h (S L) (i / pw (S L))).
        { intros x; rewrite Hmid; tauto. }
        destruct (parents_spec (S L) middle ltac:(lia) Hmid') as (l' & E4 & E5).
        rewrite E4. cbn [rbind]. apply IH; auto; try lia.
        split.
        * intros d k Hv.
          destruct (Nat.eq_dec d (S L)) as [->|Hd].
          -- rewrite Nat.leb_refl. cbn [andb]. destruct (touched (S L) k) eqn:E.
             ++ apply E2; auto. apply Hmid'. apply touched_spec in E as (i & Hi & ->). eauto.
             ++ rewrite E3.
                ** rewrite (proj1 Hm _ k Hv).
                   destruct (S L <=? L)%nat eqn:G; auto. apply Nat.leb_le in G; lia.
                ** intros (i & Hi & G)%Hmid'.
                   pose proof (anc_vpos P Hok i (S L) (Hin i Hi) ltac:(fold h; lia)) as Hv'.
                   fold h in Hv'. apply heap_inj in G as [_ G]; auto.
                   rewrite <- not_true_iff_false in E. apply E, touched_spec. eauto.
          -- rewrite E3.
             ++ rewrite (proj1 Hm d k Hv).
                destruct (d <=? L)%nat eqn:G1, (d <=? S L)%nat eqn:G2; auto;
                  [ apply Nat.leb_le in G1; apply Nat.leb_gt in G2; lia
                  | apply Nat.leb_le in G2; apply Nat.leb_gt in G1; lia ].
             ++ intros (i & Hi & G)%Hmid'.
                pose proof (anc_vpos P Hok i (S L) (Hin i Hi) ltac:(fold h; lia)) as Hv'.
                fold h in Hv'. apply heap_inj in G as [G _]; auto.
        * intros key Hk. rewrite E3; [ now apply Hm |].
          intros (i & Hi & ->)%Hmid'. apply Hk. apply heap_bound; auto.
          apply (anc_vpos P Hok); [ auto | fold h; lia ].
  Qed.

  Lemma nodup_length : Z.of_nat (length leaves) <= pw h.
  Proof.
    assert (Hinc : incl (bm_keys leaves) (map Z.of_nat (seq 0 (Z.to_nat (pw h))))).
    { intros i Hi. pose proof (Hin i Hi) as Hr. unfold in_range, capacity in Hr.
      fold h in Hr. fold (pw h) in Hr. apply in_map_iff. exists (Z.to_nat i). split; [ lia |].
      apply in_seq. lia. }
    apply NoDup_incl_length in Hinc; auto.
    unfold bm_keys in Hinc. rewrite !map_length, seq_length in Hinc.
    pose proof (pw_pos h). lia.
  Qed.

  Lemma new_assert_ok :
    tree_height (2 * next_power_of_two (Z.of_nat (length leaves)) - 1) <=? Z.of_nat (HEIGHT P) = true.
  Proof.
    apply Z.leb_le. unfold tree_height, next_power_of_two. pose proof nodup_length as Hl.
    set (n := Z.of_nat (length leaves)) in *.
    assert (Z.log2_up n <= Z.of_nat h).
    { transitivity (Z.log2_up (pw h)); [ apply Z.log2_up_le_mono; lia |].
      unfold pw. rewrite Z.log2_up_pow2; lia. }
    pose proof (Z.log2_up_nonneg n).
    transitivity (Z.log2_up (2 ^ (Z.succ (Z.log2_up n)))).
    - apply Z.log2_up_le_mono. rewrite Z.pow_succ_r; lia.
    - rewrite Z.log2_up_pow2 by lia. rewrite (H_h P Hok). fold h. lia.
  Qed.

  Theorem new_rep : leaves <> [] ->
    exists t, new dbg P leaves = Ok t /\ Rep P t c (fun i => bm_contains leaves i).
  Proof.
    intros Hne. unfold new. rewrite new_assert_ok. cbn [rassert rbind].
    destruct (leaf_fold leaves [] Hnd ltac:(auto)) as (m0 & E0 & G0 & G0').
    rewrite E0. cbn [rbind].
    destruct middle0 as (mid & E1 & G1). rewrite E1. cbn [rbind].
    assert (Hl0 : lvl 0 m0).
    { split.
      - intros d k Hv. destruct d as [|d].
        + pose proof (proj2 (in_range_vpos P Hok k) Hv) as Hr.
          rewrite (G0 k Hr). cbn [Nat.leb andb].
          destruct (touched 0 k) eqn:E.
          * apply touched_spec in E as (i & Hi & ->). rewrite div_pw_0.
            apply bm_get_In in Hi. cbn [node]. unfold f, digests, c, map_contents.
            destruct (bm_get leaves i); congruence.
          * destruct (bm_get leaves k) eqn:G; [| reflexivity ].
            exfalso. rewrite <- not_true_iff_false in E. apply E, touched_spec.
            exists k. rewrite div_pw_0. split; auto. apply bm_get_In. congruence.
        + cbn [Nat.leb andb]. rewrite G0'; auto.
          intros i Hi G. pose proof (proj1 (in_range_vpos P Hok i) (Hin i Hi)) as Hv'.
          apply heap_inj in G as [G _]; auto; discriminate.
      - intros key Hk. rewrite G0'; auto. intros i Hi ->. apply Hk, heap_bound; auto.
        now apply (in_range_vpos P Hok), Hin. }
    destruct (levels_spec (HEIGHT P) 0 mid m0) as (m & E2 & G2); auto; try lia.
    { intros x. rewrite G1. split; [ intros; split; [ lia | auto ] | tauto ]. }
    rewrite E2. cbn [rbind].
    assert (Hroot : vpos h h 0).
    { split; auto. rewrite Nat.sub_diag, pw_0; lia. }
    assert (Hr0 : heap h h 0 = 0) by (unfold heap; rewrite Nat.sub_diag, pw_0; lia).
    assert (Ht : touched h 0 = true).
    { assert (exists i, In i (bm_keys leaves)) as (i & Hi).
      { clear -Hne. destruct leaves as [|[i x] l]; [ congruence | exists i; now left ]. }
      apply touched_spec. exists i. split; auto.
      pose proof (anc_vpos P Hok i h (Hin i Hi) ltac:(fold h; lia)) as [_ Ha].
      fold h in Ha. rewrite Nat.sub_diag, pw_0 in Ha. lia. }
    pose proof (proj1 G2 h 0 Hroot) as Hget.
    rewrite Hr0, Nat.leb_refl, Ht in Hget. cbn [andb] in Hget. rewrite Hget.
    eexists; split; [ reflexivity |].
    assert (Hget' : forall d k, vpos h d k ->
       bm_get m (heap h d k) = if touched d k then Some (node d f k) else None).
    { intros d k Hv. rewrite (proj1 G2 d k Hv).
      assert ((d <=? h)%nat = true) as -> by (apply Nat.leb_le; apply Hv). reflexivity. }
    constructor; cbn [t_map t_root t_empty]; fold h; auto.
    - intros d k Hv. unfold get_or. rewrite (Hget' d k Hv).
      destruct (touched d k) eqn:E; auto. symmetry. now apply untouched_node.
    - intros d k Hd Hv. rewrite (Hget' d k Hv), (Hget' (S d) (k / 2)) by (now apply vpos_up).
      destruct (touched d k) eqn:E; [| congruence ]. intros _.
      apply touched_spec in E as (i & Hi & ->).
      assert (touched (S d) (i / pw d / 2) = true) as ->; [| congruence ].
      apply touched_spec. exists i. now rewrite div_pw_S.
    - intros key Hk. destruct (Z_le_gt_dec 0 key) as [g1|g1];
          [ destruct (Z_lt_ge_dec key (pw (S h) - 1)) as [g2|g2]; [ lia |] |];
          rewrite (proj2 G2) in Hk by lia; congruence.
    - intros i Hi. pose proof (proj1 (in_range_vpos P Hok i) Hi) as Hv. fold h in Hv.
      rewrite (Hget' 0%nat i Hv). unfold touched.
      assert (E : existsb (fun j => j / pw 0 =? i) (bm_keys leaves) = bm_contains leaves i).
      { apply eq_true_iff_eq. rewrite bm_contains_In, existsb_exists. split.
        - intros (j & Hj & G). rewrite div_pw_0 in G. apply Z.eqb_eq in G. now subst.
        - intros Hj. exists i. rewrite div_pw_0, Z.eqb_refl. auto. }
      rewrite E. reflexivity.
    - intros i Hi Hw. unfold c, map_contents. unfold bm_contains in Hw.
      destruct (bm_get leaves i); [ discriminate | reflexivity ].
  Qed.
End new.

Section new_fail.
  Context {hs : Hashes} (dbg : bool) (P : SparseConfig) (Hok : cfg_ok P).
  Lemma new_empty : new dbg P [] = Err GenericError.
  Proof.
    unfold new. cbn [length]. change (next_power_of_two (Z.of_nat 0)) with 1.
    change (tree_height (2 * 1 - 1)) with 0.
    assert (0 <=? Z.of_nat (HEIGHT P) = true) as -> by (apply Z.leb_le; lia).
    cbn [rassert rbind rfold bm_keys map].
    assert (E : forall n L, new_levels dbg (gen_empty_hashes P) n L [] [] = Ok []).
    { induction n; intros; cbn; auto. }
    rewrite E. reflexivity.
  Qed.
  Lemma new_too_many leaves : capacity P < Z.of_nat (length leaves) ->
    new dbg P leaves = Panic.
  Proof.
    intros Hc. unfold new. set (n := Z.of_nat (length leaves)) in *.
    unfold tree_height, next_power_of_two, capacity in *.
    set (h := (HEIGHT P - 1)%nat) in *.
    assert (Hpos : 0 < 2 ^ Z.of_nat h) by (apply Z.pow_pos_nonneg; lia).
    assert (Hk : Z.of_nat h < Z.log2_up n).
    { apply Z.log2_up_lt_pow2; lia. }
    set (k := Z.log2_up n) in *.
    assert (Hs : Z.log2_up (2 * 2 ^ k - 1) = k + 1).
    { apply Z.log2_up_unique; [ lia |]. replace (k + 1) with (Z.succ k) by lia.
      rewrite Z.pow_succ_r, Z.pred_succ by lia.
      assert (2 ^ 1 <= 2 ^ k) by (apply Z.pow_le_mono_r; unfold h in *; lia).
      change (2 ^ 1) with 2 in *. lia. }
    rewrite Hs.
    assert (k + 1 <=? Z.of_nat (HEIGHT P) = false) as ->.
    { apply Z.leb_gt. unfold cfg_ok in Hok. unfold h in Hk. lia. }
    reflexivity.
  Qed.
End new_fail.

Section built.
  Context {hs : Hashes} (dbg : bool) (P : SparseConfig) (Hok : cfg_ok P).
  Theorem built_rep t c w : built dbg P t c w -> Rep P t c w.
  Proof.
    induction 1 as [|m t Hnd Hin Hn|t c w i l t' pf Hb IH Hi Hu].
    - now apply blank_rep.
    - destruct m as [|x m].
      + rewrite new_empty in Hn. discriminate.
      + destruct (new_rep dbg P Hok (x :: m) Hnd Hin ltac:(discriminate)) as (t' & E & HR).
        rewrite E in Hn. now injection Hn as <-.
    - destruct (update_rep dbg P Hok t c w i l IH Hi) as (t1 & E & HR).
      rewrite E in Hu. now injection Hu as <- _.
  Qed.
End built.

(** Properties C01-C19: the sparse Merkle tree and its gadgets. *)
From Coq Require Import ZArith List Bool Lia.
Import ListNotations.
From Verif Require Import Base Env Circuit SparseMT SparseMTSpec SparseMTHeap SparseMTRep SparseMTNew
  SparseMTProofs SparseMTGadget SparseMTGadgetProofs Toy.
Open Scope Z_scope.

(** * Reading guide
    [merkle_root c] is the root of the complete binary tree over contents [c] (SparseMTSpec.v);
    [built dbg P t c w]: the tree value [t] was obtained by API calls with in-range positions, a
    caller booking those calls expects leaf [c i] at every position [i], and [w i] tells
    whether position [i] was ever written; [collision2 l]: two different pairs in [l] have the
    same two-to-one hash. [dbg] is the build mode (overflow checks). *)

(** A small configuration for the examples: 4 positions, leaves are field elements. *)
Definition exP : SparseConfig :=
  {| Leaf := F; LeafHash := fun x => crh [x]; LeafDefault := Fzero; HEIGHT := 3 |}.
Definition exPg : GadgetConfig :=
  {| GLeaf := F; GLeafHash := fun x => crh [x]; GHEIGHT := 3 |}.
Example exP_ok : cfg_ok exP.
Proof. unfold cfg_ok; cbn; lia. Qed.

Section props.
  Context {hs : Hashes} (P : SparseConfig) (Hok : cfg_ok P).

  Theorem C01_blank_root :
    root (blank P) = Ok (merkle_root (empty_contents P)) /\
    forall dbg i, in_range P i ->
      exists path, generate_proof dbg P (blank P) i (LeafDefault P) = Ok path /\
        verify_with_index dbg P path (merkle_root (empty_contents P)) (LeafDefault P) i = Ok true /\
        verify P path (merkle_root (empty_contents P)) (LeafDefault P) = Ok true.
  Proof.
    pose proof (blank_rep P Hok) as HR. split.
    - unfold root. now rewrite (rep_root _ _ _ _ HR).
    - intros dbg i Hi. exists (genuine_path (empty_contents P) i).
      unfold generate_proof. rewrite (conv_ok dbg P Hok i Hi). cbn [rbind blank t_map bm_get].
      rewrite (gmp_ok dbg P Hok _ _ _ i HR Hi). split; auto.
      assert (E : verify_with_index dbg P (genuine_path (empty_contents P) i)
                (merkle_root (empty_contents P)) (LeafDefault P) i = Ok true).
      { rewrite vwi_in by auto. rewrite chain_ok_genuine by auto. unfold empty_contents.
        now rewrite Feqb_refl. }
      split; auto. apply (verify_iff dbg P Hok). eauto.
  Qed.

  Theorem C02_new_root dbg (m : bmap (Leaf P)) :
    m <> [] -> NoDup (bm_keys m) -> (forall i, In i (bm_keys m) -> in_range P i) ->
    exists t, new dbg P m = Ok t /\ root t = Ok (merkle_root (map_contents m)).
  Proof.
    intros Hne Hnd Hin. destruct (new_rep dbg P Hok m Hnd Hin Hne) as (t & E & HR).
    exists t. split; auto. unfold root. now rewrite (rep_root _ _ _ _ HR).
  Qed.

  Theorem C03_new_failure_modes dbg :
    new dbg P [] = Err GenericError /\
    (forall m : bmap (Leaf P), capacity P < Z.of_nat (length m) -> new dbg P m = Panic) /\
    (forall m : bmap (Leaf P), m <> [] -> NoDup (bm_keys m) ->
       (forall i, In i (bm_keys m) -> in_range P i) -> exists t, new dbg P m = Ok t).
  Proof.
    split; [ now apply new_empty | split ].
    - intros m Hm. now apply new_too_many.
    - intros m H1 H2 H3. destruct (C02_new_root dbg m H1 H2 H3) as (t & E & _). eauto.
  Qed.

  Theorem C04_update dbg t c w i l :
    built dbg P t c w -> in_range P i ->
    exists t' pf,
      update_and_prove dbg P t i l = Ok (t', pf) /\
      root t = Ok (merkle_root c) /\
      root t' = Ok (merkle_root (set_leaf c i l)) /\
      (forall dbg', verify_update dbg' P pf (merkle_root c) (merkle_root (set_leaf c i l)) (c i) l i
                    = Ok true) /\
      built dbg P t' (set_leaf c i l) (fun j => (j =? i) || w j).
  Proof.
    intros Hb Hi. pose proof (built_rep dbg P Hok _ _ _ Hb) as HR.
    destruct (update_verifies dbg P Hok t c w i l HR Hi) as (t' & pf & E & HR' & Hl & Hv).
    exists t', pf. split; [ exact E |].
    unfold root. rewrite (rep_root _ _ _ _ HR), (rep_root _ _ _ _ HR').
    repeat split; auto.
    - intros dbg'. rewrite vu_in in Hv |- * by auto. exact Hv.
    - eapply built_update; eauto.
  Qed.

  Lemma root_ext (c c' : contents P) :
    (forall i, in_range P i -> LeafHash P (c i) = LeafHash P (c' i)) -> merkle_root c = merkle_root c'.
  Proof.
    intros H. unfold merkle_root. apply node_ext. intros i Hi. apply H.
    unfold in_range, capacity. fold (pw (HEIGHT P - 1)). lia.
  Qed.

  Theorem C05_history_independence dbg dbg' t t' c c' w w' :
    built dbg P t c w -> built dbg' P t' c' w' ->
    (forall i, in_range P i -> c i = c' i) -> root t = root t'.
  Proof.
    intros H1%(built_rep _ P Hok) H2%(built_rep _ P Hok) Hc.
    unfold root. rewrite (rep_root _ _ _ _ H1), (rep_root _ _ _ _ H2). cbn. f_equal.
    apply root_ext. intros i Hi. now rewrite Hc.
  Qed.

  Theorem C06_membership_complete dbg t c w i :
    built dbg P t c w -> in_range P i ->
    root t = Ok (merkle_root c) /\
    exists path, generate_proof dbg P t i (c i) = Ok path /\
      verify P path (merkle_root c) (c i) = Ok true /\
      forall dbg', verify_with_index dbg' P path (merkle_root c) (c i) i = Ok true.
  Proof.
    intros Hb Hi. pose proof (built_rep dbg P Hok _ _ _ Hb) as HR.
    split; [ unfold root; now rewrite (rep_root _ _ _ _ HR) |].
    exists (genuine_path c i).
    assert (V : forall dbg', verify_with_index dbg' P (genuine_path c i) (merkle_root c) (c i) i = Ok true).
    { intros dbg'. rewrite vwi_in, chain_ok_genuine by auto. now rewrite Feqb_refl. }
    split; [| split ]; auto.
    - unfold generate_proof. rewrite (conv_ok dbg P Hok i Hi). cbn [rbind].
      rewrite (gmp_ok dbg P Hok _ _ _ i HR Hi).
      rewrite (rep_leaf _ _ _ _ HR i Hi). destruct (w i); auto. now rewrite Feqb_refl.
    - apply (verify_iff dbg P Hok). eauto.
  Qed.

  Theorem C07_generate_proof_leaf_check dbg t c w i l :
    built dbg P t c w -> in_range P i ->
    (generate_proof dbg P t i l = Err GenericError <->
       w i = true /\ LeafHash P l <> LeafHash P (c i)) /\
    (w i = false ->
       c i = LeafDefault P /\
       exists path, generate_proof dbg P t i l = Ok path /\
         (LeafHash P l <> LeafHash P (LeafDefault P) ->
          verify_with_index dbg P path (merkle_root c) l i = Ok false)).
  Proof.
    intros Hb Hi. pose proof (built_rep dbg P Hok _ _ _ Hb) as HR.
    assert (E : generate_proof dbg P t i l =
      if w i && negb (Feqb (LeafHash P l) (LeafHash P (c i))) then Err GenericError
      else Ok (genuine_path c i)).
    { unfold generate_proof. rewrite (conv_ok dbg P Hok i Hi). cbn [rbind].
      rewrite (gmp_ok dbg P Hok _ _ _ i HR Hi), (rep_leaf _ _ _ _ HR i Hi).
      destruct (w i); reflexivity. }
    rewrite E. split.
    - destruct (w i), (Feqb (LeafHash P l) (LeafHash P (c i))) eqn:G; cbn [andb negb];
        (split; [ intros H; try discriminate | intros [H1 H2]; try discriminate ]); auto.
      + apply Feqb_eq in G. contradiction.
      + apply Feqb_neq in G. auto.
    - intros Hw. pose proof (rep_unw _ _ _ _ HR i Hi Hw) as Hc. split; auto.
      rewrite Hw. cbn [andb]. exists (genuine_path c i). split; auto. intros Hl.
      rewrite vwi_in, chain_ok_genuine by auto. f_equal. apply Feqb_neq. now rewrite Hc.
  Qed.

  Lemma wrap_release {E} z : exists r, @wrap64 E false z = Ok r.
  Proof. unfold wrap64. destruct ((0 <=? z) && (z <? two64)); eauto. Qed.
  Lemma vwi_loop_release path : forall prev pi fp off,
    exists o, vwi_loop false path prev pi fp off = Ok o.
  Proof.
    induction path as [|[l r] path IH]; intros; cbn [vwi_loop]; eauto.
    destruct (wrap_release (E := mt_error) (off * 2)) as (a & Ea).
    destruct (wrap_release (E := mt_error) (pi - 1)) as (b & Eb).
    destruct (wrap_release (E := mt_error) (fp + off)) as (d & Ed).
    unfold umul, usub, uadd. rewrite Ea, Eb, Ed.
    destruct (pi mod 2 =? 1); [ destruct (Feqb prev l) | destruct (Feqb prev r) ]; cbn; eauto.
  Qed.
  Lemma wrap_not_err {E} dbg z (e : E) : wrap64 dbg z <> Err e.
  Proof. unfold wrap64. destruct ((0 <=? z) && (z <? two64)), dbg; congruence. Qed.
  Lemma vwi_loop_not_err dbg path : forall prev pi fp off e,
    vwi_loop dbg path prev pi fp off <> Err e.
  Proof.
    induction path as [|[l r] path IH]; intros prev pi fp off e; cbn [vwi_loop]; [ congruence |].
    pose proof (wrap_not_err (E := mt_error) dbg (off * 2)) as Ea.
    pose proof (wrap_not_err (E := mt_error) dbg (pi - 1)) as Eb.
    pose proof (wrap_not_err (E := mt_error) dbg (fp + off)) as Ed.
    unfold umul, usub, uadd.
    destruct (wrap64 dbg (off * 2)) as [a| |]; [| exfalso; eapply Ea; eauto |];
    destruct (wrap64 dbg (pi - 1)) as [b| |]; try (exfalso; eapply Eb; eauto; fail);
    destruct (wrap64 dbg (fp + off)) as [d| |]; try (exfalso; eapply Ed; eauto; fail);
    destruct (pi mod 2 =? 1);
    (destruct (negb (Feqb prev l)), (negb (Feqb prev r)); cbn; try congruence; apply IH).
  Qed.
  Lemma vwi_not_err dbg path r l i e : verify_with_index dbg P path r l i <> Err e.
  Proof.
    unfold verify_with_index. destruct (negb (length path =? HEIGHT P - 1)%nat); [ congruence |].
    pose proof (wrap_not_err (E := mt_error) dbg (last_level_index P + i)) as Ea.
    unfold uadd. destruct (wrap64 dbg (last_level_index P + i)) as [a| |]; cbn [rbind];
      [| exfalso; eapply Ea; eauto | congruence ].
    destruct path as [|[l0 r0] path]; [ congruence |].
    match goal with |- (if ?b then _ else _) <> _ => destruct b end; [ congruence |].
    pose proof (vwi_loop_not_err dbg ((l0, r0) :: path) (LeafHash P l) a (last_level_index P) 1) as Ev.
    destruct (vwi_loop dbg ((l0, r0) :: path) (LeafHash P l) a (last_level_index P) 1) as [[[x y]|]| |];
      cbn [rbind]; try congruence.
    - destruct (negb (Feqb r x)); congruence.
    - exfalso; eapply Ev; eauto.
  Qed.
  Lemma vwi_release path r l i : exists b, verify_with_index false P path r l i = Ok b.
  Proof.
    unfold verify_with_index. destruct (negb (length path =? HEIGHT P - 1)%nat); eauto.
    destruct (wrap_release (E := mt_error) (last_level_index P + i)) as (a & Ea).
    unfold uadd. rewrite Ea. cbn [rbind]. destruct path as [|[l0 r0] path]; eauto.
    match goal with |- exists _, (if ?b then _ else _) = _ => destruct b end; eauto.
    destruct (vwi_loop_release ((l0, r0) :: path) (LeafHash P l) a (last_level_index P) 1) as (o & ->).
    cbn [rbind]. destruct o as [[x y]|]; eauto. destruct (negb (Feqb r x)); eauto.
  Qed.

  Theorem C08_verify_with_index_sound dbg (c : contents P) path leaf i :
    is_u64 i ->
    (verify_with_index dbg P path (merkle_root c) leaf i = Ok true ->
     in_range P i /\
     (LeafHash P leaf = LeafHash P (c i) \/ collision2 (path ++ genuine_path c i))) /\
    (~ in_range P i ->
     verify_with_index dbg P path (merkle_root c) leaf i = Ok false \/
     dbg = true /\ verify_with_index dbg P path (merkle_root c) leaf i = Panic).
  Proof.
    intros Hu. split.
    - intros H. destruct (Z_lt_le_dec i (capacity P)) as [L|L].
      + assert (Hi : in_range P i) by (unfold in_range, is_u64 in *; lia). split; auto.
        rewrite vwi_in in H by auto. injection H as H. now apply (chain_ok_sound P).
      + exfalso. revert H. apply vwi_out; auto. unfold in_range; lia.
    - intros Ho. pose proof (vwi_out dbg P Hok path (merkle_root c) leaf i Hu Ho) as Hn.
      pose proof (vwi_not_err dbg path (merkle_root c) leaf i) as He.
      destruct dbg.
      + destruct (verify_with_index true P path (merkle_root c) leaf i) as [[]|e|]; auto;
          [ congruence | exfalso; eapply He; eauto ].
      + destruct (vwi_release path (merkle_root c) leaf i) as ([] & E); [ congruence | auto ].
  Qed.

  Theorem C09_verify_sound (c : contents P) path leaf :
    verify P path (merkle_root c) leaf = Ok true ->
    exists i, in_range P i /\
      (forall dbg, verify_with_index dbg P path (merkle_root c) leaf i = Ok true) /\
      (LeafHash P leaf = LeafHash P (c i) \/ collision2 (path ++ genuine_path c i)).
  Proof.
    intros H. apply (verify_iff true P Hok) in H as (i & Hi & H). exists i. split; auto.
    rewrite vwi_in in H by auto. split.
    - intros dbg. now rewrite vwi_in by auto.
    - injection H as H. now apply (chain_ok_sound P).
  Qed.

  Theorem C10_update_sound dbg (c : contents P) path new_root old_leaf new_leaf i :
    is_u64 i ->
    verify_update dbg P path (merkle_root c) new_root old_leaf new_leaf i = Ok true ->
    in_range P i /\
    (LeafHash P old_leaf = LeafHash P (c i) /\ new_root = merkle_root (set_leaf c i new_leaf)
     \/ collision2 (climb_pairs path i (LeafHash P old_leaf) ++ genuine_path c i)).
  Proof.
    intros Hu H. destruct (Z_lt_le_dec i (capacity P)) as [L|L].
    - assert (Hi : in_range P i) by (unfold in_range, is_u64 in *; lia). split; auto.
      rewrite vu_in in H by auto. injection H as H.
      apply andb_prop in H as [El H]. apply andb_prop in H as [H1 H2].
      apply Nat.eqb_eq in El. apply Feqb_eq in H1, H2.
      destruct (update_sound P c path (LeafHash P old_leaf) new_leaf i Hi El (eq_sym H1))
        as [(G1 & G2 & _)|G]; [ left | right ]; auto. split; auto. congruence.
    - exfalso. revert H. apply vu_out; auto. unfold in_range; lia.
  Qed.

  Theorem C11_out_of_range dbg t i :
    is_u64 i -> ~ in_range P i ->
    (forall path r leaf, verify_with_index dbg P path r leaf i <> Ok true) /\
    (forall path ro rn lo ln, verify_update dbg P path ro rn lo ln i <> Ok true) /\
    (forall path, generate_membership_proof dbg P t i <> Ok path) /\
    (forall leaf path, generate_proof dbg P t i leaf <> Ok path) /\
    (forall leaf, i + capacity P < two64 -> t_empty t = gen_empty_hashes P ->
       exists t' pf, update_and_prove dbg P t i leaf = Ok (t', pf) /\
         root t' = Ok (fold_sibs pf (i + capacity P) (LeafHash P leaf)) /\
         forall dbg' ro rn lo ln, verify_update dbg' P pf ro rn lo ln i <> Ok true).
  Proof.
    intros Hu Ho.
    assert (Hg : forall path, generate_membership_proof dbg P t i <> Ok path)
      by (intros; now apply gmp_out).
    repeat split.
    - intros; now apply vwi_out.
    - intros; now apply vu_out.
    - exact Hg.
    - intros leaf path. unfold generate_proof.
      destruct (convert_index_to_last_level dbg P i); cbn [rbind]; try congruence.
      destruct (bm_get (t_map t) a); auto. destruct (negb _); auto. congruence.
    - intros leaf Hlt He.
      destruct (update_out dbg P Hok t i leaf) as (t' & pf & E & Hl & Hr); auto.
      + unfold in_range in Ho. change (capacity P) with (pw (HEIGHT P - 1)) in Ho.
        unfold is_u64 in Hu. lia.
      + rewrite He. unfold gen_empty_hashes. rewrite empty_from_length.
        rewrite (H_h P Hok) at 1. reflexivity.
      + exists t', pf. split; auto. split.
        * unfold root. rewrite Hr. reflexivity.
        * intros. now apply vu_out.
  Qed.

  (** Heap index of the ancestor of leaf [i], [d] levels above the leaves. *)
  Definition ancestor (i : Z) (d : nat) : Z :=
    2 ^ Z.of_nat (HEIGHT P - 1 - d) - 1 + i / 2 ^ Z.of_nat d.

  (** All keys of the node map are heap indices of a tree of this height. *)
  Definition keys_in_range (t : tree) : Prop :=
    forall k, In k (bm_keys (t_map t)) -> 0 <= k < 2 ^ Z.of_nat (HEIGHT P) - 1.

  Lemma keys_in_range_eq t : keys_in_range t <-> tree_in_range P t.
  Proof.
    unfold keys_in_range, tree_in_range.
    replace (S (HEIGHT P - 1)) with (HEIGHT P) by (unfold cfg_ok in Hok; lia).
    unfold pw. tauto.
  Qed.

  Lemma validate_levels_root dbg t r n : forall L middle,
    validate_levels dbg {| t_map := t_map t; t_root := r; t_empty := t_empty t |} n L middle
    = validate_levels dbg t n L middle.
  Proof.
    induction n as [|n IH]; intros L middle; cbn [validate_levels]; auto.
    change (validate_node dbg {| t_map := t_map t; t_root := r; t_empty := t_empty t |} L)
      with (validate_node dbg t L).
    destruct (rfold (validate_node dbg t L) middle true) as [[]| |]; cbn [rbind]; auto.
    destruct (parents middle); cbn [rbind]; auto.
  Qed.

  (** An absent node counts as the root of an empty subtree of its level. *)
  Theorem C12_validate dbg :
    (forall t c w, built dbg P t c w -> validate dbg P t = Ok true) /\
    (forall t, t_empty t = gen_empty_hashes P -> keys_in_range t ->
       exists b, validate dbg P t = Ok b /\
       (b = true <->
        forall i d, 0 <= i -> (d < HEIGHT P - 1)%nat ->
          bm_get (t_map t) (ancestor i 0) <> None ->
          bm_get (t_map t) (ancestor i (S d)) =
          Some (two (get_or (t_map t) (node d (fun _ => LeafHash P (LeafDefault P)) 0)
                            (2 * ancestor i (S d) + 1))
                    (get_or (t_map t) (node d (fun _ => LeafHash P (LeafDefault P)) 0)
                            (2 * ancestor i (S d) + 2))))) /\
    (forall t r, validate dbg P {| t_map := t_map t; t_root := r; t_empty := t_empty t |}
                 = validate dbg P t).
  Proof.
    split; [| split ].
    - intros t c w Hb%(built_rep dbg P Hok). eapply validate_rep; eauto.
    - intros t He Hk. apply keys_in_range_eq in Hk.
      destruct (validate_spec dbg P Hok t He Hk) as (b & E1 & E2). exists b. split; auto.
      rewrite E2. unfold node_good.
      set (h := (HEIGHT P - 1)%nat) in *.
      assert (Hanc : forall i d, ancestor i d = heap h d (i / pw d)) by reflexivity.
      assert (Hleaf : forall i, 0 <= i -> (In i (bm_keys (stored_leaves P t)) <->
                                   bm_get (t_map t) (ancestor i 0) <> None)).
      { intros i Hi. rewrite stored_leaves_In by auto. rewrite bm_get_In, Hanc, div_pw_0. tauto. }
      assert (Hch : forall i d, (d < h)%nat ->
          2 * ancestor i (S d) + 1 = heap h d (2 * (i / pw (S d))) /\
          2 * ancestor i (S d) + 2 = heap h d (2 * (i / pw (S d)) + 1)).
      { intros i d Hd. rewrite Hanc. unfold heap.
        replace (h - d)%nat with (S (h - S d)) by lia. rewrite (pw_S (h - S d)). lia. }
      split.
      + intros H i d Hi Hd Hs. apply Hleaf in Hs; auto. specialize (H d i Hd Hs).
        destruct (Hch i d Hd) as [-> ->]. rewrite Hanc. exact H.
      + intros H d i Hd Hi. pose proof (stored_leaves_range P Hok t Hk i Hi) as Hr.
        assert (Hi0 : 0 <= i) by apply Hr.
        specialize (H i d Hi0 Hd (proj1 (Hleaf i Hi0) Hi)).
        destruct (Hch i d Hd) as [E3 E4]. rewrite E3, E4, Hanc in H. exact H.
    - intros t r. unfold validate. cbn [t_map].
      match goal with |- (do _ <- ?x; _) = _ => destruct x end; cbn [rbind]; auto.
      apply validate_levels_root.
  Qed.

  (** If moreover no inner node is stored without a stored leaf below it, validation pins down
      the stored root node: it is the Merkle root of the stored leaf digests. *)
  Theorem C12_validate_root dbg t :
    t_empty t = gen_empty_hashes P -> keys_in_range t ->
    (forall i d, (d <= HEIGHT P - 1)%nat -> 0 <= i < 2 ^ Z.of_nat (HEIGHT P - 1 - d) ->
        bm_get (t_map t) (2 ^ Z.of_nat (HEIGHT P - 1 - d) - 1 + i) <> None ->
        exists j, 0 <= j /\ bm_get (t_map t) (ancestor j 0) <> None /\ i = j / 2 ^ Z.of_nat d) ->
    validate dbg P t = Ok true ->
    get_or (t_map t) (merkle_root (empty_contents P)) 0 =
    node (HEIGHT P - 1) (fun i => get_or (t_map t) (LeafHash P (LeafDefault P)) (ancestor i 0)) 0.
  Proof.
    intros He Hk Hno Hv. destruct (C12_validate dbg) as (_ & Hc & _).
    destruct (Hc t He Hk) as (b & E1 & E2). rewrite Hv in E1. injection E1 as <-.
    pose proof (proj1 E2 eq_refl) as Hg. clear E2 Hc.
    set (h := (HEIGHT P - 1)%nat) in *.
    pose proof (h_ok P Hok) as Hh. fold h in Hh.
    set (f := fun i => get_or (t_map t) (LeafHash P (LeafDefault P)) (ancestor i 0)).
    assert (Hanc : forall i d, ancestor i d = heap h d (i / pw d)) by reflexivity.
    assert (G : forall d k, vpos h d k -> get_or (t_map t) (eh P d) (heap h d k) = node d f k).
    { induction d as [|d IH]; intros k Hvk.
      - cbn [node]. unfold f. rewrite Hanc, div_pw_0. reflexivity.
      - pose proof (vpos_down h Hh d k 0 ltac:(auto) Hvk) as Hv0. rewrite Z.add_0_r in Hv0.
        pose proof (vpos_down h Hh d k 1 ltac:(auto) Hvk) as Hv1.
        cbn [node]. rewrite <- (IH _ Hv0), <- (IH _ Hv1).
        assert (Hd : (d < h)%nat) by (destruct Hvk; lia).
        assert (Hch : 2 * heap h (S d) k + 1 = heap h d (2 * k) /\ 2 * heap h (S d) k + 2 = heap h d (2 * k + 1)).
        { unfold heap. replace (h - d)%nat with (S (h - S d)) by lia. rewrite (pw_S (h - S d)). lia. }
        destruct (bm_get (t_map t) (heap h (S d) k)) as [x|] eqn:Ex.
        + destruct (Hno k (S d)) as (j & Hj0 & Hj1 & Hj2); [ lia | apply Hvk | unfold heap, pw in Ex; congruence |].
          specialize (Hg j d Hj0 ltac:(lia) Hj1). rewrite Hanc in Hg. fold (pw (S d)) in Hj2.
          rewrite <- Hj2 in Hg. destruct Hch as [C1 C2]. rewrite C1, C2 in Hg.
          unfold get_or at 1. rewrite Hg. reflexivity.
        + assert (Hun : forall b, (b = 0 \/ b = 1) -> bm_get (t_map t) (heap h d (2 * k + b)) = None).
          { intros b Hb. destruct (bm_get (t_map t) (heap h d (2 * k + b))) as [y|] eqn:Ey; auto.
            pose proof (vpos_down h Hh d k b Hb Hvk) as [Hvb1 Hvb2].
            destruct (Hno (2 * k + b) d) as (j & Hj0 & Hj1 & Hj2); [ lia | exact Hvb2 | unfold heap, pw in Ey; congruence |].
            specialize (Hg j d Hj0 ltac:(lia) Hj1). rewrite Hanc, div_pw_S in Hg. fold (pw d) in Hj2.
            rewrite <- Hj2 in Hg.
            assert (E : (2 * k + b) / 2 = k).
            { symmetry. apply Z.div_unique with b; lia. }
            rewrite E in Hg. congruence. }
          pose proof (Hun 0 ltac:(auto)) as U0. rewrite Z.add_0_r in U0.
          pose proof (Hun 1 ltac:(auto)) as U1.
          unfold get_or. rewrite Ex, U0, U1. unfold eh. cbn [node].
          f_equal; apply node_const. }
    assert (Hr : vpos h h 0) by (split; [ lia | rewrite Nat.sub_diag, pw_0; lia ]).
    pose proof (G h 0 Hr) as G0. unfold heap in G0. rewrite Nat.sub_diag, pw_0 in G0. exact G0.
  Qed.

  Theorem C13_stale_proofs dbg t c w i new_leaf t' pf :
    built dbg P t c w -> in_range P i ->
    update_and_prove dbg P t i new_leaf = Ok (t', pf) ->
    LeafHash P new_leaf <> LeafHash P (c i) ->
    exists r, root t' = Ok r /\
    forall dbg' path, verify_with_index dbg' P path r (c i) i = Ok true ->
      collision2 (path ++ genuine_path (set_leaf c i new_leaf) i).
  Proof.
    intros Hb Hi Hu Hne.
    destruct (C04_update dbg t c w i new_leaf Hb Hi) as (t1 & pf1 & E & _ & Hr & _).
    rewrite E in Hu. injection Hu as <- <-. exists (merkle_root (set_leaf c i new_leaf)).
    split; auto. intros dbg' path H.
    assert (Hi64 : is_u64 i).
    { unfold is_u64. unfold in_range, capacity in Hi.
      pose proof (pwh_small P Hok). change (2 ^ Z.of_nat (HEIGHT P - 1)) with (pw (HEIGHT P - 1)) in Hi. lia. }
    apply C08_verify_with_index_sound in H as [_ [H|H]]; auto.
    exfalso. unfold set_leaf in H. rewrite Z.eqb_refl in H. congruence.
  Qed.

  (** ** Gadgets *)
  Context (Pg : GadgetConfig) (HH : GHEIGHT Pg = HEIGHT P).

  Lemma in_range_field i : in_range P i -> zval (Fof i) = i /\ is_u64 i.
  Proof.
    intros Hi. unfold in_range, capacity in Hi. pose proof (pwh_small P Hok).
    change (2 ^ Z.of_nat (HEIGHT P - 1)) with (pw (HEIGHT P - 1)) in Hi.
    pose proof two64_lt_p. unfold is_u64. split; [ apply zval_Fof_small |]; lia.
  Qed.

  Theorem C14_index_gadget_agrees dbg path r leaf leaf_var i :
    GLeafHash Pg leaf_var = LeafHash P leaf -> in_range P i ->
    (sat (check_membership_with_index Pg path r leaf_var (Fof i)) tt <->
       verify_with_index dbg P path r leaf i = Ok true) /\
    (honest (check_membership_with_index Pg path r leaf_var (Fof i)) = Some (true, tt) <->
       verify_with_index dbg P path r leaf i = Ok true).
  Proof.
    intros Hl Hi. destruct (in_range_field i Hi) as [Hz _].
    rewrite vwi_in by auto. unfold check_membership_with_index, chain_ok.
    rewrite (ccmi_sat P Pg Hok HH), (ccmi_honest P Pg Hok HH), Hz, Hl.
    destruct (length path =? HEIGHT P - 1)%nat eqn:El.
    - apply Nat.eqb_eq in El. cbn [andb negb orb].
      destruct (chain path i (LeafHash P leaf)) as [y|].
      + split; split.
        * intros [_ H]. specialize (H eq_refl). injection H as <-. now rewrite Feqb_refl.
        * intros H. injection H as H. apply Feqb_eq in H. subst. auto.
        * intros H. now injection H as ->.
        * intros H. now injection H as ->.
      + split; split; try discriminate. intros [_ H]. specialize (H eq_refl). discriminate.
    - apply Nat.eqb_neq in El. cbn [andb]. split; split; try discriminate; tauto.
  Qed.

  Theorem C15_index_aliasing path r leaf_var idx :
    (forall en,
      sat (conditionally_check_membership_with_index Pg path r leaf_var idx en) tt <->
      sat (conditionally_check_membership_with_index Pg path r leaf_var (Fof (zval idx mod capacity P)) en) tt) /\
    (forall i dbg leaf, in_range P i ->
      (sat (check_membership_with_index Pg path r leaf_var (Fof (i + capacity P))) tt <->
       sat (check_membership_with_index Pg path r leaf_var (Fof i)) tt) /\
      verify_with_index dbg P path r leaf (i + capacity P) <> Ok true).
  Proof.
    assert (Hc : 0 < capacity P) by (apply Z.pow_pos_nonneg; lia).
    pose proof (pwh_small P Hok) as Hs. change (pw (HEIGHT P - 1)) with (capacity P) in Hs.
    pose proof two64_lt_p as Hp.
    assert (G : forall idx en,
      sat (conditionally_check_membership_with_index Pg path r leaf_var idx en) tt <->
      sat (conditionally_check_membership_with_index Pg path r leaf_var (Fof (zval idx mod capacity P)) en) tt).
    { intros x en. rewrite !(ccmi_sat P Pg Hok HH).
      pose proof (Z.mod_pos_bound (zval x) (capacity P) Hc) as Hmb.
      rewrite zval_Fof_small by lia.
      split; intros [El H]; (split; [ exact El |]); intros Hen; specialize (H Hen).
      - change (capacity P) with (pw (HEIGHT P - 1)). rewrite chain_mod; auto.
      - change (capacity P) with (pw (HEIGHT P - 1)) in H. rewrite chain_mod in H; auto. }
    split; [ apply G |].
    intros i dbg leaf Hi. unfold in_range in Hi. split.
    - unfold check_membership_with_index. rewrite (G (Fof (i + capacity P))).
      rewrite zval_Fof_small by lia.
      replace ((i + capacity P) mod capacity P) with i; [ tauto |].
      apply Z.mod_unique with 1; lia.
    - apply vwi_out; auto; unfold is_u64, in_range; lia.
  Qed.

  Theorem C16_disabled_checks path2 path r r' leaf leaf' idx :
    length path = (HEIGHT P - 1)%nat -> length path2 = (HEIGHT P - 1)%nat ->
    honest (conditionally_check_membership Pg path r leaf false) = Some (true, tt) /\
    honest (conditionally_check_membership_with_index Pg path r leaf idx false) = Some (true, tt) /\
    honest (conditionally_check_update Pg path2 r r' leaf leaf' idx false) = Some (true, tt).
  Proof.
    intros H1 H2.
    rewrite (ccm_honest P Pg Hok HH), (ccmi_honest P Pg Hok HH), (ccu_honest P Pg Hok HH).
    rewrite H1, H2, !Nat.eqb_refl. auto.
  Qed.

  Theorem C17_membership_gadget_agrees path r leaf leaf_var :
    GLeafHash Pg leaf_var = LeafHash P leaf ->
    (sat (check_membership Pg path r leaf_var) tt <-> verify P path r leaf = Ok true) /\
    (honest (check_membership Pg path r leaf_var) = Some (true, tt) <-> verify P path r leaf = Ok true).
  Proof.
    intros Hl. unfold check_membership. rewrite verify_eq by auto.
    rewrite (ccm_sat P Pg Hok HH), (ccm_honest P Pg Hok HH), Hl.
    destruct (length path =? HEIGHT P - 1)%nat eqn:El.
    - apply Nat.eqb_eq in El. cbn [andb negb orb].
      destruct (verify_loop path (LeafHash P leaf)) as [y|].
      + split; split.
        * intros [_ H]. specialize (H eq_refl). subst. now rewrite Feqb_refl.
        * intros H. injection H as H. apply Feqb_eq in H. subst. auto.
        * intros H. now injection H as ->.
        * intros H. now injection H as ->.
      + split; split; try discriminate. intros [_ H]. now specialize (H eq_refl).
    - apply Nat.eqb_neq in El. cbn [andb]. split; split; try discriminate; tauto.
  Qed.

  Theorem C18_update_gadget_agrees dbg path ro rn lo ln lo_var ln_var i idx :
    GLeafHash Pg lo_var = LeafHash P lo -> GLeafHash Pg ln_var = LeafHash P ln ->
    (in_range P i ->
      (sat (check_update Pg path ro rn lo_var ln_var (Fof i)) tt <->
         verify_update dbg P path ro rn lo ln i = Ok true) /\
      (honest (check_update Pg path ro rn lo_var ln_var (Fof i)) = Some (true, tt) <->
         verify_update dbg P path ro rn lo ln i = Ok true)) /\
    (length path = (HEIGHT P - 1)%nat ->
      honest (update_root Pg path lo_var ln_var idx) =
      Some (true, (fold_sibs path (zval idx mod capacity P) (LeafHash P lo),
                   fold_sibs path (zval idx mod capacity P) (LeafHash P ln)))).
  Proof.
    intros H1 H2. split.
    - intros Hi. destruct (in_range_field i Hi) as [Hz _].
      rewrite vu_in by auto. unfold check_update.
      rewrite (ccu_sat P Pg Hok HH), (ccu_honest P Pg Hok HH), Hz, H1, H2.
      destruct (length path =? HEIGHT P - 1)%nat eqn:El.
      + apply Nat.eqb_eq in El. cbn [andb negb orb]. split; split.
        * intros [_ H]. destruct (H eq_refl) as [-> ->]. now rewrite !Feqb_refl.
        * intros H. injection H as H. apply andb_prop in H as [G1 G2].
          apply Feqb_eq in G1, G2. auto.
        * intros H. now injection H as ->.
        * intros H. now injection H as ->.
      + apply Nat.eqb_neq in El. cbn [andb]. split; split; try discriminate; tauto.
    - intros El. rewrite (update_root_honest P Pg Hok HH), El, Nat.eqb_refl, H1, H2.
      change (capacity P) with (pw (HEIGHT P - 1)). now rewrite !fold_sibs_mod by auto.
  Qed.

  Theorem C19_lengths :
    length (default_path P) = (HEIGHT P - 1)%nat /\ Forall (eq (Fzero, Fzero)) (default_path P) /\
    length (default_two_paths P) = (HEIGHT P - 1)%nat /\ Forall (eq Fzero) (default_two_paths P) /\
    (forall path r leaf leaf' idx i dbg en, length path <> (HEIGHT P - 1)%nat ->
       honest (conditionally_check_membership Pg path r leaf en) = None /\
       honest (conditionally_check_membership_with_index Pg path r leaf idx en) = None /\
       verify P path r leaf' = Ok false /\ verify_with_index dbg P path r leaf' i = Ok false) /\
    (forall path ro rn lo ln lo' ln' idx i dbg en, length path <> (HEIGHT P - 1)%nat ->
       honest (conditionally_check_update Pg path ro rn lo ln idx en) = None /\
       verify_update dbg P path ro rn lo' ln' i = Ok false).
  Proof.
    assert (Hrep : forall A (x : A) n, Forall (eq x) (repeat x n)) by (intros A x n; induction n; cbn; auto).
    unfold default_path, default_two_paths. rewrite !repeat_length.
    split; [ auto | split; [ apply Hrep | split; [ auto | split; [ apply Hrep | split ] ] ] ].
    - intros path r leaf leaf' idx i dbg en Hn. apply Nat.eqb_neq in Hn.
      rewrite (ccm_honest P Pg Hok HH), (ccmi_honest P Pg Hok HH).
      unfold verify, verify_with_index. rewrite Hn. auto.
    - intros path ro rn lo ln lo' ln' idx i dbg en Hn. apply Nat.eqb_neq in Hn.
      rewrite (ccu_honest P Pg Hok HH). unfold verify_update. rewrite Hn. auto.
  Qed.
End props.

(** * Concrete cases *)
Definition exm : bmap (Leaf exP) := [(1, Fof 5); (3, Fof 7)].
Definition is_ok {E A} (r : res E A) : bool := match r with Ok _ => true | _ => false end.
Definition is_panic {E A} (r : res E A) : bool := match r with Panic => true | _ => false end.
Definition get_ok {E A} (d : A) (r : res E A) : A := match r with Ok a => a | _ => d end.
Definition ext : tree := get_ok (blank exP) (new true exP exm).
Definition ext2 : tree * list F := get_ok (ext, []) (update_and_prove true exP ext 2 (Fof 9)).

Example C02_case : exm <> [] /\ NoDup (bm_keys exm) /\ (forall i, In i (bm_keys exm) -> in_range exP i).
Proof.
  repeat split.
  - discriminate.
  - cbn. repeat constructor; cbn; intuition discriminate.
  - cbn in H. destruct H as [<-|[<-|[]]]; lia.
  - cbn in H. change (capacity exP) with 4. destruct H as [<-|[<-|[]]]; lia.
Qed.
Example C03_case : capacity exP < Z.of_nat (length [(0, Fzero); (1, Fzero); (2, Fzero); (3, Fzero); (4, Fzero)])
  /\ is_panic (new true exP [(0, Fzero); (1, Fzero); (2, Fzero); (3, Fzero); (4, Fzero)]) = true.
Proof. split; [ reflexivity | vm_compute; reflexivity ]. Qed.
Lemma ext_new : new true exP exm = Ok ext.
Proof.
  destruct (C02_new_root exP exP_ok true exm (proj1 C02_case) (proj1 (proj2 C02_case))
              (proj2 (proj2 C02_case))) as (t & E & _).
  unfold ext. rewrite E. reflexivity.
Qed.
(** A tree built by [new] and then updated. *)
Example built_case :
  built true exP (fst ext2) (set_leaf (map_contents exm) 2 (Fof 9)) (fun j => (j =? 2) || bm_contains exm j).
Proof.
  assert (Hb : built true exP ext (map_contents exm) (fun i => bm_contains exm i)).
  { apply built_new; [ apply C02_case .. | apply ext_new ]. }
  assert (Hr : in_range exP 2) by (split; [ lia | reflexivity ]).
  destruct (C04_update exP exP_ok true ext _ _ 2 (Fof 9) Hb Hr) as (t' & pf & E & _ & _ & _ & Hb').
  unfold ext2. rewrite E. exact Hb'.
Qed.
(** Its proofs, evaluated: the leaf at 2, the default leaf at 0, a wrong leaf, a stale leaf. *)
Definition exr (t : tree) : F := get_ok Fzero (root t).
Definition expath (t : tree) (i : Z) (l : F) : list (F * F) := get_ok [] (generate_proof true exP t i l).
Example C06_C07_C13_case :
  (get_ok false (verify_with_index true exP (expath (fst ext2) 2 (Fof 9)) (exr (fst ext2)) (Fof 9) 2) = true) /\
  (get_ok false (verify_with_index true exP (expath (fst ext2) 0 Fzero) (exr (fst ext2)) Fzero 0) = true) /\
  is_ok (generate_proof true exP (fst ext2) 0 (Fof 33)) = true /\
  is_ok (generate_proof true exP (fst ext2) 2 (Fof 33)) = false /\
  (get_ok true (verify_with_index true exP (expath ext 2 Fzero) (exr (fst ext2)) Fzero 2) = false) /\
  get_ok false (verify_update true exP (snd ext2) (exr ext) (exr (fst ext2)) Fzero (Fof 9) 2) = true.
Proof. vm_compute. repeat split. Qed.
(** Out of range: rejection in both modes, a panic with overflow checks, a silent update. *)
Example C08_C11_case :
  get_ok true (verify_with_index true exP (expath ext 0 Fzero) (exr ext) Fzero 4) = false /\
  is_panic (verify_with_index true exP (expath ext 0 Fzero) (exr ext) Fzero (two64 - 1)) = true /\
  get_ok true (verify_with_index false exP (expath ext 0 Fzero) (exr ext) Fzero (two64 - 1)) = false /\
  is_ok (update_and_prove true exP ext 4 (Fof 9)) = true.
Proof. vm_compute. repeat split. Qed.
(** [validate] distinguishes: a tampered inner node is noticed. *)
Example C12_case :
  get_ok false (validate true exP (fst ext2)) = true /\
  get_ok true (validate true exP {| t_map := bm_insert (t_map (fst ext2)) 2 (Fof 1);
                                    t_root := t_root (fst ext2); t_empty := t_empty (fst ext2) |}) = false.
Proof. vm_compute. repeat split. Qed.
(** The gadgets on the same proofs, the index aliased by 4. *)
Example C14_C15_C18_case :
  option_map fst (honest (check_membership_with_index exPg (expath (fst ext2) 2 (Fof 9)) (exr (fst ext2)) (Fof 9) (Fof 2))) = Some true /\
  option_map fst (honest (check_membership_with_index exPg (expath (fst ext2) 2 (Fof 9)) (exr (fst ext2)) (Fof 9) (Fof 6))) = Some true /\
  option_map fst (honest (check_membership_with_index exPg (expath (fst ext2) 2 (Fof 9)) (exr (fst ext2)) (Fof 9) (Fof 3))) = Some false /\
  option_map fst (honest (check_membership exPg (expath (fst ext2) 2 (Fof 9)) (exr (fst ext2)) (Fof 9))) = Some true /\
  option_map fst (honest (check_update exPg (snd ext2) (exr ext) (exr (fst ext2)) Fzero (Fof 9) (Fof 2))) = Some true.
Proof. vm_compute. repeat split. Qed.

Print Assumptions C01_blank_root.
Print Assumptions C02_new_root.
Print Assumptions C03_new_failure_modes.
Print Assumptions C04_update.
Print Assumptions C05_history_independence.
Print Assumptions C06_membership_complete.
Print Assumptions C07_generate_proof_leaf_check.
Print Assumptions C08_verify_with_index_sound.
Print Assumptions C09_verify_sound.
Print Assumptions C10_update_sound.
Print Assumptions C11_out_of_range.
Print Assumptions C12_validate.
Print Assumptions C12_validate_root.
Print Assumptions C13_stale_proofs.
Print Assumptions C14_index_gadget_agrees.
Print Assumptions C15_index_aliasing.
Print Assumptions C16_disabled_checks.
Print Assumptions C17_membership_gadget_agrees.
Print Assumptions C18_update_gadget_agrees.
Print Assumptions C19_lengths.

(** A checker for the absence of collisions along a sequence of writes, used to show that the
    hypotheses "no collision" of the circuit theorems are met by concrete runs. *)
From Coq Require Import ZArith List Bool Lia.
Import ListNotations.
From Verif Require Import Base Env Circuit SparseMT SparseMTSpec SparseMTHeap SparseMTRep SparseMTProofs
  Data DataSpec Aggregator AggSpec AggIntake AggCircuit AggCircuitSpec.
Open Scope Z_scope.

Section clean.
  Context {hs : Hashes}.

  Lemma climb_is_genuine (f : Z -> F) n : forall d k, 0 <= k ->
    climb_pairs (sib_path d n f k) k (node d f k) = genuine_from d n f k.
  Proof.
    induction n as [|n IH]; intros d k Hk; cbn [sib_path climb_pairs genuine_from]; [ reflexivity |].
    assert (E : (if Z.even k then (node d f k, node d f (sibk k)) else (node d f (sibk k), node d f k))
                = (node d f (2 * (k / 2)), node d f (2 * (k / 2) + 1))).
    { unfold sibk. pose proof (Zmod_even k) as Hm. pose proof (Z.div_mod k 2 ltac:(lia)) as Hd.
      destruct (Z.even k).
      - f_equal; f_equal; lia.
      - f_equal; f_equal; lia. }
    rewrite E. f_equal. cbn [fst snd].
    change (two (node d f (2 * (k / 2))) (node d f (2 * (k / 2) + 1))) with (node (S d) f (k / 2)).
    apply IH. apply Z.div_pos; lia.
  Qed.

  Definition pair_eqb (a b : F * F) : bool := Feqb (fst a) (fst b) && Feqb (snd a) (snd b).
  Fixpoint flist_eqb (a b : list F) : bool :=
    match a, b with
    | [], [] => true
    | x :: a', y :: b' => Feqb x y && flist_eqb a' b'
    | _, _ => false
    end.
  Lemma flist_eqb_eq a : forall b, flist_eqb a b = true -> a = b.
  Proof.
    induction a as [|x a IH]; intros [|y b] H; try discriminate; [ reflexivity |].
    cbn [flist_eqb] in H. apply andb_true_iff in H as [H1 H2]. apply Feqb_eq in H1. f_equal; auto.
  Qed.
  Lemma pair_eqb_eq a b : pair_eqb a b = true -> a = b.
  Proof.
    unfold pair_eqb. intros H. apply andb_true_iff in H as [H1 H2]. apply Feqb_eq in H1, H2.
    destruct a, b. cbn [fst snd] in *. congruence.
  Qed.
  (** [l] with the hashes of its elements: pairwise equal or with different hashes *)
  Fixpoint distinct (l : list ((F * F) * F)) : bool :=
    match l with
    | [] => true
    | (a, h) :: r => forallb (fun bh => negb (Feqb h (snd bh)) || pair_eqb a (fst bh)) r && distinct r
    end.
  Definition no_collision (l : list (F * F)) : bool :=
    distinct (map (fun a => (a, two (fst a) (snd a))) l).
  Lemma distinct_ok l : distinct (map (fun a => (a, two (fst a) (snd a))) l) = true ->
    forall a b, In a l -> In b l -> two (fst a) (snd a) = two (fst b) (snd b) -> a = b.
  Proof.
    induction l as [|x l IH]; intros H a b Ha Hb E; [ destruct Ha |]. cbn [map distinct] in H.
    apply andb_true_iff in H as [H1 H2]. rewrite forallb_forall in H1.
    assert (Hx : forall y, In y l -> two (fst x) (snd x) = two (fst y) (snd y) -> x = y).
    { intros y Hy Ey. specialize (H1 (y, two (fst y) (snd y))). cbn [fst snd] in H1.
      assert (Hin : In (y, two (fst y) (snd y)) (map (fun a => (a, two (fst a) (snd a))) l)).
      { apply in_map_iff. exists y. now split. }
      specialize (H1 Hin). rewrite Ey, (proj2 (Feqb_eq _ _) eq_refl) in H1. cbn [negb orb] in H1. now apply pair_eqb_eq. }
    destruct Ha as [<-|Ha], Hb as [<-|Hb]; auto. symmetry. apply Hx; auto.
  Qed.
  Lemma no_collision_ok l : no_collision l = true -> ~ collision2 (l ++ l).
  Proof.
    intros H (a & b & Ha & Hb & Hn & E). apply Hn. apply (distinct_ok l H).
    - apply in_app_or in Ha; tauto.
    - apply in_app_or in Hb; tauto.
    - exact E.
  Qed.

  Variable P : SparseConfig.
  Hypothesis Hok : cfg_ok P.
  Variable leaf_eqb : Leaf P -> Leaf P -> bool.
  Hypothesis leaf_eqb_eq : forall a b, leaf_eqb a b = true -> a = b.
  Variable enc : Leaf P -> list F.

  (** contents given by their non-default leaves, the latest first *)
  Fixpoint lookup (m : list (Z * Leaf P)) : contents P :=
    match m with
    | [] => empty_contents P
    | (i, l) :: m' => set_leaf (lookup m') i l
    end.
  Fixpoint clean (t : tree) (m : list (Z * Leaf P)) (ws : list (write (Leaf P))) : bool :=
    match ws with
    | [] => true
    | w :: r =>
      (0 <=? w_pos w) && (w_pos w <? capacity P) && leaf_eqb (lookup m (w_pos w)) (w_old w) &&
      match update_and_prove true P t (w_pos w) (w_new w) with
      | Ok (t', pf) => flist_eqb pf (w_path w) &&
                       no_collision (climb_pairs (w_path w) (w_pos w) (LeafHash P (w_old w))) &&
                       clean t' ((w_pos w, w_new w) :: m) r
      | _ => false
      end
    end.
  Lemma clean_ok ws : forall t m, tree_holds true P t (lookup m) -> clean t m ws = true ->
    ~ collides P enc (lookup m) ws.
  Proof.
    induction ws as [|w ws IH]; intros t m Ht H; [ intros [] |]. cbn [clean] in H.
    apply andb_true_iff in H as [H H2]. apply andb_true_iff in H as [H H1]. apply andb_true_iff in H as [Ha Hb].
    apply Z.leb_le in Ha. apply Z.ltb_lt in Hb. apply leaf_eqb_eq in H1.
    destruct (tree_holds_update true P Hok _ _ _ (w_new w) Ht (conj Ha Hb)) as (t' & pf & E & Ht' & Epf & _).
    rewrite E in H2. apply andb_true_iff in H2 as [H2 H3]. apply andb_true_iff in H2 as [H2 H4].
    apply flist_eqb_eq in H2. cbn [collides]. intros [Hc|[Hc|Hc]].
    - apply no_collision_ok in H4. apply H4. rewrite <- H2, Epf in Hc |- *.
      assert (Eg : climb_pairs (sib_path 0 (HEIGHT P - 1) (digests (lookup m)) (w_pos w)) (w_pos w) (LeafHash P (w_old w))
                   = genuine_path (lookup m) (w_pos w)).
      { unfold genuine_path. rewrite <- (climb_is_genuine _ _ 0 (w_pos w) Ha). f_equal. cbn [node]. unfold digests. now rewrite H1. }
      rewrite Eg in Hc |- *. exact Hc.
    - unfold crh_collision in Hc. rewrite H1 in Hc. tauto.
    - exact (IH t' ((w_pos w, w_new w) :: m) Ht' H3 Hc).
  Qed.
End clean.

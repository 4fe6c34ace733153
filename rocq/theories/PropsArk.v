(** Property C85: updates and memberships in the arkworks trees. *)
From Coq Require Import ZArith List Bool Lia.
Import ListNotations.
From Verif Require Import Base Env Toy Circuit SparseMT SparseMTSpec SparseMTHeap SparseMTRep SparseMTProofs Data DataSpec DataFacts PropsData
  Gadgets GadgetsProofs Schnorr Contract Aggregator AggCircuit AggCircuitFacts AggCircuitSpec User PropsUser ArkTree.
Open Scope Z_scope.

Section props.
  Context {hs : Hashes}.
  Variable P : SparseConfig.
  Hypothesis Hh : (2 <= HEIGHT P)%nat.

  (** the position a path claims, and whether its lengths are those of the tree *)
  Definition position (v : ark_pathV) : Z := bits_val (get_leaf_position (ap_dir v)).
  Definition fits_tree (v : ark_pathV) : Prop :=
    length (directions (ap_dir v)) = (HEIGHT P - 2)%nat /\ length (ap_auth v) = (HEIGHT P - 2)%nat.
  Definition siblings_up (v : ark_pathV) : list F := ap_leaf_sibling v :: rev (ap_auth v).

  Lemma fold_bits bs : forall sibs x, length bs = length sibs ->
    fold_left (fun curr (bs : bool * F) => if fst bs then two (snd bs) curr else two curr (snd bs)) (combine bs sibs) x
    = fold_sibs sibs (bits_val bs) x.
  Proof.
    induction bs as [|b bs IH]; intros [|s sibs] x H; try discriminate H; [ reflexivity |].
    cbn [combine fold_left fst snd fold_sibs bits_val]. rewrite IH by (cbn [length] in H; lia).
    assert (E1 : Z.even (Z.b2z b + 2 * bits_val bs) = negb b).
    { rewrite Z.even_add, Z.even_mul. destruct b; reflexivity. }
    assert (E2 : (Z.b2z b + 2 * bits_val bs) / 2 = bits_val bs).
    { symmetry. apply (Z.div_unique _ 2 _ (Z.b2z b)); [ destruct b; cbn; lia | lia ]. }
    rewrite E1, E2. destruct b; reflexivity.
  Qed.
  Lemma calculate_root_eq v l : fits_tree v -> calculate_root P v l = fold_sibs (siblings_up v) (position v) (LeafHash P l).
  Proof.
    intros [H1 H2]. unfold calculate_root, siblings_up, position, get_leaf_position.
    rewrite fold_bits by (rewrite !rev_length; congruence). cbn [bits_val fold_sibs].
    set (b := leaf_is_right_child (ap_dir v)). set (r := bits_val (rev (directions (ap_dir v)))).
    assert (E1 : Z.even (Z.b2z b + 2 * r) = negb b).
    { rewrite Z.even_add, Z.even_mul. destruct b; reflexivity. }
    assert (E2 : (Z.b2z b + 2 * r) / 2 = r).
    { symmetry. apply (Z.div_unique _ 2 _ (Z.b2z b)); [ destruct b; cbn; lia | lia ]. }
    rewrite E1, E2. destruct b; reflexivity.
  Qed.
  Lemma siblings_length v : fits_tree v -> length (siblings_up v) = (HEIGHT P - 1)%nat.
  Proof. intros [_ H]. unfold siblings_up. cbn [length]. rewrite rev_length, H. lia. Qed.
  Lemma position_range v : fits_tree v -> in_range P (position v).
  Proof.
    intros [H _]. unfold in_range, capacity, position. pose proof (bits_val_bounds (get_leaf_position (ap_dir v))) as B.
    rewrite position_length, H in B. replace (S (HEIGHT P - 2)) with (HEIGHT P - 1)%nat in B by lia. exact B.
  Qed.

  (** ** C85: soundness of an update *)
  Theorem C85_update (c : contents P) u ok :
    fits_tree (up_path u) -> up_prev_root u = merkle_root c ->
    sat (update_and_check P u) ok ->
    let i := position (up_path u) in
    (LeafHash P (c i) = LeafHash P (up_prev_leaf u) /\
     (ok = true <-> up_new_root u = merkle_root (set_leaf c i (up_new_leaf u))))
    \/ collision2 (climb_pairs (siblings_up (up_path u)) i (LeafHash P (up_prev_leaf u)) ++ genuine_path c i).
  Proof.
    intros Hf Hr H i. unfold update_and_check in H. apply sat_bind in H as ([] & H1 & H2).
    apply sat_enforce in H1. unfold verify_membership in H1. apply Feqb_eq in H1.
    rewrite (calculate_root_eq _ _ Hf), Hr in H1.
    cbn [sat] in H2. subst ok.
    destruct (update_sound P c (siblings_up (up_path u)) (LeafHash P (up_prev_leaf u)) (up_new_leaf u) i
                (position_range _ Hf) (siblings_length _ Hf) H1) as [(E & R & _)|C]; [ left | right; exact C ].
    split; [ symmetry; exact E |]. rewrite (calculate_root_eq _ _ Hf), Feqb_eq. fold i. rewrite R. split; congruence.
  Qed.

  Lemma beside_sib_path (c : contents P) n : forall d k, beside P d n c k = sib_path d n (digests c) k.
  Proof. induction n as [|n IH]; intros d k; [ reflexivity |]. cbn [beside sib_path]. rewrite IH. reflexivity. Qed.
  Lemma proof_fits c i : fits_tree (ark_proof P c i).
  Proof.
    unfold fits_tree, ark_proof, path_var_of. cbn [ap_dir ap_auth directions].
    rewrite !rev_length, bits_le_length, beside_sib_path, sib_path_length. split; [ lia | reflexivity ].
  Qed.
  Lemma proof_siblings c i : siblings_up (ark_proof P c i) = sib_path 0 (HEIGHT P - 1) (digests c) i.
  Proof.
    unfold siblings_up, ark_proof. cbn [ap_leaf_sibling ap_auth]. rewrite rev_involutive, beside_sib_path.
    replace (HEIGHT P - 1)%nat with (S (HEIGHT P - 2)) by lia. reflexivity.
  Qed.
  Lemma proof_position c i : in_range P i -> position (ark_proof P c i) = i.
  Proof.
    intros Hi. unfold position, ark_proof, get_leaf_position, path_var_of. cbn [ap_dir leaf_is_right_child directions].
    rewrite rev_involutive. cbn [bits_val]. rewrite bits_val_le. rewrite Z.mod_small.
    - rewrite (Z.div_mod i 2) at 3 by lia. rewrite Zmod_odd. destruct (Z.odd i); cbn [Z.b2z]; lia.
    - unfold in_range, capacity in Hi. replace (Z.of_nat (HEIGHT P - 1)) with (Z.succ (Z.of_nat (HEIGHT P - 1 - 1))) in Hi by lia.
      rewrite Z.pow_succ_r in Hi by lia. split; [ apply Z.div_pos; lia | apply Z.div_lt_upper_bound; lia ].
  Qed.
  (** ** C85: the honest path of any leaf is accepted for every new leaf and every claimed root, and
      the result says whether the root is right. A wrong root is not rejected by the gadget: the
      caller has to enforce the result. *)
  Theorem C85_honest (c : contents P) i l r :
    in_range P i ->
    let u := mkUpdateProof P (merkle_root c) (c i) (ark_proof P c i) r l in
    let right := Feqb (merkle_root (set_leaf c i l)) r in
    honest (update_and_check P u) = Some (true, right) /\ forall ok, sat (update_and_check P u) ok <-> ok = right.
  Proof.
    intros Hi u right. destruct (sib_path_roots P c i l Hi) as [E1 E2].
    assert (R1 : calculate_root P (ark_proof P c i) (c i) = merkle_root c).
    { rewrite (calculate_root_eq _ _ (proof_fits c i)), proof_siblings, (proof_position c i Hi). exact E1. }
    assert (R2 : calculate_root P (ark_proof P c i) l = merkle_root (set_leaf c i l)).
    { rewrite (calculate_root_eq _ _ (proof_fits c i)), proof_siblings, (proof_position c i Hi). exact E2. }
    unfold update_and_check, u, verify_membership. cbn [up_path up_prev_root up_prev_leaf up_new_leaf up_new_root].
    rewrite R1, R2, Feqb_refl. fold right. split; [ reflexivity |]. intros ok.
    rewrite sat_bind. cbn [sat]. split; [ intros ([] & _ & E); symmetry; exact E |]. intros ->. exists tt. split; [| reflexivity ].
    apply sat_enforce. reflexivity.
  Qed.
  Corollary C85_result_not_enforced (c : contents P) i l r :
    in_range P i -> r <> merkle_root (set_leaf c i l) ->
    sat (update_and_check P (mkUpdateProof P (merkle_root c) (c i) (ark_proof P c i) r l)) false.
  Proof.
    intros Hi Hr. destruct (C85_honest c i l r Hi) as [_ H]. apply H. symmetry. apply Feqb_neq. congruence.
  Qed.

  (** ** C85: a path whose identifier was checked proves the leaf registered under that identifier *)
  Theorem C85_identified (c : contents P) v id l :
    fits_tree v -> (HEIGHT P <= 254)%nat -> sat (compute_id_from_path_and_check (ap_dir v) id) tt ->
    verify_membership P v (merkle_root c) l = true ->
    (zval id < capacity P /\ LeafHash P l = LeafHash P (c (zval id)))
    \/ collision2 (climb_pairs (siblings_up v) (zval id) (LeafHash P l) ++ genuine_path c (zval id)).
  Proof.
    intros Hf H254 Hid Hm. pose proof (position_range v Hf) as Hp.
    assert (Hd : (length (directions (ap_dir v)) < 253)%nat) by (destruct Hf as [-> _]; lia).
    apply (id_sat (ap_dir v) id Hd) in Hid.
    assert (Ei : zval id = position v).
    { rewrite Hid. apply zval_Fof_small. unfold position in *. unfold in_range, capacity in Hp. split; [ apply Hp |].
      eapply Z.lt_le_trans; [ apply Hp |]. pose proof p_bounds as [Pb _]. apply Z.lt_le_incl.
      eapply Z.le_lt_trans; [| exact Pb ]. apply Z.pow_le_mono_r; lia. }
    unfold verify_membership in Hm. apply Feqb_eq in Hm. rewrite (calculate_root_eq _ _ Hf) in Hm. rewrite Ei.
    destruct (update_sound P c (siblings_up v) (LeafHash P l) l (position v) Hp (siblings_length _ Hf) Hm) as [(E & _ & _)|C];
      [ left | right; exact C ].
    split; [ apply Hp | exact E ].
  Qed.
End props.

(** The tree of public keys with 1024 leaves (publickeymap/mod.rs:66), key of user 5, on the toy
    instance. *)
Definition keys10 : SparseConfig := mkConfig pt pk_hash pzero 11.
Definition some_keys : contents keys10 := fun i => of_Z toy_q (i * i + 1).
Example update_instance :
  sat (update_and_check keys10 (mkUpdateProof keys10 (merkle_root some_keys) (some_keys 5) (ark_proof keys10 some_keys 5)
         (merkle_root (set_leaf some_keys 5 (pzero : Leaf keys10))) (pzero : Leaf keys10))) true.
Proof.
  apply (proj2 (C85_honest keys10 ltac:(cbn; lia) some_keys 5 _ _ ltac:(split; [ discriminate | reflexivity ]))).
  symmetry. apply Feqb_refl.
Qed.
Example identified_instance :
  sat (compute_id_from_path_and_check (ap_dir (ark_proof keys10 some_keys 5)) (Fof 5)) tt /\
  verify_membership keys10 (ark_proof keys10 some_keys 5) (merkle_root some_keys) (some_keys 5) = true /\
  fits_tree keys10 (ark_proof keys10 some_keys 5).
Proof.
  split; [| split; [ vm_compute; reflexivity | apply proof_fits; cbn; lia ] ].
  refine (proj2 (proj1 (C81_identifier 10 5 (Fof 5) _ _)) _); [ lia | split; [ discriminate | reflexivity ] | reflexivity ].
Qed.

Print Assumptions C85_update.
Print Assumptions C85_honest.
Print Assumptions C85_result_not_enforced.
Print Assumptions C85_identified.

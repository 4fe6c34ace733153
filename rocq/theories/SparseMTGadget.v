(** Model of plasma-fold/src/primitives/sparsemt/constraints.rs: the membership and update
    gadgets of the sparse Merkle tree. Line numbers refer to that file. *)
From Coq Require Import ZArith List Bool Lia.
Import ListNotations.
From Verif Require Import Base Env Circuit.
Open Scope Z_scope.

(** [SparseConfigGadget] (lines 23-25) with [LeafDigest = InnerDigest = FpVar<F>]: the type of
    allocated leaves, their in-circuit hash, and the height. *)
Record GadgetConfig := mkGadgetConfig
  { GLeaf : Type;
    GLeafHash : GLeaf -> F;
    GHEIGHT : nat }.

(** [FpVar::to_bits_le] (lines 186, 265): the 254 bits of the canonical representative. *)
Definition to_bits_le (x : F) : list bool := bits_le 254 (zval x).
(** [FpVar::conditionally_select] / [Boolean::select] *)
Definition sel {A} (b : bool) (x y : A) : A := if b then x else y.

Section gadget.
  Context {hs : Hashes} (P : GadgetConfig).

  (** Allocated paths ([MerkleSparseTreePathVar], [MerkleSparseTreeTwoPathsVar], lines 28-37,
      allocated entry by entry, lines 340-386) are lists of field elements of any length. *)

  (** lines 111-136: each level allocates the hint [previous_is_left] *)
  Fixpoint membership_loop (path : list (F * F)) (prev : F) (should_enforce : bool) : circ F :=
    match path with
    | [] => Ret prev
    | (l, r) :: path' =>
      let! previous_is_left := witness (Feqb prev l) in
      let! _ := cond_enforce (Feqb prev (sel previous_is_left l r)) should_enforce in
      membership_loop path' (two l r) should_enforce
    end.
  (** lines 74-139 *)
  Definition conditionally_check_membership (path : list (F * F)) (root : F) (leaf : GLeaf P)
    (should_enforce : bool) : circ unit :=
    let! _ := cassert (length path =? (GHEIGHT P - 1))%nat in
    let leaf_hash := GLeafHash P leaf in
    match path with
    | [] => Abort (* [self.path[0]] out of bounds *)
    | (l0, r0) :: _ =>
      let! leaf_is_left := witness (Feqb leaf_hash l0) in
      let! _ := cond_enforce (Feqb leaf_hash (sel leaf_is_left l0 r0)) should_enforce in
      let! previous_hash := membership_loop path leaf_hash should_enforce in
      cond_enforce (Feqb root previous_hash) should_enforce
    end.
  (** lines 52-71 *)
  Definition check_membership (path : list (F * F)) (root : F) (leaf : GLeaf P) : circ unit :=
    conditionally_check_membership path root leaf true.

  (** lines 188-203; [index_bits[i]] out of bounds panics *)
  Fixpoint index_loop (path : list (F * F)) (index_bits : list bool) (prev : F)
    (should_enforce : bool) : circ F :=
    match path with
    | [] => Ret prev
    | (l, r) :: path' =>
      match index_bits with
      | [] => Abort
      | b :: bits' =>
        let previous_is_left := negb b in
        let! _ := cond_enforce (Feqb prev (sel previous_is_left l r)) should_enforce in
        index_loop path' bits' (two l r) should_enforce
      end
    end.
  (** lines 164-206 *)
  Definition conditionally_check_membership_with_index (path : list (F * F)) (root : F)
    (leaf : GLeaf P) (index : F) (should_enforce : bool) : circ unit :=
    let! _ := cassert (length path =? (GHEIGHT P - 1))%nat in
    let! previous_hash := index_loop path (to_bits_le index) (GLeafHash P leaf) should_enforce in
    cond_enforce (Feqb root previous_hash) should_enforce.
  (** lines 142-161 *)
  Definition check_membership_with_index (path : list (F * F)) (root : F) (leaf : GLeaf P)
    (index : F) : circ unit :=
    conditionally_check_membership_with_index path root leaf index true.

  (** lines 266-282: [zip] stops at the shorter list *)
  Fixpoint update_loop (path : list F) (index_bits : list bool) (old_hash new_hash : F) : F * F :=
    match path, index_bits with
    | neighbor :: path', neighbor_is_left :: bits' =>
      let old_left := sel neighbor_is_left neighbor old_hash in
      let old_right := Fsub (Fadd old_hash neighbor) old_left in
      let new_left := sel neighbor_is_left neighbor new_hash in
      let new_right := Fsub (Fadd new_hash neighbor) new_left in
      update_loop path' bits' (two old_left old_right) (two new_left new_right)
    | _, _ => (old_hash, new_hash)
    end.
  (** lines 236-284 *)
  Definition update_root (path : list F) (old_leaf new_leaf : GLeaf P) (index : F)
    : circ (F * F) :=
    let! _ := cassert (length path =? (GHEIGHT P - 1))%nat in
    Ret (update_loop path (to_bits_le index) (GLeafHash P old_leaf) (GLeafHash P new_leaf)).
  (** lines 313-337 *)
  Definition conditionally_check_update (path : list F) (old_root new_root : F)
    (old_leaf new_leaf : GLeaf P) (index : F) (should_enforce : bool) : circ unit :=
    let! (old_hash, new_hash) := update_root path old_leaf new_leaf index in
    let! _ := cond_enforce (Feqb old_root old_hash) should_enforce in
    cond_enforce (Feqb new_root new_hash) should_enforce.
  (** lines 287-310 *)
  Definition check_update (path : list F) (old_root new_root : F) (old_leaf new_leaf : GLeaf P)
    (index : F) : circ unit :=
    conditionally_check_update path old_root new_root old_leaf new_leaf index true.
End gadget.

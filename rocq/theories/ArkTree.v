(** The Merkle path gadget of arkworks that plasma-fold/src/circuits/gadgets/mod.rs wraps, for the
    trees of publickeymap/mod.rs:16, deposits/mod.rs:15 and withdrawals/mod.rs:15 (all with the
    identity digest converter and Poseidon two-to-one hash). Line numbers refer to
    circuits/gadgets/mod.rs. arkworks itself is not part of /repo: [calculate_root],
    [verify_membership] and the native proofs are modelled from its documented behaviour. *)
From Coq Require Import ZArith List Bool Lia.
Import ListNotations.
From Verif Require Import Base Env Circuit SparseMT SparseMTSpec Data Gadgets User.
Open Scope Z_scope.

Section ark.
  Context {hs : Hashes}.

  (** arkworks [PathVar]: whether the leaf is a right child and the directions from the root down
      ([path_var]), the digest of the leaf's sibling, the digests beside the path from the root
      down *)
  Record ark_pathV := mkArkPath { ap_dir : path_var; ap_leaf_sibling : F; ap_auth : list F }.

  (** A tree configuration: leaf type, leaf hash and number of levels, root and leaves included.
      arkworks has no default leaf; the field [LeafDefault] is not used here. *)
  Variable P : SparseConfig.

  (** arkworks [PathVar::calculate_root]: the bottom pair, then the path from the leaf upwards; the
      iteration zips directions and digests, both reversed *)
  Definition calculate_root (v : ark_pathV) (leaf : Leaf P) : F :=
    let x := LeafHash P leaf in
    let h0 := if leaf_is_right_child (ap_dir v) then two (ap_leaf_sibling v) x else two x (ap_leaf_sibling v) in
    fold_left (fun curr (bs : bool * F) => if fst bs then two (snd bs) curr else two curr (snd bs))
              (combine (rev (directions (ap_dir v))) (rev (ap_auth v))) h0.
  (** arkworks [PathVar::verify_membership] *)
  Definition verify_membership (v : ark_pathV) (root : F) (leaf : Leaf P) : bool :=
    Feqb (calculate_root v leaf) root.

  (** lines 41-48 *)
  Record update_proofV := mkUpdateProof
    { up_prev_root : F; up_prev_leaf : Leaf P; up_path : ark_pathV; up_new_root : F; up_new_leaf : Leaf P }.
  (** lines 97-115; arkworks [PathVar::update_and_check] enforces membership of the old leaf and
      returns whether the new leaf leads to the new root *)
  Definition update_and_check (u : update_proofV) : circ bool :=
    let! _ := enforce (verify_membership (up_path u) (up_prev_root u) (up_prev_leaf u)) in
    Ret (Feqb (calculate_root (up_path u) (up_new_leaf u)) (up_new_root u)).

  (** arkworks [MerkleTree::generate_proof] on a tree with leaves [c], allocated: siblings of the
      nodes on the path of leaf [i]. [subtree] is the digest of the node at the given height. *)
  Definition sibling_index (k : Z) : Z := if Z.even k then k + 1 else k - 1.
  Fixpoint beside (d n : nat) (c : contents P) (k : Z) : list F :=
    match n with
    | O => []
    | S n' => node d (digests c) (sibling_index k) :: beside (S d) n' c (k / 2)
    end.
  Definition ark_proof (c : contents P) (i : Z) : ark_pathV :=
    mkArkPath (path_var_of (HEIGHT P - 1) i) (LeafHash P (c (sibling_index i)))
              (rev (beside 1 (HEIGHT P - 2) c (i / 2))).
End ark.
Arguments up_prev_root {P} _. Arguments up_prev_leaf {P} _. Arguments up_path {P} _. Arguments up_new_root {P} _. Arguments up_new_leaf {P} _.

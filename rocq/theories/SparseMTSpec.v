(** What a Merkle tree is: the specification used by the theorems, independent of maps, heap
    indices and loops. *)
From Coq Require Import ZArith List Bool Lia.
Import ListNotations.
From Verif Require Import Base Env SparseMT.
Open Scope Z_scope.

Section spec.
  Context {hs : Hashes}.

  (** Hash of the complete subtree of depth [d] whose leaves are positions
      [k * 2^d, ..., (k+1) * 2^d - 1], over leaf digests [f]. *)
  Fixpoint node (d : nat) (f : Z -> F) (k : Z) : F :=
    match d with
    | O => f k
    | S d' => two (node d' f (2 * k)) (node d' f (2 * k + 1))
    end.

  (** Contents of a tree: a leaf for every position. *)
  Definition contents (P : SparseConfig) := Z -> Leaf P.
  Definition digests {P} (c : contents P) : Z -> F := fun k => LeafHash P (c k).

  (** The Merkle root of contents. *)
  Definition merkle_root {P} (c : contents P) : F := node (HEIGHT P - 1) (digests c) 0.

  Definition empty_contents (P : SparseConfig) : contents P := fun _ => LeafDefault P.
  Definition set_leaf {P} (c : contents P) (i : Z) (l : Leaf P) : contents P :=
    fun j => if j =? i then l else c j.
  (** The contents described by a map of leaves. *)
  Definition map_contents {P} (m : bmap (Leaf P)) : contents P :=
    fun i => match bm_get m i with Some l => l | None => LeafDefault P end.

  Definition in_range (P : SparseConfig) (i : Z) : Prop := 0 <= i < capacity P.

  (** The genuine pairs of hashes on the path from leaf [i] to the root of [f], bottom up. *)
  Fixpoint genuine_from (d n : nat) (f : Z -> F) (i : Z) : list (F * F) :=
    match n with
    | O => []
    | S n' => (node d f (2 * (i / 2)), node d f (2 * (i / 2) + 1))
              :: genuine_from (S d) n' f (i / 2)
    end.
  Definition genuine_path {P} (c : contents P) (i : Z) : list (F * F) :=
    genuine_from 0 (HEIGHT P - 1) (digests c) i.

  (** [l] contains two different inputs of the two-to-one hash with the same output. *)
  Definition collision2 (l : list (F * F)) : Prop :=
    exists a b, In a l /\ In b l /\ a <> b /\ two (fst a) (snd a) = two (fst b) (snd b).

  (** A tree value obtained by API calls, together with what a caller who only books the calls
      expects: the leaf at every position, and which positions were ever written. *)
  Inductive built (dbg : bool) (P : SparseConfig) : tree -> contents P -> (Z -> bool) -> Prop :=
  | built_blank : built dbg P (blank P) (empty_contents P) (fun _ => false)
  | built_new m t :
      NoDup (bm_keys m) -> (forall i, In i (bm_keys m) -> in_range P i) ->
      new dbg P m = Ok t ->
      built dbg P t (map_contents m) (fun i => bm_contains m i)
  | built_update t c w i l t' pf :
      built dbg P t c w -> in_range P i ->
      update_and_prove dbg P t i l = Ok (t', pf) ->
      built dbg P t' (set_leaf c i l) (fun j => (j =? i) || w j).
End spec.

(** Hashing upwards from a leaf digest [x] at position [i] with the given siblings: the pairs
    hashed on the way, and the resulting root. *)
Fixpoint climb_pairs {hs : Hashes} (sibs : list F) (i : Z) (x : F) : list (F * F) :=
  match sibs with
  | [] => []
  | s :: r => let pr := if Z.even i then (x, s) else (s, x) in
              pr :: climb_pairs r (i / 2) (two (fst pr) (snd pr))
  end.

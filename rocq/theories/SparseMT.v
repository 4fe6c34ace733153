(** Model of plasma-fold/src/primitives/sparsemt/mod.rs: the sparse Merkle tree, its membership
    proofs and update proofs. All line numbers refer to that file unless another is named. *)
From Coq Require Import ZArith List Bool Lia.
Import ListNotations.
From Verif Require Import Base Env.
Open Scope Z_scope.

(** * BTreeMap and BTreeSet *)

(** [BTreeMap<u64, F>] (line 52): association list in ascending key order. *)
Definition bmap (V : Type) := list (Z * V).
Fixpoint bm_get {V} (m : bmap V) (k : Z) : option V :=
  match m with
  | [] => None
  | (k', v) :: m' => if k =? k' then Some v else bm_get m' k
  end.
Fixpoint bm_insert {V} (m : bmap V) (k : Z) (v : V) : bmap V :=
  match m with
  | [] => [(k, v)]
  | (k', v') :: m' =>
    if k =? k' then (k, v) :: m'
    else if k <? k' then (k, v) :: (k', v') :: m'
    else (k', v') :: bm_insert m' k v
  end.
Definition bm_contains {V} (m : bmap V) (k : Z) : bool :=
  match bm_get m k with Some _ => true | None => false end.
Definition bm_keys {V} (m : bmap V) : list Z := map fst m.

(** [BTreeSet<u64>] (lines 302, 484): ascending list without duplicates. *)
Fixpoint bs_insert (s : list Z) (k : Z) : list Z :=
  match s with
  | [] => [k]
  | k' :: s' =>
    if k =? k' then k :: s'
    else if k <? k' then k :: k' :: s'
    else k' :: bs_insert s' k
  end.

(** * Configuration *)

(** [SparseConfig] (lines 47-49) with [LeafDigest = InnerDigest = F] and
    [TwoToOneHash = TwoToOneCRH<F>] (lines 92-96): the leaf type, its hash and default value,
    and the tree height. *)
Record SparseConfig := mkConfig
  { Leaf : Type;
    LeafHash : Leaf -> F;
    LeafDefault : Leaf;
    HEIGHT : nat }.

(** Heights for which no shift or index of an in-range leaf overflows; both heights used in
    /repo (13 and 32) qualify. *)
Definition cfg_ok (P : SparseConfig) : Prop := (2 <= HEIGHT P <= 62)%nat.

(** Number of leaf positions. *)
Definition capacity (P : SparseConfig) : Z := 2 ^ Z.of_nat (HEIGHT P - 1).

(** The error [Error::GenericError(..)] (lines 18-21). *)
Inductive mt_error := GenericError.

Notation R A := (res mt_error A).

Section tree.
  Context {hs : Hashes} (dbg : bool) (P : SparseConfig).

  (** * Index arithmetic *)

  (** lines 549-559: [ark_std::log2] is the ceiling of the base-2 logarithm. *)
  Definition tree_height (tree_size : Z) : Z := Z.log2_up tree_size.
  (** lines 562-565 *)
  Definition is_root (i : Z) : bool := i =? 0.
  (** lines 568-571 *)
  Definition left_child (i : Z) : R Z := do a <- umul dbg 2 i; uadd dbg a 1.
  (** lines 574-577 *)
  Definition right_child (i : Z) : R Z := do a <- umul dbg 2 i; uadd dbg a 2.
  (** lines 591-595 *)
  Definition is_left_child (i : Z) : bool := i mod 2 =? 1.
  (** lines 579-589 *)
  Definition sibling (i : Z) : R (option Z) :=
    if i =? 0 then Ok None
    else if is_left_child i then do j <- uadd dbg i 1; Ok (Some j)
    else do j <- usub dbg i 1; Ok (Some j).
  (** lines 597-605: [(index - 1) >> 1] *)
  Definition parent (i : Z) : option Z :=
    if 0 <? i then Some (Z.shiftr (i - 1) 1) else None.
  (** lines 607-610 *)
  Definition convert_index_to_last_level (index : Z) : R Z :=
    do a <- uadd dbg index (2 ^ Z.of_nat (HEIGHT P - 1)); usub dbg a 1.
  (** [(1u64 << (P::HEIGHT - 1)) - 1] (lines 150, 223, 293, 483) *)
  Definition last_level_index : Z := 2 ^ Z.of_nat (HEIGHT P - 1) - 1.

  (** * The tree value, lines 51-57 (hash parameters are part of [hs]) *)
  Record tree := mkTree
    { t_map : bmap F;
      t_root : option F;
      t_empty : list F }.

  (** lines 612-635: [n + 1] hashes, the i-th is the root of an empty subtree of depth i *)
  Fixpoint empty_from (n : nat) (e : F) : list F :=
    match n with
    | O => [e]
    | S n' => e :: empty_from n' (two e e)
    end.
  Definition gen_empty_hashes : list F := empty_from (HEIGHT P) (LeafHash P (LeafDefault P)).

  (** lines 250-269; the indexing [empty_hashes[HEIGHT - 1]] is in bounds *)
  Definition blank : tree :=
    {| t_map := [];
       t_root := Some (nth (HEIGHT P - 1) gen_empty_hashes Fzero);
       t_empty := gen_empty_hashes |}.

  (** [tree.get(i)] or, if absent, the empty hash of the level (lines 317-339, 501-522) *)
  Definition get_or (m : bmap F) (e : F) (i : Z) : F :=
    match bm_get m i with Some x => x | None => e end.

  (** lines 313-345: recompute every node of [middle_nodes], in ascending order *)
  Definition new_node (empty_hashes : list F) (level : nat) (m : bmap F) (i : Z) : R (bmap F) :=
    do li <- left_child i;
    do ri <- right_child i;
    do e <- unwrap (nth_error empty_hashes level);
    Ok (bm_insert m i (two (get_or m e li) (get_or m e ri))).

  (** lines 347-353 (and 536-542): the parents of all non-root members *)
  Definition parents (l : list Z) : R (list Z) :=
    rfold (fun s i => if is_root i then Ok s
                      else do q <- unwrap (parent i); Ok (bs_insert s q)) l [].

  (** lines 311-354: the level loop; [n] levels remain, starting with [level] *)
  Fixpoint new_levels (empty_hashes : list F) (n level : nat) (middle : list Z) (m : bmap F)
    : R (bmap F) :=
    match n with
    | O => Ok m
    | S n' =>
      do m' <- rfold (new_node empty_hashes level) middle m;
      do middle' <- parents middle;
      new_levels empty_hashes n' (S level) middle' m'
    end.

  (** [usize::next_power_of_two] *)
  Definition next_power_of_two (n : Z) : Z := 2 ^ Z.log2_up n.

  (** lines 272-362 *)
  Definition new (leaves : bmap (Leaf P)) : R tree :=
    let last_level_size := next_power_of_two (Z.of_nat (length leaves)) in
    let tree_size := 2 * last_level_size - 1 in
    do _ <- rassert (tree_height tree_size <=? Z.of_nat (HEIGHT P));
    let empty_hashes := gen_empty_hashes in
    do m <- rfold (fun m (il : Z * Leaf P) =>
                     let '(i, leaf) := il in
                     do k <- uadd dbg last_level_index i;
                     Ok (bm_insert m k (LeafHash P leaf))) leaves [];
    do middle <- rfold (fun s i =>
                          do k <- uadd dbg last_level_index i;
                          do q <- unwrap (parent k);
                          Ok (bs_insert s q)) (bm_keys leaves) [];
    do m' <- new_levels empty_hashes (HEIGHT P) 0 middle m;
    match bm_get m' 0 with
    | Some root_hash => Ok {| t_map := m'; t_root := Some root_hash; t_empty := empty_hashes |}
    | None => Err GenericError
    end.

  (** lines 364-367 *)
  Definition root (t : tree) : R F := unwrap (t_root t).

  (** * Proof generation *)

  (** lines 379-405: walk up from [cur], consuming [empty_hashes_iter]; the [unwrap] on an
      exhausted iterator panics *)
  Fixpoint gmp_loop (m : bmap F) (iter : list F) (cur : Z) (acc : list (F * F))
    : R (list (F * F)) :=
    if is_root cur then Ok acc
    else
      do so <- sibling cur;
      do sib <- unwrap so;
      match iter with
      | [] => Panic
      | e :: iter' =>
        let current_hash := get_or m e cur in
        let sibling_hash := get_or m e sib in
        let entry := if is_left_child cur then (current_hash, sibling_hash)
                     else (sibling_hash, current_hash) in
        do up <- unwrap (parent cur);
        gmp_loop m iter' up (acc ++ [entry])
      end.

  (** lines 370-412 *)
  Definition generate_membership_proof (t : tree) (index : Z) : R (list (F * F)) :=
    do tree_index <- convert_index_to_last_level index;
    do path <- gmp_loop (t_map t) (t_empty t) tree_index [];
    if (length path =? (HEIGHT P - 1))%nat then Ok path else Err GenericError.

  (** lines 415-433 *)
  Definition generate_proof (t : tree) (index : Z) (leaf : Leaf P) : R (list (F * F)) :=
    let leaf_hash := LeafHash P leaf in
    do tree_index <- convert_index_to_last_level index;
    match bm_get (t_map t) tree_index with
    | Some x =>
      if negb (Feqb leaf_hash x) then Err GenericError
      else generate_membership_proof t index
    | None => generate_membership_proof t index
    end.

  (** lines 467-475: siblings from [index] upwards, [n] levels, starting at level [i] *)
  Fixpoint siblings_loop (t : tree) (n i : nat) (index : Z) : R (list F) :=
    match n with
    | O => Ok []
    | S n' =>
      do so <- sibling index;
      do sib <- unwrap so;
      do e <- unwrap (nth_error (t_empty t) i);
      do up <- unwrap (parent index);
      do rest <- siblings_loop t n' (S i) up;
      Ok (get_or (t_map t) e sib :: rest)
    end.
  (** lines 461-478 *)
  Definition siblings (t : tree) (index : Z) : R (list F) :=
    do k <- convert_index_to_last_level index;
    siblings_loop t (HEIGHT P - 1) 0 k.

  (** lines 446-454: store and hash upwards *)
  Fixpoint up_loop (m : bmap F) (sibs : list F) (index : Z) (hash : F) : R (bmap F * F) :=
    match sibs with
    | [] => Ok (m, hash)
    | s :: sibs' =>
      let m' := bm_insert m index hash in
      let hash' := if is_left_child index then two hash s else two s hash in
      do up <- unwrap (parent index);
      up_loop m' sibs' up hash'
    end.

  (** lines 436-459; it never returns [Err] *)
  Definition update_and_prove (t : tree) (index : Z) (new_leaf : Leaf P) : R (tree * list F) :=
    do sibs <- siblings t index;
    do k <- convert_index_to_last_level index;
    do mh <- up_loop (t_map t) sibs k (LeafHash P new_leaf);
    let '(m, hash) := mh in
    Ok ({| t_map := bm_insert m 0 hash; t_root := Some hash; t_empty := t_empty t |}, sibs).

  (** lines 495-534: check every node of [middle_nodes] *)
  Definition validate_node (t : tree) (level : nat) (acc : bool) (i : Z) : R bool :=
    if negb acc then Ok false
    else
      do li <- left_child i;
      do ri <- right_child i;
      do e <- unwrap (nth_error (t_empty t) level);
      let hash := two (get_or (t_map t) e li) (get_or (t_map t) e ri) in
      match bm_get (t_map t) i with
      | Some x => Ok (Feqb x hash)
      | None => Ok false
      end.
  (** lines 494-543; an early [return Ok(false)] ends the loop *)
  Fixpoint validate_levels (t : tree) (n level : nat) (middle : list Z) : R bool :=
    match n with
    | O => Ok true
    | S n' =>
      do ok <- rfold (validate_node t level) middle true;
      if ok then do middle' <- parents middle; validate_levels t n' (S level) middle'
      else Ok false
    end.
  (** lines 481-546 *)
  Definition validate (t : tree) : R bool :=
    do middle <- rfold (fun s k =>
                          if (last_level_index <=? k) && negb (is_root k)
                          then do q <- unwrap (parent k); Ok (bs_insert s q)
                          else Ok s) (bm_keys (t_map t)) [];
    validate_levels t (HEIGHT P) 0 middle.

  (** * Verification *)

  (** lines 72-90: default proofs *)
  Definition default_path : list (F * F) := repeat (Fzero, Fzero) (HEIGHT P - 1).
  Definition default_two_paths : list F := repeat Fzero (HEIGHT P - 1).

  (** lines 115-122: [None] is the early [return Ok(false)] *)
  Fixpoint verify_loop (path : list (F * F)) (prev : F) : option F :=
    match path with
    | [] => Some prev
    | (l, r) :: path' =>
      if negb (Feqb prev l) && negb (Feqb prev r) then None
      else verify_loop path' (two l r)
    end.
  (** lines 98-133: [MerkleSparseTreePath::verify] *)
  Definition verify (path : list (F * F)) (root_hash : F) (leaf : Leaf P) : R bool :=
    if negb (length path =? (HEIGHT P - 1))%nat then Ok false
    else
      match path with
      | [] => Ok false
      | (l0, r0) :: _ =>
        let h := LeafHash P leaf in
        if negb (Feqb h l0) && negb (Feqb h r0) then Ok false
        else match verify_loop path h with
             | None => Ok false
             | Some prev => Ok (Feqb root_hash prev)
             end
      end.

  (** lines 168-184 *)
  Fixpoint vwi_loop (path : list (F * F)) (prev : F) (prev_index from_path offset : Z)
    : R (option (F * Z)) :=
    match path with
    | [] => Ok (Some (prev, from_path))
    | (l, r) :: path' =>
      if prev_index mod 2 =? 1 then
        if negb (Feqb prev l) then Ok None
        else
          do offset' <- umul dbg offset 2;
          do pi <- usub dbg prev_index 1;
          vwi_loop path' (two l r) (pi / 2) from_path offset'
      else
        if negb (Feqb prev r) then Ok None
        else
          do from_path' <- uadd dbg from_path offset;
          do offset' <- umul dbg offset 2;
          do pi <- usub dbg prev_index 1;
          vwi_loop path' (two l r) (pi / 2) from_path' offset'
    end.
  (** lines 136-197: [MerkleSparseTreePath::verify_with_index] *)
  Definition verify_with_index (path : list (F * F)) (root_hash : F) (leaf : Leaf P) (index : Z)
    : R bool :=
    if negb (length path =? (HEIGHT P - 1))%nat then Ok false
    else
      do tree_index <- uadd dbg last_level_index index;
      match path with
      | [] => Ok false
      | (l0, r0) :: _ =>
        let h := LeafHash P leaf in
        if (if tree_index mod 2 =? 1 then negb (Feqb h l0) else negb (Feqb h r0)) then Ok false
        else
          do o <- vwi_loop path h tree_index last_level_index 1;
          match o with
          | None => Ok false
          | Some (prev, from_path) =>
            if negb (Feqb root_hash prev) then Ok false
            else Ok (from_path =? tree_index)
          end
      end.

  (** lines 226-238 *)
  Fixpoint two_loop (path : list F) (tree_index : Z) (old_hash new_hash : F)
    : R (F * F * Z) :=
    match path with
    | [] => Ok (old_hash, new_hash, tree_index)
    | s :: path' =>
      let '(old', new') :=
        if tree_index mod 2 =? 1 then (two old_hash s, two new_hash s)
        else (two s old_hash, two s new_hash) in
      do pi <- usub dbg tree_index 1;
      two_loop path' (pi / 2) old' new'
    end.
  (** lines 206-241: [MerkleSparseTreeTwoPaths::verify] *)
  Definition verify_update (path : list F) (old_root new_root : F) (old_leaf new_leaf : Leaf P)
    (index : Z) : R bool :=
    if negb (length path =? (HEIGHT P - 1))%nat then Ok false
    else
      do tree_index <- uadd dbg last_level_index index;
      do r <- two_loop path tree_index (LeafHash P old_leaf) (LeafHash P new_leaf);
      let '(old_hash, new_hash, ti) := r in
      Ok (Feqb old_root old_hash && Feqb new_root new_hash && (ti =? 0)).
End tree.


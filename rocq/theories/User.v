(** Model of plasma-fold/src/datastructures/user/mod.rs and constraints.rs, and of the identifier
    gadget of plasma-fold/src/circuits/gadgets/mod.rs. Line numbers refer to user/mod.rs unless
    another file is named. *)
From Coq Require Import ZArith List Bool Lia.
Import ListNotations.
From Verif Require Import Base Env Circuit SparseMT Data Gadgets Schnorr Aggregator.
Open Scope Z_scope.

Section user.
  Context {hs : Hashes} {G : Curve}.

  (** lines 22-29. [UserId = u32] (line 20). The type of [acc] is the scalar field of the curve
      parameter [C]. *)
  Record user := mkUser
    { us_sk : scalar; us_key : pt; balance : u64; nonce : u64; user_acc : scalar; user_id : Z }.
  (** lines 37-45; [KeyPair::new] draws the secret key [sk] *)
  Definition user_new (sk : scalar) (id : Z) : user :=
    mkUser sk (public_key sk) (u64of 0) (u64of 0) (scalar_of 0) id.
  (** lines 69-79: [draw] is the random nonce, [id] the random identifier *)
  Definition sample_user (sk : scalar) (id : Z) (draw : u64) : user :=
    mkUser sk (public_key sk) (u64of 0) draw (scalar_of 0) id.
  (** lines 46-53 *)
  Definition user_sign (u : user) (m : list F) (draws : list scalar) : res no_error (option signature) :=
    sign (us_sk u) m draws.
  Definition with_balance_nonce (u : user) (b n : Z) : user :=
    mkUser (us_sk u) (us_key u) (u64of b) (u64of n) (user_acc u) (user_id u).
  (** lines 55-60. A panic in the middle leaves the balance reduced by the inputs seen so far; that
      state is only observable to code that catches the panic; see CrashUser.v. *)
  Definition spend_transaction (dbg : bool) (u : user) (t : tx) : res no_error user :=
    do b <- rfold (fun b x => usub dbg b (zval (amount x))) (real (a4_list (inputs t))) (zval (balance u));
    do n <- uadd dbg (zval (nonce u)) 1;
    Ok (with_balance_nonce u b n).
  (** lines 62-66 *)
  Definition receive_transaction (dbg : bool) (u : user) (t : tx) : res no_error user :=
    do b <- rfold (fun b x => uadd dbg b (zval (amount x))) (real (a4_list (outputs t))) (zval (balance u));
    Ok (with_balance_nonce u b (zval (nonce u))).

  (** user/constraints.rs:14-31: the state vector of a [UserVar]. The accumulator is an element of
      the circuit's own field there; it is passed separately. *)
  Definition user_var (u : user) (acc : F) : list F := [Fu64 (balance u); Fu64 (nonce u); acc].

  (** plasma-fold/src/circuits/gadgets/mod.rs:88-95, on an allocated arkworks Merkle path.
      [PathVar::get_leaf_position] of arkworks returns the bits of the leaf's position, least
      significant first: whether the leaf is a right child, then the directions of the path
      reversed. Hashes on the path play no role. *)
  Record path_var := mkPathVar { leaf_is_right_child : bool; directions : list bool }.
  Definition get_leaf_position (v : path_var) : list bool := leaf_is_right_child v :: rev (directions v).
  (** arkworks [PathVar::new_variable] of the native path of leaf [i] in a tree with [n] levels
      below the root: the bits of the index, most significant first *)
  Definition path_var_of (n : nat) (i : Z) : path_var :=
    mkPathVar (Z.odd i) (rev (bits_le (n - 1) (i / 2))).
  Definition compute_id_from_path_and_check (v : path_var) (expected_id : F) : circ unit :=
    let! computed_id := le_bits_to_fp (get_leaf_position v) in
    enforce (Feqb computed_id expected_id).
End user.

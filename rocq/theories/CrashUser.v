(** What a panicking call on a user leaves in memory (plasma-fold/src/datastructures/user/mod.rs), for a caller
    who catches the panic. *)
From Coq Require Import ZArith List Bool.
Import ListNotations.
From Verif Require Import Base Env Circuit SparseMT Data Schnorr Aggregator User.
Open Scope Z_scope.

Section crash.
  Context {hs : Hashes} {G : Curve} (dbg : bool).
  (** user/mod.rs:56-58, 63-65: the loop writes the balance at every iteration; the Boolean says whether it
      came to its end *)
  Fixpoint balance_left (op : Z -> Z -> res no_error Z) (l : list utxo) (b : Z) : Z * bool :=
    match l with
    | [] => (b, true)
    | x :: l' =>
      match op b (zval (amount x)) with
      | Ok b' => balance_left op l' b'
      | _ => (b, false)
      end
    end.
  (** user/mod.rs:55-60: the nonce is incremented after the loop *)
  Definition spend_left (u : user) (t : tx) : user :=
    let '(b, finished) := balance_left (usub dbg) (real (a4_list (inputs t))) (zval (balance u)) in
    let n := if finished
             then match @uadd no_error dbg (zval (nonce u)) 1 with Ok n => n | _ => zval (nonce u) end
             else zval (nonce u) in
    with_balance_nonce u b n.
  (** user/mod.rs:62-66 *)
  Definition receive_left (u : user) (t : tx) : user :=
    let '(b, _) := balance_left (uadd dbg) (real (a4_list (outputs t))) (zval (balance u)) in
    with_balance_nonce u b (zval (nonce u)).
End crash.

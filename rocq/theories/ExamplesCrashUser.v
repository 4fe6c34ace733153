(** Instances of C118. *)
From Coq Require Import ZArith List Bool Lia.
Import ListNotations.
From Verif Require Import Base Env Toy Circuit SparseMT SparseMTSpec Data DataSpec Schnorr HMap Contract ContractSpec
  Aggregator AggSpec User ExamplesAgg CrashUser PropsCrashUser.
Open Scope Z_scope.

Definition u2 (b n : Z) : user := mkUser sk2 k2 (u64of b) (u64of n) (scalar_of 0) 1.
Definition seen (u : user) : Z * Z := (zval (User.balance u), zval (nonce u)).
Definition stops {A} (r : res no_error A) : bool := match r with Panic => true | _ => false end.
(** two inputs, 40 and 30, the dummies between them carrying nothing *)
Definition tx70 : tx := mkTx (A4 utxo_dummy (coin 40 k2) utxo_dummy (coin 30 k2))
                             (A4 (coin 40 k3) (coin 30 k2) utxo_dummy utxo_dummy).
(** 50 do not cover them: 10 are left, and the nonce is not counted; another attempt changes nothing more;
    with the largest nonce the inputs are gone as well *)
Example spend_instance :
  (stops (spend_transaction true (u2 50 7) tx70), seen (spend_left true (u2 50 7) tx70)) = (true, (10, 7)) /\
  (stops (spend_transaction true (u2 10 7) tx70), seen (spend_left true (u2 10 7) tx70)) = (true, (10, 7)) /\
  (stops (spend_transaction true (u2 90 (two64 - 1)) tx70), seen (spend_left true (u2 90 (two64 - 1)) tx70)) = (true, (20, two64 - 1)) /\
  (stops (spend_transaction true (u2 90 7) tx70), seen (spend_left true (u2 90 7) tx70)) = (false, (20, 8)).
Proof. vm_compute. auto. Qed.
(** the first output fits, the second does not *)
Example receive_instance :
  (stops (receive_transaction true (u2 (two64 - 50) 7) tx70), seen (receive_left true (u2 (two64 - 50) 7) tx70)) = (true, (two64 - 10, 7)).
Proof. vm_compute. auto. Qed.

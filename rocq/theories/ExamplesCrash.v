(** Instances of C113. *)
From Coq Require Import ZArith List Bool Lia.
Import ListNotations.
From Verif Require Import Base Env Toy Circuit SparseMT SparseMTSpec Data DataSpec Schnorr HMap Contract ContractSpec
  PropsContract Aggregator AggSpec ExamplesAgg PropsPanic ExamplesPanic Crash PropsCrash.
Open Scope Z_scope.

(** 5 coins of the second user vanish: the contract's account is full *)
Definition full_calls : list call :=
  [Join (u64of (two64 - 1)) (exk 2); Join (u64of 10) (exk 3); Deposit 1 (u64of (two64 - 1))].
Definition lostC : contract := caught true (exk 1) (full_calls ++ [Deposit 2 (u64of 5)]).
Example lost_instance :
  (balance lostC 0, balance lostC 2, pending lostC (exk 3)) = (Some (two64 - 1), Some 5, 0) /\
  panics (deposit true (caught true (exk 1) full_calls) 2 (u64of 5)) = true.
Proof. vm_compute. auto. Qed.
(** without such funds a caught panic costs nothing: the fourth call asks for too much *)
Definition small_calls : list call :=
  [Join (u64of 100) (exk 2); Deposit 1 (u64of 30); Join (u64of 7) (exk 3); Deposit 2 (u64of 8); Deposit 1 (u64of 1)].
Example caught_instance :
  balance (caught true (exk 1) small_calls) 0 = Some (total_pending (caught true (exk 1) small_calls)) /\
  total_balance (caught true (exk 1) small_calls) = 107 /\
  panics (rfold (perform true) small_calls (contract_new (exk 1))) = true.
Proof.
  assert (Hs : supply small_calls = 107) by (vm_compute; reflexivity).
  destruct (C113_caught true (exk 1) small_calls) as (_ & B & T); [ rewrite Hs; reflexivity |].
  rewrite Hs in T. split; [ exact B |]. split; [ exact T |]. vm_compute. reflexivity.
Qed.

Lemma mpanic_eq {S E A} (r : mres S E A) : is_mpanic r = true -> r = MPanic.
Proof. destruct r; [ discriminate | discriminate | reflexivity ]. Qed.
Example signatures_instance : exists s1,
  sign_left true s0 kC (skipped3 ++ [(kC, None)]) = Some s1 /\ reached true s1.
Proof.
  destruct (C113_signatures true kC s0 (skipped3 ++ [(kC, None)]) s0_reached) as (s1 & H & _ & R).
  - apply s0_fits4. cbn. lia.
  - assert (Hs : length (a_signers s0) = 0%nat) by (apply Nat.eqb_eq; vm_compute; reflexivity).
    rewrite Hs. reflexivity.
  - apply mpanic_eq. vm_compute. reflexivity.
  - exists s1. auto.
Qed.
Example intake_instance : exists s1,
  intake_left true agg_new [(kC, tx0); (k2, txO)] = Some s1 /\ reached true s1.
Proof.
  destruct (C113_intake true agg_new [(kC, tx0); (k2, txO)] (reached_new true)) as (l1 & l2 & s1 & _ & _ & H & _ & R).
  - reflexivity.
  - apply mpanic_eq. vm_compute. reflexivity.
  - exists s1. auto.
Qed.

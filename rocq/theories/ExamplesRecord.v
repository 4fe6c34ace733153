(** Instance of C111: the epoch of ExamplesCircuit.v. *)
From Coq Require Import ZArith List Bool Lia Permutation.
Import ListNotations.
From Verif Require Import Base Env Toy Circuit SparseMT SparseMTSpec Data DataSpec Gadgets Schnorr HMap Contract ContractSpec
  Aggregator AggSpec AggFacts AggSign AggIntake PropsContract PropsBlock PropsIntake PropsSign PropsValue ExamplesAgg
  AggCircuit AggCircuitFacts AggCircuitSpec CircuitRun PropsCircuit PropsCircuit2 PropsCircuit3 Honest PropsHonest ExamplesCircuit PropsRecord.
Open Scope Z_scope.

Lemma boundP : (a_index s0 + 4 * Z.of_nat (length keysP) <? two64) = true. Proof. vm_compute. reflexivity. Qed.
Lemma noneP : length (ivc_inputs s0) = 0%nat. Proof. vm_compute. reflexivity. Qed.
Lemma positionsP : map zval (flat_map (new_positions kC r0) (ivc_inputs sP)) = [0; 1]. Proof. vm_compute. reflexivity. Qed.
Example record_instance : length (ivc_inputs sP) = 3%nat /\
  Forall2 (record_of kC r0) (combine (combine (a_txs s0) (a_tx_proofs s0)) keysP) (ivc_inputs sP) /\
  a_index sP = a_index s0 + 2.
Proof.
  assert (B : a_index s0 + 4 * Z.of_nat (length keysP) < two64) by (apply Z.ltb_lt; exact boundP).
  destruct (C111_records true kC s0 keysP sP r0 s0_reached r0_root B signP_eq) as (new & E & L & R & _ & I).
  pose proof noneP as N. apply length_zero_iff_nil in N. rewrite N in E. cbn [app] in E.
  pose proof positionsP as P. apply (f_equal (@length _)) in P. rewrite map_length in P.
  rewrite <- E in L, R, I. split; [ exact L |]. split; [ exact R |].
  transitivity (a_index s0 + Z.of_nat (length (flat_map (new_positions kC r0) (ivc_inputs sP)))); [ exact I |].
  exact (f_equal (fun n => a_index s0 + Z.of_nat n) P).
Qed.

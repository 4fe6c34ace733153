(** Instances of C115: a coin that was never created, and a coin spent twice. *)
From Coq Require Import ZArith List Bool Lia Permutation.
Import ListNotations.
From Verif Require Import Base Env Toy Circuit SparseMT SparseMTSpec Data DataSpec Schnorr HMap Contract ContractSpec
  Aggregator AggSpec AggFacts AggSign AggIntake PropsIntake PropsSign ExamplesAgg PropsError.
Open Scope Z_scope.

Definition error_of {A} (r : mres agg agg_error A) : option agg_error := match r with MErr _ e => Some e | _ => None end.
Lemma error_eq {A} d (r : mres agg agg_error A) e : error_of r = Some e -> r = MErr (state_of d r) e.
Proof. destruct r as [s a|s e'|]; cbn; congruence. Qed.

Lemma s0_ever : ever true s0 [].
Proof. eapply ever_intake; [ apply ever_new |]. left. exists tt. apply intake_eq. Qed.
(** the third transaction spends a coin of 1 that was never created *)
Example error_nonexisting : error_of (process_signatures true s0 kC keys3) = Some UTXONonExisting.
Proof. vm_compute. reflexivity. Qed.
Example which_nonexisting : exists l1 t don u todo,
  nth_error (a_txs s0) (length l1) = Some t /\ consumes kC t = don ++ u :: todo /\
  ~ In u (flat_map (creates kC) (applied kC r0 (a_txs s0) l1)).
Proof.
  destruct (C115_which_error true kC s0 [] keys3 r0 _ _ s0_ever r0_root (error_eq s0 _ _ error_nonexisting))
    as (l1 & k & osg & l2 & s1 & t & don & u & todo & _ & _ & _ & N & _ & C & _ & _ & _ & H & _).
  exists l1, t, don, u, todo. split; [ exact N |]. split; [ exact C |]. now apply H.
Qed.

(** tx1 twice: the second time its coin has been spent *)
Definition sT : agg := state_of agg_new (process_transactions true agg_new [(kC, tx0); (k2, tx1); (k2, tx1)]).
Lemma intakeT : process_transactions true agg_new [(kC, tx0); (k2, tx1); (k2, tx1)] = MOk sT tt.
Proof.
  assert (H : is_mok (process_transactions true agg_new [(kC, tx0); (k2, tx1); (k2, tx1)]) = true) by (vm_compute; reflexivity).
  unfold sT. destruct (process_transactions true agg_new _) as [s []|s e|]; [ reflexivity | discriminate | discriminate ].
Qed.
Lemma sT_ever : ever true sT [].
Proof. eapply ever_intake; [ apply ever_new |]. left. exists tt. apply intakeT. Qed.
Example error_spent : error_of (process_signatures true sT kC [(kC, None); (kC, None); (kC, None)]) = Some UTXOError.
Proof. vm_compute. reflexivity. Qed.
Lemma sT_root : exists r, root (a_tx_tree sT) = Ok r.
Proof.
  apply (reach_root true), reached_inv. eapply reached_intake; [ apply reached_new |]. left. exists tt. apply intakeT.
Qed.
Example which_spent : exists r l1 t don u todo,
  nth_error (a_txs sT) (length l1) = Some t /\ consumes kC t = don ++ u :: todo /\
  In u (flat_map (creates kC) (applied kC r (a_txs sT) l1)).
Proof.
  destruct sT_root as (r & Hr).
  destruct (C115_which_error true kC sT [] _ r _ _ sT_ever Hr (error_eq sT _ _ error_spent))
    as (l1 & k & osg & l2 & s1 & t & don & u & todo & _ & _ & _ & N & _ & C & _ & _ & _ & _ & H).
  exists r, l1, t, don, u, todo. split; [ exact N |]. split; [ exact C |]. now apply H.
Qed.

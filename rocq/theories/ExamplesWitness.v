(** Concrete cases for C101, C102 and C104: the epoch of [ExamplesCircuit]. *)
From Coq Require Import ZArith List Bool Lia.
Import ListNotations.
From Verif Require Import Base Env Circuit SparseMT SparseMTSpec SparseMTHeap SparseMTRep Data Schnorr Contract Aggregator
  AggCircuit AggCircuitSpec PropsWitness PropsShape ExamplesAgg ExamplesCircuit.
Open Scope Z_scope.

(** the code's own witnesses prove the three-transaction epoch *)
Example run_instance : exists z', fold_left (code_step kC false) bsP (Some (z_list zP)) = Some (z_list z').
Proof.
  destruct epoch_provable as (_ & b & z' & _ & _ & Hrun). exists z'.
  exact (proj2 (proj1 (C101_run kC false bsP (z_list zP) (z_list z')) Hrun)).
Qed.
(** an empty transaction of k3 counts as a deposit, and deposits nothing *)
Example deposit_instance : exists x z', x_sender x = k3 /\ tx_is_deposit (x_tx x) kC = true /\
  ivc kC false (z_list zP) [[x]] (z_list z') /\ z_deposit z' = z_deposit zP.
Proof.
  destruct (C102_differs kC zP (empty_contents txV_cfg) k3 toy_pq) as (x & z' & _ & H).
  - intros E. assert (H : pt_eqb k3 kC = false) by (vm_compute; reflexivity). apply pt_eqb_neq in H. contradiction.
  - exists (empty_contents utxoV_cfg). exact zP_utxo.
  - exists (empty_contents keyV_cfg). exact zP_signer.
  - exact zP_tx.
  - reflexivity.
  - exists x, z'. exact H.
Qed.
(** a batch of default inputs synthesises for the state of that epoch *)
Example default_instance : exists r,
  honest (generate_step_constraints kC false (z_list zP) (repeat (inputs_alloc inputs_default) 2)) = Some r.
Proof. apply C101_default. reflexivity. Qed.
(** C104: the second proof step of that epoch, with its two transactions, is the circuit built from
    two default inputs *)
Example layout_instance : exists l,
  laid_out (generate_step_constraints k2 false (z_list zP) (repeat (inputs_alloc inputs_default) 2)) l /\
  laid_out (generate_step_constraints kC false (z_list zP) (skipn 1 xsP)) l.
Proof.
  destruct (C104_preprocessed false k2 (z_list zP) 2 eq_refl) as (l & H1 & H2). exists l. split; [ exact H1 |].
  destruct epoch_provable as (L & b & z' & _ & _ & Hrun).
  apply (H2 kC (z_list zP) bsP (z_list z') Hrun).
  - right. left. reflexivity.
  - rewrite skipn_length, L. reflexivity.
  - reflexivity.
Qed.

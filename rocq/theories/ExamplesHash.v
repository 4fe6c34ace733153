(** Instance of C117: the coin map of a concrete aggregator with its entries reversed. *)
From Coq Require Import ZArith List Bool Lia Permutation.
Import ListNotations.
From Verif Require Import Base Env Toy Circuit SparseMT SparseMTSpec Data DataSpec Schnorr HMap Contract ContractSpec
  Aggregator AggSpec AggFacts AggSign AggIntake PropsIntake PropsSign ExamplesAgg PropsHash.
Open Scope Z_scope.

Definition s1_reversed : agg :=
  mkAgg (rev (a_utxos s1)) (a_utxo_tree s1) (a_index s1) (a_txs s1) (a_tx_tree s1) (a_deposits s1) (a_withdrawals s1)
        (a_signer_tree s1) (a_signers s1) (a_height s1) (a_acc_signer s1) (a_acc_pk s1) (a_tx_proofs s1) (a_ivc s1).
Example reversed_differs :
  map (fun kv => zval (amount (fst kv))) (a_utxos s1) = [100; 60] /\ map (fun kv => zval (amount (fst kv))) (a_utxos s1_reversed) = [60; 100].
Proof. vm_compute. auto. Qed.
Example reversed_alike : alike s1 s1_reversed.
Proof. apply (C117_any_order true s1 (rev (a_utxos s1)) s1_reached). apply Permutation_rev. Qed.
Example reversed_same l : alike_call (process_signatures true s1 kC l) (process_signatures true s1_reversed kC l).
Proof. apply (C117_aggregator true s1 s1_reversed reversed_alike). Qed.

(** Instance of C116: two copies of a coin are created and one is spent; the second, newer copy is taken. *)
From Coq Require Import ZArith List Bool Lia Permutation.
Import ListNotations.
From Verif Require Import Base Env Toy Circuit SparseMT SparseMTSpec Data DataSpec Schnorr HMap Contract ContractSpec
  Aggregator AggSpec AggFacts AggSign AggIntake PropsIntake PropsSign ExamplesAgg PropsError ExamplesError PropsRecord PropsTable.
Open Scope Z_scope.
(** the deposit of 100 twice, then the transfer that spends one of the two equal coins *)
Definition batchN : list (pt * tx) := [(kC, tx0); (kC, tx0); (k2, tx1)].
Definition sN : agg := state_of agg_new (process_transactions true agg_new batchN).
Lemma intakeN : process_transactions true agg_new batchN = MOk sN tt.
Proof.
  assert (H : is_mok (process_transactions true agg_new batchN) = true) by (vm_compute; reflexivity).
  unfold sN. destruct (process_transactions true agg_new _) as [s []|s e|]; [ reflexivity | discriminate | discriminate ].
Qed.
Lemma sN_reached : reached true sN.
Proof. eapply reached_intake; [ apply reached_new |]. left. exists tt. apply intakeN. Qed.
Definition keysN : list (pt * option signature) := [(kC, None); (kC, None); (kC, None)].
Definition sN' : agg := state_of agg_new (process_signatures true sN kC keysN).
Lemma signN : process_signatures true sN kC keysN = MOk sN' tt.
Proof.
  assert (H : is_mok (process_signatures true sN kC keysN) = true) by (vm_compute; reflexivity).
  unfold sN'. destruct (process_signatures true sN kC keysN) as [s []|s e|]; [ reflexivity | discriminate | discriminate ].
Qed.
Example records_replayed : exists r new,
  root (a_tx_tree sN) = Ok r /\ ivc_inputs sN' = ivc_inputs sN ++ new /\ replay_records kC r (positions sN) new (positions sN').
Proof.
  destruct (reach_root true sN (reached_inv true sN sN_reached)) as (r & Hr).
  destruct (C116_records true kC sN keysN sN' r sN_reached Hr) as (new & E & H).
  - apply fits_simple. assert (H0 : a_index sN = 0) by (apply Z.eqb_eq; vm_compute; reflexivity).
    rewrite H0, utxo_capacity. cbn [length keysN]. lia.
  - exact signN.
  - exists r, new. auto.
Qed.
(** of the copies at positions 0 and 1 the one at 1 is spent; the copy at 0 and the new coin at 2 are left *)
Example newest_spent :
  map (fun inp => (map zval (a4_list (i_del_pos inp)), map zval (a4_list (i_add_pos inp)))) (ivc_inputs sN') =
    [([0; 0; 0; 0], [0; 0; 0; 0]); ([0; 0; 0; 0], [1; 0; 0; 0]); ([0; 1; 0; 0], [0; 0; 2; 0])] /\
  map (fun iu => (fst iu, zval (amount (snd iu)))) (positions sN') = [(0, 100); (2, 60)].
Proof. vm_compute. auto. Qed.

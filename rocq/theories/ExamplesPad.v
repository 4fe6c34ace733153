(** Instances of C110: the epoch of ExamplesCircuit.v, padded by five unsigned default transactions. *)
From Coq Require Import ZArith List Bool Lia Permutation.
Import ListNotations.
From Verif Require Import Base Env Toy Circuit SparseMT SparseMTSpec Data DataSpec Gadgets Schnorr HMap Contract ContractSpec
  Aggregator AggSpec AggFacts AggSign AggIntake PropsContract PropsBlock PropsIntake PropsSign PropsValue ExamplesAgg
  AggCircuit AggCircuitFacts AggCircuitSpec CircuitRun PropsCircuit PropsCircuit2 PropsCircuit3 Honest PropsHonest ExamplesCircuit PropsPad.
Open Scope Z_scope.

Lemma pad_unsigned : authorised kC r0 tx_default (k3, None) = false.
Proof. vm_compute. reflexivity. Qed.
Lemma lensP : length keysP = length batch /\ Z.of_nat (length batch + 5) <= 4096 /\ map fst keysP = map fst batch.
Proof. split; [ reflexivity |]. split; [ vm_compute; discriminate | reflexivity ]. Qed.
Lemma signersP : length (a_signers sP) = 3%nat. Proof. vm_compute. reflexivity. Qed.

Example padding_instance : exists s1' s2',
  process_transactions true agg_new (batch ++ repeat (k3, tx_default) 5) = MOk s1' tt /\ root (a_tx_tree s1') = Ok r0 /\
  process_signatures true s1' kC (keysP ++ repeat (k3, None) 5) = MOk s2' tt /\
  a_utxos s2' = a_utxos sP /\ length (a_signers s2') = 8%nat.
Proof.
  destruct lensP as (L1 & L2 & _).
  destruct (C110_padding true kC agg_new batch s0 r0 keysP sP 5 k3 None (reached_new true) eq_refl L2 intake_eq r0_root L1 signP_eq pad_unsigned)
    as (s1' & s2' & P1 & P2 & P3 & P4 & _ & _ & _ & _ & _ & _ & P5 & _).
  exists s1', s2'. split; [ exact P1 |]. split; [ exact P2 |]. split; [ exact P3 |]. split; [ exact P4 |].
  rewrite P5, app_length, signersP. reflexivity.
Qed.
Example pieces_instance : process_transactions true agg_new batch =
  process_transactions true (state_of agg_new (process_transactions true agg_new [(kC, tx0)])) [(k2, tx1); (k3, tx2)].
Proof.
  apply (C110_pieces true agg_new [(kC, tx0)]).
  assert (H : is_mok (process_transactions true agg_new [(kC, tx0)]) = true) by (vm_compute; reflexivity).
  revert H. generalize (process_transactions true agg_new [(kC, tx0)]) as x. intros [s []|s e|]; [ reflexivity | discriminate | discriminate ].
Qed.

Lemma totalsP : forallb (fun w : pt * tx => (total_in (snd w) <? two64) && (total_out (snd w) <? two64)) batch = true.
Proof. vm_compute. reflexivity. Qed.
Example padded_provable : exists s1' s2' b pi ur sr,
  process_transactions true agg_new (batch ++ repeat (k3, tx_default) 5) = MOk s1' tt /\
  process_signatures true s1' kC (keysP ++ repeat (k3, None) 5) = MOk s2' tt /\
  root (a_utxo_tree agg_new) = Ok ur /\ root (a_signer_tree agg_new) = Ok sr /\
  produce_block s2' l1P = Ok b /\ derive_public_inputs l1P b = Ok pi /\ length (ivc_inputs s2') = 8%nat /\
  forall bs, concat bs = map inputs_alloc (ivc_inputs s2') -> ivc kC false (epoch_start ur r0 sr) bs pi.
Proof.
  destruct lensP as (L1 & L2 & L3).
  assert (HK : tree_holds true signer_cfg (a_signer_tree agg_new) (empty_contents signer_cfg)).
  { exists (empty_contents signer_cfg), (fun _ => false). split; [ apply built_blank | reflexivity ]. }
  assert (HB : forall i, 0 <= i < Z.of_nat (length batch + 5) -> empty_contents signer_cfg i = pzero) by reflexivity.
  assert (HT : forall k t, In (k, t) batch -> total_in t < two64 /\ total_out t < two64).
  { intros k t Hin. pose proof totalsP as H. rewrite forallb_forall in H. specialize (H _ Hin). cbn [snd] in H.
    apply andb_true_iff in H as [H1 H2]. split; now apply Z.ltb_lt. }
  assert (HP : Z.of_nat (length (pks l1P)) <= 2 ^ 32) by (vm_compute; discriminate).
  assert (LK : (length keysP <= 3)%nat) by apply le_n.
  exact (C110_provable true kC agg_new batch s0 sP keysP r0 5 k3 None (empty_contents signer_cfg) kC _ l1P toy_pq
    (reached_new true) eq_refl eq_refl eq_refl eq_refl eq_refl HK HB intake_eq L2 r0_root signP_eq (s0_fits keysP LK) L3 HT
    (fun t ks => conditionsP r0 t ks r0_root) l1P_history HP registeredP pad_unsigned).
Qed.

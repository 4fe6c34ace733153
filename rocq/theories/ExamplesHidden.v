(** C124: the epoch of ExamplesCircuit.v, which deposits 100 and withdraws 40. The instance of the
    dependencies is the one of Toy.v. *)
From Coq Require Import ZArith List Bool Lia Permutation.
Import ListNotations.
From Verif Require Import Base Env Toy Circuit SparseMT SparseMTSpec Data DataSpec Gadgets Schnorr HMap Contract ContractSpec
  Aggregator AggSpec AggFacts AggSign AggIntake PropsContract PropsBlock PropsIntake PropsSign PropsValue ExamplesAgg
  AggCircuit AggCircuitFacts AggCircuitSpec CircuitRun Honest PropsHonest TruthSpec ExamplesCircuit ExactSpec PropsExact PropsHidden.
Open Scope Z_scope.

Example hidden_instance : exists b pi',
  produce_block sP l1P = Ok b /\ map (fun e => zval (snd e)) (b_deposits b) = [100] /\ map (fun e => zval (snd e)) (b_withdrawals b) = [40] /\
  derive_public_inputs l1P (hide b) = Ok pi' /\ ivc kC true (z_list zP) bsP pi'.
Proof.
  destruct epoch_provable as (_ & b & z' & Eb & Ed & Hrun).
  destruct (C124_hides kC l1P b zP bsP (z_list z') Hrun eq_refl eq_refl Ed) as (pi' & E & H).
  exists b, pi'. split; [ exact Eb |].
  assert (X : match produce_block sP l1P with
              | Ok b => (map (fun e => zval (snd e)) (b_deposits b), map (fun e => zval (snd e)) (b_withdrawals b))
              | _ => ([], []) end = ([100], [40])) by (vm_compute; reflexivity).
  rewrite Eb in X. apply pair_equal_spec in X as [X1 X2]. split; [ exact X1 |]. split; [ exact X2 |]. split; [ exact E | exact H ].
Qed.
(** so the hypotheses of C124_reports_none are met, and here the block indeed reports nothing *)
Example reports_none_instance : exists b pi', derive_public_inputs l1P b = Ok pi' /\ ivc kC true (z_list zP) bsP pi' /\ b_deposits b = [] /\ b_withdrawals b = [].
Proof.
  destruct hidden_instance as (b & pi' & _ & _ & _ & E & H). exists (hide b), pi'. split; [ exact E |]. split; [ exact H |]. split; reflexivity.
Qed.
(** both sides of C124_proofs hold *)
Example proofs_instance : exists z', ivc kC true (z_list zP) bsP (z_list (with_chains z' Fzero Fzero)) /\ Forall (in_u64 kC) (concat bsP).
Proof.
  destruct epoch_provable as (_ & b & z' & _ & _ & Hrun). exists z'. apply C124_proofs.
  split; [ reflexivity |]. split; [ reflexivity |].
  pose proof Hrun as H0. apply C106_aggregator_proof in H0 as (y & Ey & H0). apply z_list_eq in Ey. subst y.
  destruct (run_chains_false kC _ _ _ H0) as [D W].
  cbn [with_chains z_step z_utxo z_tx z_tx_final z_signer z_signer_acc].
  rewrite <- D, <- W. destruct z'. exact Hrun.
Qed.

(** C124_same: the last transaction of the epoch, a transfer within L2 *)
Definition xsP_last : list agg_inputsV := skipn 2 xsP.
Example same_instance : exists z z', length xsP_last = 1%nat /\
  ivc kC false (z_list z) [xsP_last] (z_list z') /\ ivc kC true (z_list z) [xsP_last] (z_list z').
Proof.
  destruct epoch_provable as (Hl & b & y & _ & _ & Hrun).
  apply C106_aggregator_proof in Hrun as (z' & _ & H). assert (Hc : concat bsP = xsP) by (unfold xsP; exact bsP_concat). rewrite Hc in H.
  assert (X : exists z, all_accepted kC false z (skipn 2 xsP) z').
  { clear Hc. revert Hl H. generalize xsP as xs. intros xs Hl H. destruct xs as [|x0 [|x1 l]]; [ discriminate Hl | discriminate Hl |]. cbn [skipn].
    inversion H as [|z0 u z1 m zz A1 HH1]; subst. inversion HH1 as [|z2 u2 z3 m2 zz2 A2 HH2]; subst. exists z3. exact HH2. }
  destruct X as (z & Hz). exists z, z'.
  assert (Hi : ivc kC false (z_list z) [xsP_last] (z_list z')).
  { apply C106_aggregator_proof. exists z'. split; [ reflexivity |]. cbn [concat]. rewrite app_nil_r. exact Hz. }
  split; [ unfold xsP_last; rewrite skipn_length, Hl; reflexivity |]. split; [ exact Hi |].
  refine (proj1 (proj2 (C124_same kC z [xsP_last] z' _ _) Hi)); cbn [concat]; rewrite app_nil_r.
  - assert (E : length (flat_map (deposit_entries kC) xsP_last) = 0%nat) by (vm_compute; reflexivity). apply length_zero_iff_nil. exact E.
  - assert (E : length (flat_map (withdrawal_entries kC) xsP_last) = 0%nat) by (vm_compute; reflexivity). apply length_zero_iff_nil. exact E.
Qed.

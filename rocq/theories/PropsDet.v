(** Property C89: the circuits determine their outputs. *)
From Coq Require Import ZArith List Bool Lia.
Import ListNotations.
From Verif Require Import Base Env Circuit SparseMT SparseMTSpec Data DataSpec Gadgets Schnorr Contract Aggregator
  AggCircuit AggCircuitFacts AggCircuitSpec CircuitRun PropsCircuit PropsCircuit2 User Client ClientSpec ClientFacts PropsClient.
Open Scope Z_scope.

Section props.
  Context {hs : Hashes} {G : Curve}.

  Lemma step_det contract to z x z1 z2 : wf_input x ->
    sat (c_step contract to z x) z1 -> sat (c_step contract to z x) z2 -> z1 = z2.
  Proof.
    intros Hw H1 H2. apply (step_facts_of contract to z x _ Hw) in H1, H2.
    pose proof (sf_signer _ _ _ _ _ H1) as S1. pose proof (sf_signer _ _ _ _ _ H2) as S2.
    assert (S : z_signer z1 = z_signer z2).
    { destruct (is_applied contract (z_tx_final z) x); [| congruence ]. destruct S1 as [_ S1], S2 as [_ S2].
      exact (eq_trans S1 (eq_sym S2)). }
    pose proof (eq_trans (sf_step _ _ _ _ _ H1) (eq_sym (sf_step _ _ _ _ _ H2))) as E1.
    pose proof (eq_trans (sf_utxo _ _ _ _ _ H1) (eq_sym (sf_utxo _ _ _ _ _ H2))) as E2.
    pose proof (eq_trans (sf_tx_new _ _ _ _ _ H1) (eq_sym (sf_tx_new _ _ _ _ _ H2))) as E3.
    pose proof (eq_trans (sf_final _ _ _ _ _ H1) (eq_sym (sf_final _ _ _ _ _ H2))) as E4.
    pose proof (eq_trans (sf_acc _ _ _ _ _ H1) (eq_sym (sf_acc _ _ _ _ _ H2))) as E5.
    pose proof (eq_trans (sf_deposit _ _ _ _ _ H1) (eq_sym (sf_deposit _ _ _ _ _ H2))) as E6.
    pose proof (eq_trans (sf_withdraw _ _ _ _ _ H1) (eq_sym (sf_withdraw _ _ _ _ _ H2))) as E7.
    apply z_list_inj. unfold z_list. congruence.
  Qed.
  Lemma crun_det contract to xs : forall z z1 z2, crun contract to z xs z1 -> crun contract to z xs z2 -> z1 = z2.
  Proof.
    induction xs as [|x xs IH]; intros z z1 z2 H1 H2.
    - inversion H1; inversion H2; subst. reflexivity.
    - inversion H1 as [|? ? a ? ? W1 S1 R1]; subst. inversion H2 as [|? ? b ? ? W2 S2 R2]; subst.
      rewrite (step_det _ _ _ _ _ _ W1 S1 S2) in R1. exact (IH _ _ _ R1 R2).
  Qed.

  (** Whatever internal witnesses are chosen, the state after proving the given transactions from
      the given state is one and the same, however they are batched. *)
  Theorem C89_aggregator_deterministic contract to z bs bs' z1 z2 : length z = 8%nat ->
    concat bs = concat bs' -> ivc contract to z bs z1 -> ivc contract to z bs' z2 -> z1 = z2.
  Proof.
    intros Hl E H1 H2. apply (C76_batching contract to z bs bs' z1 E Hl) in H1.
    assert (Hz : exists s, z = z_list s).
    { destruct z as [|a0 [|a1 [|a2 [|a3 [|a4 [|a5 [|a6 [|a7 [|]]]]]]]]]; try discriminate Hl.
      now exists (mkZ a0 a1 a2 a3 a4 a5 a6 a7). }
    destruct Hz as [s Hz]. rewrite Hz in H1, H2. apply ivc_crun in H1 as (s1 & -> & H1). apply ivc_crun in H2 as (s2 & -> & H2).
    now rewrite (crun_det _ _ _ _ _ _ H1 H2).
  Qed.

  Theorem C89_client_deterministic acc N z l z1 z2 :
    urun acc N z l z1 -> urun acc N z l z2 -> z1 = z2.
  Proof.
    intros H. revert z2. induction H as [z|z a z1 l z' S _ IH]; intros z2 H2.
    - inversion H2; subst. reflexivity.
    - inversion H2 as [|? ? y ? ? S2 R2]; subst. apply satisfied_iff in S as (s & E & C & ->).
      apply satisfied_iff in S2 as (s2 & E2 & _ & ->). assert (s2 = s) by congruence. subst s2. exact (IH _ R2).
  Qed.
End props.

Print Assumptions C89_aggregator_deterministic.
Print Assumptions C89_client_deterministic.

(** C123: the epoch of ExamplesCircuit.v settles; without the signature under the transfer that pays
    something back to the contract it does not. The instance of the dependencies is the one of Toy.v. *)
From Coq Require Import ZArith List Bool Lia Permutation Sorted.
Import ListNotations.
From Verif Require Import Base Env Toy Circuit SparseMT SparseMTSpec Data DataSpec Gadgets Schnorr HMap Contract ContractSpec
  Aggregator AggSpec AggFacts AggSign AggIntake PropsContract PropsBlock PropsIntake PropsSign PropsValue ExamplesAgg
  AggCircuit AggCircuitFacts AggCircuitSpec CircuitRun PropsLimits Honest PropsHonest TruthSpec ExamplesCircuit PropsReport PropsProvable.
Open Scope Z_scope.

Lemma empty_holds : tree_holds true signer_cfg (a_signer_tree agg_new) (empty_contents signer_cfg).
Proof. exact (blank_empty signer_cfg). Qed.
Lemma rootP tr : root (a_tx_tree s0) = Ok tr -> tr = r0.
Proof. pose proof r0_root. congruence. Qed.

Lemma settledP t ks : In (t, ks) (combine (map snd batch) keysP) -> settles kC r0 t ks.
Proof.
  intros Hin. destruct (conditionsP r0 t ks r0_root Hin) as [C1 C2].
  assert (Hb : forallb (fun x => forallb (fun u => is_dummy u || pt_eqb (pk u) (fst (snd x))) (a4_list (inputs (fst x))) &&
                 (total_in (fst x) =? total_out (fst x)) && (given_back kC (fst x) <? 2 ^ 64)) (combine (map snd batch) keysP) = true)
    by (vm_compute; reflexivity).
  rewrite forallb_forall in Hb. specialize (Hb _ Hin). cbn [fst snd] in Hb.
  apply andb_true_iff in Hb as [Hb B3]. apply andb_true_iff in Hb as [B1 B2].
  rewrite forallb_forall in B1. constructor.
  - intros u Hu Hd. specialize (B1 u Hu). rewrite Hd in B1. cbn [orb] in B1. apply pt_eqb_eq. exact B1.
  - apply Z.eqb_eq. exact B2.
  - apply Z.ltb_lt. exact B3.
  - intros Ha. exact (withdrawn_zero kC t (C1 Ha)).
  - intros Hk Hv. apply real_none. apply C2; [ exact Hk | rewrite Hk; exact Hv ].
Qed.
Example settled_instance : exists b pi ur tr sr,
  produce_block sP l1P = Ok b /\ derive_public_inputs l1P b = Ok pi /\ ivc kC false (epoch_start ur tr sr) bsP pi.
Proof.
  destruct (C123_exactly true kC agg_new s0 sP batch keysP (empty_contents signer_cfg) kC _ l1P toy_pq (rf_new true kC)
              eq_refl eq_refl eq_refl eq_refl eq_refl empty_holds (fun _ _ => eq_refl) intake_eq ltac:(discriminate) signP_eq
              (s0_fits keysP ltac:(cbn; lia)) eq_refl l1P_history ltac:(vm_compute; discriminate) registeredP)
    as (b & pi & ur & tr & sr & cu & _ & Er & _ & _ & Eb & Epi & H).
  rewrite (rootP tr Er) in H. exists b, pi, ur, r0, sr. split; [ exact Eb |]. split; [ exact Epi |].
  exact (proj1 (H bsP bsP_concat) settledP).
Qed.

Definition keysW : list (pt * option signature) := [(kC, None); (k2, None); (k3, None)].
Definition sW : agg := state_of s0 (process_signatures true s0 kC keysW).
Lemma signW_eq : process_signatures true s0 kC keysW = MOk sW tt.
Proof.
  assert (H : is_mok (process_signatures true s0 kC keysW) = true) by (vm_compute; reflexivity).
  unfold sW. destruct (process_signatures true s0 kC keysW) as [s []|s e|]; [ reflexivity | discriminate H | discriminate H ].
Qed.
Lemma registeredW k : In k (mentioned sW) -> In k (pks l1P).
Proof.
  assert (H : forallb (fun k => existsb (pt_eqb k) (pks l1P)) (mentioned sW) = true) by (vm_compute; reflexivity).
  rewrite forallb_forall in H. intros Hk. specialize (H k Hk). apply existsb_exists in H as (k' & Hk' & E).
  apply pt_eqb_eq in E. rewrite E. exact Hk'.
Qed.
Lemma unsettledW : ~ settles kC r0 tx1 (k2, None).
Proof.
  intros [_ _ _ H _].
  assert (Ha : authorised kC r0 tx1 (k2, None) = false) by (vm_compute; reflexivity). specialize (H Ha).
  assert (Hg : (given_back kC tx1 =? 40) = true) by (vm_compute; reflexivity). apply Z.eqb_eq in Hg. lia.
Qed.
(** nothing is applied but the deposit; the records prove the block only with a collision *)
Example unsettled_instance : exists b pi ur tr sr cu,
  produce_block sW l1P = Ok b /\ derive_public_inputs l1P b = Ok pi /\
  forall bs, concat bs = map inputs_alloc (ivc_inputs sW) -> ivc kC false (epoch_start ur tr sr) bs pi ->
    collides utxoV_cfg utxo_encV (as_allocated cu) (flat_map (coin_writes kC tr) (concat bs)) \/
    exists wds, entries_are l1P (b_withdrawals b) wds /\
      sha_event (chain_inputs Fzero (map amount_bytes wds) ++ chain_inputs Fzero (map amount_bytes (run_withdrawals kC (concat bs)))).
Proof.
  destruct (C123_exactly true kC agg_new s0 sW batch keysW (empty_contents signer_cfg) kC _ l1P toy_pq (rf_new true kC)
              eq_refl eq_refl eq_refl eq_refl eq_refl empty_holds (fun _ _ => eq_refl) intake_eq ltac:(discriminate) signW_eq
              (s0_fits keysW ltac:(cbn; lia)) eq_refl l1P_history ltac:(vm_compute; discriminate) registeredW)
    as (b & pi & ur & tr & sr & cu & _ & Er & _ & _ & Eb & Epi & H).
  rewrite (rootP tr Er) in H. exists b, pi, ur, r0, sr, cu. split; [ exact Eb |]. split; [ exact Epi |].
  intros bs Hbs Hrun. destruct (proj2 (H bs Hbs) Hrun) as [X|X]; [ exfalso | exact X ].
  apply unsettledW. apply X. right. left. reflexivity.
Qed.

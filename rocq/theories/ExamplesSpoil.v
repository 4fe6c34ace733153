(** Concrete epochs that meet the hypotheses of C94, C95. The instance of the dependencies is the
    one of Toy.v. *)
From Coq Require Import ZArith List Bool Lia Permutation Sorted.
Import ListNotations.
From Verif Require Import Base Env Toy Circuit SparseMT SparseMTSpec Data DataSpec Gadgets Schnorr HMap Contract ContractSpec
  Aggregator AggSpec AggFacts AggSign AggIntake PropsContract PropsBlock PropsIntake PropsSign PropsValue ExamplesAgg
  AggCircuit AggCircuitFacts AggCircuitSpec CircuitRun PropsCircuit PropsCircuit2 PropsCircuit3 Honest PropsHonest PropsLimits Clean
  ExamplesCircuit Client ClientSpec PropsClient PropsClient4 PropsSpoil PropsWrap.
Open Scope Z_scope.

Lemma merr_eq {E A} (d : agg) (r : mres agg E A) : is_merr r = true -> exists e, r = MErr (state_of d r) e.
Proof. destruct r as [s a|s e|]; try discriminate. intros _. now exists e. Qed.
Lemma mok_eq {E} (d : agg) (r : mres agg E unit) : is_mok r = true -> r = MOk (state_of d r) tt.
Proof. destruct r as [s []|s e|]; try discriminate. reflexivity. Qed.
Lemma rok_eq {E A} (r : res E A) : is_rok r = true -> exists a, r = Ok a.
Proof. destruct r as [a|e|]; try discriminate. intros _. now exists a. Qed.

(** C94: the third transaction spends a coin that does not exist *)
Definition sE : agg := state_of s0 (process_signatures true s0 kC keys3).
Lemma sE_calls : epoch_calls true agg_new 1 sE.
Proof.
  destruct (merr_eq s0 (process_signatures true s0 kC keys3) (proj1 sign_failure)) as (e & H).
  apply (ec_failed true agg_new 0 s0 kC keys3 sE e).
  - apply (ec_intake true agg_new 0 agg_new batch s0 (ec_start true agg_new)). left. exists tt. exact intake_eq.
  - apply s0_fits. cbn. lia.
  - exact H.
Qed.
Example spoiled_block :
  match produce_block sE l1P with Ok b => is_rok (derive_public_inputs l1P b) | _ => false end = true.
Proof. vm_compute. reflexivity. Qed.
Example spoiled_epoch : length (a_signers sE) = 3%nat /\ length (ivc_inputs sE) = 2%nat /\
  exists b pi, produce_block sE l1P = Ok b /\ derive_public_inputs l1P b = Ok pi /\
    forall to z bs, z_step z = Fzero -> length (concat bs) = length (ivc_inputs sE) -> ~ ivc kC to (z_list z) bs pi.
Proof.
  destruct sign_failure as (_ & _ & H1 & H2). split; [ exact H1 |]. split; [ exact H2 |].
  pose proof spoiled_block as H. destruct (produce_block sE l1P) as [b| |] eqn:Eb; try discriminate H.
  destruct (rok_eq _ H) as (pi & Epi). exists b, pi. split; [ reflexivity |]. split; [ exact Epi |].
  intros to z bs Hz Hl. apply (C94_spoiled true agg_new 1 sE l1P b pi kC to z bs); try assumption.
  - apply reached_new.
  - reflexivity.
  - reflexivity.
  - exact sE_calls.
  - discriminate.
  - change (length (a_signers sE)) with (length (a_signers (state_of s0 (process_signatures true s0 kC keys3)))). rewrite H1. reflexivity.
Qed.

(** C95: the contract's transaction applied twice *)
Definition sM2 : agg := state_of sP (process_signatures true sP kC [(kC, None)]).
Lemma signM_eq : process_signatures true sP kC [(kC, None)] = MOk sM2 tt.
Proof.
  assert (H : is_mok (process_signatures true sP kC [(kC, None)]) = true) by (vm_compute; reflexivity).
  exact (mok_eq sP _ H).
Qed.
Example twice_block :
  match produce_block sM2 l1P with Ok b => is_rok (derive_public_inputs l1P b) | _ => false end = true.
Proof. vm_compute. reflexivity. Qed.
Lemma tx0_real : tx0 <> tx_default.
Proof. intros E. apply (f_equal (fun t => is_dummy (a4_0 (inputs t)))) in E. discriminate E. Qed.
Lemma sP_fits : fits kC sP [(kC, None)].
Proof.
  apply fits_simple. assert (H : a_index sP <=? 100 = true) by (vm_compute; reflexivity). apply Z.leb_le in H.
  rewrite utxo_capacity. cbn [length]. lia.
Qed.
Example signed_twice : live_value sP = 60 /\ live_value sM2 = 160 /\
  exists b pi, produce_block sM2 l1P = Ok b /\ derive_public_inputs l1P b = Ok pi /\
    forall to z bs, z_step z = Fzero -> z_tx z = merkle_root (empty_contents txV_cfg) ->
      concat bs = map inputs_alloc (ivc_inputs sM2) -> ivc kC to (z_list z) bs pi ->
      collides txV_cfg tx_encV (empty_contents txV_cfg) (tx_writes Fzero (concat bs)) \/
      collision2 (genuine_path (txs_of (concat bs)) 3 ++ genuine_path (epoch_txs (map snd batch)) 3) \/
      crh_collision (tx_enc tx0) (tx_enc tx_default).
Proof.
  split; [ vm_compute; reflexivity |]. split; [ vm_compute; reflexivity |].
  pose proof twice_block as H. destruct (produce_block sM2 l1P) as [b| |] eqn:Eb; try discriminate H.
  destruct (rok_eq _ H) as (pi & Epi). exists b, pi. split; [ reflexivity |]. split; [ exact Epi |].
  intros to z bs Hz Ht Hbs Hrun.
  exact (C95_signed_twice true agg_new batch s0 kC keysP sP kC [(kC, None)] sM2 l1P b pi kC to z bs 0 kC tx0
    (reached_new true) eq_refl eq_refl intake_eq signP_eq (s0_fits keysP ltac:(cbn; lia)) eq_refl signM_eq sP_fits
    ltac:(cbn [length keysP]; lia) ltac:(cbn; lia) eq_refl tx0_real Eb Epi Hz Ht Hbs Hrun).
Qed.
(** the same without the bound of C95_signed_twice *)
Example signed_twice_any b pi to z bs : produce_block sM2 l1P = Ok b -> derive_public_inputs l1P b = Ok pi ->
  z_step z = Fzero -> z_tx z = merkle_root (empty_contents txV_cfg) ->
  concat bs = map inputs_alloc (ivc_inputs sM2) -> ivc kC to (z_list z) bs pi ->
  collides txV_cfg tx_encV (empty_contents txV_cfg) (tx_writes Fzero (concat bs)) \/
  collision2 (genuine_path (placed (concat bs)) 3 ++ genuine_path (epoch_txs (map snd batch)) 3) \/
  crh_collision (tx_enc tx0) (tx_enc tx_default).
Proof.
  intros Eb Epi Hz Ht Hbs Hrun.
  exact (C95_signed_twice_any true agg_new batch s0 kC keysP sP kC [(kC, None)] sM2 l1P b pi kC to z bs 0 kC tx0
    (reached_new true) eq_refl eq_refl intake_eq ltac:(cbn [length batch]; lia) signP_eq (s0_fits keysP ltac:(cbn; lia)) eq_refl signM_eq sP_fits
    ltac:(cbn; lia) eq_refl tx0_real Eb Epi Hz Ht Hbs Hrun).
Qed.
(** C59: the proved epoch of ExamplesCircuit *)
Lemma placed_summary {hs : Hashes} {G : Curve} (k : pt) z bs z' xs : ivc k false (z_list z) bs (z_list z') -> concat bs = xs ->
  z_step z = Fzero -> z_tx z = merkle_root (empty_contents txV_cfg) -> Z.of_nat (length xs) < p ->
  ~ collides txV_cfg tx_encV (empty_contents txV_cfg) (tx_writes Fzero xs) ->
  z_tx z' = merkle_root (placed xs).
Proof.
  intros H <- Hs Ht Hn Hc. destruct (C59_any_length k false z bs z' H Hs Ht Hn) as [X|[X _]]; [ now destruct Hc | exact X ].
Qed.
Example placed_instance : exists z', ivc kC false (z_list zP) bsP (z_list z') /\ z_tx z' = merkle_root (placed xsP).
Proof.
  destruct epoch_provable as (Hl & b & z' & _ & _ & H). exists z'. split; [ exact H |].
  assert (Hn : Z.of_nat (length xsP) < p) by (rewrite Hl; reflexivity).
  exact (placed_summary kC zP bsP z' xsP H bsP_xs zP_step zP_tx Hn no_tx_collision).
Qed.

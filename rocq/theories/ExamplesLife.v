(** Instance of C88: an epoch with a deposit, a transfer with a withdrawal and an unsigned
    transaction, its block, and a second epoch that starts with a failing call. *)
From Coq Require Import ZArith List Bool Lia Permutation.
Import ListNotations.
From Verif Require Import Base Env Toy Circuit SparseMT SparseMTSpec Data DataSpec Schnorr HMap Contract ContractSpec
  Aggregator AggSpec AggFacts AggSign AggIntake PropsContract PropsBlock PropsIntake PropsSign PropsValue PropsLife
  ExamplesAgg ExamplesCircuit ExamplesTruth.
Open Scope Z_scope.

Lemma s0_txs_len : length (a_txs s0) = 3%nat.
Proof. vm_compute. reflexivity. Qed.
Lemma life_s0 : life true kC s0 [kC; k2; k3] [] true.
Proof.
  pose proof (life_intake true kC agg_new [] [] true batch s0 (life_new true kC)
                (or_introl (ex_intro _ tt intake_eq)) (or_introl eq_refl)) as H.
  assert (E : (length (a_txs s0) - length (a_txs agg_new))%nat = 3%nat) by (rewrite s0_txs_len; reflexivity).
  rewrite E in H. exact H.
Qed.
Lemma prefix_keys (ks : list pt) (l : list (pt * option signature)) : map fst l = firstn (length l) ks ->
  forall i k osg, nth_error l i = Some (k, osg) -> nth_error ks i = Some k.
Proof.
  revert ks. induction l as [|[k0 o0] l IH]; intros ks E i k osg Hi; [ destruct i; discriminate Hi |].
  destruct ks as [|k1 ks]; cbn [map firstn length fst] in E; [ discriminate E |].
  assert (E1 : k0 = k1) by congruence. assert (E2 : map fst l = firstn (length l) ks) by congruence.
  destruct i as [|i]; cbn [nth_error] in *.
  - congruence.
  - exact (IH ks E2 i k osg Hi).
Qed.
Lemma life_sP : life true kC sP [kC; k2; k3] [] true.
Proof.
  refine (life_sign true kC s0 [kC; k2; k3] [] true keysP sP life_s0 (s0_fits keysP ltac:(cbn; lia)) _ signP_eq).
  apply prefix_keys. reflexivity.
Qed.
Lemma bP_produced : produce_block sP l1P = Ok bP.
Proof.
  assert (H : is_rok (produce_block sP l1P) = true) by (vm_compute; reflexivity).
  unfold bP. destruct (produce_block sP l1P) as [b| |]; [ reflexivity | discriminate H | discriminate H ].
Qed.
Definition sE : agg := reset_for_new_epoch sP.
Lemma life_sE : life true kC sE [] [bP] true.
Proof. exact (life_epoch true kC sP [kC; k2; k3] [] true l1P bP life_sP bP_produced). Qed.
(** 60 are held, 40 were paid out, 100 paid in *)
Example life_values : live_value sE = 60 /\ block_in bP = 100 /\ block_out bP = 40.
Proof. vm_compute. repeat split. Qed.
Example life_instance : live_value sE + log_total (a_withdrawals sE) + zsum (map block_out [bP])
  = log_total (a_deposits sE) + zsum (map block_in [bP]).
Proof. exact (proj1 (C88_life true kC sE [] [bP] true life_sE) eq_refl). Qed.
(** a second epoch: k3 spends its coin and one that does not exist *)
Definition sE0 : agg := state_of sE (process_transactions true sE [(k3, tx2)]).
Lemma intakeE : process_transactions true sE [(k3, tx2)] = MOk sE0 tt.
Proof.
  assert (H : is_mok (process_transactions true sE [(k3, tx2)]) = true) by (vm_compute; reflexivity).
  unfold sE0. destruct (process_transactions true sE [(k3, tx2)]) as [s []|s e|]; [ reflexivity | discriminate H | discriminate H ].
Qed.
Lemma life_sE0 : life true kC sE0 [k3] [bP] true.
Proof.
  pose proof (life_intake true kC sE [] [bP] true [(k3, tx2)] sE0 life_sE
                (or_introl (ex_intro _ tt intakeE)) (or_introl eq_refl)) as H.
  assert (E : (length (a_txs sE0) - length (a_txs sE))%nat = 1%nat) by (vm_compute; reflexivity).
  rewrite E in H. exact H.
Qed.
Definition rE : F := match root (a_tx_tree sE0) with Ok r => r | _ => Fzero end.
Definition sigE : signature :=
  match sign (scalar_of 3) (tx_enc tx2 ++ [rE]) [scalar_of 55] with Ok (Some s) => s | _ => sig_default end.
Definition keysE : list (pt * option signature) := [(k3, Some sigE)].
Definition sE1 : agg := state_of sE0 (process_signatures true sE0 kC keysE).
Lemma signE : exists e, process_signatures true sE0 kC keysE = MErr sE1 e.
Proof.
  assert (H : is_merr (process_signatures true sE0 kC keysE) = true) by (vm_compute; reflexivity).
  unfold sE1. destruct (process_signatures true sE0 kC keysE) as [s []|s e|]; [ discriminate H | | discriminate H ].
  exists e. reflexivity.
Qed.
Example life_failed : life true kC sE1 [k3] [bP] false /\ live_value sE1 = 0.
Proof.
  split; [| vm_compute; reflexivity ]. destruct signE as (e & E).
  refine (life_sign_failed true kC sE0 [k3] [bP] true keysE sE1 e life_sE0 _ _ E).
  - apply fits_simple. assert (a_index sE0 = 2) by (apply Z.eqb_eq; vm_compute; reflexivity).
    rewrite H, utxo_capacity. cbn. lia.
  - apply prefix_keys. reflexivity.
Qed.

(** Instance of C89: every proof of the epoch of ExamplesCircuit.v ends where the contract expects it. *)
From Verif Require Import AggCircuit AggCircuitSpec PropsDet.
Lemma det_generic {hs : Hashes} {G : Curve} k z bs xs z' : concat bs = xs -> ivc k false (z_list z) bs (z_list z') ->
  forall bs2 z2, concat bs2 = xs -> ivc k false (z_list z) bs2 z2 -> z2 = z_list z'.
Proof.
  intros E H bs2 z2 E2 H2. exact (C89_aggregator_deterministic k false (z_list z) bs2 bs z2 (z_list z') eq_refl (eq_trans E2 (eq_sym E)) H2 H).
Qed.
Example deterministic_instance : exists b z', produce_block sP l1P = Ok b /\ derive_public_inputs l1P b = Ok (z_list z') /\
  ivc kC false (z_list zP) bsP (z_list z') /\
  forall bs z2, concat bs = xsP -> ivc kC false (z_list zP) bs z2 -> z2 = z_list z'.
Proof.
  destruct epoch_provable as (_ & b & z' & H1 & H2 & H3). exists b, z'. split; [ exact H1 |]. split; [ exact H2 |]. split; [ exact H3 |].
  exact (det_generic kC zP bsP xsP z' bsP_concat H3).
Qed.

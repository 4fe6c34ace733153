(** C122: of the epoch of ExamplesAgg.v only the deposit is answered for, in one call or in two. The
    instance of the dependencies is the one of Toy.v. *)
From Coq Require Import ZArith List Bool Lia Permutation Sorted.
Import ListNotations.
From Verif Require Import Base Env Toy Circuit SparseMT SparseMTSpec Data DataSpec Gadgets Schnorr HMap Contract ContractSpec
  Aggregator AggSpec AggFacts AggSign AggIntake PropsContract PropsBlock PropsIntake PropsSign PropsValue ExamplesAgg
  AggCircuit AggCircuitFacts AggCircuitSpec CircuitRun Honest PropsHonest TruthSpec PropsSpoil ExamplesCircuit Client PropsLive PropsReport
  PropsExit ExamplesLive ExamplesExit PropsStranger ExamplesStranger PropsAnswers.
Open Scope Z_scope.

Definition keysD : list (pt * option signature) := [(kC, None)].
Definition sD1 : agg := state_of s0 (process_signatures true s0 kC keysD).
Lemma signD1_eq : process_signatures true s0 kC keysD = MOk sD1 tt.
Proof.
  assert (H : is_mok (process_signatures true s0 kC keysD) = true) by (vm_compute; reflexivity).
  unfold sD1. destruct (process_signatures true s0 kC keysD) as [s []|s e|]; [ reflexivity | discriminate H | discriminate H ].
Qed.
Definition sD2 : agg := state_of s0 (process_signatures true sD1 kC keysD).
Lemma signD2_eq : process_signatures true sD1 kC keysD = MOk sD2 tt.
Proof.
  assert (H : is_mok (process_signatures true sD1 kC keysD) = true) by (vm_compute; reflexivity).
  unfold sD2. destruct (process_signatures true sD1 kC keysD) as [s []|s e|]; [ reflexivity | discriminate H | discriminate H ].
Qed.
(** the second call deposits the 100 again *)
Example answers_values : (live_value s0, live_value sD1, live_value sD2) = (0, 100, 200).
Proof. vm_compute. reflexivity. Qed.
Definition blk_of (s : agg) : block :=
  match produce_block s l1P with Ok b => b | _ => mkBlock Fzero Fzero Fzero [] (u64of 0) [] [] end.
Lemma blkD_ok : produce_block sD1 l1P = Ok (blk_of sD1) /\ produce_block sD2 l1P = Ok (blk_of sD2).
Proof.
  assert (X : forall s, is_rok (produce_block s l1P) = true -> produce_block s l1P = Ok (blk_of s)).
  { intros s H. unfold blk_of. destruct (produce_block s l1P) as [b| |]; [ reflexivity | discriminate H | discriminate H ]. }
  split; apply X; vm_compute; reflexivity.
Qed.
Lemma tx1_not_default : tx1 <> tx_default.
Proof. intros E. apply (f_equal (fun t => zval (amount (a4_1 (inputs t))))) in E. vm_compute in E. discriminate E. Qed.
Lemma tx01_differ : tx1 <> tx0.
Proof. intros E. apply (f_equal (fun t => zval (amount (a4_1 (inputs t))))) in E. vm_compute in E. discriminate E. Qed.
Lemma s0_few : Z.of_nat (length (a_txs s0)) <= 4096.
Proof. apply Z.leb_le. vm_compute. reflexivity. Qed.
Lemma tx0_taken : nth_error (a_txs s0) 0 = Some tx0.
Proof. destruct (C40_intake true agg_new batch s0 (reached_new true) eq_refl intake_eq) as (E & _). rewrite E. reflexivity. Qed.

Example short_instance : exists pi, derive_public_inputs l1P (blk_of sD1) = Ok pi /\
  forall to z bs, z_step z = Fzero -> z_tx z = merkle_root (empty_contents txV_cfg) ->
    ivc kC to (z_list z) bs pi -> Z.of_nat (length (concat bs)) < p ->
    let xs := concat bs in
    collides txV_cfg tx_encV (empty_contents txV_cfg) (tx_writes Fzero xs) \/
    collision2 (genuine_path (txs_of xs) 1 ++ genuine_path (epoch_txs (a_txs s0)) 1) \/
    crh_collision (tx_enc tx_default) (tx_enc tx1).
Proof.
  assert (H : is_rok (derive_public_inputs l1P (blk_of sD1)) = true) by (vm_compute; reflexivity).
  destruct (derive_public_inputs l1P (blk_of sD1)) as [pi| |] eqn:Epi; [| discriminate H | discriminate H ].
  exists pi. split; [ reflexivity |]. intros to z bs Hz Ht Hrun Hn.
  destruct (logs_empty true batch s0 intake_eq) as (A & _ & _).
  exact (C122_short_call true s0 kC keysD sD1 l1P (blk_of sD1) pi to z bs 1 tx1 s0_reached s0_few A signD1_eq
           (s0_fits keysD ltac:(cbn; lia)) tx1_taken tx1_not_default (le_n 1) (proj1 blkD_ok) Epi Hz Ht Hrun Hn).
Qed.

Lemma sD1_reached : reached true sD1.
Proof. apply (reached_sign true s0 kC keysD sD1 s0_reached (s0_fits keysD ltac:(cbn; lia))). left. exists tt. exact signD1_eq. Qed.
Example two_calls_instance : exists pi, derive_public_inputs l1P (blk_of sD2) = Ok pi /\
  forall to z bs, z_step z = Fzero -> z_tx z = merkle_root (empty_contents txV_cfg) ->
    concat bs = map inputs_alloc (ivc_inputs sD2) -> ivc kC to (z_list z) bs pi ->
    let xs := concat bs in
    collides txV_cfg tx_encV (empty_contents txV_cfg) (tx_writes Fzero xs) \/
    collision2 (genuine_path (txs_of xs) 1 ++ genuine_path (epoch_txs (a_txs s0)) 1) \/
    crh_collision (tx_enc tx0) (tx_enc tx1).
Proof.
  assert (H : is_rok (derive_public_inputs l1P (blk_of sD2)) = true) by (vm_compute; reflexivity).
  destruct (derive_public_inputs l1P (blk_of sD2)) as [pi| |] eqn:Epi; [| discriminate H | discriminate H ].
  exists pi. split; [ reflexivity |]. intros to z bs Hz Ht Hbs Hrun.
  assert (Hi : a_ivc s0 = []).
  { destruct (C40_intake true agg_new batch s0 (reached_new true) eq_refl intake_eq) as (_ & _ & (_&_&_&_&_&_&_&_&_&_&E) & _). exact E. }
  assert (Hf : fits kC sD1 keysD) by (apply fits_simple; apply Z.leb_le; vm_compute; reflexivity).
  assert (Hn : Z.of_nat (length keysD + length keysD) <= 4096) by (apply Z.leb_le; reflexivity).
  pose proof (C122_two_calls true s0 kC keysD sD1 kC keysD sD2 l1P (blk_of sD2) pi kC to z bs 0
                s0_reached Hi s0_few signD1_eq (s0_fits keysD ltac:(cbn; lia)) signD2_eq Hf Hn (le_n 1)
                (proj2 blkD_ok) Epi Hz Ht Hbs Hrun) as X.
  cbv zeta in X. change (length keysD + 0)%nat with 1%nat in X.
  rewrite (nth_error_nth _ _ tx_default tx0_taken), (nth_error_nth _ _ tx_default tx1_taken) in X.
  destruct X as [X|X]; [ exfalso; exact (tx01_differ X) | exact X ].
Qed.

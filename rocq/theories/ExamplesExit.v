(** Concrete epochs that meet the hypotheses of C99, C100. The instance of the dependencies is the
    one of Toy.v. *)
From Coq Require Import ZArith List Bool Lia Permutation Sorted.
Import ListNotations.
From Verif Require Import Base Env Toy Circuit SparseMT SparseMTSpec Data DataSpec Gadgets Schnorr HMap Contract ContractSpec
  Aggregator AggSpec AggFacts AggSign AggIntake PropsContract PropsBlock PropsIntake PropsSign PropsValue ExamplesAgg
  AggCircuit AggCircuitFacts AggCircuitSpec CircuitRun Honest PropsHonest TruthSpec ExamplesCircuit Client PropsLive PropsReport PropsExit ExamplesLive.
Open Scope Z_scope.

(** C99: the deposit, the transfer with a withdrawal, and a transaction that was not signed *)
Definition blkP : block := match produce_block sP l1P with Ok b => b | _ => mkBlock Fzero Fzero Fzero [] (u64of 0) [] [] end.
Lemma blkP_eq : produce_block sP l1P = Ok blkP.
Proof.
  assert (H : is_rok (produce_block sP l1P) = true) by (vm_compute; reflexivity). unfold blkP.
  destruct (produce_block sP l1P) as [b| |]; [ reflexivity | discriminate H | discriminate H ].
Qed.
Lemma logs_empty {hs : Hashes} {G : Curve} dbg l s : process_transactions dbg agg_new l = MOk s tt ->
  a_signers s = [] /\ a_deposits s = [] /\ a_withdrawals s = [].
Proof.
  intros E. destruct (C40_intake dbg agg_new l s (reached_new dbg) eq_refl E) as (_ & _ & (_&_&_&A&B&_&C&_) & _). auto.
Qed.
Example report_instance :
  let xs := combine (a_txs s0) keysP in
  Forall2 (names_signer kC l1P r0) xs (b_signers blkP) /\
  Forall2 (names l1P) (flat_map (deposits_of kC) xs) (b_deposits blkP) /\
  Forall2 (names l1P) (flat_map (withdrawals_of kC r0) xs) (b_withdrawals blkP).
Proof.
  destruct (logs_empty true batch s0 intake_eq) as (A & B & C).
  destruct (C99_block_reports true kC s0 keysP sP r0 kC _ l1P blkP s0_reached (s0_fits keysP ltac:(cbn; lia)) r0_root A B C
              signP_eq l1P_history ltac:(vm_compute; discriminate) blkP_eq) as (_ & R1 & R2 & R3 & _). auto.
Qed.
Example report_values :
  (b_signers blkP, map (fun e => (fst e, zval (snd e))) (b_deposits blkP), map (fun e => (fst e, zval (snd e))) (b_withdrawals blkP))
  = ([Some 0; Some 1; None], [(1, 100)], [(1, 40)]).
Proof. vm_compute. reflexivity. Qed.

(** C100: the first epoch of an aggregator deposits 70 to [k2] *)
Lemma new_fresh {hs : Hashes} {G : Curve} dbg : fresh_epoch dbg agg_new.
Proof. split; [ apply reached_new | repeat split ]. Qed.
Lemma k2_registered : In k2 (pks l1P) /\ In k3 (pks l1P).
Proof.
  assert (X : forall k, existsb (pt_eqb k) (pks l1P) = true -> In k (pks l1P)).
  { intros k' Hk. apply existsb_exists in Hk as (k'' & Hk & E). apply pt_eqb_eq in E. rewrite E. exact Hk. }
  split; apply X; vm_compute; reflexivity.
Qed.
Example deposit_instance : exists s1 r ur sr s2 b pi i0 i,
  process_transactions true agg_new [(kC, deposit_tx kC k2 (u64of 70))] = MOk s1 tt /\
  process_signatures true s1 kC [(kC, None)] = MOk s2 tt /\
  Permutation (coins s2) [utxo_new k2 (u64of 70)] /\ produce_block s2 l1P = Ok b /\
  b_signers b = [Some i0] /\ b_deposits b = [(i, u64of 70)] /\ b_withdrawals b = [] /\ index_of l1P k2 i /\
  derive_public_inputs l1P b = Ok pi /\
  (verify_signature kC (tx_enc (deposit_tx kC k2 (u64of 70)) ++ [r]) sig_default = false ->
   ivc kC false (epoch_start ur r sr) [map inputs_alloc (ivc_inputs s2)] pi).
Proof.
  destruct (C100_deposit true kC agg_new k2 (u64of 70) [Join (u64of 500) k2; Join (u64of 0) k3] l1P (new_fresh true)) as (s1 & r & ur & sr & E1 & E2 & E3 & E4 & H).
  - apply pt_eqb_neq. vm_compute. reflexivity.
  - reflexivity.
  - exact l1P_history.
  - vm_compute. discriminate.
  - exact (proj1 k2_registered).
  - destruct H as (s2 & b & pi & i0 & i & F1 & F2 & F3 & F4 & F5 & F6 & F7 & F8 & F9 & F10).
    exists s1, r, ur, sr, s2, b, pi, i0, i. do 9 (split; [ assumption |]). intros Hv. apply F10.
    + exact toy_pq.
    + exists (empty_contents signer_cfg). split; [ exact (blank_empty signer_cfg) | reflexivity ].
    + exact Hv.
    + cbn [concat]. apply app_nil_r.
Qed.

(** C100: [k3] leaves with the 60 it got *)
Lemma sQ_fresh : fresh_epoch true sQ.
Proof.
  split; [| repeat split ].
  apply reached_reset. refine (reached_sign true s0 kC keysP sP s0_reached (s0_fits keysP ltac:(cbn; lia)) _). left. exists tt. exact signP_eq.
Qed.
Example exit_instance : exists s1 r ur sr,
  process_transactions true sQ [(k3, exit_tx kC (coin 60 k3))] = MOk s1 tt /\ root (a_tx_tree s1) = Ok r /\
  root (a_utxo_tree sQ) = Ok ur /\ root (a_signer_tree sQ) = Ok sr /\
  forall draws sg, sign (scalar_of 3) (tx_enc (exit_tx kC (coin 60 k3)) ++ [r]) draws = Ok (Some sg) ->
    exists s2 b pi i, process_signatures true s1 kC [(k3, Some sg)] = MOk s2 tt /\ Permutation (coins s2) [] /\
      produce_block s2 l1P = Ok b /\ index_of l1P k3 i /\
      b_signers b = [Some i] /\ b_deposits b = [] /\ b_withdrawals b = [(i, u64of 60)] /\
      derive_public_inputs l1P b = Ok pi /\
      (p <= q -> blank_slot true sQ ->
       forall bs, concat bs = map inputs_alloc (ivc_inputs s2) -> ivc kC false (epoch_start ur r sr) bs pi).
Proof.
  assert (N : k3 <> kC) by (apply pt_eqb_neq; vm_compute; reflexivity).
  assert (I : a_index sQ <= 2 ^ 31) by (apply Z.leb_le; vm_compute; reflexivity).
  assert (L : Z.of_nat (length (pks l1P)) <= 2 ^ 32) by (vm_compute; discriminate).
  assert (Z0 : zval (amount (coin 60 k3)) <> 0) by discriminate.
  exact (C100_exit true kC sQ (scalar_of 3) (coin 60 k3) [] [Join (u64of 500) k2; Join (u64of 0) k3] l1P sQ_fresh eq_refl eq_refl N Z0 sQ_coin I l1P_history L (proj2 k2_registered)).
Qed.

(** an aggregator with a live coin whose first signer slot is still blank: in its first epoch the
    first transaction was not signed *)
Definition batchB : list (pt * tx) := [(k2, tx1); (kC, tx0)].
Definition keysB : list (pt * option signature) := [(k2, None); (kC, None)].
Definition sB0 : agg := state_of agg_new (process_transactions true agg_new batchB).
Definition sB : agg := state_of sB0 (process_signatures true sB0 kC keysB).
Lemma intakeB_eq : process_transactions true agg_new batchB = MOk sB0 tt.
Proof.
  assert (H : is_mok (process_transactions true agg_new batchB) = true) by (vm_compute; reflexivity).
  unfold sB0. destruct (process_transactions true agg_new batchB) as [s []|s e|]; [ reflexivity | discriminate H | discriminate H ].
Qed.
Lemma signB_eq : process_signatures true sB0 kC keysB = MOk sB tt.
Proof.
  assert (H : is_mok (process_signatures true sB0 kC keysB) = true) by (vm_compute; reflexivity).
  unfold sB. destruct (process_signatures true sB0 kC keysB) as [s []|s e|]; [ reflexivity | discriminate H | discriminate H ].
Qed.
Lemma sB0_reached : reached true sB0.
Proof. eapply reached_intake; [ apply reached_new |]. left. exists tt. apply intakeB_eq. Qed.
Lemma sB0_fits : fits kC sB0 keysB.
Proof.
  apply fits_simple. assert (H : a_index sB0 = 0) by (apply Z.eqb_eq; vm_compute; reflexivity).
  rewrite H, utxo_capacity. cbn [length keysB]. lia.
Qed.
Lemma blank_of {hs : Hashes} {G : Curve} dbg contract s l s' r c0 : reached dbg s -> fits contract s l -> root (a_tx_tree s) = Ok r ->
  a_signers s = [] -> a_ivc s = [] -> Z.of_nat (length l) <= 4096 -> tree_holds dbg signer_cfg (a_signer_tree s) c0 -> c0 0 = pzero ->
  process_signatures dbg s contract l = MOk s' tt -> nth_error (a_signers s') 0 = Some None ->
  blank_slot dbg (reset_for_new_epoch s').
Proof.
  intros Hr Hf Ht Hs Hi Hl Hc H0 E Hn.
  destruct (C48_signers dbg contract s l s' r c0 Hr Hf Ht Hs Hi Hl Hc E) as (_ & _ & _ & H & _).
  eexists. split; [ exact H |]. cbv beta. replace (Z.to_nat 0) with 0%nat by reflexivity. rewrite Hn. exact H0.
Qed.
Lemma same_new {hs : Hashes} {G : Curve} dbg l s : process_transactions dbg agg_new l = MOk s tt ->
  a_signers s = [] /\ a_ivc s = [] /\ a_signer_tree s = blank signer_cfg.
Proof.
  intros E. destruct (C40_intake dbg agg_new l s (reached_new dbg) eq_refl E) as (_ & _ & (_&_&_&_&_&B&C&_&_&_&D) & _). auto.
Qed.
Example blank_instance : fresh_epoch true (reset_for_new_epoch sB) /\ blank_slot true (reset_for_new_epoch sB) /\ live_value (reset_for_new_epoch sB) = 100.
Proof.
  destruct (same_new true batchB sB0 intakeB_eq) as (A & B & C).
  split; [| split; [| vm_compute; reflexivity ] ].
  - split; [| repeat split ]. apply reached_reset. refine (reached_sign true sB0 kC keysB sB sB0_reached sB0_fits _). left. exists tt. exact signB_eq.
  - assert (Hroot : exists r, root (a_tx_tree sB0) = Ok r).
    { destruct (C42_inclusion_proofs true sB0 sB0_reached) as (ps & r & _ & E & _); [ apply Z.leb_le; vm_compute; reflexivity | eauto ]. }
    destruct Hroot as (r & Hroot).
    assert (Hn : nth_error (a_signers sB) 0 = Some None).
    { assert (H : match nth_error (a_signers sB) 0 with Some None => true | _ => false end = true) by (vm_compute; reflexivity).
      destruct (nth_error (a_signers sB) 0) as [[k|]|]; [ discriminate H | reflexivity | discriminate H ]. }
    assert (Hb : tree_holds true signer_cfg (a_signer_tree sB0) (empty_contents signer_cfg)).
    { rewrite C. exact (blank_empty signer_cfg). }
    exact (blank_of true kC sB0 keysB sB r (empty_contents signer_cfg) sB0_reached sB0_fits Hroot A B ltac:(cbn [length keysB]; lia) Hb eq_refl signB_eq Hn).
Qed.

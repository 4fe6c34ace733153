(** C121: in the epoch of ExamplesAgg.v, [k3] answers for the transaction of [k2] with its own
    signature. The call succeeds, the coin of [k2] is spent and a block is produced. The instance of
    the dependencies is the one of Toy.v. *)
From Coq Require Import ZArith List Bool Lia Permutation Sorted.
Import ListNotations.
From Verif Require Import Base Env Toy Circuit SparseMT SparseMTSpec Data DataSpec Gadgets Schnorr HMap Contract ContractSpec
  Aggregator AggSpec AggFacts AggSign AggIntake PropsContract PropsBlock PropsIntake PropsSign PropsValue ExamplesAgg
  AggCircuit AggCircuitFacts AggCircuitSpec CircuitRun Honest PropsHonest TruthSpec PropsSpoil ExamplesCircuit Client PropsLive PropsReport
  PropsExit ExamplesLive ExamplesExit PropsStranger.
Open Scope Z_scope.

Definition sigX : signature :=
  match sign (scalar_of 3) (tx_enc tx1 ++ [r0]) [scalar_of 55] with Ok (Some s) => s | _ => sig_default end.
Definition keysX : list (pt * option signature) := [(kC, None); (k3, Some sigX)].
Definition sX : agg := state_of s0 (process_signatures true s0 kC keysX).
Lemma signX_eq : process_signatures true s0 kC keysX = MOk sX tt.
Proof.
  assert (H : is_mok (process_signatures true s0 kC keysX) = true) by (vm_compute; reflexivity).
  unfold sX. destruct (process_signatures true s0 kC keysX) as [s []|s e|]; [ reflexivity | discriminate H | discriminate H ].
Qed.
(** the coin of [k2] is gone: of the 100 deposited, 60 go to [k3] and 40 are withdrawn in [k3]'s name *)
Example stranger_values :
  (live_value s0, live_value sX, map (fun e => (pt_eqb (fst e) k3, zval (snd e))) (a_withdrawals sX)) = (0, 60, [(true, 40)]).
Proof. vm_compute. reflexivity. Qed.
Lemma stranger_X : stranger tx1 k3.
Proof.
  exists (coin 100 k2). split; [ right; left; reflexivity | split; [ reflexivity |] ].
  apply pt_eqb_neq. vm_compute. reflexivity.
Qed.
Lemma tx1_taken : nth_error (a_txs s0) 1 = Some tx1.
Proof.
  destruct (C40_intake true agg_new batch s0 (reached_new true) eq_refl intake_eq) as (E & _). rewrite E. reflexivity.
Qed.
Example recorded_instance to z bs zl : concat bs = map inputs_alloc (ivc_inputs sX) -> ~ ivc kC to (z_list z) bs zl.
Proof.
  refine (C121_recorded true kC s0 keysX sX 1 tx1 k3 (Some sigX) to z bs zl s0_reached _ signX_eq tx1_taken eq_refl stranger_X).
  apply Z.ltb_lt. vm_compute. reflexivity.
Qed.

Definition blkX : block := match produce_block sX l1P with Ok b => b | _ => mkBlock Fzero Fzero Fzero [] (u64of 0) [] [] end.
Lemma blkX_eq : produce_block sX l1P = Ok blkX.
Proof.
  assert (H : is_rok (produce_block sX l1P) = true) by (vm_compute; reflexivity). unfold blkX.
  destruct (produce_block sX l1P) as [b| |]; [ reflexivity | discriminate H | discriminate H ].
Qed.
(** everything C121_block asks for, except the proof itself; by the theorem there is none without a collision *)
Example block_instance : exists pi, derive_public_inputs l1P blkX = Ok pi /\
  forall z bs, begins z -> ivc kC false (z_list z) bs pi ->
    let xs := concat bs in
    collides txV_cfg tx_encV (empty_contents txV_cfg) (tx_writes Fzero xs) \/
    collision2 (genuine_path (txs_of xs) 1 ++ genuine_path (epoch_txs (a_txs s0)) 1) \/
    crh_collision (tx_encV (txs_of xs 1)) (tx_enc tx1) \/
    exists keys, signers_are l1P (b_signers blkX) keys /\
      sha_event (chain_inputs Fzero (map pt_bytes keys) ++ chain_inputs Fzero (map pt_bytes (run_signers kC r0 xs))).
Proof.
  assert (H : is_rok (derive_public_inputs l1P blkX) = true) by (vm_compute; reflexivity).
  destruct (derive_public_inputs l1P blkX) as [pi| |] eqn:Epi; [| discriminate H | discriminate H ].
  exists pi. split; [ reflexivity |]. intros z bs Hz Hrun.
  destruct (logs_empty true batch s0 intake_eq) as (A & B & C).
  refine (C121_block true kC s0 keysX sX r0 kC _ l1P blkX pi 1 tx1 k3 (Some sigX) z bs
            s0_reached (s0_fits keysX ltac:(cbn; lia)) r0_root _ A B C signX_eq l1P_history ltac:(vm_compute; discriminate)
            blkX_eq Epi tx1_taken eq_refl _ _ stranger_X Hz Hrun).
  - apply Z.leb_le. vm_compute. reflexivity.
  - vm_compute. reflexivity.
  - apply pt_eqb_neq. vm_compute. reflexivity.
Qed.

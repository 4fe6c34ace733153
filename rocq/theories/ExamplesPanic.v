(** Concrete calls that meet the hypotheses of C98, on both sides of each equivalence. The instance of the
    dependencies is the one of Toy.v. *)
From Coq Require Import ZArith List Bool Lia.
Import ListNotations.
From Verif Require Import Base Env Toy Circuit SparseMT SparseMTSpec Data DataSpec DataFacts Schnorr HMap Contract ContractSpec
  Aggregator AggSpec AggFacts AggSign AggIntake PropsContract PropsBlock PropsIntake PropsSign PropsValue ExamplesAgg PropsPanic.
Open Scope Z_scope.

Definition is_mpanic {S E A} (r : mres S E A) : bool := match r with MPanic => true | _ => false end.
Definition is_rpanic {E A} (r : res E A) : bool := match r with Panic => true | _ => false end.

(** intake: the inputs sum to 2^64; the same call panics in a debug build, and is an error in a release build *)
Definition txO : tx := mkTx (A4 (coin (two64 - 1) k2) (coin 1 k2) utxo_dummy utxo_dummy)
                            (A4 (coin 5 k3) utxo_dummy utxo_dummy utxo_dummy).
Example intake_panics :
  (is_mpanic (process_transactions true agg_new [(kC, tx0); (k2, txO)]),
   is_merr (process_transactions false agg_new [(kC, tx0); (k2, txO)]),
   is_merr (process_transactions true agg_new [(k3, tx0); (k2, txO)]),
   is_merr (process_transactions true agg_new [(kC, tx0); (k3, txO)])) = (true, true, true, true).
Proof. vm_compute. reflexivity. Qed.

(** signing: a fourth entry for three transactions panics, unless an earlier one failed *)
Definition skipped3 : list (pt * option signature) := [(kC, None); (k2, None); (k3, None)].
Example signing_panics :
  (is_mpanic (process_signatures true s0 kC (skipped3 ++ [(kC, None)])),
   is_mok (process_signatures true s0 kC skipped3),
   is_merr (process_signatures true s0 kC (keys3 ++ [(kC, None)]))) = (true, true, true).
Proof. vm_compute. reflexivity. Qed.
Lemma s0_fits4 l : (length l <= 4)%nat -> fits kC s0 l.
Proof.
  intros H. apply fits_simple. assert (a_index s0 = 0) by (apply Z.eqb_eq; vm_compute; reflexivity).
  rewrite H0, utxo_capacity. lia.
Qed.
Example signing_panics_iff :
  process_signatures true s0 kC (skipped3 ++ [(kC, None)]) = MPanic <->
  (length (a_txs s0) < 4)%nat /\ exists s1, process_signatures true s0 kC (firstn (length (a_txs s0)) (skipped3 ++ [(kC, None)])) = MOk s1 tt.
Proof.
  apply (C98_signatures_panic true kC s0 (skipped3 ++ [(kC, None)]) s0_reached).
  - apply s0_fits4. cbn. lia.
  - assert (Hs : length (a_signers s0) = 0%nat) by (apply Nat.eqb_eq; vm_compute; reflexivity).
    rewrite Hs. reflexivity.
Qed.

(** blocks: a contract that never heard of the keys, and an index that was never assigned *)
Example block_panics :
  (is_rpanic (produce_block s1 (contract_new kC)), is_rok (produce_block s1 l1c)) = (true, true).
Proof. vm_compute. reflexivity. Qed.
Definition blockE sg ds ws : block := mkBlock Fzero Fzero Fzero sg (u64of 1) ds ws.
Example inputs_panic :
  (is_rpanic (derive_public_inputs l1c (blockE [Some 1; None; Some 3] [] [])),
   is_rpanic (derive_public_inputs l1c (blockE [] [] [(3, u64of 5)])),
   is_rok (derive_public_inputs l1c (blockE [Some 1; None; Some 2] [(0, u64of 7)] [(2, u64of 5)])))
  = (true, true, true).
Proof. vm_compute. reflexivity. Qed.

(** A concrete epoch: deposit, transfer with a withdrawal, failure; it meets the hypotheses of
    C36-C52. The instance of the dependencies is the one of Toy.v. *)
From Coq Require Import ZArith List Bool Lia Permutation.
Import ListNotations.
From Verif Require Import Base Env Toy Circuit SparseMT SparseMTSpec Data DataSpec Schnorr HMap Contract ContractSpec
  Aggregator AggSpec AggFacts AggSign AggIntake PropsContract PropsBlock PropsIntake PropsSign PropsValue.
Open Scope Z_scope.

Definition is_mok {S E A} (r : mres S E A) : bool := match r with MOk _ _ => true | _ => false end.
Definition is_merr {S E A} (r : mres S E A) : bool := match r with MErr _ _ => true | _ => false end.
Definition state_of {E A} (d : agg) (r : mres agg E A) : agg := match r with MOk s _ => s | MErr s _ => s | MPanic => d end.
Definition is_rok {E A} (r : res E A) : bool := match r with Ok _ => true | _ => false end.

Definition kC : pt := exk 1.                         (* the rollup contract's key *)
Definition sk2 : scalar := scalar_of 2.
Definition k2 : pt := exk 2.
Definition k3 : pt := exk 3.
Definition coin (a : Z) (k : pt) : utxo := mkUtxo (u64of a) k false.
(** contract -> k2: 100 (a deposit) *)
Definition tx0 : tx := mkTx (A4 (coin 100 kC) utxo_dummy utxo_dummy utxo_dummy)
                            (A4 (coin 100 k2) utxo_dummy utxo_dummy utxo_dummy).
(** k2 -> 60 to k3, 40 back to the contract (a withdrawal) *)
Definition tx1 : tx := mkTx (A4 utxo_dummy (coin 100 k2) utxo_dummy utxo_dummy)
                            (A4 (coin 40 kC) utxo_dummy (coin 60 k3) utxo_dummy).
(** k3 spends a coin that does not exist *)
Definition tx2 : tx := mkTx (A4 (coin 60 k3) (coin 1 k3) utxo_dummy utxo_dummy)
                            (A4 (coin 61 k2) utxo_dummy utxo_dummy utxo_dummy).
Definition batch : list (pt * tx) := [(kC, tx0); (k2, tx1); (k3, tx2)].

Definition s0 : agg := state_of agg_new (process_transactions true agg_new batch).
Definition r0 : F := match root (a_tx_tree s0) with Ok r => r | _ => Fzero end.
Definition sig1 : signature :=
  match sign sk2 (tx_enc tx1 ++ [r0]) [scalar_of 99] with Ok (Some s) => s | _ => sig_default end.
Definition sig2 : signature :=
  match sign (scalar_of 3) (tx_enc tx2 ++ [r0]) [scalar_of 55] with Ok (Some s) => s | _ => sig_default end.
Definition keys2 : list (pt * option signature) := [(kC, None); (k2, Some sig1)].
Definition keys3 : list (pt * option signature) := [(kC, None); (k2, Some sig1); (k3, Some sig2)].
Definition keys_unsigned : list (pt * option signature) := [(kC, None); (k2, None); (k3, Some sig2)].

Example intake_ok : is_mok (process_transactions true agg_new batch) = true.
Proof. vm_compute. reflexivity. Qed.
Lemma intake_eq : process_transactions true agg_new batch = MOk s0 tt.
Proof.
  pose proof intake_ok as H. unfold s0. destruct (process_transactions true agg_new batch) as [s []|s e|];
    [ reflexivity | discriminate | discriminate ].
Qed.
Lemma s0_reached : reached true s0.
Proof. eapply reached_intake; [ apply reached_new |]. left. exists tt. apply intake_eq. Qed.
Lemma r0_root : root (a_tx_tree s0) = Ok r0.
Proof.
  destruct (C42_inclusion_proofs true s0 s0_reached) as (ps & r & _ & E & _).
  - apply Z.leb_le. vm_compute. reflexivity.
  - unfold r0. now rewrite E.
Qed.

Lemma fits_simple contract s l : a_index s + 4 * Z.of_nat (length l) <= capacity utxo_cfg -> fits contract s l.
Proof.
  intros H r _. assert (Hc : forall t, (length (creates contract t) <= 4)%nat).
  { intros t. unfold creates. assert (Hle : forall (f : utxo -> bool) m, (length (filter f m) <= length m)%nat).
    { intros f m. induction m as [|y m IH]; cbn [filter length]; [ lia |]. destruct (f y); cbn [length]; lia. }
    specialize (Hle (fun u => negb (is_dummy u) && negb (pt_eqb (pk u) contract)) (a4_list (outputs t))).
    assert (length (a4_list (outputs t)) = 4%nat) by (destruct (outputs t); reflexivity). lia. }
  assert (Ha : forall txs, (length (flat_map (creates contract) (applied contract r txs l)) <= 4 * length l)%nat).
  { clear H. induction l as [|x l IH]; intros txs.
    - unfold applied. destruct txs; cbn [combine flat_map length]; lia.
    - destruct txs as [|t txs]; [ cbn [applied combine flat_map length]; unfold applied; cbn; lia |].
      change (applied contract r (t :: txs) (x :: l))
        with ((if authorised contract r t x then [t] else []) ++ applied contract r txs l).
      rewrite flat_map_app, app_length. specialize (IH txs). specialize (Hc t).
      destruct (authorised contract r t x); cbn [flat_map length]; rewrite ?app_nil_r; cbn [length]; lia. }
  specialize (Ha (a_txs s)). lia.
Qed.
Lemma s0_fits l : (length l <= 3)%nat -> fits kC s0 l.
Proof.
  intros H. apply fits_simple. assert (a_index s0 = 0) by (apply Z.eqb_eq; vm_compute; reflexivity).
  rewrite H0, utxo_capacity. lia.
Qed.

(** C40, C42: the epoch's tree and proofs *)
Example epoch_proofs : is_rok (prove_transactions true s0) = true /\ length (a_tx_proofs s0) = 3%nat.
Proof. vm_compute. auto. Qed.
(** C41: an invalid pair after valid ones *)
Example intake_error :
  is_merr (process_transactions true agg_new (batch ++ [(k3, tx1)])) = true /\
  length (a_txs (state_of agg_new (process_transactions true agg_new (batch ++ [(k3, tx1)])))) = 3%nat.
Proof. vm_compute. auto. Qed.

(** C44-C46, C48: the first two transactions are applied *)
Definition s1 : agg := state_of s0 (process_signatures true s0 kC keys2).
Example sign_ok : is_mok (process_signatures true s0 kC keys2) = true.
Proof. vm_compute. reflexivity. Qed.
Lemma sign_eq : process_signatures true s0 kC keys2 = MOk s1 tt.
Proof.
  pose proof sign_ok as H. unfold s1. destruct (process_signatures true s0 kC keys2) as [s []|s e|];
    [ reflexivity | discriminate | discriminate ].
Qed.
Lemma s1_reached : reached true s1.
Proof. eapply reached_sign; [ apply s0_reached | apply (s0_fits keys2); cbn; lia |]. left. exists tt. apply sign_eq. Qed.
Example sign_values :
  (live_value s0, live_value s1, log_total (a_deposits s1), log_total (a_withdrawals s1), a_index s1) = (0, 60, 100, 40, 2).
Proof. vm_compute. reflexivity. Qed.
Example sign_authorised :
  authorised kC r0 tx0 (kC, None) = true /\ authorised kC r0 tx1 (k2, Some sig1) = true /\
  authorised kC r0 tx1 (k2, None) = false /\ authorised kC r0 tx1 (k3, Some sig1) = false.
Proof. vm_compute. auto. Qed.
Lemma sound_both i t k osg : nth_error (a_txs s0) i = Some t -> nth_error keys2 i = Some (k, osg) -> sound_tx true k t.
Proof.
  assert (Ht : a_txs s0 = [tx0; tx1; tx2]).
  { destruct (C40_intake true agg_new batch s0) as (H & _); auto using reached_new, intake_eq. }
  rewrite Ht. intros E1 E2. unfold sound_tx.
  assert (H : is_valid true t (Some k) = Ok tt); [| auto ].
  destruct i as [|[|i]].
  - apply Some_inj' in E1, E2. apply pair_equal_spec in E2 as [<- _]. subst t.
    assert (H : is_rok (is_valid true tx0 (Some kC)) = true) by (vm_compute; reflexivity).
    destruct (is_valid true tx0 (Some kC)) as [[]| |]; [ reflexivity | discriminate | discriminate ].
  - apply Some_inj' in E1, E2. apply pair_equal_spec in E2 as [<- _]. subst t.
    assert (H : is_rok (is_valid true tx1 (Some k2)) = true) by (vm_compute; reflexivity).
    destruct (is_valid true tx1 (Some k2)) as [[]| |]; [ reflexivity | discriminate | discriminate ].
  - destruct i; discriminate E2.
Qed.
(** the hypotheses of C46 hold *)
Example conservation_instance :
  live_value s1 + (log_total (a_withdrawals s1) - log_total (a_withdrawals s0)) =
  live_value s0 + (log_total (a_deposits s1) - log_total (a_deposits s0)).
Proof.
  apply (C46_conservation true kC s0 keys2 s1 r0 s0_reached (s0_fits keys2 ltac:(cbn; lia)) r0_root sign_eq).
  intros i t k osg E1 E2 _. now apply (sound_both i t k osg).
Qed.
(** C47: with the third transaction the call fails; the coin of 60 is gone, nothing was created *)
Example sign_failure :
  is_merr (process_signatures true s0 kC keys3) = true /\
  live_value (state_of s0 (process_signatures true s0 kC keys3)) = 0 /\
  length (a_signers (state_of s0 (process_signatures true s0 kC keys3))) = 3%nat /\
  length (a_ivc (state_of s0 (process_signatures true s0 kC keys3))) = 2%nat.
Proof. vm_compute. auto. Qed.
(** an unsigned transaction is skipped *)
Example sign_unsigned :
  is_mok (process_signatures true s0 kC [(kC, None); (k2, None)]) = true /\
  live_value (state_of s0 (process_signatures true s0 kC [(kC, None); (k2, None)])) = 100.
Proof. vm_compute. auto. Qed.
(** C51: applying the contract's transaction again mints again *)
Example double_mint :
  let s := state_of s0 (process_signatures true s0 kC [(kC, None)]) in
  live_value s = 100 /\ live_value (state_of s (process_signatures true s kC [(kC, None)])) = 200.
Proof. vm_compute. auto. Qed.
(** C49: the signer tree is not reset *)
Example reset_keeps_signers :
  match root (a_signer_tree (reset_for_new_epoch s1)), root (blank signer_cfg) with
  | Ok a, Ok b => negb (Feqb a b)
  | _, _ => false
  end = true.
Proof. vm_compute. reflexivity. Qed.
(** C39: the block of the epoch and the public inputs *)
Definition l1c : contract :=
  match rfold (perform true) [Join (u64of 500) k2; Join (u64of 0) k3; Deposit 1 (u64of 100)] (contract_new kC) with
  | Ok c => c | _ => contract_new kC end.
Example block_ok :
  match produce_block s1 l1c with
  | Ok b => match derive_public_inputs l1c b with Ok z => (length z =? 8)%nat && Feqb (nth 0 z Fzero) (Fof 2) | _ => false end
  | _ => false
  end = true.
Proof. vm_compute. reflexivity. Qed.
Example block_unregistered :
  match produce_block s1 (contract_new kC) with Panic => true | _ => false end = true.
Proof. vm_compute. reflexivity. Qed.

(** Concrete histories that meet the hypotheses of C125. *)
From Coq Require Import ZArith List Bool Lia.
Import ListNotations.
From Verif Require Import Base Env Toy Circuit SparseMT SparseMTSpec Data DataSpec DataFacts PropsData AggFacts Schnorr HMap Contract ContractSpec
  Aggregator AggSpec PropsContract ExamplesAgg Ledger PropsLedger.
Open Scope Z_scope.

(** A deposit and a transfer; a new epoch in which a coin is missing; an intake by the wrong key; a replay;
    and an answer to no transaction. *)
Definition life : list request :=
  [Take batch; Answer kC keys2; NewEpoch; Take [(k3, tx2)]; Answer kC [(kC, None)]; Take [(k2, tx0)];
   Answer kC [(kC, None)]; NewEpoch; Answer kC [(kC, None)]; NewEpoch].
Definition life_shows : list verdict :=
  [Done; Done; Done; Done; Refused UTXONonExisting; Rejected InvalidPublicKey; Refused UTXOError; Done; Panicked].
Example life_room : always_roomy true life start.
Proof. apply C125_room. split; apply Z.leb_le; vm_compute; reflexivity. Qed.
Example life_runs : fst (run true life agg_new) = life_shows.
Proof. vm_compute. reflexivity. Qed.
Example life_played : fst (play true life start) = life_shows /\ snd (run true life agg_new) = None.
Proof.
  destruct (C125_verdicts true life life_room) as [H1 H2]. rewrite <- H1. split; [ exact life_runs |].
  apply H2. rewrite <- H1, life_runs. apply (nth_In life_shows Done (n := 8)). cbn. lia.
Qed.

(** The first epoch, its state and its block. *)
Definition morning : list request := [Take batch; Answer kC keys2].
Example morning_room : always_roomy true morning start.
Proof. apply C125_room. split; apply Z.leb_le; vm_compute; reflexivity. Qed.
Lemma morning_runs : run true morning agg_new = ([Done; Done], Some s1).
Proof. unfold morning. cbn [run obey]. rewrite intake_eq. cbn [run obey]. rewrite sign_eq. reflexivity. Qed.
Lemma slots_read (ps : list (Z * utxo)) (c : contents utxo_cfg) :
  (forall i u, is_dummy u = false -> (In (i, u) ps <-> 0 <= i < Z.of_nat 2 /\ c i = u)) ->
  forallb (fun iu : Z * utxo => negb (fst iu =? 0)) ps = true ->
  existsb (fun iu : Z * utxo => (fst iu =? 1) && utxo_eqb (snd iu) (coin 60 k3)) ps = true ->
  is_dummy (c 0) = true /\ c 1 = coin 60 k3.
Proof.
  intros P H1 H2. split.
  - destruct (is_dummy (c 0)) eqn:E; [ reflexivity |]. exfalso.
    assert (X : In (0, c 0) ps) by (apply P; [ exact E | split; [ lia | reflexivity ] ]).
    rewrite forallb_forall in H1. specialize (H1 _ X). discriminate H1.
  - apply existsb_exists in H2 as ([i u] & Hin & Y). cbn [fst snd] in Y. apply andb_true_iff in Y as [Y1 Y2].
    apply Z.eqb_eq in Y1. apply utxo_eqb_eq in Y2. subst i u.
    apply (P 1 (coin 60 k3) eq_refl). exact Hin.
Qed.
Lemma morning_positions :
  (a_index s1 =? 2) && forallb (fun iu : Z * utxo => negb (fst iu =? 0)) (positions s1) &&
  existsb (fun iu : Z * utxo => (fst iu =? 1) && utxo_eqb (snd iu) (coin 60 k3)) (positions s1) = true.
Proof. vm_compute. reflexivity. Qed.
Lemma morning_lists :
  (length (a_txs s1), length (a_signers s1)) = (3, 2)%nat /\
  map (fun e : pt * u64 => (pt_eqb (fst e) k2, zval (snd e))) (a_deposits s1) = [(true, 100)] /\
  map (fun e : pt * u64 => (pt_eqb (fst e) k2, zval (snd e))) (a_withdrawals s1) = [(true, 40)].
Proof. vm_compute. auto. Qed.
Example morning_state :
  let L := snd (play true morning start) in
  next L = 2%nat /\ is_dummy (slots L 0) = true /\ slots L 1 = coin 60 k3 /\
  (length (epoch L), length (answers L)) = (3, 2)%nat /\
  map (fun e => (pt_eqb (fst e) k2, zval (snd e))) (entered L) = [(true, 100)] /\
  map (fun e => (pt_eqb (fst e) k2, zval (snd e))) (left L) = [(true, 40)].
Proof.
  destruct (C125_state true morning _ s1 morning_room morning_runs) as (_ & _ & _ & I & T & S & D & W & P).
  pose proof morning_positions as B. pose proof morning_lists as Q. rewrite T, S, D, W in Q. clear T S D W.
  cbv zeta. revert I P B Q. generalize (snd (play true morning start)) as L. generalize s1 as s.
  intros s L I P B Q. apply andb_true_iff in B as [B B3]. apply andb_true_iff in B as [B1 B2]. apply Z.eqb_eq in B1.
  assert (N : next L = 2%nat) by lia. split; [ exact N |]. rewrite N in P.
  destruct (slots_read _ _ P B2 B3) as [H1 H2]. split; [ exact H1 |]. split; [ exact H2 | exact Q ].
Qed.
(** The contract of [block_ok] knows the three keys; the one in which nobody joined does not. *)
Lemma l1c_history : history true kC [Join (u64of 500) k2; Join (u64of 0) k3; Deposit 1 (u64of 100)] l1c.
Proof.
  unfold history, l1c.
  assert (H : is_rok (rfold (perform true) [Join (u64of 500) k2; Join (u64of 0) k3; Deposit 1 (u64of 100)] (contract_new kC)) = true)
    by (vm_compute; reflexivity).
  destruct (rfold _ _ _); [ reflexivity | discriminate H | discriminate H ].
Qed.
Example morning_block :
  (exists b, report (snd (play true morning start)) [kC; k2; k3] = Some b /\ produce_block s1 l1c = Ok b) /\
  report (snd (play true morning start)) [kC] = None.
Proof.
  assert (L3 : (length (pks l1c) <=? 3)%nat = true) by (vm_compute; reflexivity). apply Nat.leb_le in L3.
  pose proof (C125_block true morning _ s1 kC _ l1c morning_room morning_runs l1c_history ltac:(lia)) as H1.
  pose proof (C125_block true morning _ s1 kC [] (contract_new kC) morning_room morning_runs eq_refl ltac:(cbn; lia)) as H2.
  change (kC :: joined [Join (u64of 500) k2; Join (u64of 0) k3; Deposit 1 (u64of 100)]) with [kC; k2; k3] in H1.
  change (kC :: joined []) with [kC] in H2.
  split.
  - pose proof block_ok as B. destruct (report (snd (play true morning start)) [kC; k2; k3]) as [b|].
    + exists b. split; [ reflexivity | exact H1 ].
    + exfalso. rewrite H1 in B. discriminate B.
  - pose proof block_unregistered as B. destruct (report (snd (play true morning start)) [kC]) as [b|]; [| reflexivity ].
    exfalso. rewrite H2 in B. discriminate B.
Qed.

(** Concrete cases of C91-C93. The instance of the dependencies is the one of Toy.v. *)
From Coq Require Import ZArith List Bool Lia Permutation.
Import ListNotations.
From Verif Require Import Base Env Toy Circuit SparseMT SparseMTSpec Data DataSpec Gadgets Schnorr HMap Contract ContractSpec
  Aggregator AggSpec AggFacts AggSign AggIntake PropsContract PropsBlock PropsIntake PropsSign PropsValue ExamplesAgg
  AggCircuit AggCircuitFacts AggCircuitSpec CircuitRun PropsCircuit PropsCircuit2 PropsCircuit3 Honest PropsHonest PropsLimits Clean
  ExamplesCircuit User Client ClientSpec ClientFacts PropsClient PropsClient2 PropsClient3 PropsClient4 PropsClient5 PropsClient6
  PropsL1 PropsMint PropsUsers ExamplesClient TruthSpec.
Open Scope Z_scope.

(** C91: the contract after three calls and after all six *)
Definition ex_half : contract :=
  match rfold (perform true) (firstn 3 ex_calls) (contract_new (exk 1)) with Ok c => c | _ => contract_new (exk 1) end.
Lemma ex_half_history : history true (exk 1) (firstn 3 ex_calls) ex_half.
Proof.
  unfold history, ex_half.
  assert (H : match rfold (perform true) (firstn 3 ex_calls) (contract_new (exk 1)) with Ok _ => true | _ => false end = true)
    by (vm_compute; reflexivity).
  destruct (rfold (perform true) (firstn 3 ex_calls) (contract_new (exk 1))); [ reflexivity | discriminate | discriminate ].
Qed.
Example locked_instance : ContractSpec.balance ex_half 0 = Some 30 /\ ContractSpec.balance ex_contract 0 = Some (30 + 27) /\
  ContractSpec.balance ex_half 2 = Some 50 /\ ContractSpec.balance ex_contract 2 = Some (50 - 20) /\
  moved (skipn 3 ex_calls) = 27 /\ moved_from 2 (skipn 3 ex_calls) = 20.
Proof.
  pose proof ex_history as H2. rewrite <- (firstn_skipn 3 ex_calls) in H2.
  destruct (C91_funds_locked true (exk 1) _ _ _ _ (or_introl eq_refl) ex_half_history H2) as ((b1 & E1 & E2 & _) & Hacc & _).
  assert (M : moved (skipn 3 ex_calls) = 27 /\ moved_from 2 (skipn 3 ex_calls) = 20) by (vm_compute; auto).
  destruct M as [M1 M2]. rewrite M1 in E2.
  assert (B0 : ContractSpec.balance ex_half 0 = Some 30) by (vm_compute; reflexivity).
  assert (B2 : ContractSpec.balance ex_half 2 = Some 50) by (vm_compute; reflexivity).
  assert (b1 = 30) by congruence. subst b1.
  pose proof (proj1 (Hacc 2%nat 50 ltac:(discriminate) B2)) as E3. rewrite M2 in E3. auto 10.
Qed.

(** C92: [k2] joined and deposited nothing; a coin of 1000 appears and the block reports it *)
Definition l1N : contract := fst (join (contract_new kC) (u64of 0) k2).
Lemma l1N_history : history true kC [Join (u64of 0) k2] l1N.
Proof. reflexivity. Qed.
Lemma k2_kC : k2 <> kC.
Proof. assert (H : pt_eqb k2 kC = false) by (vm_compute; reflexivity). now apply pt_eqb_neq in H. Qed.
Definition sN : agg := state_of agg_new (process_transactions true agg_new [(kC, mint kC k2 (u64of 1000))]).
Lemma challenge_nonzero : match root (a_tx_tree sN) with
  | Ok r => negb (zval (crh (Fzero :: Fzero :: tx_enc (mint kC k2 (u64of 1000)) ++ [r])) =? 0) | _ => false end = true.
Proof. vm_compute. reflexivity. Qed.
Example unbacked_instance : exists s1 s2 b,
  process_transactions true agg_new [(kC, mint kC k2 (u64of 1000))] = MOk s1 tt /\
  process_signatures true s1 kC [(kC, None)] = MOk s2 tt /\
  produce_block s2 l1N = Ok b /\ entries_are l1N (b_deposits b) [(k2, 1000)] /\ pending l1N k2 = 0.
Proof.
  destruct (C92_nothing_deposited true kC k2 (u64of 1000) (u64of 0) l1N toy_pq l1N_history k2_kC)
    as (P0 & _ & s1 & s2 & tr & E1 & E2 & E3 & _ & H).
  assert (Es : s1 = sN) by (unfold sN; rewrite E1; reflexivity).
  pose proof challenge_nonzero as Hz. rewrite <- Es, E3 in Hz. apply negb_true_iff, Z.eqb_neq in Hz.
  destruct (H Hz) as (b & Hb & He).
  exists s1, s2, b. auto.
Qed.

(** C93: the sender, the receiver and the contract's key process transaction 1; 100 + 0 + 7 before
    and after *)
Definition ts1 : list txV := [tx_alloc tx1].
Lemma covers1 : covers [k2; k3; kC] (tx_alloc tx1).
Proof.
  assert (H : forallb (fun u => (zval (v_amount u) =? 0) || existsb (pt_eqb (v_pk u)) [k2; k3; kC])
     (a4_list (v_inputs (tx_alloc tx1)) ++ a4_list (v_outputs (tx_alloc tx1))) = true) by (vm_compute; reflexivity).
  rewrite forallb_forall in H. intros u Hu Hz. specialize (H u Hu). apply orb_true_iff in H as [H|H].
  - apply Z.eqb_eq in H. contradiction.
  - apply existsb_exists in H as (k & Hk & E). apply pt_eqb_eq in E. rewrite E. exact Hk.
Qed.
Lemma unflagged1 : forallb (fun u => negb (v_dummy u) || (zval (v_amount u) =? 0))
   (a4_list (v_inputs (tx_alloc tx1)) ++ a4_list (v_outputs (tx_alloc tx1))) = true.
Proof. vm_compute. reflexivity. Qed.
Lemma in_epoch1 : existsb (fun x => flist_eqb (tx_encV (x_tx x)) (tx_encV (tx_alloc tx1))) xsP = true.
Proof. vm_compute. reflexivity. Qed.
Lemma credited_run k bal : exists r, processes poseidon_acc 1 ts1 r /\ r_key r = k /\ r_before r = newcomer k bal /\
  zval (us_balance (r_after r)) = (zval (Fof bal) + gain k (tx_alloc tx1)) mod p.
Proof.
  destruct (credited k bal) as (a & us' & H & Hpk & _ & Htx & E).
  destruct (one_entry a _ _ Htx regular1) as (_ & Et & _).
  exists (mkRun k [a] (newcomer k bal) us'). split; [| repeat split; exact E ].
  split; [| split ]; cbn [r_key r_steps r_before r_after].
  - econstructor; [ exact H | constructor ].
  - intros b [<-|[]]. exact Hpk.
  - unfold ts1. cbn [flat_map]. rewrite Et. reflexivity.
Qed.
Example users_instance : exists ra rb rc,
  (forall r, In r [ra; rb; rc] -> processes poseidon_acc 1 ts1 r) /\
  map (fun r => zval (us_balance (r_before r))) [ra; rb; rc] = [100; 0; 7] /\
  map (fun r => zval (us_balance (r_after r))) [ra; rb; rc] = [0; 60; 47].
Proof.
  destruct (credited_run k2 100) as (ra & Ha & _ & Eb & Ea), (credited_run k3 0) as (rb & Hb & _ & Fb & Fa),
    (credited_run kC 7) as (rc & Hc & _ & Gb & Ga).
  exists ra, rb, rc. split; [ intros r [<-|[<-|[<-|[]]]]; assumption |].
  assert (gain kC (tx_alloc tx1) = 40) as Eg by (vm_compute; reflexivity).
  destruct gains as (g3 & g2 & _). rewrite g2 in Ea. rewrite g3 in Fa. rewrite Eg in Ga.
  split; cbn [map].
  - rewrite Eb, Fb, Gb. reflexivity.
  - rewrite Ea, Fa, Ga. reflexivity.
Qed.
Example users_conserved ra rb rc :
  (forall r, In r [ra; rb; rc] -> processes poseidon_acc 1 ts1 r) -> map r_key [ra; rb; rc] = [k2; k3; kC] ->
  zsumm (map (fun r => zval (us_balance (r_before r))) [ra; rb; rc]) < p ->
  zsumm (map (fun r => zval (us_balance (r_after r))) [ra; rb; rc]) < p ->
  zsumm (map (fun r => zval (us_balance (r_after r))) [ra; rb; rc]) =
  zsumm (map (fun r => zval (us_balance (r_before r))) [ra; rb; rc]).
Proof.
  intros Hus Hk. destruct epoch_provable as (_ & b & z' & _ & _ & Hrun).
  apply (C93_conserved kC poseidon_acc 1 false zP bsP z' ts1 [ra; rb; rc] Hrun).
  - intros t [<-|[]]. rewrite bsP_xs. pose proof in_epoch1 as H. apply existsb_exists in H as (x & Hx & E).
    exists x. split; [ exact Hx | exact (tx_enc_eqb _ _ E) ].
  - rewrite Hk. assert (H : pt_eqb k2 k3 || pt_eqb k2 kC || pt_eqb k3 kC = false) by (vm_compute; reflexivity).
    apply orb_false_iff in H as [H H3]. apply orb_false_iff in H as [H1 H2]. apply pt_eqb_neq in H1, H2, H3.
    constructor; [ intros [E|[E|[]]]; congruence |]. constructor; [ intros [E|[]]; congruence |]. constructor; [ intros [] | constructor ].
  - rewrite Hk. intros t [<-|[]]. exact covers1.
  - exact Hus.
  - intros t u [<-|[]] Hu Hd. pose proof (proj1 (forallb_forall _ _) unflagged1 u Hu) as H. cbv beta in H.
    rewrite Hd in H. cbn [negb orb] in H. now apply Z.eqb_eq.
Qed.

(** Instances of C109: two deposits in either order, and a coin spent before it is created. *)
From Coq Require Import ZArith List Bool Lia Permutation.
Import ListNotations.
From Verif Require Import Base Env Toy Circuit SparseMT SparseMTSpec Data DataSpec DataFacts Schnorr HMap Contract ContractSpec
  Aggregator AggSpec AggFacts AggSign AggIntake PropsContract PropsBlock PropsIntake PropsSign PropsLive PropsReport ExamplesAgg PropsOrder.
Open Scope Z_scope.

(** contract -> k3: 50 *)
Definition tx3 : tx := mkTx (A4 (coin 50 kC) utxo_dummy utxo_dummy utxo_dummy)
                            (A4 (coin 50 k3) utxo_dummy utxo_dummy utxo_dummy).
Definition w0 : pt * tx := (kC, tx0).
Definition w3 : pt * tx := (kC, tx3).
Definition owned_b (k : pt) (t : tx) : bool := forallb (fun u => is_dummy u || pt_eqb (pk u) k) (a4_list (inputs t)).
Definition fair_b (w : pt * tx) : bool :=
  owned_b (fst w) (snd w) && (total_in (snd w) =? total_out (snd w)) && (total_out (snd w) <? two64).
Lemma fair_b_ok w : fair_b w = true -> fair w.
Proof.
  unfold fair_b, fair. rewrite !andb_true_iff. intros ((H1 & H2) & H3). split; [| split; [ now apply Z.eqb_eq | now apply Z.ltb_lt ] ].
  intros u Hu Hd. unfold owned_b in H1. rewrite forallb_forall in H1. specialize (H1 u Hu). rewrite Hd in H1. cbn [orb] in H1.
  now apply pt_eqb_eq.
Qed.
Lemma fair03 : fair_b w0 = true /\ fair_b w3 = true /\
  length (consumes kC tx0) = 0%nat /\ length (consumes kC tx3) = 0%nat /\
  length (creates kC tx0) = 1%nat /\ length (creates kC tx3) = 1%nat.
Proof. vm_compute. repeat split. Qed.

Lemma answers03 r vs : Permutation [w0; w3] vs -> Forall2 (answers kC r) vs (map (fun w => (fst w, None)) vs).
Proof.
  intros H. assert (K : forall w, In w vs -> fst w = kC).
  { intros w Hw. apply Permutation_sym in H. apply (Permutation_in _ H) in Hw. destruct Hw as [<-|[<-|[]]]; reflexivity. }
  clear H. induction vs as [|w vs IH]; constructor.
  - split; [ reflexivity |]. left. apply K. now left.
  - apply IH. intros x Hx. apply K. now right.
Qed.
(** either order succeeds (C109_independent), and the two epochs agree (C109_same_payments) *)
Example order_instance : exists s s' r t t' q,
  process_transactions true agg_new [w0; w3] = MOk s tt /\ root (a_tx_tree s) = Ok r /\
  process_signatures true s kC [(kC, None); (kC, None)] = MOk s' tt /\
  process_transactions true agg_new [w3; w0] = MOk t tt /\ root (a_tx_tree t) = Ok q /\
  process_signatures true t kC [(kC, None); (kC, None)] = MOk t' tt /\
  Permutation (coins s') (coins t') /\ (length (coins s') = 2)%nat /\ Permutation (a_deposits s') (a_deposits t').
Proof.
  destruct fair03 as (F0 & F3 & C0 & C3 & N0 & N3).
  apply length_zero_iff_nil in C0, C3.
  assert (HF : Forall fair [w0; w3]) by (repeat constructor; now apply fair_b_ok).
  assert (HC : Permutation (coins agg_new) (flat_map (consumes kC) (map snd [w0; w3]) ++ [])).
  { cbn [map snd w0 w3 flat_map]. rewrite C0, C3. reflexivity. }
  assert (HN : length (flat_map (creates kC) (map snd [w0; w3])) = 2%nat).
  { cbn [map snd w0 w3 flat_map]. rewrite !app_length, N0, N3. reflexivity. }
  assert (HI : a_index agg_new + Z.of_nat (length (flat_map (creates kC) (map snd [w0; w3]))) <= 2 ^ 31).
  { rewrite HN. cbn. lia. }
  assert (HS : Z.of_nat (length (a_signers agg_new)) + Z.of_nat (length [w0; w3]) + 4096 < two64) by reflexivity.
  pose proof (C109_independent true kC agg_new [w0; w3] [] (reached_new true) eq_refl HF HC HI HS) as H.
  destruct (H [w0; w3] (Permutation_refl _)) as (s & r & E1 & E2 & H1).
  destruct (H [w3; w0] (perm_swap _ _ _)) as (t & q & E3 & E4 & H2). clear H.
  destruct (H1 _ (answers03 r _ (Permutation_refl _))) as (s' & E5 & P1).
  destruct (H2 _ (answers03 q _ (perm_swap _ _ _))) as (t' & E6 & P2).
  cbn [map fst w0 w3] in E5, E6.
  exists s, s', r, t, t', q.
  assert (Rs : reached true s) by (eapply reached_intake; [ apply reached_new |]; left; eauto).
  assert (Rt : reached true t) by (eapply reached_intake; [ apply reached_new |]; left; eauto).
  destruct (C40_intake true agg_new _ s (reached_new true) eq_refl E1) as (Ts & _ & Ss & _ & _).
  destruct (C40_intake true agg_new _ t (reached_new true) eq_refl E3) as (Tt & _ & St & _ & _).
  destruct Ss as (X1 & X2 & X3 & X4 & X5 & X6 & X7 & _). destruct St as (Y1 & Y2 & Y3 & Y4 & Y5 & Y6 & Y7 & _).
  assert (Cs : coins s = coins agg_new) by (unfold coins, positions; now rewrite X1).
  assert (Ct : coins t = coins agg_new) by (unfold coins, positions; now rewrite Y1).
  assert (Fs : fits kC s [(kC, None); (kC, None)]).
  { apply fits_simple. rewrite X3, utxo_capacity. cbn [length a_index agg_new]. lia. }
  assert (Ft : fits kC t [(kC, None); (kC, None)]).
  { apply fits_simple. rewrite Y3, utxo_capacity. cbn [length a_index agg_new]. lia. }
  assert (A : forall r0 tx, authorised kC r0 tx (kC, None) = true).
  { intros r0 tx. unfold authorised. cbn [fst]. rewrite pt_eqb_refl. apply orb_true_r. }
  assert (Ps : payments kC r (a_txs s) [(kC, None); (kC, None)] = [w0; w3]).
  { rewrite Ts. unfold payments. cbn [map snd w0 w3 combine flat_map fst]. rewrite !A. reflexivity. }
  assert (Pt : payments kC q (a_txs t) [(kC, None); (kC, None)] = [w3; w0]).
  { rewrite Tt. unfold payments. cbn [map snd w0 w3 combine flat_map fst]. rewrite !A. reflexivity. }
  destruct (C109_same_payments true kC s _ s' r t _ t' q Rs Fs E2 E5 Rt Ft E4 E6) as (Q1 & Q2 & _ & _).
  - rewrite Cs, Ct. reflexivity.
  - rewrite X4, Y4. reflexivity.
  - rewrite X5, Y5. reflexivity.
  - rewrite X7, Y7. reflexivity.
  - rewrite Ps, Pt. apply perm_swap.
  - split; [ exact E1 |]. split; [ exact E2 |]. split; [ exact E5 |]. split; [ exact E3 |]. split; [ exact E4 |].
    split; [ exact E6 |]. split; [ exact Q1 |]. split; [| exact Q2 ].
    rewrite (Permutation_length P1), app_length, HN. reflexivity.
Qed.

Lemma mok_eq {E} d (x : mres agg E unit) : is_mok x = true -> x = MOk (state_of d x) tt.
Proof. destruct x as [a []|a e|]; [ reflexivity | discriminate | discriminate ]. Qed.
(** [k2] spends, with its signature, the 100 that the next transaction deposits *)
Definition sE : agg := state_of agg_new (process_transactions true agg_new [(k2, tx1); w0]).
Definition rE : F := match root (a_tx_tree sE) with Ok r => r | _ => Fzero end.
Definition sigE : signature :=
  match sign sk2 (tx_enc tx1 ++ [rE]) [scalar_of 99] with Ok (Some s) => s | _ => sig_default end.
Lemma early_ok : is_mok (process_transactions true agg_new [(k2, tx1); w0]) = true /\
  (a_index sE =? 0) = true /\ (length (a_txs sE) =? 2)%nat = true /\ (length (a_signers sE) =? 0)%nat = true /\ (length (coins sE) =? 0)%nat = true /\
  authorised kC rE tx1 (k2, Some sigE) = true /\
  match consumes kC tx1 with u :: _ => utxo_eqb u (coin 100 k2) | [] => false end = true.
Proof. vm_compute. repeat split. Qed.
Example early_instance : exists s' e, process_signatures true sE kC [(k2, Some sigE); (kC, None)] = MErr s' e.
Proof.
  destruct early_ok as (K1 & K2 & K3 & K4 & K5 & K6 & K7).
  assert (E1 : process_transactions true agg_new [(k2, tx1); w0] = MOk sE tt).
  { exact (mok_eq _ _ K1). }
  assert (R : reached true sE) by (eapply reached_intake; [ apply reached_new |]; left; eauto).
  apply Z.eqb_eq in K2. apply Nat.eqb_eq in K3, K4, K5.
  destruct (reach_root true sE (reached_inv true sE R)) as (r & Hroot).
  assert (Er : rE = r) by (unfold rE; now rewrite Hroot).
  destruct (C40_intake true agg_new _ sE (reached_new true) eq_refl E1) as (Ts & _).
  assert (Ea : applied kC r (a_txs sE) [(k2, Some sigE); (kC, None)] = [] ++ tx1 :: [tx0]).
  { rewrite Ts. unfold applied. cbn [map snd w0 combine flat_map fst]. rewrite <- Er, K6.
    assert (A : authorised kC rE tx0 (kC, None) = true).
    { unfold authorised. cbn [fst]. rewrite pt_eqb_refl. apply orb_true_r. }
    rewrite A. reflexivity. }
  destruct (consumes kC tx1) as [|u us] eqn:Ec; [ discriminate K7 |].
  refine (C109_too_early true kC sE _ r [] tx1 [tx0] u R _ _ Hroot Ea _ _ _).
  - apply fits_simple. rewrite K2, utxo_capacity. cbn [length]. lia.
  - split; [ rewrite K3; reflexivity |]. rewrite K4. cbn [length]. unfold two64. lia.
  - rewrite Ec. now left.
  - destruct (coins sE); [ exact (fun x => x) | discriminate K5 ].
  - intros x [].
Qed.

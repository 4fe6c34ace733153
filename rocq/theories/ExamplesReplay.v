(** Instance of C107: [k2] gets 100, pays (60 to [k3], 40 withdrawn), gets 100 again in a later epoch, and the
    old payment is made again with the old signature. *)
From Coq Require Import ZArith List Bool Lia Permutation.
Import ListNotations.
From Verif Require Import Base Env Toy Circuit SparseMT SparseMTSpec Data DataSpec DataFacts Schnorr HMap Contract ContractSpec
  Aggregator AggSpec AggFacts AggSign AggIntake PropsContract PropsBlock PropsIntake PropsSign ExamplesAgg PropsReplay.
Open Scope Z_scope.

Definition utxos_eqb (a b : list utxo) : bool :=
  (length a =? length b)%nat && forallb (fun xy => utxo_eqb (fst xy) (snd xy)) (combine a b).
Lemma utxos_eqb_eq a : forall b, utxos_eqb a b = true -> a = b.
Proof.
  unfold utxos_eqb. induction a as [|x a IH]; intros [|y b] H; try discriminate H; [ reflexivity |].
  cbn [length combine forallb fst snd] in H. apply andb_true_iff in H as [H1 H2]. apply andb_true_iff in H2 as [H2 H3].
  apply utxo_eqb_eq in H2. subst y. f_equal. apply IH. apply andb_true_iff. split; [ exact H1 | exact H3 ].
Qed.

(** one epoch with one transaction *)
Definition run1 (s : agg) (k : pt) (t : tx) (o : F -> option signature) : agg * agg :=
  let a := state_of s (process_transactions true s [(k, t)]) in
  let r := match root (a_tx_tree a) with Ok r => r | _ => Fzero end in
  (a, state_of a (process_signatures true a kC [(k, o r)])).
Definition ok1 (s : agg) (k : pt) (t : tx) (o : F -> option signature) : bool :=
  let a := state_of s (process_transactions true s [(k, t)]) in
  let r := match root (a_tx_tree a) with Ok r => r | _ => Fzero end in
  is_mok (process_transactions true s [(k, t)]) && is_mok (process_signatures true a kC [(k, o r)])
  && (a_index a <=? 100) && (length (a_signers a) =? 0)%nat.
Definition answer1 (s : agg) (k : pt) (t : tx) (o : F -> option signature) : option signature :=
  o (match root (a_tx_tree (fst (run1 s k t o))) with Ok r => r | _ => Fzero end).
Lemma run1_ok s k t o : reached true s -> ok1 s k t o = true ->
  process_transactions true s [(k, t)] = MOk (fst (run1 s k t o)) tt /\
  fits kC (fst (run1 s k t o)) [(k, answer1 s k t o)] /\
  process_signatures true (fst (run1 s k t o)) kC [(k, answer1 s k t o)] = MOk (snd (run1 s k t o)) tt /\
  a_signers (fst (run1 s k t o)) = [] /\
  reached true (reset_for_new_epoch (snd (run1 s k t o))).
Proof.
  intros Hr H. unfold ok1 in H. rewrite !andb_true_iff in H. destruct H as (((H1 & H2) & H3) & H4).
  unfold answer1, run1. cbn [fst snd]. set (a := state_of s (process_transactions true s [(k, t)])) in *.
  assert (E1 : process_transactions true s [(k, t)] = MOk a tt).
  { unfold a. destruct (process_transactions true s [(k, t)]) as [x []|x e|]; [ reflexivity | discriminate | discriminate ]. }
  set (r := match root (a_tx_tree a) with Ok r => r | _ => Fzero end) in *.
  assert (Ra : reached true a) by (eapply reached_intake; [ exact Hr |]; left; exists tt; exact E1).
  assert (Hf : fits kC a [(k, o r)]).
  { apply fits_simple. rewrite utxo_capacity. apply Z.leb_le in H3. cbn [length]. lia. }
  assert (E2 : process_signatures true a kC [(k, o r)] = MOk (state_of a (process_signatures true a kC [(k, o r)])) tt).
  { destruct (process_signatures true a kC [(k, o r)]) as [x []|x e|]; [ reflexivity | discriminate | discriminate ]. }
  split; [ exact E1 |]. split; [ exact Hf |]. split; [ exact E2 |].
  split; [ apply Nat.eqb_eq in H4; destruct (a_signers a); [ reflexivity | discriminate ] |].
  apply reached_reset. eapply reached_sign; [ exact Ra | exact Hf |]. left. exists tt. exact E2.
Qed.

Definition no_sig (_ : F) : option signature := None.
Definition sig_by2 (r : F) : option signature :=
  match sign sk2 (tx_enc tx1 ++ [r]) [scalar_of 99] with Ok (Some s) => Some s | _ => None end.
Definition e1 : agg := reset_for_new_epoch (snd (run1 agg_new kC tx0 no_sig)).
Definition e2 : agg := reset_for_new_epoch (snd (run1 e1 k2 tx1 sig_by2)).
Definition e3 : agg := reset_for_new_epoch (snd (run1 e2 kC tx0 no_sig)).
Lemma oks : ok1 agg_new kC tx0 no_sig = true /\ ok1 e1 k2 tx1 sig_by2 = true /\ ok1 e2 kC tx0 no_sig = true.
Proof. vm_compute. auto. Qed.
Definition applied1 (s : agg) (k : pt) : bool :=
  match a_signers s with [Some k'] => pt_eqb k' k | _ => false end.
Lemma checks :
  applied1 (snd (run1 e1 k2 tx1 sig_by2)) k2 = true /\
  (match answer1 e1 k2 tx1 sig_by2 with Some _ => true | None => false end) = true /\
  utxos_eqb (coins e3) [coin 100 k2; coin 60 k3] = true /\ utxos_eqb (consumes kC tx1) [coin 100 k2] = true /\
  utxos_eqb (creates kC tx1) [coin 60 k3] = true /\ (a_index e3 + 4 <=? 100) = true.
Proof. vm_compute. repeat split. Qed.

Example replay_instance : exists sg s1' s2',
  process_transactions true e3 [(k2, tx1)] = MOk s1' tt /\ process_signatures true s1' kC [(k2, Some sg)] = MOk s2' tt /\
  answer1 e1 k2 tx1 sig_by2 = Some sg /\ Permutation (coins e3) [coin 100 k2; coin 60 k3] /\
  Permutation (coins s2') [coin 60 k3; coin 60 k3].
Proof.
  destruct oks as (O1 & O2 & O3). destruct checks as (K1 & K2 & K3 & K4 & K5 & K6).
  apply utxos_eqb_eq in K3, K4, K5. apply Z.leb_le in K6.
  destruct (run1_ok _ _ _ _ (reached_new true) O1) as (_ & _ & _ & _ & R1). fold e1 in R1.
  destruct (run1_ok _ _ _ _ R1 O2) as (E1 & F1 & E2 & G1 & R2). fold e2 in R2.
  destruct (run1_ok _ _ _ _ R2 O3) as (_ & _ & _ & _ & R3). fold e3 in R3.
  destruct (answer1 e1 k2 tx1 sig_by2) as [sg|] eqn:Es; [| discriminate K2 ].
  assert (K : a_signers (snd (run1 e1 k2 tx1 sig_by2)) = a_signers (fst (run1 e1 k2 tx1 sig_by2)) ++ [Some k2]).
  { rewrite G1. unfold applied1 in K1. destruct (a_signers (snd (run1 e1 k2 tx1 sig_by2))) as [|[k|] [|x l]]; try discriminate K1.
    apply pt_eqb_eq in K1. now subst k. }
  assert (T1 : a_txs e1 = []) by reflexivity. assert (T3 : a_txs e3 = []) by reflexivity.
  assert (S3 : a_signers e3 = []) by reflexivity.
  assert (P3 : Permutation (coins e3) (consumes kC tx1 ++ [coin 60 k3])) by (rewrite K3, K4; reflexivity).
  assert (I3 : a_index e3 + 4 <= 2 ^ 31) by lia.
  assert (L3 : Z.of_nat (length (a_signers e3)) + 4097 < two64) by (rewrite S3; reflexivity).
  destruct (C107_paid_again true kC e1 k2 tx1 _ sg _ e3 [coin 60 k3] R1 T1 E1 F1 E2 K R3 T3 P3 I3 L3) as (s1' & s2' & A1 & A2 & A3).
  exists sg, s1', s2'. rewrite K5 in A3. split; [ exact A1 |]. split; [ exact A2 |]. split; [ reflexivity |]. split; [ rewrite K3; reflexivity | exact A3 ].
Qed.



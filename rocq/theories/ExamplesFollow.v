(** A published epoch (the one of ExamplesAgg), which meets the hypotheses of C126. *)
From Coq Require Import ZArith List Bool Lia.
Import ListNotations.
From Verif Require Import Base Env Toy Circuit SparseMT SparseMTSpec Data DataSpec DataFacts PropsData AggFacts Schnorr HMap
  Contract ContractSpec Aggregator AggSpec PropsContract ExamplesAgg Ledger PropsLedger ExamplesLedger Follow PropsFollow.
Open Scope Z_scope.

Definition day : list request := [Take batch; Answer kC keys2; NewEpoch].
Example day_room : always_roomy true day start.
Proof. apply C125_room. split; apply Z.leb_le; vm_compute; reflexivity. Qed.
Definition day_calls : list call := [Join (u64of 500) k2; Join (u64of 0) k3; Deposit 1 (u64of 100)].
Example day_published : exists b,
  published true kC kC day (reset_for_new_epoch s1) day_calls [(a_txs s1, b)] /\
  confirms [kC; k2; k3] (a_txs s1) b (follow kC [kC; k2; k3] [(a_txs s1, b)]).
Proof.
  destruct (proj1 morning_block) as (b & _ & Eb). exists b.
  assert (HP : published true kC kC day (reset_for_new_epoch s1) day_calls [(a_txs s1, b)]).
  { exact (published_more true kC kC [] agg_new [] [] [batch] keys2 _ s1 day_calls l1c b
             (published_none true kC kC) morning_runs l1c_history Eb). }
  split; [ exact HP |].
  apply (C126_blocks true kC kC day _ day_calls _ [] HP day_room) with (l1 := []) (l2 := []); [| reflexivity ].
  apply Z.leb_le. vm_compute. reflexivity.
Qed.
(** what the follower then has: two positions handed out, one coin left, a deposit and a withdrawal *)
Lemma day_lists :
  match produce_block s1 l1c with
  | Ok b => map (fun e : Z * u64 => (fst e, zval (snd e))) (b_deposits b) = [(1, 100)] /\
            map (fun e : Z * u64 => (fst e, zval (snd e))) (b_withdrawals b) = [(1, 40)]
  | _ => False
  end.
Proof. vm_compute. auto. Qed.
Lemma read_one (l : list (Z * u64)) (m : list (pt * u64)) a :
  read_entries [kC; k2; k3] l = map (fun ka => (Some (fst ka), snd ka)) m ->
  map (fun e => (fst e, zval (snd e))) l = [(1, a)] ->
  map fst m = [k2] /\ map (fun e => zval (snd e)) m = [a].
Proof.
  destruct l as [|[i x] [|y l]]; cbn [map fst snd]; try discriminate. intros H E.
  apply (f_equal (fun l => hd (0, 0) l)) in E. cbn [hd] in E. apply pair_equal_spec in E as [-> Ex].
  destruct m as [|[k y] [|z m]]; unfold read_entries in H; cbn [map fst snd] in H; try discriminate. cbn [map fst snd].
  apply (f_equal (fun l => hd (None, x) l)) in H. cbn [hd] in H. apply pair_equal_spec in H as [H1 H2].
  change (read_key [kC; k2; k3] 1) with (Some k2) in H1.
  split; [ congruence | rewrite <- H2; congruence ].
Qed.
Example day_followed : exists b,
  produce_block s1 l1c = Ok b /\
  let V := follow kC [kC; k2; k3] [(a_txs s1, b)] in
  w_next V = 2%nat /\ is_dummy (w_slots V 0) = true /\ w_slots V 1 = coin 60 k3 /\
  map fst (w_in V) = [k2] /\ map (fun e => zval (snd e)) (w_in V) = [100] /\
  map fst (w_out V) = [k2] /\ map (fun e => zval (snd e)) (w_out V) = [40].
Proof.
  destruct (proj1 morning_block) as (b & _ & Eb). exists b. split; [ exact Eb |]. cbv zeta.
  assert (HP : published true kC kC day (reset_for_new_epoch s1) day_calls [(a_txs s1, b)]).
  { exact (published_more true kC kC [] agg_new [] [] [batch] keys2 _ s1 day_calls l1c b
             (published_none true kC kC) morning_runs l1c_history Eb). }
  assert (HL : Z.of_nat (length (kC :: joined day_calls)) <= 2 ^ 32) by (apply Z.leb_le; vm_compute; reflexivity).
  destruct (C126_coins true kC kC day _ day_calls _ [] HP day_room HL) as (_ & _ & I & P).
  pose proof (C126_blocks true kC kC day _ day_calls _ [] HP day_room HL [] (a_txs s1) b [] eq_refl) as (_ & _ & _ & D & W).
  pose proof day_lists as Q. rewrite Eb in Q. destruct Q as [Q1 Q2].
  pose proof morning_positions as B. clear HP HL Eb.
  change ((kC :: joined day_calls) ++ []) with [kC; k2; k3] in *. cbn [app] in D, W.
  change (a_index (reset_for_new_epoch s1)) with (a_index s1) in I.
  change (positions (reset_for_new_epoch s1)) with (positions s1) in P.
  revert I P B D W. generalize (follow kC [kC; k2; k3] [(a_txs s1, b)]) as V. generalize s1 as s.
  intros s V I P B D W. apply andb_true_iff in B as [B B3]. apply andb_true_iff in B as [B1 B2]. apply Z.eqb_eq in B1.
  assert (N : w_next V = 2%nat) by lia. split; [ exact N |]. rewrite N in P.
  destruct (slots_read _ _ P B2 B3) as [H1 H2]. split; [ exact H1 |]. split; [ exact H2 |].
  destruct (read_one _ _ _ D Q1) as [X1 X2]. destruct (read_one _ _ _ W Q2) as [X3 X4]. auto.
Qed.

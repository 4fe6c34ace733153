(** Instances of C114: the receiver of ExamplesClient.v, in one step or in two. *)
From Coq Require Import ZArith List Bool Lia.
Import ListNotations.
From Verif Require Import Base Env Toy Circuit SparseMT Data DataSpec Contract Aggregator ExamplesAgg AggCircuit AggCircuitSpec
  ExamplesCircuit Client ClientSpec ClientFacts PropsClient PropsClient2 PropsClient3 ExamplesClient PropsSplit.
Open Scope Z_scope.

Lemma one_for a s s' : satisfied poseidon_acc 1 (u_list s) a s' ->
  forall i, ux_txs a = [(tx_alloc tx1, i)] -> step_for 1 (ux_pk a) (ux_block a) a /\ length (work a) = 1%nat /\ entries a = work a.
Proof.
  intros H i E. apply satisfied_iff in H as (s0 & _ & ((L1 & L2 & L3) & _) & _).
  destruct (ux_tx_proofs a) as [|tp [|]] eqn:E1; try discriminate L1. destruct (ux_signer_proofs a) as [|sp [|]] eqn:E2; try discriminate L3.
  assert (Ee : entries a = [(tx_alloc tx1, i, tp, sp)]) by (unfold entries; rewrite E, E1, E2; reflexivity).
  assert (Ew : work a = entries a) by (unfold work; rewrite Ee; cbn [filter entry_tx fst]; now rewrite regular1).
  split; [| split; [ now rewrite Ew, Ee | now rewrite Ew ] ].
  constructor; rewrite ?E1, ?E2; auto. intros x Hx Hr. rewrite Ee in Hx. destruct Hx as [<-|[]].
  cbn [entry_tx fst] in Hr. rewrite regular1 in Hr. discriminate Hr.
Qed.
Lemma idle_for blk k : step_for 1 k blk (idle_on 1 blk k) /\ work (idle_on 1 blk k) = [].
Proof.
  assert (E : entries (idle_on 1 blk k) = [(tx_alloc tx_default, Fzero, default_path tx_cfg, default_path signer_cfg)]) by reflexivity.
  split.
  - constructor; try reflexivity. rewrite E. intros x [<-|[]] _. split; [ reflexivity |].
    split; [ reflexivity |]. split; [ reflexivity |].
    unfold entry_index. cbn [fst snd]. pose proof max_cmp_8192. change (zval Fzero) with 0. lia.
  - unfold work. rewrite E. cbn [filter entry_tx fst]. now rewrite default_not_regular.
Qed.

Example split_instance : exists l t', length l = 2%nat /\
  urun poseidon_acc 1 (u_list (newcomer k3 0)) l (u_list t') /\ zval (us_balance t') = 60.
Proof.
  destruct (credited k3 0) as (a & us' & H & Hpk & Hblk & Htx & E).
  destruct (one_for a _ _ H _ Htx) as (Ha & _ & _). destruct (idle_for (ux_block a) (ux_pk a)) as [Hi Hw].
  destruct (C114_split poseidon_acc 1 1 (ux_pk a) (ux_block a) (newcomer k3 0) [a] [idle_on 1 (ux_block a) (ux_pk a); a] (u_list us'))
    as (s1 & s2 & E1 & R & B & _).
  - discriminate.
  - discriminate.
  - discriminate.
  - discriminate.
  - constructor; [ exact Ha | constructor ].
  - constructor; [ exact Hi |]. constructor; [ exact Ha | constructor ].
  - cbn [flat_map]. now rewrite Hw.
  - econstructor; [ exact H | constructor ].
  - apply u_list_inj in E1. subst s1. exists [idle_on 1 (ux_block a) (ux_pk a); a], s2. split; [ reflexivity |].
    split; [ exact R |]. rewrite B, E, (proj1 gains). reflexivity.
Qed.

(** two regular transactions of one block with one transaction per step (those of C68) *)
Example busy_instance : exists l s', length l = 2%nat /\ length (flat_map work l) = 2%nat /\
  urun poseidon_acc 1 (u_list (newcomer k3 0)) l (u_list s') /\ Forall (fun a => step_for 1 k3 (block_alloc bP) a) l.
Proof.
  destruct (credited k3 0) as (a & us' & H & Hpk & Hblk & Htx & E).
  destruct (one_for a _ _ H _ Htx) as (Ha & Wa & _).
  destruct (one_entry a _ _ Htx regular1) as (Ei & Et & Eg).
  assert (E1 : zval (Fu64 (u64of 1)) = 1) by reflexivity. rewrite E1 in Ei.
  assert (Hr : forall t i, In (t, i) (ux_txs a) -> zval i + 4096 <= max_cmp).
  { intros t i Hi. rewrite Htx in Hi. destruct Hi as [Hi|[]]. apply pair_equal_spec in Hi as [_ <-]. rewrite E1.
    pose proof max_cmp_8192. lia. }
  destruct (C68_replay poseidon_acc 1 (newcomer k3 0) a us' H) as (us'' & H2 & _).
  - intros i Hi. rewrite Ei in Hi. destruct Hi as [<-|[]]. reflexivity.
  - exact Hr.
  - assert (Ht : ux_txs (shifted a) = [(tx_alloc tx1, Fof (zval (Fu64 (u64of 1)) + 4096))]).
    { unfold shifted. cbn [ux_txs]. rewrite Htx. reflexivity. }
    destruct (one_for (shifted a) _ _ H2 _ Ht) as (Hs & Ws & _).
    exists [a; shifted a], us''. split; [ reflexivity |]. split.
    { cbn [flat_map]. rewrite !app_length, Wa, Ws. reflexivity. }
    split; [ econstructor; [ exact H |]; econstructor; [ exact H2 | constructor ] |].
    unfold shifted in Hs. cbn [ux_pk ux_block] in Hs. fold (shifted a) in Hs. rewrite Hpk, Hblk in Ha, Hs.
    constructor; [ exact Ha |]. constructor; [ exact Hs | constructor ].
Qed.

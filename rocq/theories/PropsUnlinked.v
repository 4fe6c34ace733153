(** C128: neither a block nor its proof says which coins there were before. *)
From Coq Require Import ZArith List Bool Lia Permutation.
Import ListNotations.
From Verif Require Import Base Env Circuit SparseMT SparseMTSpec SparseMTHeap SparseMTRep SparseMTProofs
  SparseMTGadget SparseMTGadgetProofs Data DataSpec DataFacts Gadgets GadgetsProofs Schnorr SchnorrProofs
  Contract Aggregator AggIntake AggCircuit AggCircuitFacts AggCircuitSpec CircuitRun PropsCircuit PropsCircuit2 PropsCircuit3
  ExactSpec PropsExact Place PropsPlace.
Open Scope Z_scope.

Section props.
  Context {hs : Hashes} {G : Curve}.
  Variable contract : pt.
  Local Opaque merkle_root sib_path node.

  Lemma derive_with_coins l1 b z' r : derive_public_inputs l1 b = Ok (z_list z') ->
    derive_public_inputs l1 (block_with_coins b r) = Ok (z_list (with_coins z' r)).
  Proof.
    intros E. unfold derive_public_inputs, block_with_coins in *. cbn [b_signers b_deposits b_withdrawals utxo_tree_root tx_tree_root signer_tree_root].
    destruct (signer_acc l1 (b_signers b)) as [a1| |]; cbn [rbind] in E |- *; try discriminate.
    destruct (amount_acc l1 (b_deposits b)) as [a2| |]; cbn [rbind] in E |- *; try discriminate.
    destruct (amount_acc l1 (b_withdrawals b)) as [a3| |]; cbn [rbind] in E |- *; try discriminate.
    destruct z' as [e1 e2 e3 e4 e5 e6 e7 e8]. unfold z_list, with_coins in *.
    cbn [z_step z_utxo z_tx z_tx_final z_signer z_signer_acc z_deposit z_withdrawal] in *. congruence.
  Qed.
  Lemma derived_root l1 b z' : derive_public_inputs l1 b = Ok (z_list z') -> utxo_tree_root b = z_utxo z'.
  Proof.
    intros Hb. unfold derive_public_inputs in Hb.
    destruct (signer_acc l1 (b_signers b)) as [a1| |]; cbn [rbind] in Hb; try discriminate.
    destruct (amount_acc l1 (b_deposits b)) as [a2| |]; cbn [rbind] in Hb; try discriminate.
    destruct (amount_acc l1 (b_withdrawals b)) as [a3| |]; cbn [rbind] in Hb; try discriminate.
    unfold z_list in Hb. congruence.
  Qed.

  (** The transactions of a proved epoch, with whatever positions, can be proved from every other
      coin tree they fit, and the block then differs in the coin root only. *)
  Theorem C128_any_opening to z bs z' ys (c : contents utxoV_cfg) l1 b :
    ivc contract to (z_list z) bs (z_list z') -> derive_public_inputs l1 b = Ok (z_list z') ->
    Forall2 (fun x y => public_part y = public_part x) (concat bs) ys ->
    let ws := flat_map (coin_writes contract (z_tx_final z)) ys in
    genuine utxoV_cfg c ws ->
    exists ys' z2, Forall2 same_claim ys ys' /\
      (forall bs', concat bs' = ys' -> ivc contract to (z_list (with_coins z (merkle_root c))) bs' (z_list z2)) /\
      derive_public_inputs l1 (block_with_coins b (merkle_root (written utxoV_cfg c ws))) = Ok (z_list z2).
  Proof.
    intros H Hb Hp ws Hg. apply C106_aggregator_proof in H as (z1 & E & H). apply z_list_inj in E. subst z1.
    destruct (run_elsewhere contract to (concat bs) z z' ys c H Hp Hg) as (ys' & S1 & S2).
    exists ys', (with_coins z' (merkle_root (written utxoV_cfg c ws))). split; [ exact S1 |]. split.
    - intros bs' Eb. apply C106_aggregator_proof. eexists. split; [ reflexivity |]. rewrite Eb. exact S2.
    - now apply derive_with_coins.
  Qed.

  Lemma set_other (c : contents utxoV_cfg) k u j : j <> k -> set_leaf c k u j = c j.
  Proof. intros H. unfold set_leaf. apply Z.eqb_neq in H. now rewrite H. Qed.
  Lemma untouched_run k u ws : Forall (fun w : write utxoV => w_pos w <> k) ws -> forall c c2 : contents utxoV_cfg,
    (forall j, c2 j = set_leaf c k u j) -> genuine utxoV_cfg c ws ->
    genuine utxoV_cfg c2 ws /\ forall j, written utxoV_cfg c2 ws j = set_leaf (written utxoV_cfg c ws) k u j.
  Proof.
    induction 1 as [|w ws Hw _ IH]; intros c c2 Hc; cbn [genuine written]; [ auto |].
    intros [H1 H2]. specialize (IH (set_leaf c (w_pos w) (w_new w)) (set_leaf c2 (w_pos w) (w_new w))).
    destruct IH as [H3 H4].
    - intros j. unfold set_leaf at 1. rewrite Hc. unfold set_leaf.
      destruct (j =? w_pos w) eqn:E1, (j =? k) eqn:E2; auto.
      apply Z.eqb_eq in E1, E2. congruence.
    - exact H2.
    - split; [| exact H4 ].
      split; [ exact (eq_trans (Hc (w_pos w)) (eq_trans (set_other c k u (w_pos w) Hw) H1)) | exact H3 ].
  Qed.

  (** In particular a coin that was never created, of any owner and amount, can be slipped in at
      any position the epoch does not touch. *)
  Theorem C128_slipped_in to z bs z' (c : contents utxoV_cfg) l1 b k u :
    ivc contract to (z_list z) bs (z_list z') -> derive_public_inputs l1 b = Ok (z_list z') ->
    z_utxo z = merkle_root c ->
    let ws := flat_map (coin_writes contract (z_tx_final z)) (concat bs) in
    let c1 := written utxoV_cfg c ws in
    ~ collides utxoV_cfg utxo_encV c ws ->
    in_range utxoV_cfg k -> v_dummy (c k) = true -> v_dummy u = false ->
    Forall (fun w => w_pos w <> k) ws ->
    utxo_tree_root b = merkle_root c1 /\
    exists (c2 : contents utxoV_cfg) ys z2,
      Forall2 same_claim (concat bs) ys /\
      (forall bs', concat bs' = ys ->
         ivc contract to (z_list (with_coins z (merkle_root (set_leaf c k u)))) bs' (z_list z2)) /\
      derive_public_inputs l1 (block_with_coins b (merkle_root c2)) = Ok (z_list z2) /\
      c2 k = u /\ (forall j, j <> k -> c2 j = c1 j) /\ Permutation (live c2) (u :: live c1).
  Proof.
    intros H Hb Hr ws c1 Hcol Hk Hd Hu Hws.
    destruct (C54_coin_writes contract to z bs z' c H Hr) as [[G1 G2]|G1]; [| contradiction ]. fold ws in G1, G2. fold c1 in G2.
    split; [ rewrite <- G2; exact (derived_root l1 b z' Hb) |].
    destruct (untouched_run k u ws Hws c (set_leaf c k u) (fun j => eq_refl) G1) as [U1 U2].
    destruct (C128_any_opening to z bs z' (concat bs) (set_leaf c k u) l1 b H Hb) as (ys & z2 & S1 & S2 & S3).
    { clear. induction (concat bs); constructor; auto. }
    { exact U1. }
    fold ws in S3.
    assert (E1 : forall j, ~ (j = k) -> written utxoV_cfg (set_leaf c k u) ws j = c1 j).
    { intros j Hj. rewrite U2. unfold set_leaf. apply Z.eqb_neq in Hj. now rewrite Hj. }
    assert (Dk : c1 k = c k).
    { unfold c1. clear -Hws. generalize dependent c. induction Hws as [|w ws Hw _ IH]; intros c; cbn [written]; [ reflexivity |].
      rewrite IH. apply (set_other c (w_pos w) (w_new w) k). congruence. }
    exists (set_leaf c1 k u), ys, z2. split; [ exact S1 |]. split; [ exact S2 |]. split.
    { rewrite <- S3. f_equal. f_equal. apply merkle_root_ext. intros j _. symmetry. apply U2. }
    split; [ unfold set_leaf; now rewrite Z.eqb_refl |]. split.
    { intros j Hj. unfold set_leaf. apply Z.eqb_neq in Hj. now rewrite Hj. }
    pose proof (live_write c1 k u Hk) as P. unfold nd in P. rewrite Dk in P. cbn [filter] in P. rewrite Hd, Hu in P. cbn [negb] in P.
    rewrite app_nil_r in P. etransitivity; [ exact P |]. symmetry. apply Permutation_cons_append.
  Qed.
End props.
Print Assumptions C128_any_opening.
Print Assumptions C128_slipped_in.

(** Concrete instances of C129 and C130: the epoch of ExamplesCircuit.v is consistent; and it can
    be proved as if its transfer had not been signed. *)
From Coq Require Import ZArith List Bool Lia.
Import ListNotations.
From Verif Require Import Base Env Toy Circuit SparseMT SparseMTSpec Data DataSpec Schnorr HMap Contract
  Aggregator ExamplesAgg AggCircuit AggCircuitSpec CircuitRun PropsCircuit3 ExamplesCircuit Claims PropsClaims PropsMute.
Open Scope Z_scope.
Local Opaque merkle_root node.

Lemma general_consistent {hs : Hashes} {G : Curve} (k : pt) z bs zl xs cw r :
  ivc k false (z_list z) bs zl -> concat bs = xs -> z_tx_final z = r -> z_step z = Fzero ->
  z_utxo z = merkle_root (empty_contents utxoV_cfg) -> z_tx z = merkle_root (empty_contents txV_cfg) ->
  z_signer z = merkle_root (empty_contents keyV_cfg) ->
  cw = flat_map (coin_writes k r) xs ->
  ~ collides utxoV_cfg utxo_encV (empty_contents utxoV_cfg) cw ->
  ~ collides txV_cfg tx_encV (empty_contents txV_cfg) (tx_writes Fzero xs) ->
  ~ collides keyV_cfg pt_encV (empty_contents keyV_cfg) (all_key_writes k r Fzero xs) ->
  consistent k false z (empty_contents utxoV_cfg) (empty_contents txV_cfg) (empty_contents keyV_cfg) xs.
Proof.
  intros H Eb Er Es Hu Ht Hk Ecw N1 N2 N3.
  destruct (C129_provable_is_consistent k false z bs zl _ _ _ H Hu Ht Hk) as [[HC _]|[K|[K|K]]].
  - rewrite Eb in HC. exact HC.
  - rewrite Eb, Er, <- Ecw in K. contradiction.
  - rewrite Eb, Es in K. contradiction.
  - rewrite Eb, Er, Es in K. contradiction.
Qed.
Example consistentP :
  consistent kC false zP (empty_contents utxoV_cfg) (empty_contents txV_cfg) (empty_contents keyV_cfg) xsP.
Proof.
  destruct epoch_provable as (_ & b & z' & _ & _ & Hrun).
  exact (general_consistent kC zP bsP (z_list z') xsP coin_wsP r0 Hrun bsP_xs zP_final zP_step zP_utxo zP_tx zP_signer coin_wsP_eq
           no_coin_collision no_tx_collision no_key_collision).
Qed.

(** the signed transfer and the unsigned one that follow the deposit *)
Definition depositP : list agg_inputsV := firstn 1 xsP.
Definition lastP : list agg_inputsV := skipn 1 xsP.
Lemma xsP_split : xsP = depositP ++ lastP.
Proof. unfold depositP, lastP. symmetry. apply firstn_skipn. Qed.
Lemma lastP_senders : map (is_signed r0) lastP = [true; false] /\ forallb (fun x => negb (pt_eqb (x_sender x) kC)) lastP = true.
Proof. vm_compute. split; reflexivity. Qed.
Lemma senders_b {hs : Hashes} {G : Curve} k (l : list agg_inputsV) :
  forallb (fun x => negb (pt_eqb (x_sender x) k)) l = true -> forall x, In x l -> x_sender x <> k.
Proof.
  intros H x Hx. rewrite forallb_forall in H. specialize (H x Hx). apply negb_true_iff in H. now apply pt_eqb_neq in H.
Qed.
(** what is left at position 0, and at the position of the transfer's output *)
Lemma coins_left :
  let c := written utxoV_cfg (empty_contents utxoV_cfg) (flat_map (coin_writes kC r0) depositP) in
  v_dummy (c 0) = false /\ zval (v_amount (c 0)) = 100 /\ v_dummy (c 1) = true.
Proof. vm_compute. repeat split. Qed.
Lemma general_mute {hs : Hashes} {G : Curve} (k : pt) z r xs last all :
  p <= q -> z_tx_final z = r ->
  z_utxo z = merkle_root (empty_contents utxoV_cfg) -> z_tx z = merkle_root (empty_contents txV_cfg) ->
  z_signer z = merkle_root (empty_contents keyV_cfg) -> all = xs ++ last ->
  consistent k false z (empty_contents utxoV_cfg) (empty_contents txV_cfg) (empty_contents keyV_cfg) all ->
  (forall x, In x last -> x_sender x <> k) ->
  exists ys z2, Forall2 same_claim (xs ++ map mute last) ys /\ ivc k false (z_list z) [ys] (z_list z2) /\
    z_tx z2 = merkle_root (written txV_cfg (empty_contents txV_cfg) (tx_writes (z_step z) all)) /\
    z_utxo z2 = merkle_root (written utxoV_cfg (empty_contents utxoV_cfg) (flat_map (coin_writes k r) xs)).
Proof.
  intros Hpq Er Hu Ht Hk -> HC Hl.
  destruct (C130_last_ones k false z _ _ _ xs last Hpq Hu Ht Hk HC Hl) as (ys & z2 & H1 & H2 & H3 & H4).
  exists ys, z2. split; [ exact H1 |]. split; [ apply H2; cbn [concat]; apply app_nil_r |]. split; [ exact H3 |].
  rewrite H4, <- Er. reflexivity.
Qed.
Example mute_instance : exists ys z2,
  Forall2 same_claim (depositP ++ map mute lastP) ys /\ ivc kC false (z_list zP) [ys] (z_list z2) /\
  z_tx z2 = merkle_root (written txV_cfg (empty_contents txV_cfg) (tx_writes (z_step zP) xsP)) /\
  z_utxo z2 = merkle_root (written utxoV_cfg (empty_contents utxoV_cfg) (flat_map (coin_writes kC r0) depositP)).
Proof.
  exact (general_mute kC zP r0 depositP lastP xsP toy_pq zP_final zP_utxo zP_tx zP_signer xsP_split consistentP
           (senders_b kC lastP (proj2 lastP_senders))).
Qed.

(** C94, C95: which epochs cannot be proved from the inputs the aggregator recorded. *)
From Coq Require Import ZArith List Bool Lia Permutation.
Import ListNotations.
From Verif Require Import Base Env Circuit SparseMT SparseMTSpec SparseMTProofs Data DataSpec DataFacts PropsData Schnorr HMap Contract ContractSpec
  PropsContract PropsBlock Aggregator AggSpec AggFacts AggSign AggIntake PropsIntake PropsSign
  AggCircuit AggCircuitFacts AggCircuitSpec CircuitRun PropsCircuit PropsCircuit2 PropsLimits TruthSpec Honest PropsHonest PropsClient4 Clean.
Open Scope Z_scope.

Section props.
  Context {hs : Hashes} {G : Curve} (dbg : bool).

  (** The calls of one epoch in any order, from [s] to [s']; [n] counts the calls to
      [process_signatures] that returned an error. Each call may be given another contract key. *)
  Inductive epoch_calls (s : agg) : nat -> agg -> Prop :=
  | ec_start : epoch_calls s 0 s
  | ec_intake n s1 l s2 : epoch_calls s n s1 -> leaves (process_transactions dbg s1 l) s2 -> epoch_calls s n s2
  | ec_sign n s1 contract l s2 : epoch_calls s n s1 -> fits contract s1 l ->
      process_signatures dbg s1 contract l = MOk s2 tt -> epoch_calls s n s2
  | ec_failed n s1 contract l s2 e : epoch_calls s n s1 -> fits contract s1 l ->
      process_signatures dbg s1 contract l = MErr s2 e -> epoch_calls s (S n) s2.

  Lemma calls_reached s n s' : reached dbg s -> epoch_calls s n s' -> reached dbg s'.
  Proof.
    intros Hr H. induction H as [|n s1 l s2 _ IH Hl|n s1 k l s2 _ IH Hf E|n s1 k l s2 e _ IH Hf E].
    - exact Hr.
    - exact (reached_intake dbg s1 l s2 IH Hl).
    - refine (reached_sign dbg s1 k l s2 IH Hf _). left. eauto.
    - refine (reached_sign dbg s1 k l s2 IH Hf _). right. eauto.
  Qed.
  Lemma steps_counts contract n l s s' : steps dbg contract n l s s' ->
    length (a_signers s') = (length (a_signers s) + length l)%nat /\ length (a_ivc s') = (length (a_ivc s) + length l)%nat.
  Proof.
    induction 1 as [|n k osg l s s1 s' t r H1 H2 [I1 I2]]; [ cbn; lia |].
    pose proof (so_signers _ _ _ _ _ _ _ _ _ H1) as E1. destruct (so_ivc _ _ _ _ _ _ _ _ _ H1) as (inp & E2 & _).
    rewrite I1, I2, E1, E2, !app_length. cbn [length]. lia.
  Qed.
  Lemma intake_logs s l s' : reached dbg s -> leaves (process_transactions dbg s l) s' ->
    a_signers s' = a_signers s /\ a_ivc s' = a_ivc s.
  Proof.
    intros Hr Hl. pose proof (intake_run dbg l s (ri_epoch _ _ (reached_inv dbg s Hr))) as HR.
    assert (same_but_intake s s') as Hs.
    { destruct Hl as [[a E]|[e E]]; rewrite E in HR; [ tauto |].
      destruct HR as (l1 & k & x & l2 & _ & _ & _ & _ & A & _ & B). auto. }
    destruct Hs as (_&_&_&_&_&_&E1&_&_&_&E2). auto.
  Qed.

  (** C94. In an epoch there are as many signer entries as recorded inputs and failed calls. *)
  Theorem C94_counts s n s' : reached dbg s -> a_signers s = [] -> a_ivc s = [] -> epoch_calls s n s' ->
    length (a_signers s') = (length (ivc_inputs s') + n)%nat.
  Proof.
    intros Hr Es Ei H. unfold ivc_inputs. induction H as [|n s1 l s2 H IH Hl|n s1 k l s2 H IH Hf E|n s1 k l s2 e H IH Hf E].
    - rewrite Es, Ei. reflexivity.
    - destruct (intake_logs s1 l s2 (calls_reached s n s1 Hr H) Hl) as [-> ->]. exact IH.
    - pose proof (run_ok dbg k s1 l s2 (calls_reached s n s1 Hr H) Hf E) as HS.
      destruct (steps_counts _ _ _ _ _ HS) as [-> ->]. lia.
    - destruct (run_err dbg k s1 l s2 e (calls_reached s n s1 Hr H) Hf E) as (l1 & k1 & osg & l2 & sm & t & r & _ & HS & He & _).
      destruct (steps_counts _ _ _ _ _ HS) as [E1 E2].
      pose proof (se_signers _ _ _ _ _ _ _ _ _ _ He) as E3. destruct (se_same _ _ _ _ _ _ _ _ _ _ He) as (_&_&_&_&_&_&_&_&_&E4).
      rewrite E3, E4, app_length, E1, E2. cbn [length]. lia.
  Qed.

  Lemma public_step c b z : derive_public_inputs c b = Ok (z_list z) ->
    z_step z = Fof (Z.of_nat (length (b_signers b))) /\ z_tx z = tx_tree_root b /\ z_tx_final z = tx_tree_root b.
  Proof.
    unfold derive_public_inputs. destruct (signer_acc c (b_signers b)) as [s0| |]; cbn [rbind]; try discriminate.
    destruct (amount_acc c (b_deposits b)) as [d| |]; cbn [rbind]; try discriminate.
    destruct (amount_acc c (b_withdrawals b)) as [w| |]; cbn [rbind]; try discriminate.
    unfold z_list. intros E. repeat split; congruence.
  Qed.
  Lemma rmap_length {E A B} (f : A -> res E B) l : forall m, rmap f l = Ok m -> length m = length l.
  Proof.
    induction l as [|a l IH]; intros m H; cbn [rmap] in H.
    - assert (m = []) by congruence. now subst m.
    - destruct (f a); cbn [rbind] in H; try discriminate H. destruct (rmap f l) as [m'| |]; cbn [rbind] in H; try discriminate H.
      specialize (IH m' eq_refl). assert (length m = S (length m')) by (injection H as <-; reflexivity). cbn [length]. lia.
  Qed.
  Lemma block_fields s c b : produce_block s c = Ok b ->
    length (b_signers b) = length (a_signers s) /\ root (a_tx_tree s) = Ok (tx_tree_root b).
  Proof.
    unfold produce_block. intros E.
    destruct (root (a_utxo_tree s)) as [ur| |]; try discriminate E.
    destruct (root (a_tx_tree s)) as [tr| |]; try discriminate E.
    destruct (root (a_signer_tree s)) as [sr| |]; try discriminate E.
    destruct (rmap _ (a_signers s)) as [sg| |] eqn:Es; cbn [rbind] in E; try discriminate E.
    destruct (rmap _ (a_deposits s)) as [d| |]; cbn [rbind] in E; try discriminate E.
    destruct (rmap _ (a_withdrawals s)) as [w| |]; cbn [rbind] in E; try discriminate E.
    apply rmap_length in Es.
    assert (X : forall u v : block, Ok (E := no_error) u = Ok v -> b_signers u = b_signers v /\ tx_tree_root u = tx_tree_root v).
    { intros u v H. assert (u = v) by congruence. now subst v. }
    apply X in E as [E1 E2]. cbn [b_signers tx_tree_root] in E1, E2. rewrite <- E1, <- E2. split; [ exact Es | reflexivity ].
  Qed.

  (** C94. After a failed call nothing in this epoch repairs it: whatever else is taken in and
      signed before the block is produced, no proof of either kind, started at step 0 from whatever
      roots, over as many inputs as the aggregator recorded ends in what the contract derives from
      the block. *)
  Theorem C94_spoiled s n s' c b pi contract to z bs :
    reached dbg s -> a_signers s = [] -> a_ivc s = [] -> epoch_calls s n s' -> n <> 0%nat ->
    Z.of_nat (length (a_signers s')) < p ->
    produce_block s' c = Ok b -> derive_public_inputs c b = Ok pi ->
    z_step z = Fzero -> length (concat bs) = length (ivc_inputs s') ->
    ~ ivc contract to (z_list z) bs pi.
  Proof.
    intros Hr Es Ei Hc Hn Hp Hb Hpi Hz Hlen Hrun.
    pose proof (C94_counts s n s' Hr Es Ei Hc) as Hcount.
    destruct (proj1 (ivc_crun contract to bs z pi) Hrun) as (z' & E1 & Hcr). subst pi.
    destruct (run_counters contract to (concat bs) z z' Hcr) as [_ E2].
    destruct (public_step c b z' Hpi) as (E3 & _ & _). destruct (block_fields s' c b Hb) as [E4 _].
    rewrite Hz, E3, E4, Hlen in E2. apply (f_equal zval) in E2. rewrite zval_Fadd, !zval_Fof_small in E2 by lia.
    change (zval Fzero) with 0 in E2. rewrite Z.add_0_l, Z.mod_small in E2 by lia. lia.
  Qed.

  (** the transactions of an epoch in the tree, as the circuit sees them *)
  Definition epoch_txs (l : list tx) : contents txV_cfg := fun i => tx_alloc (tx_contents l i).
  Lemma epoch_txs_root l : merkle_root (epoch_txs l) = merkle_root (tx_contents l).
  Proof.
    unfold merkle_root. change (HEIGHT txV_cfg) with (HEIGHT tx_cfg). apply node_same. intros i.
    unfold digests, epoch_txs. cbn [LeafHash txV_cfg tx_cfg]. unfold tx_hashV, tx_hash. now rewrite tx_encV_alloc.
  Qed.
  (** Two contents with one root agree at every position, or two hash inputs collide. *)
  Lemma same_root (P : SparseConfig) (c c' : contents P) i : cfg_ok P -> in_range P i -> merkle_root c = merkle_root c' ->
    LeafHash P (c i) = LeafHash P (c' i) \/ collision2 (genuine_path c i ++ genuine_path c' i).
  Proof.
    intros Hok Hi E. apply (chain_ok_sound P c' (genuine_path c i) (LeafHash P (c i)) i Hi).
    rewrite <- E, (chain_ok_genuine P Hok c i (LeafHash P (c i)) Hi). apply Feqb_refl.
  Qed.

  (** C95. The recorded inputs, or any others, prove the block of an epoch only if their
      transactions are, in order, those taken in, followed by nothing but default ones. *)
  Theorem C95_same_transactions s c b pi contract to z bs pos :
    reached dbg s -> Z.of_nat (length (a_txs s)) <= 4096 ->
    produce_block s c = Ok b -> derive_public_inputs c b = Ok pi ->
    z_step z = Fzero -> z_tx z = merkle_root (empty_contents txV_cfg) ->
    ivc contract to (z_list z) bs pi -> Z.of_nat (length (concat bs)) <= 4096 -> 0 <= pos < 4096 ->
    let xs := concat bs in
    txs_of xs pos = tx_alloc (tx_contents (a_txs s) pos) \/
    collides txV_cfg tx_encV (empty_contents txV_cfg) (tx_writes Fzero xs) \/
    collision2 (genuine_path (txs_of xs) pos ++ genuine_path (epoch_txs (a_txs s)) pos) \/
    crh_collision (tx_encV (txs_of xs pos)) (tx_enc (tx_contents (a_txs s) pos)).
  Proof.
    intros Hr Hl Hb Hpi Hz Ht Hrun Hn Hpos xs.
    destruct (proj1 (ivc_crun contract to bs z pi) Hrun) as (z' & E1 & _). subst pi.
    destruct (public_step c b z' Hpi) as (_ & E3 & _). destruct (block_fields s c b Hb) as [_ E4].
    destruct (C59_tx_root_chain contract to z bs z' Hrun Hz Ht) as (_ & _ & H59). fold xs in H59, Hn. cbv zeta in H59.
    destruct H59 as [H59|[H59 _]]; [ pose proof p_bounds; lia | right; left; exact H59 |].
    specialize (H59 Hn).
    pose proof (ei_holds _ _ (ri_epoch _ _ (reached_inv dbg s Hr)) Hl) as Hh.
    pose proof (tree_holds_root dbg tx_cfg AggFacts.tx_cfg_ok _ _ Hh) as Hroot.
    assert (Er : merkle_root (txs_of xs) = merkle_root (epoch_txs (a_txs s))).
    { rewrite epoch_txs_root. congruence. }
    destruct (same_root txV_cfg _ _ pos CircuitRun.txV_ok ltac:(exact Hpos) Er) as [E|E]; [| right; right; left; exact E ].
    change (crh (tx_encV (txs_of xs pos)) = crh (tx_encV (tx_alloc (tx_contents (a_txs s) pos)))) in E.
    rewrite tx_encV_alloc in E.
    destruct (list_eq_dec (F_eq_dec) (tx_encV (txs_of xs pos)) (tx_enc (tx_contents (a_txs s) pos))) as [Eq|Eq].
    - left. rewrite <- tx_encV_alloc in Eq. exact (tx_encV_inj _ _ Eq).
    - right. right. right. split; [ exact Eq | exact E ].
  Qed.

  Lemma steps_ivc_txs contract n l s s' : steps dbg contract n l s s' ->
    (n + length l <= length (a_txs s) \/ l = [])%nat /\
    map i_tx (a_ivc s') = map i_tx (a_ivc s) ++ firstn (length l) (skipn n (a_txs s)).
  Proof.
    induction 1 as [|n k osg l s s1 s' t r H1 H2 [I1 I2]].
    - split; [ now right |]. cbn [length firstn]. now rewrite app_nil_r.
    - destruct (so_ivc _ _ _ _ _ _ _ _ _ H1) as (inp & E2 & E3 & _). pose proof (so_txs _ _ _ _ _ _ _ _ _ H1) as Et.
      pose proof (so_tx _ _ _ _ _ _ _ _ _ H1) as Hn. rewrite Et in I1, I2. split.
      + left. assert (n < length (a_txs s))%nat by (apply nth_error_Some; congruence).
        destruct I1 as [I1|I1]; [ cbn [length]; lia |]. subst l. cbn [length]. lia.
      + rewrite I2, E2, map_app, <- app_assoc. cbn [map app length]. rewrite E3, (nth_skipn n (a_txs s) t Hn). reflexivity.
  Qed.

  (** C95. An epoch whose transactions are signed a second time, even successfully and by the same
      keys, cannot be proved from what the aggregator recorded: as soon as the second call reaches a
      transaction other than the default one, a proof exhibits a collision. *)
  Theorem C95_signed_twice s pairs s1 k1 l1 s2 k2 l2 s3 c b pi contract to z bs j k t :
    reached dbg s -> a_txs s = [] -> a_ivc s = [] ->
    process_transactions dbg s pairs = MOk s1 tt ->
    process_signatures dbg s1 k1 l1 = MOk s2 tt -> fits k1 s1 l1 -> length l1 = length pairs ->
    process_signatures dbg s2 k2 l2 = MOk s3 tt -> fits k2 s2 l2 ->
    Z.of_nat (length l1 + length l2) <= 4096 ->
    (j < length l2)%nat -> nth_error pairs j = Some (k, t) -> t <> tx_default ->
    produce_block s3 c = Ok b -> derive_public_inputs c b = Ok pi ->
    z_step z = Fzero -> z_tx z = merkle_root (empty_contents txV_cfg) ->
    concat bs = map inputs_alloc (ivc_inputs s3) ->
    ivc contract to (z_list z) bs pi ->
    let xs := concat bs in
    let pos := Z.of_nat (length pairs + j) in
    collides txV_cfg tx_encV (empty_contents txV_cfg) (tx_writes Fzero xs) \/
    collision2 (genuine_path (txs_of xs) pos ++ genuine_path (epoch_txs (map snd pairs)) pos) \/
    crh_collision (tx_enc t) (tx_enc tx_default).
  Proof.
    intros Hr Et Ei E1 E2 F2 Hl1 E3 F3 Hn Hj Hp Hd Hb Hpi Hz Htx Hbs Hrun xs pos.
    assert (Hr1 : reached dbg s1) by (apply (reached_intake dbg s pairs s1 Hr); left; eauto).
    destruct (C40_intake dbg s pairs s1 Hr Et E1) as (T1 & _ & Hsame & _ & _).
    assert (Hi1 : a_ivc s1 = []) by (destruct Hsame as (_&_&_&_&_&_&_&_&_&_&E); congruence).
    pose proof (run_ok dbg k1 s1 l1 s2 Hr1 F2 E2) as S1.
    assert (Hr2 : reached dbg s2) by (apply (reached_sign dbg s1 k1 l1 s2 Hr1 F2); left; eauto).
    pose proof (run_ok dbg k2 s2 l2 s3 Hr2 F3 E3) as S2.
    assert (Hr3 : reached dbg s3) by (apply (reached_sign dbg s2 k2 l2 s3 Hr2 F3); left; eauto).
    destruct (steps_same _ _ _ _ _ _ S1) as (T2 & _). destruct (steps_same _ _ _ _ _ _ S2) as (T3 & _).
    destruct (steps_ivc_txs _ _ _ _ _ S1) as (_ & I1). destruct (steps_ivc_txs _ _ _ _ _ S2) as (L2 & I2).
    rewrite T2, T1 in T3. rewrite T1 in T2. rewrite T1, Hi1, Hl1 in I1. cbn [skipn map app] in I1.
    rewrite <- (map_length snd pairs), firstn_all in I1. rewrite T2, I1 in I2. cbn [skipn] in I2.
    assert (Hlen : length (concat bs) = (length l1 + length l2)%nat).
    { rewrite Hbs, map_length. unfold ivc_inputs. destruct (steps_counts _ _ _ _ _ S1) as [_ X1]. destruct (steps_counts _ _ _ _ _ S2) as [_ X2].
      rewrite X2, X1, Hi1. reflexivity. }
    assert (Hpos : 0 <= pos < 4096) by (unfold pos; lia).
    assert (Ha : txs_of xs pos = tx_alloc t).
    { unfold txs_of, xs. rewrite Hbs. replace (pos <? 0) with false by (symmetry; apply Z.ltb_ge; lia).
      rewrite map_map. change (fun x => x_tx (inputs_alloc x)) with (fun x => tx_alloc (i_tx x)).
      rewrite <- (map_map i_tx tx_alloc). unfold ivc_inputs. rewrite I2, map_app. unfold pos. rewrite Nat2Z.id.
      rewrite app_nth2 by (rewrite !map_length; lia). rewrite !map_length.
      replace (length pairs + j - length pairs)%nat with j by lia.
      apply nth_error_nth. rewrite nth_error_map, nth_error_firstn by exact Hj. rewrite nth_error_map, Hp. reflexivity. }
    assert (Hq : tx_contents (a_txs s3) pos = tx_default).
    { unfold tx_contents. replace (pos <? 0) with false by (symmetry; apply Z.ltb_ge; lia).
      apply nth_overflow. rewrite T3, map_length. unfold pos. lia. }
    destruct (C95_same_transactions s3 c b pi contract to z bs pos Hr3) as [X|[X|[X|X]]]; try assumption.
    - rewrite T3, map_length. lia.
    - rewrite Hlen. exact Hn.
    - exfalso. apply Hd. fold xs in X. rewrite Ha, Hq in X.
      apply (f_equal tx_encV) in X. rewrite !tx_encV_alloc in X. exact (proj2 C20_tx_encoding_injective _ _ X).
    - left. exact X.
    - right. left. rewrite T3 in X. exact X.
    - right. right. fold xs in X. rewrite Ha, Hq, tx_encV_alloc in X. exact X.
  Qed.
End props.

Print Assumptions C94_counts.
Print Assumptions C94_spoiled.
Print Assumptions C95_same_transactions.
Print Assumptions C95_signed_twice.

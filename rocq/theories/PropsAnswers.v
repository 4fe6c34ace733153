(** C122: an epoch of which not every transaction is answered for in one call. *)
From Coq Require Import ZArith List Bool Lia Permutation.
Import ListNotations.
From Verif Require Import Base Env Circuit SparseMT SparseMTSpec SparseMTProofs Data DataSpec DataFacts PropsData Schnorr HMap Contract ContractSpec
  PropsContract PropsBlock Aggregator AggSpec AggFacts AggSign AggIntake PropsIntake PropsSign
  AggCircuit AggCircuitFacts AggCircuitSpec CircuitRun PropsCircuit PropsCircuit2 PropsLimits TruthSpec Honest PropsHonest PropsClient4 Clean PropsSpoil.
Open Scope Z_scope.

Section props.
  Context {hs : Hashes} {G : Curve} (dbg : bool).

  (** C122. A block with fewer signer entries than the epoch has transactions is not provable, as
      soon as one of the transactions beyond them is not the default one: any proof, of either kind and
      with whatever inputs, that starts an epoch and ends in what the contract derives from the block
      exhibits a collision. *)
  Theorem C122_unanswered s c b pi contract to z bs j t :
    reached dbg s -> Z.of_nat (length (a_txs s)) <= 4096 ->
    produce_block s c = Ok b -> derive_public_inputs c b = Ok pi ->
    nth_error (a_txs s) j = Some t -> t <> tx_default -> (length (a_signers s) <= j)%nat ->
    z_step z = Fzero -> z_tx z = merkle_root (empty_contents txV_cfg) ->
    ivc contract to (z_list z) bs pi -> Z.of_nat (length (concat bs)) < p ->
    let xs := concat bs in
    let pos := Z.of_nat j in
    collides txV_cfg tx_encV (empty_contents txV_cfg) (tx_writes Fzero xs) \/
    collision2 (genuine_path (txs_of xs) pos ++ genuine_path (epoch_txs (a_txs s)) pos) \/
    crh_collision (tx_enc tx_default) (tx_enc t).
  Proof.
    intros Hr Hl Hb Hpi Ht Hd Hj Hz Htx Hrun Hn xs pos.
    assert (Hjl : (j < length (a_txs s))%nat) by (apply nth_error_Some; rewrite Ht; discriminate).
    pose proof (proj1 (ivc_crun contract to bs z pi) Hrun) as (z' & Epi & Hcr).
    destruct (run_counters contract to (concat bs) z z' Hcr) as [_ E2].
    rewrite Epi in Hpi. destruct (public_step c b z' Hpi) as (E3 & _ & _). destruct (block_fields s c b Hb) as [E4 _].
    rewrite <- Epi in Hpi.
    assert (Hxs : length xs = length (a_signers s)).
    { rewrite Hz, E3, E4 in E2. apply (f_equal zval) in E2. pose proof p_bounds.
      rewrite zval_Fadd, !zval_Fof_small in E2 by lia.
      change (zval Fzero) with 0 in E2. rewrite Z.add_0_l, Z.mod_small in E2 by lia. unfold xs. lia. }
    assert (Hpos : 0 <= pos < 4096) by (unfold pos; lia).
    assert (HX : Z.of_nat (length (concat bs)) <= 4096) by (fold xs; lia).
    assert (Ha : txs_of xs pos = tx_alloc tx_default).
    { unfold txs_of. replace (pos <? 0) with false by (symmetry; apply Z.ltb_ge; lia). apply nth_overflow.
      rewrite map_length. unfold pos. rewrite Nat2Z.id. lia. }
    assert (Hq : tx_contents (a_txs s) pos = t).
    { unfold tx_contents. replace (pos <? 0) with false by (symmetry; apply Z.ltb_ge; lia). unfold pos. rewrite Nat2Z.id.
      exact (nth_error_nth _ _ tx_default Ht). }
    pose proof (C95_same_transactions dbg s c b pi contract to z bs pos Hr Hl Hb Hpi Hz Htx Hrun HX Hpos) as X.
    cbv zeta in X. fold xs in X. rewrite Hq, Ha, tx_encV_alloc in X.
    destruct X as [X|[X|[X|X]]]; [ exfalso | left; exact X | right; left; exact X | right; right; exact X ].
    apply Hd. apply (f_equal tx_encV) in X. rewrite !tx_encV_alloc in X. symmetry. exact (proj2 C20_tx_encoding_injective _ _ X).
  Qed.

  (** In particular after one call with too few answers. *)
  Corollary C122_short_call s contract l s' c b pi to z bs j t :
    reached dbg s -> Z.of_nat (length (a_txs s)) <= 4096 -> a_signers s = [] ->
    process_signatures dbg s contract l = MOk s' tt -> fits contract s l ->
    nth_error (a_txs s) j = Some t -> t <> tx_default -> (length l <= j)%nat ->
    produce_block s' c = Ok b -> derive_public_inputs c b = Ok pi ->
    z_step z = Fzero -> z_tx z = merkle_root (empty_contents txV_cfg) ->
    ivc contract to (z_list z) bs pi -> Z.of_nat (length (concat bs)) < p ->
    let xs := concat bs in
    let pos := Z.of_nat j in
    collides txV_cfg tx_encV (empty_contents txV_cfg) (tx_writes Fzero xs) \/
    collision2 (genuine_path (txs_of xs) pos ++ genuine_path (epoch_txs (a_txs s)) pos) \/
    crh_collision (tx_enc tx_default) (tx_enc t).
  Proof.
    intros Hr Hl Hs0 E Hf Ht Hd Hj Hb Hpi Hz Htx Hrun Hn xs pos.
    pose proof (run_ok dbg contract s l s' Hr Hf E) as S1.
    assert (Hr' : reached dbg s') by (apply (reached_sign dbg s contract l s' Hr Hf); left; exists tt; exact E).
    destruct (steps_same _ _ _ _ _ _ S1) as (T & _). destruct (steps_counts dbg _ _ _ _ _ S1) as [X1 _]. rewrite Hs0 in X1. cbn [length Nat.add] in X1.
    rewrite <- T in Hl, Ht |- *. refine (C122_unanswered s' c b pi contract to z bs j t Hr' Hl Hb Hpi Ht Hd _ Hz Htx Hrun Hn).
    rewrite X1. exact Hj.
  Qed.

  (** A second call does not fill the gap, because it starts again at the first transaction: what
      the aggregator recorded in two calls can only prove the block if the transactions repeat, the one
      after the first call's answers being the first one again and so on. *)
  Theorem C122_two_calls s k1 l1 s2 k2 l2 s3 c b pi contract to z bs j :
    reached dbg s -> a_ivc s = [] -> Z.of_nat (length (a_txs s)) <= 4096 ->
    process_signatures dbg s k1 l1 = MOk s2 tt -> fits k1 s l1 ->
    process_signatures dbg s2 k2 l2 = MOk s3 tt -> fits k2 s2 l2 ->
    Z.of_nat (length l1 + length l2) <= 4096 -> (j < length l2)%nat ->
    produce_block s3 c = Ok b -> derive_public_inputs c b = Ok pi ->
    z_step z = Fzero -> z_tx z = merkle_root (empty_contents txV_cfg) ->
    concat bs = map inputs_alloc (ivc_inputs s3) ->
    ivc contract to (z_list z) bs pi ->
    let xs := concat bs in
    let pos := Z.of_nat (length l1 + j) in
    let t := nth j (a_txs s) tx_default in
    let t' := nth (length l1 + j) (a_txs s) tx_default in
    t' = t \/
    collides txV_cfg tx_encV (empty_contents txV_cfg) (tx_writes Fzero xs) \/
    collision2 (genuine_path (txs_of xs) pos ++ genuine_path (epoch_txs (a_txs s)) pos) \/
    crh_collision (tx_enc t) (tx_enc t').
  Proof.
    intros Hr Hi Hl E2 F2 E3 F3 Hn Hj Hb Hpi Hz Htx Hbs Hrun xs pos t t'.
    pose proof (run_ok dbg k1 s l1 s2 Hr F2 E2) as S1.
    assert (Hr2 : reached dbg s2) by (apply (reached_sign dbg s k1 l1 s2 Hr F2); left; exists tt; exact E2).
    pose proof (run_ok dbg k2 s2 l2 s3 Hr2 F3 E3) as S2.
    assert (Hr3 : reached dbg s3) by (apply (reached_sign dbg s2 k2 l2 s3 Hr2 F3); left; exists tt; exact E3).
    destruct (steps_same _ _ _ _ _ _ S1) as (T2 & _). destruct (steps_same _ _ _ _ _ _ S2) as (T3 & _).
    destruct (steps_ivc_txs dbg _ _ _ _ _ S1) as (L1 & I1). destruct (steps_ivc_txs dbg _ _ _ _ _ S2) as (L2 & I2).
    rewrite T2 in T3, I2, L2. rewrite Hi in I1. cbn [map app skipn] in I1, I2. rewrite I1 in I2.
    destruct (steps_counts dbg _ _ _ _ _ S1) as [_ X1]. destruct (steps_counts dbg _ _ _ _ _ S2) as [_ X2].
    assert (Hlen : length (concat bs) = (length l1 + length l2)%nat).
    { rewrite Hbs, map_length. unfold ivc_inputs. rewrite X2, X1, Hi. reflexivity. }
    assert (Hjt : (j < length (a_txs s))%nat).
    { destruct L2 as [L2|L2]; [ lia |]. subst l2. cbn [length] in Hj. lia. }
    assert (Hl1 : (length l1 <= length (a_txs s))%nat).
    { destruct L1 as [L1|L1]; [ lia |]. subst l1. cbn [length]. lia. }
    assert (Hpos : 0 <= pos < 4096) by (unfold pos; lia).
    assert (Ha : txs_of xs pos = tx_alloc t).
    { unfold txs_of, xs. rewrite Hbs. replace (pos <? 0) with false by (symmetry; apply Z.ltb_ge; lia).
      rewrite map_map. change (fun x => x_tx (inputs_alloc x)) with (fun x => tx_alloc (i_tx x)).
      rewrite <- (map_map i_tx tx_alloc). unfold ivc_inputs. rewrite I2, map_app. unfold pos. rewrite Nat2Z.id.
      assert (Hfl : length (map tx_alloc (firstn (length l1) (a_txs s))) = length l1) by (rewrite map_length, firstn_length; lia).
      rewrite app_nth2 by lia. rewrite Hfl.
      replace (length l1 + j - length l1)%nat with j by lia.
      apply nth_error_nth. rewrite nth_error_map, nth_error_firstn by exact Hj.
      rewrite (nth_error_nth' (a_txs s) tx_default Hjt). reflexivity. }
    assert (Hq : tx_contents (a_txs s) pos = t').
    { unfold tx_contents. replace (pos <? 0) with false by (symmetry; apply Z.ltb_ge; lia). unfold pos. rewrite Nat2Z.id. reflexivity. }
    assert (HX : Z.of_nat (length (concat bs)) <= 4096) by lia.
    rewrite <- T3 in Hl. 
    pose proof (C95_same_transactions dbg s3 c b pi contract to z bs pos Hr3 Hl Hb Hpi Hz Htx Hrun HX Hpos) as X.
    cbv zeta in X. fold xs in X. rewrite T3, Hq, Ha, tx_encV_alloc in X.
    destruct X as [X|[X|[X|X]]]; [ left | right; left; exact X | right; right; left; exact X | right; right; right; exact X ].
    apply (f_equal tx_encV) in X. rewrite !tx_encV_alloc in X. symmetry. exact (proj2 C20_tx_encoding_injective _ _ X).
  Qed.
End props.

Print Assumptions C122_unanswered.
Print Assumptions C122_short_call.
Print Assumptions C122_two_calls.

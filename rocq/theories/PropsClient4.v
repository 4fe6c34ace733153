(** Properties C70 and C71: what a user can be credited for. *)
From Coq Require Import ZArith List Bool Lia Sorted.
Import ListNotations.
From Verif Require Import Base Env Circuit SparseMT SparseMTSpec SparseMTHeap SparseMTRep SparseMTProofs
  SparseMTGadget SparseMTGadgetProofs Data DataSpec DataFacts Gadgets GadgetsProofs PropsData AggCircuit AggCircuitFacts AggCircuitSpec CircuitRun
  PropsTree Client ClientSpec ClientFacts PropsClient PropsClient2 PropsClient3.
Open Scope Z_scope.

(** generic facts about genuine paths *)
Section paths.
  Context {hs : Hashes} (P : SparseConfig).
  Lemma genuine_path_length (c : contents P) i : length (genuine_path c i) = (HEIGHT P - 1)%nat.
  Proof. apply genuine_from_length. Qed.
  Lemma genuine_chain (c : contents P) i : in_range P i ->
    chain (genuine_path c i) i (LeafHash P (c i)) = Some (merkle_root c).
  Proof.
    intros Hi. unfold genuine_path. change (LeafHash P (c i)) with (node 0 (digests c) i).
    rewrite chain_genuine, Nat.add_0_r. unfold merkle_root. f_equal. f_equal. apply Z.div_small. exact Hi.
  Qed.
  Lemma genuine_loop (c : contents P) i : in_range P i ->
    verify_loop (genuine_path c i) (LeafHash P (c i)) = Some (merkle_root c).
  Proof. intros Hi. eapply chain_verify_loop. now apply genuine_chain. Qed.
End paths.

Section props.
  Context {hs : Hashes} {G : Curve}.
  Variables (acc : accumulator).

  (** the step that claims, for every [(i, j)] in [picks], the transaction at position [i] of the
      transaction tree with a path to position [j] of the signer tree *)
  Definition claiming (k : pt) (blk : blockV) (ct : contents txV_cfg) (ck : contents keyV_cfg)
      (picks : list (Z * Z)) : user_auxV :=
    {| ux_tx_proofs := map (fun ij => genuine_path ct (fst ij)) picks;
       ux_signer_proofs := map (fun ij => genuine_path ck (snd ij)) picks;
       ux_block := blk;
       ux_txs := map (fun ij => (ct (fst ij), Fof (fst ij))) picks;
       ux_pk := k |}.

  Lemma tx_ok_genuine blk (ct : contents txV_cfg) i : vb_tx_root blk = merkle_root ct -> 0 <= i < 4096 ->
    tx_ok blk (ct i) (Fof i) (genuine_path ct i) = true.
  Proof.
    intros Hr Hi. unfold tx_ok.
    assert (E : zval (Fof i) = i).
    { apply zval_Fof_small. pose proof p_254. assert (4096 < 2 ^ 253) by reflexivity. lia. }
    rewrite E. change (tx_hashV (ct i)) with (LeafHash txV_cfg (ct i)).
    rewrite (genuine_chain txV_cfg ct i) by exact Hi. rewrite Hr. apply Feqb_refl.
  Qed.
  Lemma signer_ok_genuine blk t (ck : contents keyV_cfg) j : vb_signer_root blk = merkle_root ck -> 0 <= j < 4096 ->
    ck j = signer_of t -> signer_ok blk t (genuine_path ck j) = true.
  Proof.
    intros Hr Hj E. unfold signer_ok. rewrite <- E. change (pk_hashV (ck j)) with (LeafHash keyV_cfg (ck j)).
    rewrite (genuine_loop keyV_cfg ck j) by exact Hj. rewrite Hr. apply Feqb_refl.
  Qed.

  Lemma sorted_filter {A} (f : A -> Z) (q : A -> bool) l x :
    StronglySorted Z.lt (x :: map f l) -> StronglySorted Z.lt (x :: map f (filter q l)).
  Proof.
    revert x. induction l as [|y l IH]; intros x H; cbn [filter map] in *; [ exact H |].
    inversion H as [|? ? H1 H2]; subst. pose proof (Forall_inv H2) as H3. cbv beta in H3.
    destruct (q y); cbn [map].
    - specialize (IH (f y) H1). constructor; [ exact IH |]. constructor; [ exact H3 |].
      inversion IH as [|? ? _ H4]; subst. eapply Forall_impl; [| exact H4 ]. intros v Hv. lia.
    - apply IH. inversion H1; subst. constructor; [ assumption |]. exact (Forall_inv_tail H2).
  Qed.

  Lemma claiming_entries k blk ct ck picks : (forall i j, In (i, j) picks -> 0 <= i < 4096) ->
    indices (claiming k blk ct ck picks) = map fst (filter (fun ij => regular (ct (fst ij))) picks).
  Proof.
    intros H. unfold indices, regular_entries, claiming. cbn [ux_txs]. rewrite filter_map, map_map. cbn [fst snd].
    apply map_ext_in. intros [i j] Hij. apply filter_In in Hij as [Hij _]. cbn [fst].
    apply zval_Fof_small. specialize (H i j Hij). pose proof p_254. assert (4096 < 2 ^ 253) by reflexivity. lia.
  Qed.
  Lemma claiming_gain k blk ct ck picks :
    step_gain (claiming k blk ct ck picks) = zsumm (map (fun ij => gain k (ct (fst ij))) picks).
  Proof. unfold step_gain, transactions, claiming. cbn [ux_txs ux_pk]. now rewrite !map_map. Qed.
  Lemma claiming_signed k blk ct ck picks :
    step_signed (claiming k blk ct ck picks)
    = Z.of_nat (length (filter (fun ij => pt_eqb (signer_of (ct (fst ij))) k) picks)).
  Proof. unfold step_signed, transactions, claiming. cbn [ux_txs ux_pk]. rewrite map_map, filter_map, map_length. reflexivity. Qed.

  Lemma max_cmp_big : 4096 <= max_cmp.
  Proof.
    unfold max_cmp. pose proof p_254. assert (2 * 4096 + 1 <= 2 ^ 253) by (vm_compute; discriminate).
    apply Z.div_le_lower_bound; lia.
  Qed.

  (** ** C70: who is credited *)
  Theorem C70_credited k blk (ct : contents txV_cfg) (ck : contents keyV_cfg) picks s :
    vb_tx_root blk = merkle_root ct -> vb_signer_root blk = merkle_root ck ->
    pk_hashV k = us_pk s ->
    zval (us_height s) <= zval (vb_height blk) < max_cmp ->
    let start := if Feqb (block_hashV blk) (us_block s) then zval (us_index s) else 0 in
    start <= max_cmp ->
    StronglySorted Z.lt (start :: map fst picks) ->
    (* the signer occurs somewhere in the signer tree; nothing is asked of its content at [i] *)
    (forall i j, In (i, j) picks -> i < 4096 /\ 0 <= j < 4096 /\ ck j = signer_of (ct i)) ->
    exists s',
      satisfied acc (length picks) (u_list s) (claiming k blk ct ck picks) (u_list s') /\
      zval (us_balance s') = (zval (us_balance s) + zsumm (map (fun ij => gain k (ct (fst ij))) picks)) mod p /\
      zval (us_nonce s') =
        (zval (us_nonce s) + Z.of_nat (length (filter (fun ij => pt_eqb (signer_of (ct (fst ij))) k) picks))) mod p.
  Proof.
    intros Ht Hk Hpk Hh start Hst Hs Hp.
    set (a := claiming k blk ct ck picks).
    assert (Est : zval (start_index s a) = start).
    { unfold start_index, start. change (step_block a) with (block_hashV blk). now destruct (Feqb _ _). }
    assert (H0 : 0 <= start) by (rewrite <- Est; apply F_range).
    assert (Hr : forall i j, In (i, j) picks -> 0 <= i < 4096).
    { intros i j Hij. destruct (Hp i j Hij) as (H1 & _). split; [| exact H1 ].
      inversion Hs as [|? ? _ H2]; subst. rewrite Forall_forall in H2. specialize (H2 i (in_map fst _ _ Hij)). lia. }
    exists (step_result acc s a). split; [ apply satisfied_state; split; [| reflexivity ] | split ].
    - unfold step_conditions. rewrite Est.
      split; [ unfold lengths_ok, a, claiming; cbn [ux_tx_proofs ux_txs ux_signer_proofs]; now rewrite !map_length |].
      split; [ exact Hpk |]. split; [ apply Hh |]. split; [ change (step_height a) with (zval (vb_height blk)); lia |].
      split; [ intros _; exact Hst |].
      split.
      + unfold a. rewrite claiming_entries by exact Hr. apply StronglySorted_Sorted. now apply sorted_filter.
      + intros n t i tp sp (I1 & I2 & I3). unfold a, claiming in I1, I2, I3. cbn [ux_tx_proofs ux_txs ux_signer_proofs] in I1, I2, I3.
        apply nth_map_inv in I1 as ([i0 j0] & E0 & I1). cbn [fst snd] in I1. apply pair_equal_spec in I1 as [-> ->].
        apply nth_map_inv in I2 as (y & E1 & I2). assert (y = (i0, j0)) as -> by congruence. cbn [fst snd] in I2. subst tp.
        apply nth_map_inv in I3 as (y & E2 & I3). assert (y = (i0, j0)) as -> by congruence. cbn [fst snd] in I3. subst sp.
        pose proof (nth_error_In _ _ E0) as Hin. pose proof (Hr i0 j0 Hin) as Hi. destruct (Hp i0 j0 Hin) as (_ & Hj & Hsg).
        split; [ exact (genuine_path_length txV_cfg ct i0) |]. split; [ exact (genuine_path_length keyV_cfg ck j0) |].
        split.
        { rewrite zval_Fof_small; [ pose proof max_cmp_big; lia |]. pose proof p_254. assert (4096 < 2 ^ 253) by reflexivity. lia. }
        intros _. split; [ now apply tx_ok_genuine |]. now apply signer_ok_genuine.
    - change (us_balance (step_result acc s a)) with (Fof (zval (us_balance s) + step_gain a)). unfold a.
      rewrite zval_Fof, claiming_gain. reflexivity.
    - change (us_nonce (step_result acc s a)) with (Fof (zval (us_nonce s) + step_signed a)). unfold a.
      rewrite zval_Fof, claiming_signed. reflexivity.
  Qed.
  (** a transaction whose own signer slot is blank, that is, one the aggregator did not apply *)
  Corollary C70_unapplied k blk (ct : contents txV_cfg) (ck : contents keyV_cfg) i j s :
    vb_tx_root blk = merkle_root ct -> vb_signer_root blk = merkle_root ck ->
    pk_hashV k = us_pk s -> zval (us_height s) <= zval (vb_height blk) < max_cmp ->
    0 < i < 4096 -> 0 <= j < 4096 -> block_hashV blk <> us_block s ->
    ck i = pzero -> signer_of (ct i) <> pzero -> ck j = signer_of (ct i) ->
    exists a s', ux_pk a = k /\ ux_block a = blk /\ ux_txs a = [(ct i, Fof i)] /\
      satisfied acc 1 (u_list s) a (u_list s') /\
      zval (us_balance s') = (zval (us_balance s) + gain k (ct i)) mod p.
  Proof.
    intros Ht Hk Hpk Hh Hi Hj Hb _ _ E. apply Feqb_neq in Hb.
    destruct (C70_credited k blk ct ck [(i, j)] s Ht Hk Hpk Hh) as (s' & H1 & H2 & _).
    - rewrite Hb. pose proof max_cmp_big. lia.
    - rewrite Hb. cbn [map fst]. repeat constructor. lia.
    - intros i0 j0 [E0|[]]. apply pair_equal_spec in E0 as [<- <-]. repeat split; try lia. exact E.
    - exists (claiming k blk ct ck [(i, j)]), s'. cbn [map zsumm fst] in H2. rewrite Z.add_0_r in H2.
      do 3 (split; [ reflexivity |]). split; [ exact H1 | exact H2 ].
  Qed.

  (** ** C71: entries flagged as dummies *)
  (** a transaction without any real input or output; its first output, flagged as a dummy, bears
      the amount [v] and the key [k] *)
  Definition gift (k : pt) (v : u64) : tx :=
    mkTx (inputs tx_default) (A4 (mkUtxo v k true) utxo_dummy utxo_dummy utxo_dummy).
  Lemma gain_gift k v : gain k (tx_alloc (gift k v)) = zval v.
  Proof.
    unfold gain.
    assert (E : forall l, held k (map utxo_alloc (utxo_dummy :: l)) = held k (map utxo_alloc l)).
    { intros l. cbn [map held]. replace (zval (v_amount (utxo_alloc utxo_dummy))) with 0 by reflexivity.
      now destruct (pt_eqb _ _). }
    change (a4_list (v_outputs (tx_alloc (gift k v)))) with
      (map utxo_alloc [mkUtxo v k true; utxo_dummy; utxo_dummy; utxo_dummy]).
    change (a4_list (v_inputs (tx_alloc (gift k v)))) with (map utxo_alloc [utxo_dummy; utxo_dummy; utxo_dummy; utxo_dummy]).
    rewrite !E. cbn [map held]. rewrite pt_eqb_refl.
    replace (zval (v_amount (utxo_alloc utxo_dummy))) with 0 by reflexivity.
    change (v_amount (utxo_alloc (mkUtxo v k true))) with (Fu64 v).
    rewrite zval_Fu64. replace (if pt_eqb _ _ then 0 else 0) with 0 by (now destruct (pt_eqb _ _)). lia.
  Qed.
  Theorem C71_gift k v :
    (* valid natively, for every stated sender, and in the circuit *)
    (forall dbg sender, is_valid dbg (gift k v) sender = Ok tt) /\
    (forall sender, sat (enforce_valid (tx_alloc (gift k v)) sender) tt) /\
    (* it moves no value and names no signer *)
    total_in (gift k v) = 0 /\ total_out (gift k v) = 0 /\ signer_of (tx_alloc (gift k v)) = pzero /\
    (* but brings [v] to [k] *)
    gain k (tx_alloc (gift k v)) = zval v.
  Proof.
    split; [ intros dbg [s|]; reflexivity |]. split.
    - intros s. apply (proj2 (proj1 C28_enforce_valid true (gift k v) s ltac:(reflexivity) ltac:(reflexivity))). reflexivity.
    - split; [ reflexivity |]. split; [ reflexivity |]. split; [ reflexivity | apply gain_gift ].
  Qed.
  (** Any user is credited any amount by a block that contains such a transaction and leaves a
      signer slot blank. *)
  Theorem C71_credited k v blk (ct : contents txV_cfg) (ck : contents keyV_cfg) i j s :
    vb_tx_root blk = merkle_root ct -> vb_signer_root blk = merkle_root ck ->
    pk_hashV k = us_pk s -> zval (us_height s) <= zval (vb_height blk) < max_cmp ->
    block_hashV blk <> us_block s ->
    0 < i < 4096 -> ct i = tx_alloc (gift k v) -> 0 <= j < 4096 -> ck j = pzero ->
    exists a s', ux_pk a = k /\ ux_block a = blk /\ transactions a = [tx_alloc (gift k v)] /\
      satisfied acc 1 (u_list s) a (u_list s') /\
      zval (us_balance s') = (zval (us_balance s) + zval v) mod p.
  Proof.
    intros Ht Hk Hpk Hh Hb Hi Ei Hj Ej. apply Feqb_neq in Hb.
    assert (Esg : signer_of (ct i) = pzero) by (rewrite Ei; apply (C71_gift k v)).
    destruct (C70_credited k blk ct ck [(i, j)] s Ht Hk Hpk Hh) as (s' & H1 & H2 & _).
    - rewrite Hb. pose proof max_cmp_big. lia.
    - rewrite Hb. cbn [map fst]. repeat constructor. lia.
    - intros i0 j0 [E0|[]]. apply pair_equal_spec in E0 as [<- <-]. rewrite Ej, Esg. repeat split; lia.
    - exists (claiming k blk ct ck [(i, j)]), s'. cbn [map zsumm fst] in H2. rewrite Z.add_0_r, Ei, gain_gift in H2.
      split; [ reflexivity |]. split; [ reflexivity |]. split.
      + unfold transactions, claiming. cbn [ux_txs map fst]. now rewrite Ei.
      + split; [ exact H1 | exact H2 ].
  Qed.
End props.

Print Assumptions C70_credited.
Print Assumptions C70_unapplied.
Print Assumptions C71_gift.
Print Assumptions C71_credited.

(** Property C79: a user who follows the protocol with natively built trees satisfies the circuit. *)
From Coq Require Import ZArith List Bool Lia Sorted.
Import ListNotations.
From Verif Require Import Base Env Circuit SparseMT SparseMTSpec SparseMTHeap SparseMTRep SparseMTProofs
  SparseMTGadget SparseMTGadgetProofs Data DataSpec DataFacts Gadgets GadgetsProofs PropsData HMap Contract Aggregator AggSpec
  AggCircuit AggCircuitFacts AggCircuitSpec CircuitRun
  PropsTree Client ClientSpec ClientFacts PropsClient PropsClient2 PropsClient3 PropsClient4.
Open Scope Z_scope.

Section props.
  Context {hs : Hashes} {G : Curve}.
  Variables (acc : accumulator) (dbg : bool).

  (** The auxiliary input a user prepares for a block: for every [(i, j)] in [picks], the
      transaction at position [i] with the proof the transaction tree generates for it, and the
      proof the signer tree generates for its position [j]. *)
  Record prepared (T S : tree) (ct : contents tx_cfg) (ck : contents signer_cfg) (b : block) (k : pt)
      (picks : list (Z * Z)) (a : user_aux) : Prop :=
    { pr_block : u_block a = b;
      pr_pk : u_pk a = k;
      pr_txs : u_txs a = map (fun ij => (ct (fst ij), u64of (fst ij))) picks;
      pr_tx_proofs : Forall2 (fun ij pf => generate_proof dbg tx_cfg T (fst ij) (ct (fst ij)) = Ok pf) picks (u_tx_proofs a);
      pr_signer_proofs :
        Forall2 (fun ij pf => generate_proof dbg signer_cfg S (snd ij) (ck (snd ij)) = Ok pf) picks (u_signer_proofs a) }.

  Lemma generated (P : SparseConfig) (Hok : cfg_ok P) T (c : contents P) i pf : tree_holds dbg P T c -> in_range P i ->
    generate_proof dbg P T i (c i) = Ok pf ->
    root T = Ok (merkle_root c) /\ length pf = (HEIGHT P - 1)%nat /\
    chain pf i (LeafHash P (c i)) = Some (merkle_root c).
  Proof.
    intros (c' & w & Hb & Hc) Hi Hg.
    assert (E : merkle_root c' = merkle_root c).
    { unfold merkle_root.
      assert (Gn : forall d k, 0 <= k -> (k + 1) * 2 ^ Z.of_nat d <= capacity P ->
                node d (digests c') k = node d (digests c) k).
      { induction d as [|d IH]; intros k Hk Hbd; cbn [node].
        - unfold digests. rewrite Hc; auto. unfold in_range. change (2 ^ Z.of_nat 0) with 1 in Hbd. lia.
        - rewrite Nat2Z.inj_succ, Z.pow_succ_r in Hbd by lia. assert (0 < 2 ^ Z.of_nat d) by (apply Z.pow_pos_nonneg; lia).
          rewrite !IH by nia. reflexivity. }
      apply Gn; [ lia |]. unfold capacity. lia. }
    destruct (C06_membership_complete P Hok dbg T c' w i Hb Hi) as (Hr & path & H1 & _ & H2).
    rewrite Hc in H1 by exact Hi. assert (path = pf) as -> by congruence.
    split; [ congruence |]. specialize (H2 true). rewrite (vwi_in true P Hok) in H2 by exact Hi.
    rewrite Hc, E in H2 by exact Hi. unfold chain_ok in H2.
    assert (H3 : (length pf =? HEIGHT P - 1)%nat && match chain pf i (LeafHash P (c i)) with Some r => Feqb (merkle_root c) r | None => false end = true) by congruence.
    apply andb_true_iff in H3 as [H3 H4]. apply Nat.eqb_eq in H3. split; [ exact H3 |].
    destruct (chain pf i (LeafHash P (c i))) as [y|]; [| discriminate H4 ]. apply Feqb_eq in H4. congruence.
  Qed.
  Lemma generates (P : SparseConfig) (Hok : cfg_ok P) T (c : contents P) i : tree_holds dbg P T c -> in_range P i ->
    exists pf, generate_proof dbg P T i (c i) = Ok pf.
  Proof.
    intros (c' & w & Hb & Hc) Hi. destruct (C06_membership_complete P Hok dbg T c' w i Hb Hi) as (_ & pf & H & _).
    exists pf. now rewrite <- Hc.
  Qed.
  Lemma txn_ok : cfg_ok tx_cfg. Proof. unfold cfg_ok. cbn. lia. Qed.
  Lemma sgn_ok : cfg_ok signer_cfg. Proof. unfold cfg_ok. cbn. lia. Qed.

  (** ** C79 *)
  Theorem C79_prepares T S ct ck b k picks :
    tree_holds dbg tx_cfg T ct -> tree_holds dbg signer_cfg S ck ->
    (forall i j, In (i, j) picks -> 0 <= i < 4096 /\ 0 <= j < 4096) ->
    exists a, prepared T S ct ck b k picks a.
  Proof.
    intros HT HS Hp.
    assert (E1 : exists l, Forall2 (fun ij pf => generate_proof dbg tx_cfg T (fst ij) (ct (fst ij)) = Ok pf) picks l).
    { induction picks as [|[i j] r IH]; [ exists []; constructor |].
      destruct IH as (l & Hl); [ intros i0 j0 H0; apply Hp; now right |].
      destruct (generates tx_cfg txn_ok T ct i HT) as (pf & Hpf); [ exact (proj1 (Hp i j ltac:(now left))) |].
      exists (pf :: l). constructor; [ exact Hpf | exact Hl ]. }
    assert (E2 : exists l, Forall2 (fun ij pf => generate_proof dbg signer_cfg S (snd ij) (ck (snd ij)) = Ok pf) picks l).
    { clear E1. induction picks as [|[i j] r IH]; [ exists []; constructor |].
      destruct IH as (l & Hl); [ intros i0 j0 H0; apply Hp; now right |].
      destruct (generates signer_cfg sgn_ok S ck j HS) as (pf & Hpf); [ exact (proj2 (Hp i j ltac:(now left))) |].
      exists (pf :: l). constructor; [ exact Hpf | exact Hl ]. }
    destruct E1 as (l1 & H1), E2 as (l2 & H2).
    exists (mkAux l1 l2 b (map (fun ij => (ct (fst ij), u64of (fst ij))) picks) k). constructor; auto.
  Qed.

  Lemma Forall2_nth {A B} (R : A -> B -> Prop) l l' : Forall2 R l l' -> forall n y, nth_error l' n = Some y ->
    exists x, nth_error l n = Some x /\ R x y.
  Proof.
    induction 1 as [|x y l l' H _ IH]; intros [|n] z E; cbn in E; try discriminate E.
    - assert (z = y) as -> by congruence. exists x. auto.
    - now apply IH.
  Qed.
  Lemma Forall2_len {A B} (R : A -> B -> Prop) l l' : Forall2 R l l' -> length l' = length l.
  Proof. induction 1; cbn; congruence. Qed.
  Lemma small_u64 i : 0 <= i < 4096 -> zval (Fu64 (u64of i)) = i.
  Proof. intros H. rewrite zval_Fu64. change (zval (u64of i)) with (i mod two64). apply Z.mod_small. unfold two64. lia. Qed.
  Lemma height_ok (h : u64) : zval (Fu64 h) < max_cmp.
  Proof.
    rewrite zval_Fu64. unfold max_cmp. pose proof p_254. assert (2 * two64 + 3 <= 2 ^ 253) by (vm_compute; discriminate).
    assert (two64 + 1 <= (p - 1) / 2) by (apply Z.div_le_lower_bound; lia). pose proof (u64_range h). lia.
  Qed.

  Theorem C79_accepted T S ct ck b k picks a s :
    tree_holds dbg tx_cfg T ct -> tree_holds dbg signer_cfg S ck ->
    root T = Ok (tx_tree_root b) -> root S = Ok (signer_tree_root b) ->
    prepared T S ct ck b k picks a ->
    pk_hash k = us_pk s -> zval (us_height s) <= zval (height b) ->
    let start := if Feqb (block_hash b) (us_block s) then zval (us_index s) else 0 in
    start <= max_cmp ->
    StronglySorted Z.lt (start :: map fst picks) ->
    (forall i j, In (i, j) picks -> i < 4096 /\ 0 <= j < 4096 /\ ck j = signer_of (tx_alloc (ct i))) ->
    exists s',
      satisfied acc (length picks) (u_list s) (aux_alloc a) (u_list s') /\
      honest (update_balance acc (length picks) (u_list s) (aux_alloc a)) = Some (true, u_list s') /\
      zval (us_balance s') = (zval (us_balance s) + zsumm (map (fun ij => gain k (tx_alloc (ct (fst ij)))) picks)) mod p /\
      zval (us_nonce s') = (zval (us_nonce s) +
        Z.of_nat (length (filter (fun ij => pt_eqb (signer_of (tx_alloc (ct (fst ij)))) k) picks))) mod p /\
      us_block s' = block_hash b /\ us_acc s' = acc (us_acc s) (block_hash b).
  Proof.
    intros HT HS RT RS [B1 B2 B3 B4 B5] Hpk Hh start Hst Hs Hp.
    assert (Est : zval (start_index s (aux_alloc a)) = start).
    { unfold start_index, start. replace (step_block (aux_alloc a)) with (block_hash b); [ now destruct (Feqb _ _) |].
      unfold step_block, aux_alloc. cbn [ux_block]. now rewrite B1. }
    assert (H0 : 0 <= start) by (rewrite <- Est; apply F_range).
    assert (Hr : forall i j, In (i, j) picks -> 0 <= i < 4096).
    { intros i j Hij. destruct (Hp i j Hij) as (H1 & _). split; [| exact H1 ].
      inversion Hs as [|? ? _ H2]; subst. rewrite Forall_forall in H2. specialize (H2 i (in_map fst _ _ Hij)). lia. }
    assert (Etx : ux_txs (aux_alloc a) = map (fun ij => (tx_alloc (ct (fst ij)), Fu64 (u64of (fst ij)))) picks).
    { unfold aux_alloc. cbn [ux_txs]. rewrite B3, map_map. reflexivity. }
    assert (C : step_conditions (length picks) s (aux_alloc a)).
    { unfold step_conditions. rewrite Est.
      split; [ unfold lengths_ok; rewrite Etx, map_length; unfold aux_alloc; cbn [ux_tx_proofs ux_signer_proofs];
               rewrite (Forall2_len _ _ _ B4), (Forall2_len _ _ _ B5); auto |].
      split; [ unfold aux_alloc; cbn [ux_pk]; rewrite B2; exact Hpk |].
      assert (Eh : step_height (aux_alloc a) = zval (height b)).
      { unfold step_height, aux_alloc. cbn [ux_block]. rewrite B1. exact (zval_Fu64 _). }
      rewrite Eh. split; [ exact Hh |]. split; [ pose proof (height_ok (height b)) as X; rewrite zval_Fu64 in X; lia |].
      split; [ intros _; exact Hst |]. split.
      - unfold indices, regular_entries. rewrite Etx, filter_map, map_map. cbn [fst snd].
        rewrite (map_ext_in _ (fun ij : Z * Z => fst ij)).
        + apply StronglySorted_Sorted. now apply sorted_filter.
        + intros [i j] Hij. apply filter_In in Hij as [Hij _]. cbn [fst]. apply small_u64. exact (Hr i j Hij).
      - intros n t i tp sp (I1 & I2 & I3). rewrite Etx in I1. unfold aux_alloc in I2, I3. cbn [ux_tx_proofs ux_signer_proofs] in I2, I3.
        apply nth_map_inv in I1 as ([i0 j0] & E0 & I1). cbn [fst snd] in I1. apply pair_equal_spec in I1 as [-> ->].
        destruct (Forall2_nth _ _ _ B4 _ _ I2) as (y & E1 & G1). assert (y = (i0, j0)) as -> by congruence. cbn [fst snd] in G1.
        destruct (Forall2_nth _ _ _ B5 _ _ I3) as (y & E2 & G2). assert (y = (i0, j0)) as -> by congruence. cbn [fst snd] in G2.
        pose proof (nth_error_In _ _ E0) as Hin. pose proof (Hr i0 j0 Hin) as Hi. destruct (Hp i0 j0 Hin) as (_ & Hj & Hsg).
        destruct (generated tx_cfg txn_ok T ct i0 tp HT Hi G1) as (R1 & L1 & C1).
        destruct (generated signer_cfg sgn_ok S ck j0 sp HS Hj G2) as (R2 & L2 & C2).
        split; [ exact L1 |]. split; [ exact L2 |].
        split; [ rewrite small_u64 by exact Hi; pose proof max_cmp_big; lia |].
        intros _. unfold aux_alloc. cbn [ux_block]. rewrite B1. split.
        + unfold tx_ok. rewrite small_u64 by exact Hi. change (tx_hashV (tx_alloc (ct i0))) with (LeafHash tx_cfg (ct i0)).
          rewrite C1. unfold block_alloc. cbn [vb_tx_root]. apply Feqb_eq. congruence.
        + unfold signer_ok. rewrite <- Hsg. change (pk_hashV (ck j0)) with (LeafHash signer_cfg (ck j0)).
          rewrite (chain_verify_loop _ _ _ _ C2). unfold block_alloc. cbn [vb_signer_root]. apply Feqb_eq. congruence. }
    set (s' := step_result acc s (aux_alloc a)).
    assert (Hsat : satisfied acc (length picks) (u_list s) (aux_alloc a) (u_list s')) by (apply satisfied_state; split; [ exact C | reflexivity ]).
    exists s'. split; [ exact Hsat |]. split.
    { pose proof C as (L & _). destruct (proj2 (ustep_ok_iff (length picks) s (aux_alloc a) L) C) as [K1 K2].
      rewrite (ustep_honest acc (length picks) (u_list s) s (aux_alloc a) (u_of_u_list s) L K2), K1, (ustep_next_eq acc (length picks)) by exact L.
      reflexivity. }
    assert (Ek : ux_pk (aux_alloc a) = k) by (unfold aux_alloc; cbn [ux_pk]; exact B2).
    split; [| split; [| split ] ].
    - change (us_balance s') with (Fof (zval (us_balance s) + step_gain (aux_alloc a))). rewrite zval_Fof.
      unfold step_gain, transactions. rewrite Ek, Etx, !map_map. reflexivity.
    - change (us_nonce s') with (Fof (zval (us_nonce s) + step_signed (aux_alloc a))). rewrite zval_Fof.
      unfold step_signed, transactions. rewrite Ek, Etx, map_map, filter_map, map_length. reflexivity.
    - change (us_block s') with (step_block (aux_alloc a)). unfold step_block, aux_alloc. cbn [ux_block]. now rewrite B1.
    - change (us_acc s') with (acc (us_acc s) (step_block (aux_alloc a))). unfold step_block, aux_alloc. cbn [ux_block]. now rewrite B1.
  Qed.
End props.

Print Assumptions C79_prepares.
Print Assumptions C79_accepted.

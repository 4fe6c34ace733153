(** C63, C78: epochs the aggregator carries out natively and that cannot be proved. *)
From Coq Require Import ZArith List Bool Lia Permutation.
Import ListNotations.
From Verif Require Import Base Env Circuit SparseMT SparseMTSpec SparseMTHeap SparseMTRep SparseMTNew
  SparseMTProofs SparseMTGadget SparseMTGadgetProofs Data DataSpec DataFacts PropsData Gadgets GadgetsProofs Schnorr SchnorrProofs
  HMap Contract ContractSpec PropsContract PropsBlock Aggregator AggSpec AggFacts AggSign AggIntake PropsIntake PropsSign PropsValue
  AggCircuit AggCircuitFacts AggCircuitSpec CircuitRun PropsCircuit PropsCircuit2 PropsCircuit3 Honest PropsHonest.
Open Scope Z_scope.

Section props.
  Context {hs : Hashes} {G : Curve} (dbg : bool) (contract : pt).

  (** ** The native trees, seen by the circuit *)
  Definition as_allocated (c : contents utxo_cfg) : contents utxoV_cfg := fun i => utxo_alloc (c i).
  Lemma node_same d (f g : Z -> F) k : (forall i, f i = g i) -> node d f k = node d g k.
  Proof. intros H. revert k. induction d as [|d IH]; intros k; cbn [node]; [ apply H | now rewrite !IH ]. Qed.
  Lemma root_as_allocated c : merkle_root (as_allocated c) = merkle_root c.
  Proof.
    unfold merkle_root. change (HEIGHT utxoV_cfg - 1)%nat with (HEIGHT utxo_cfg - 1)%nat.
    apply node_same. intros i. unfold digests, as_allocated. apply hash_alloc_u.
  Qed.
  Lemma root_keys (c : contents signer_cfg) : merkle_root (P := keyV_cfg) c = merkle_root c.
  Proof.
    unfold merkle_root. change (HEIGHT keyV_cfg - 1)%nat with (HEIGHT signer_cfg - 1)%nat.
    apply node_same. intros i. reflexivity.
  Qed.

  (** ** The contract's coins never live in the native state *)
  (** Histories in which signatures are always processed for the same contract key. *)
  Inductive reached_for : agg -> Prop :=
  | rf_new : reached_for agg_new
  | rf_intake s l s' : reached_for s -> leaves (process_transactions dbg s l) s' -> reached_for s'
  | rf_sign s l s' : reached_for s -> fits contract s l -> leaves (process_signatures dbg s contract l) s' -> reached_for s'
  | rf_reset s : reached_for s -> reached_for (reset_for_new_epoch s).
  Lemma rf_reached s : reached_for s -> reached dbg s.
  Proof. induction 1; eauto using reached_new, reached_intake, reached_sign, reached_reset. Qed.

  Definition no_contract_coin (l : list utxo) : Prop := forall u, In u l -> pk u <> contract.
  Lemma creates_no_contract t : no_contract_coin (creates contract t).
  Proof.
    intros u Hu. unfold creates in Hu. apply filter_In in Hu as [_ Hu]. apply andb_true_iff in Hu as [_ Hu].
    apply negb_true_iff in Hu. now apply pt_eqb_neq in Hu.
  Qed.
  Lemma apply_no_contract t a b : apply_tx contract t a b -> no_contract_coin a -> no_contract_coin b.
  Proof.
    intros (rest & P1 & P2) H u Hu. apply (Permutation_in _ P2) in Hu. apply in_app_or in Hu as [Hu|Hu].
    - apply H. apply (Permutation_in _ (Permutation_sym P1)). apply in_or_app. now right.
    - exact (creates_no_contract t u Hu).
  Qed.
  Lemma steps_no_contract n l s s' : steps dbg contract n l s s' -> no_contract_coin (coins s) -> no_contract_coin (coins s').
  Proof.
    induction 1 as [|n k osg l s s1 s' t r H1 H2 IH]; [ auto |]. intros H. apply IH.
    pose proof (so_coins _ _ _ _ _ _ _ _ _ H1) as Hc. destruct (authorised contract r t (k, osg)).
    - exact (apply_no_contract t _ _ Hc H).
    - now rewrite Hc.
  Qed.
  Theorem C63_no_contract_coins s : reached_for s -> no_contract_coin (coins s).
  Proof.
    induction 1 as [|s l s' Hr IH Hl|s l s' Hr IH Hf Hl|s Hr IH].
    - intros u [].
    - assert (coins s' = coins s) as ->; [| exact IH ].
      pose proof (rf_reached s Hr) as Hr'. pose proof (intake_run dbg l s (ri_epoch _ _ (reached_inv dbg s Hr'))) as HI.
      unfold coins, positions. destruct Hl as [[a E]|[e E]]; rewrite E in HI.
      + destruct HI as (_ & _ & _ & HS). destruct HS as (-> & _). reflexivity.
      + destruct HI as (l1 & k & x & l2 & _ & _ & _ & _ & _ & _ & HS). destruct HS as (-> & _). reflexivity.
    - pose proof (rf_reached s Hr) as Hr'. destruct Hl as [[a E]|[e E]].
      + destruct a. exact (steps_no_contract 0 l s s' (run_ok dbg contract s l s' Hr' Hf E) IH).
      + destruct (run_err dbg contract s l s' e Hr' Hf E) as (l1 & k & osg & l2 & s1 & t & r1 & -> & Hs & He & _).
        pose proof (steps_no_contract _ _ _ _ Hs IH) as H1.
        destruct (se_coins _ _ _ _ _ _ _ _ _ _ He) as (don & u & todo & _ & HP & _).
        intros v Hv. apply H1. apply (Permutation_in _ (Permutation_sym HP)). apply in_or_app. now right.
    - exact IH.
  Qed.

  (** ** C63 *)
  (** In any proof, a signed transaction of the contract with a real input exposes a collision. *)
  Theorem C63_circuit to z bs z' (c : contents utxoV_cfg) x :
    ivc contract to (z_list z) bs (z_list z') -> z_utxo z = merkle_root c ->
    (forall u, In u (live c) -> v_pk u <> contract) ->
    In x (concat bs) -> x_sender x = contract -> is_signed (z_tx_final z) x = true ->
    realV (v_inputs (x_tx x)) <> [] ->
    collides utxoV_cfg utxo_encV c (flat_map (coin_writes contract (z_tx_final z)) (concat bs)).
  Proof.
    intros H Hr Hl Hx Hk Hs Hn.
    destruct (C54_coin_writes contract to z bs z' c H Hr) as [[G1 G2]|G1]; [| exact G1 ]. exfalso.
    pose proof (run_live contract (concat bs) (z_tx_final z) c G1) as HP.
    destruct (realV (v_inputs (x_tx x))) as [|u us] eqn:Ei; [ tauto |].
    assert (Hu : In u (realV (v_inputs (x_tx x)))) by (rewrite Ei; now left).
    assert (Hc : In u (flat_map (consumed (z_tx_final z)) (concat bs))).
    { apply in_flat_map. exists x. split; [ exact Hx |]. unfold consumed. now rewrite Hs. }
    assert (Hpk : v_pk u = contract).
    { apply ivc_crun in H as (z1 & E1 & H). apply z_list_inj in E1. subst z1.
      pose proof (crun_steps contract to _ _ _ H) as HS. rewrite Forall_forall in HS.
      destruct (HS x Hx) as (za & zb & _ & Hw & Hsat).
      destruct (sf_valid _ _ _ _ _ (step_facts_of contract to za x zb Hw Hsat)) as [Ho _].
      unfold realV in Hu. apply filter_In in Hu as [Hu Hd]. apply negb_true_iff in Hd.
      rewrite (Ho u Hu Hd). exact Hk. }
    assert (Hin : In u (live c ++ flat_map (created contract (z_tx_final z)) (concat bs))).
    { apply (Permutation_in _ HP). apply in_or_app. now right. }
    destruct (in_app_or _ _ _ Hin) as [Hi|Hi]; [ exact (Hl u Hi Hpk) |]. clear Hin HP Hl. rename Hi into Hin.
    apply in_flat_map in Hin as (y & _ & Hy). unfold created in Hy.
    destruct (is_applied contract (z_tx_final z) y); [| destruct Hy ].
    apply filter_In in Hy as [_ Hy]. apply negb_true_iff in Hy. apply pt_eqb_neq in Hy. exact (Hy Hpk).
  Qed.

  Lemma in_leaves {P} (c : contents P) v : In v (leaves_of c) -> exists i, in_range P i /\ v = c i.
  Proof.
    intros Hu. unfold leaves_of in Hu. apply in_map_iff in Hu as (n & <- & Hn). apply in_seq in Hn.
    exists (Z.of_nat n). split; [ unfold in_range; lia | reflexivity ].
  Qed.
  Lemma in_filter_leaves {P} (f : Leaf P -> bool) (c : contents P) v :
    In v (filter f (leaves_of c)) -> f v = true /\ exists i, in_range P i /\ v = c i.
  Proof. intros Hu. apply filter_In in Hu as [H1 H2]. split; [ exact H2 | exact (in_leaves c v H1) ]. Qed.
  Local Strategy expand [live].
  Lemma in_live (c : contents utxoV_cfg) v : In v (live c) -> v_dummy v = false /\ exists i, in_range utxoV_cfg i /\ v = c i.
  Proof.
    intros Hu. pose proof (in_filter_leaves (P := utxoV_cfg) (fun u : utxoV => negb (v_dummy u)) c v Hu) as H.
    clear Hu. destruct H as [H1 H2]. split; [ apply negb_true_iff; exact H1 | exact H2 ].
  Qed.
  Lemma live_alloc s c w u : CoinInv dbg s c w -> In u (live (as_allocated c)) ->
    exists v, u = utxo_alloc v /\ In v (coins s).
  Proof.
    intros HI Hu. destruct (in_live _ _ Hu) as (Hd & i & Hr & ->). clear Hu.
    exists (c i). split; [ reflexivity |]. unfold as_allocated in Hd.
    change (in_range utxo_cfg i) in Hr.
    destruct (in_dec Z.eq_dec i (map fst (positions s))) as [Hi|Hi].
    - apply in_map_iff in Hi as ([i' v] & Ei & Hv). cbn [fst] in Ei. subst i'.
      destruct (ci_pos _ _ _ _ HI _ _ Hv) as [_ Ec]. rewrite Ec. unfold coins. apply in_map_iff. exists (i, v). now split.
    - exfalso. rewrite (ci_free _ _ _ _ HI _ Hr Hi) in Hd. discriminate.
  Qed.

  Theorem C63_contract_signature s l s' r ur j t osg :
    reached_for s -> a_ivc s = [] -> fits contract s l ->
    root (a_tx_tree s) = Ok r -> root (a_utxo_tree s) = Ok ur ->
    process_signatures dbg s contract l = MOk s' tt ->
    (* a transaction sent by the contract, with a real input and a valid signature *)
    nth_error (a_txs s) j = Some t -> nth_error l j = Some (contract, osg) ->
    verify_signature contract (tx_enc t ++ [r]) (osig osg) = true ->
    (exists u, In u (a4_list (inputs t)) /\ is_dummy u = false) ->
    (* it is applied, and the recorded inputs satisfy the circuit only with a collision *)
    In t (applied contract r (a_txs s) l) /\
    exists c, tree_holds dbg utxo_cfg (a_utxo_tree s) c /\
      forall to z bs z', z_utxo z = ur -> z_tx_final z = r ->
        concat bs = map inputs_alloc (a_ivc s') -> ivc contract to (z_list z) bs (z_list z') ->
        collides utxoV_cfg utxo_encV (as_allocated c) (flat_map (coin_writes contract r) (map inputs_alloc (a_ivc s'))).
  Proof.
    intros Hrf H0 Hf Hr Hur Hps Et El Hv (u & Hu & Hd).
    pose proof (rf_reached s Hrf) as Hreach. split.
    - unfold applied. apply in_flat_map. exists (t, (contract, osg)). split.
      + clear -Et El. revert j l Et El. induction (a_txs s) as [|t0 ts IH]; intros [|j] l Et El; destruct l as [|y l]; try discriminate.
        * left. cbn in Et, El. congruence.
        * right. exact (IH j l Et El).
      + cbn [fst snd]. unfold authorised. cbn [fst snd]. fold (osig osg). rewrite Hv. now left.
    - destruct (ri_coins _ _ (reached_inv dbg s Hreach)) as (c & w & HI).
      exists c. split; [ exists c, w; split; [ apply (ci_built _ _ _ _ HI) | reflexivity ] |].
      intros to z bs z' Hzu Hzf Hbs Hivc. rewrite <- Hbs, <- Hzf.
      pose proof (run_ok dbg contract s l s' Hreach Hf Hps) as HS.
      destruct (steps_ivc dbg contract 0 l s s' HS) as (m & Em & Lm & Hm).
      destruct (Hm j contract osg El) as (inp & Ei & Etx & Ek & Esg & _). rewrite H0 in Em. cbn [app plus] in Em, Etx.
      apply (C63_circuit to z bs z' (as_allocated c) (inputs_alloc inp)).
      + exact Hivc.
      + rewrite root_as_allocated, Hzu.
        assert (Y : root (a_utxo_tree s) = Ok (merkle_root c)).
        { pose proof (rep_root _ _ _ _ (built_rep dbg utxo_cfg AggFacts.utxo_cfg_ok _ _ _ (ci_built _ _ _ _ HI))) as X.
          unfold root. now rewrite X. }
        congruence.
      + intros v Hv'. destruct (live_alloc s c w v HI Hv') as (v0 & -> & Hv0). exact (C63_no_contract_coins s Hrf v0 Hv0).
      + rewrite Hbs, Em. apply in_map_iff. exists inp. split; [ reflexivity |]. exact (nth_error_In _ _ Ei).
      + exact Ek.
      + rewrite Hzf, signed_alloc, Ek, Esg. assert (i_tx inp = t) as -> by congruence. exact Hv.
      + cbn [inputs_alloc x_tx tx_alloc v_inputs]. rewrite real_alloc. assert (i_tx inp = t) as -> by congruence.
        assert (Hi : In u (real (a4_list (inputs t)))) by (unfold real; apply filter_In; rewrite Hd; auto).
        destruct (real (a4_list (inputs t))); [ destruct Hi | discriminate ].
  Qed.

  (** ** C78 *)
  Lemma key_slot n : 0 <= n < 4096 -> slot_of keyV_cfg (Fof n) = n.
  Proof.
    intros H. unfold slot_of. change (capacity keyV_cfg) with 4096. rewrite zval_Fof_small; [ now apply Z.mod_small |].
    split; [ lia |]. eapply Z.lt_trans; [ apply H |]. eapply Z.lt_trans; [| exact p_big ]. reflexivity.
  Qed.
  Lemma genuine_blank final xs : forall n (c : contents keyV_cfg) j x, 0 <= n ->
    genuine keyV_cfg c (all_key_writes contract final (Fof n) xs) ->
    nth_error xs j = Some x -> is_applied contract final x = true -> n + Z.of_nat j < 4096 ->
    c (n + Z.of_nat j) = pzero.
  Proof.
    induction xs as [|y xs IH]; intros n c j x Hn Hg Hj Ha Hlt; [ destruct j; discriminate |].
    cbn [all_key_writes] in Hg. apply genuine_app in Hg as [H1 H2].
    change (Fadd (Fof n) Fone) with (Fadd (Fof n) (Fof 1)) in H2. rewrite <- Fof_add in H2.
    destruct j as [|j]; cbn [nth_error] in Hj.
    - assert (y = x) by congruence. subst y. unfold key_writes in H1. rewrite Ha in H1. cbn [genuine w_pos w_old] in H1.
      destruct H1 as [H1 _]. rewrite key_slot in H1 by lia. rewrite Z.add_0_r. exact H1.
    - replace (n + Z.of_nat (S j)) with (n + 1 + Z.of_nat j) by lia.
      rewrite <- (IH (n + 1) _ j x ltac:(lia) H2 Hj Ha ltac:(lia)).
      unfold key_writes. destruct (is_applied contract final y); [| reflexivity ]. cbn [written w_pos w_new].
      rewrite key_slot by lia. unfold set_leaf. destruct (n + 1 + Z.of_nat j =? n) eqn:E; [ apply Z.eqb_eq in E; lia | reflexivity ].
  Qed.
  (** A proof that starts from a signer tree in which slot [j] is taken cannot apply its [j]-th
      transaction. *)
  Theorem C78_taken_slot to z bs z' (ck : contents keyV_cfg) j x :
    ivc contract to (z_list z) bs (z_list z') -> z_step z = Fzero -> z_signer z = merkle_root ck ->
    nth_error (concat bs) j = Some x -> Z.of_nat j < 4096 -> is_applied contract (z_tx_final z) x = true ->
    ck (Z.of_nat j) <> pzero ->
    collides keyV_cfg pt_encV ck (all_key_writes contract (z_tx_final z) Fzero (concat bs)).
  Proof.
    intros H Hs Hr Hj Hlt Ha Hn. destruct (C60_signers contract to z bs z' ck H Hr) as [_ [[Hg _]|Hc]].
    - exfalso. apply Hn. rewrite Hs in Hg. change Fzero with (Fof 0) in Hg.
      exact (genuine_blank (z_tx_final z) (concat bs) 0 ck j x ltac:(lia) Hg Hj Ha ltac:(lia)).
    - now rewrite Hs in Hc.
  Qed.
  Theorem C78_second_epoch s l s' r c0 j t k osg :
    reached dbg s -> fits contract s l -> root (a_tx_tree s) = Ok r ->
    a_signers s = [] -> a_ivc s = [] -> Z.of_nat (length l) <= 4096 ->
    tree_holds dbg signer_cfg (a_signer_tree s) c0 ->
    process_signatures dbg s contract l = MOk s' tt ->
    (* the [j]-th transaction of the epoch was applied *)
    nth_error (a_txs s) j = Some t -> nth_error l j = Some (k, osg) -> authorised contract r t (k, osg) = true ->
    k <> pzero ->
    (* then in the next epoch *)
    exists ck, tree_holds dbg signer_cfg (a_signer_tree (reset_for_new_epoch s')) ck /\ ck (Z.of_nat j) = k /\
      forall to z bs z' x,
        z_step z = Fzero -> root (a_signer_tree (reset_for_new_epoch s')) = Ok (z_signer z) ->
        ivc contract to (z_list z) bs (z_list z') ->
        nth_error (concat bs) j = Some x -> is_applied contract (z_tx_final z) x = true ->
        collides keyV_cfg pt_encV ck (all_key_writes contract (z_tx_final z) Fzero (concat bs)).
  Proof.
    intros Hreach Hf Hr Hsg Hivc Hlen Hh Hps Et El Ha Hk.
    destruct (C48_signers dbg contract s l s' r c0 Hreach Hf Hr Hsg Hivc Hlen Hh Hps) as (_ & _ & HA & HT & _).
    specialize (HA j t k osg Et El). rewrite Ha in HA.
    match type of HT with tree_holds _ _ _ ?f => set (ck := f) in * end.
    assert (Hck : ck (Z.of_nat j) = k) by (unfold ck; rewrite Nat2Z.id, HA; reflexivity).
    exists ck. split; [ exact HT |]. split; [ exact Hck |].
    intros to z bs z' x Hz0 Hzs Hrun Hx Hax.
    apply (C78_taken_slot to z bs z' ck j x Hrun Hz0).
    - pose proof (tree_holds_root dbg signer_cfg AggFacts.signer_cfg_ok _ _ HT) as X.
      change (a_signer_tree (reset_for_new_epoch s')) with (a_signer_tree s') in Hzs.
      assert (z_signer z = merkle_root (P := signer_cfg) ck) as -> by congruence. symmetry. apply root_keys.
    - exact Hx.
    - assert (Hj : (j < length l)%nat) by (apply nth_error_Some; congruence). lia.
    - exact Hax.
    - rewrite Hck. exact Hk.
  Qed.
End props.

Print Assumptions C63_no_contract_coins.
Print Assumptions C63_circuit.
Print Assumptions C63_contract_signature.
Print Assumptions C78_taken_slot.
Print Assumptions C78_second_epoch.

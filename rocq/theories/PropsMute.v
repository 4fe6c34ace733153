(** C130: the prover decides whose signatures count. *)
From Coq Require Import ZArith List Bool Lia.
Import ListNotations.
From Verif Require Import Base Env Circuit SparseMT SparseMTSpec SparseMTHeap SparseMTRep SparseMTProofs
  SparseMTGadget SparseMTGadgetProofs Data DataSpec DataFacts Gadgets GadgetsProofs Schnorr SchnorrProofs
  Contract Aggregator AggIntake AggCircuit AggCircuitFacts AggCircuitSpec CircuitRun PropsCircuit PropsCircuit2 PropsCircuit3
  ExactSpec PropsExact Claims PropsClaims.
Open Scope Z_scope.

Section props.
  Context {hs : Hashes} {G : Curve}.
  Variable contract : pt.
  Local Opaque merkle_root sib_path node.

  Lemma all_ones n : bits_val (repeat true n) = 2 ^ Z.of_nat n - 1.
  Proof.
    induction n as [|n IH]; [ reflexivity |]. cbn [repeat bits_val]. change (Z.b2z true) with 1. rewrite IH, Nat2Z.inj_succ, Z.pow_succ_r by lia. lia.
  Qed.
  Lemma mute_unsigned final x : is_signed final (mute x) = false.
  Proof.
    unfold is_signed. apply andb_false_iff. right. apply Z.ltb_ge. unfold mute. cbn [x_sig v_e].
    rewrite all_ones. change (Z.of_nat 254) with 254. pose proof q_254. lia.
  Qed.
  Lemma mute_applied final x : is_applied contract final (mute x) = by_contract contract x.
  Proof. unfold is_applied. now rewrite mute_unsigned. Qed.
  Lemma mute_coins final x : by_contract contract x = false -> coin_writes contract final (mute x) = [].
  Proof.
    intros Hc. unfold coin_writes. rewrite mute_unsigned, mute_applied, Hc. cbn [andb].
    assert (E : forall l : list (utxoV * list F * F), flat_map (fun upp : utxoV * list F * F => let '(u, path, pos) := upp in
               if false then [mkWrite (slot_of utxoV_cfg pos) u (utxo_alloc utxo_dummy) path] else []) l = []).
    { induction l as [|[[u pf] pos] l IH]; [ reflexivity | exact IH ]. }
    assert (E2 : forall l : list (utxoV * list F * F), flat_map (fun upp : utxoV * list F * F => let '(u, path, pos) := upp in
               if false then [mkWrite (slot_of utxoV_cfg pos) (utxo_alloc utxo_dummy) u path] else []) l = []).
    { induction l as [|[[u pf] pos] l IH]; [ reflexivity | exact IH ]. }
    rewrite E, E2. reflexivity.
  Qed.

  Lemma withhold_cons m ms x xs : withhold (m :: ms) (x :: xs) = (if m then mute x else x) :: withhold ms xs.
  Proof. reflexivity. Qed.
  Lemma withhold_in (Q : agg_inputsV -> Prop) : (forall x, Q x -> Q (mute x)) -> forall ms xs,
    (forall x, In x xs -> Q x) -> forall y, In y (withhold ms xs) -> Q y.
  Proof.
    intros HQ ms. induction ms as [|m ms IH]; intros [|x xs] H y; try contradiction.
    rewrite withhold_cons. intros [<-|Hy].
    - destruct m; [ apply HQ |]; apply H; now left.
    - apply (IH xs); [| exact Hy ]. intros z Hz. apply H. now right.
  Qed.
  Lemma withhold_txs ms : forall xs s, length ms = length xs -> tx_writes s (withhold ms xs) = tx_writes s xs.
  Proof.
    induction ms as [|m ms IH]; intros [|x xs] s L; try discriminate; [ reflexivity |].
    rewrite withhold_cons. cbn [tx_writes]. f_equal; [ now destruct m | apply IH; cbn [length] in L; congruence ].
  Qed.
  (** the signer tree stays writable: every slot holds what it held, or nothing *)
  Lemma withhold_keys final ms : forall xs s (c c2 : contents keyV_cfg), length ms = length xs ->
    (forall j, c2 j = c j \/ c2 j = pzero) ->
    genuine keyV_cfg c (all_key_writes contract final s xs) ->
    genuine keyV_cfg c2 (all_key_writes contract final s (withhold ms xs)).
  Proof.
    induction ms as [|m ms IH]; intros [|x xs] s c c2 L Hc H; try discriminate; [ exact I |].
    cbn [length] in L. assert (L' : length ms = length xs) by congruence.
    rewrite withhold_cons. cbn [all_key_writes] in H |- *. apply genuine_app in H as [H1 H2]. apply genuine_app.
    unfold key_writes in *.
    assert (Ea : is_applied contract final (if m then mute x else x) = true -> is_applied contract final x = true).
    { destruct m; auto. rewrite mute_applied. unfold is_applied. intros ->. apply orb_true_r. }
    destruct (is_applied contract final (if m then mute x else x)).
    - rewrite (Ea eq_refl) in H1, H2. cbn [genuine written w_pos w_old w_new] in H1, H2 |- *. destruct H1 as [H1 _]. split.
      + split; [| exact I ]. destruct (Hc (slot_of keyV_cfg s)) as [E|E]; [ exact (eq_trans E H1) | exact E ].
      + apply (IH _ _ _ _ L') with (2 := H2). intros j.
        replace (x_sender (if m then mute x else x)) with (x_sender x) by now destruct m.
        unfold set_leaf. destruct (j =? slot_of keyV_cfg s); [ now left | apply Hc ].
    - cbn [genuine written]. split; [ exact I |]. apply (IH _ _ _ _ L') with (2 := H2). intros j.
      destruct (is_applied contract final x); cbn [written w_pos w_new]; [| apply Hc ].
      cbn [genuine w_pos w_old] in H1. destruct H1 as [H1 _]. unfold set_leaf.
      destruct (j =? slot_of keyV_cfg s) eqn:E; [| apply Hc ]. apply Z.eqb_eq in E. subst j. right.
      destruct (Hc (slot_of keyV_cfg s)) as [E|E]; [ exact (eq_trans E H1) | exact E ].
  Qed.

  (** ** C130 *)
  Theorem C130_withheld to z (cu : contents utxoV_cfg) (ct : contents txV_cfg) (ck : contents keyV_cfg) xs ms :
    p <= q -> z_utxo z = merkle_root cu -> z_tx z = merkle_root ct -> z_signer z = merkle_root ck ->
    consistent contract to z cu ct ck xs -> length ms = length xs ->
    genuine utxoV_cfg cu (flat_map (coin_writes contract (z_tx_final z)) (withhold ms xs)) ->
    let z1 := outcome contract to z cu ct ck xs in
    let z2 := outcome contract to z cu ct ck (withhold ms xs) in
    (exists ys, Forall2 same_claim (withhold ms xs) ys /\
       forall bs, concat bs = ys -> ivc contract to (z_list z) bs (z_list z2)) /\
    z_tx z2 = z_tx z1 /\ z_step z2 = z_step z1 /\ z_deposit z2 = z_deposit z1 /\ z_withdrawal z2 = z_withdrawal z1.
  Proof.
    intros Hpq Hu Ht Hk [C1 C2 C3 C4 C5 C6 C7] L Hg. cbv zeta. split.
    - apply C129_consistent_is_provable; auto. constructor.
      + apply Forall_forall. apply (withhold_in wf_input); [ intros x _; reflexivity |]. now apply Forall_forall.
      + intros y u Hy. revert u. revert y Hy.
        apply (withhold_in (fun x => forall u, In u (a4_list (v_inputs (x_tx x))) -> v_dummy u = false -> v_pk u = x_sender x)).
        * intros x H. exact H.
        * intros x Hx u. now apply C2.
      + apply (withhold_in (fun x => vtotal_in (x_tx x) mod p = vtotal_out (x_tx x) mod p)); [ intros x H; exact H | exact C3 ].
      + exact Hg.
      + rewrite withhold_txs by exact L. exact C5.
      + apply (withhold_keys _ ms xs _ ck ck L); [ now left | exact C6 ].
      + intros E. apply (withhold_in (fun x => (forall u, In u (a4_list (v_outputs (x_tx x))) -> zval (v_amount u) < 2 ^ 64) /\ withdrawn contract x < 2 ^ 64)).
        * intros x H. exact H.
        * exact (C7 E).
    - unfold outcome. cbn [z_tx z_step z_deposit z_withdrawal]. rewrite withhold_txs by exact L.
      assert (Ll : length (withhold ms xs) = length xs).
      { unfold withhold. rewrite map_length, combine_length, L. apply Nat.min_id. }
      assert (E : flat_map (deposit_entries contract) (withhold ms xs) = flat_map (deposit_entries contract) xs /\
                  flat_map (withdrawal_entries contract) (withhold ms xs) = flat_map (withdrawal_entries contract) xs).
      { clear -L. revert xs L. induction ms as [|m ms IH]; intros [|x xs] L; try discriminate; [ auto |].
        cbn [length] in L. destruct (IH xs) as [H1 H2]; [ congruence |].
        rewrite withhold_cons. cbn [flat_map]. rewrite H1, H2. split; f_equal; now destruct m. }
      rewrite Ll. destruct E as [-> ->]. auto.
  Qed.

  (** In particular the signatures of the last transactions can always be withheld (unless the
      contract sent them): the coins stay as they were before these transactions. *)
  Theorem C130_last_ones to z (cu : contents utxoV_cfg) (ct : contents txV_cfg) (ck : contents keyV_cfg) xs last :
    p <= q -> z_utxo z = merkle_root cu -> z_tx z = merkle_root ct -> z_signer z = merkle_root ck ->
    consistent contract to z cu ct ck (xs ++ last) -> (forall x, In x last -> x_sender x <> contract) ->
    exists ys z2, Forall2 same_claim (xs ++ map mute last) ys /\
      (forall bs, concat bs = ys -> ivc contract to (z_list z) bs (z_list z2)) /\
      z_tx z2 = z_tx (outcome contract to z cu ct ck (xs ++ last)) /\
      z_utxo z2 = z_utxo (outcome contract to z cu ct ck xs).
  Proof.
    intros Hpq Hu Ht Hk HC Hlast.
    set (ms := repeat false (length xs) ++ repeat true (length last)).
    assert (Ew : withhold ms (xs ++ last) = xs ++ map mute last).
    { unfold ms. clear. induction xs as [|x xs IH]; cbn [length repeat app].
      - induction last as [|x l IHl]; cbn [length repeat map]; [ reflexivity |]. rewrite withhold_cons. now rewrite IHl.
      - rewrite withhold_cons. now rewrite IH. }
    assert (Ec : flat_map (coin_writes contract (z_tx_final z)) (xs ++ map mute last)
                 = flat_map (coin_writes contract (z_tx_final z)) xs).
    { rewrite flat_map_app. rewrite <- (app_nil_r (flat_map _ xs)) at 2. f_equal. clear -Hlast.
      induction last as [|x l IH]; [ reflexivity |]. cbn [map flat_map]. rewrite mute_coins, IH; [ reflexivity | |].
      - intros y Hy. apply Hlast. now right.
      - unfold by_contract. apply pt_eqb_neq. apply Hlast. now left. }
    destruct (C130_withheld to z cu ct ck (xs ++ last) ms Hpq Hu Ht Hk HC) as ((ys & S1 & S2) & E1 & _).
    - unfold ms. now rewrite !app_length, !repeat_length.
    - rewrite Ew, Ec. pose proof (cs_coins _ _ _ _ _ _ _ HC) as H. rewrite flat_map_app in H. now apply genuine_app in H as [H _].
    - rewrite Ew in S1, S2, E1. exists ys. eexists. split; [ exact S1 |]. split; [ exact S2 |]. split; [ exact E1 |].
      unfold outcome. cbn [z_utxo]. now rewrite Ec.
  Qed.
End props.
Print Assumptions C130_withheld.
Print Assumptions C130_last_ones.

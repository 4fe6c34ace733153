(** Properties C79 (with a block of the aggregator) and C80 (balances and coins). *)
From Coq Require Import ZArith List Bool Lia Sorted Permutation.
Import ListNotations.
From Verif Require Import Base Env Circuit SparseMT SparseMTSpec SparseMTHeap SparseMTRep SparseMTProofs
  SparseMTGadget SparseMTGadgetProofs Data DataSpec DataFacts Gadgets GadgetsProofs PropsData Schnorr HMap Contract Aggregator AggSpec
  AggFacts AggSign AggIntake PropsIntake PropsSign PropsValue
  AggCircuit AggCircuitFacts AggCircuitSpec CircuitRun PropsCircuit PropsCircuit2
  PropsTree Client ClientSpec ClientFacts PropsClient PropsClient2 PropsClient3 PropsClient4 PropsClient5.
Open Scope Z_scope.

Section epoch.
  Context {hs : Hashes} {G : Curve}.
  Variables (acc : accumulator) (dbg : bool) (contract : pt).

  Lemma signer_of_owned t k : owned_by k t -> (exists u, In u (a4_list (inputs t)) /\ is_dummy u = false) ->
    signer_of (tx_alloc t) = k.
  Proof.
    intros Ho (u & Hu & Hd). unfold signer_of. cbn [tx_alloc v_inputs]. rewrite a4_map_list, filter_map, map_map.
    change (filter (fun x => negb (v_dummy (utxo_alloc x))) (a4_list (inputs t))) with (real (a4_list (inputs t))).
    change (fun x => v_pk (utxo_alloc x)) with pk.
    assert (Hl : forall w, In w (real (a4_list (inputs t))) -> pk w = k).
    { intros w Hw. apply filter_In in Hw as [Hw Hn]. apply Ho; [ exact Hw |]. now apply negb_true_iff. }
    assert (Hne : In u (real (a4_list (inputs t)))) by (apply filter_In; rewrite Hd; auto).
    destruct (real (a4_list (inputs t))) as [|x r]; [ destruct Hne |]. clear Hne.
    revert x Hl. induction r as [|y r IH]; intros x Hl; [ cbn; apply Hl; now left |].
    change (last (map pk (y :: r)) pzero = k). apply IH. intros w Hw. apply Hl. now right.
  Qed.

  (** An epoch of the aggregator, its block, and a user who processes applied transactions of that
      epoch (each with a real input), in order, in one step on a new block. *)
  Theorem C79_epoch s s1 s2 pairs l ck0 final c0 b k idx us :
    reached dbg s -> a_txs s = [] -> a_signers s = [] -> a_ivc s = [] ->
    tree_holds dbg signer_cfg (a_signer_tree s) ck0 ->
    process_transactions dbg s pairs = MOk s1 tt -> Z.of_nat (length pairs) <= 4096 ->
    root (a_tx_tree s1) = Ok final ->
    process_signatures dbg s1 contract l = MOk s2 tt -> fits contract s1 l -> map fst l = map fst pairs ->
    produce_block s2 c0 = Ok b ->
    (* the transactions [idx] were applied and have a real input *)
    (forall i, In i idx -> exists t k0 osg, nth_error pairs (Z.to_nat i) = Some (k0, t) /\ nth_error l (Z.to_nat i) = Some (k0, osg) /\
       authorised contract final t (k0, osg) = true /\ exists u, In u (a4_list (inputs t)) /\ is_dummy u = false) ->
    StronglySorted Z.lt (0 :: idx) ->
    (* the user's state *)
    pk_hash k = us_pk us -> zval (us_height us) <= zval (a_height s) -> us_block us <> block_hash b ->
    exists a us',
      prepared dbg (a_tx_tree s2) (a_signer_tree s2) (tx_contents (map snd pairs))
        (fun i => match nth_error (a_signers s2) (Z.to_nat i) with Some (Some k) => k | _ => ck0 i end)
        b k (map (fun i => (i, i)) idx) a /\
      satisfied acc (length idx) (u_list us) (aux_alloc a) (u_list us') /\
      honest (update_balance acc (length idx) (u_list us) (aux_alloc a)) = Some (true, u_list us') /\
      zval (us_balance us') = (zval (us_balance us) +
        zsumm (map (fun i => gain k (tx_alloc (tx_contents (map snd pairs) i))) idx)) mod p.
  Proof.
    intros Hreach T0 G0 I0 HK Hpt Hlen Hfin Hps Hfit Hfst Hblk Hidx Hsort Hpk Hh Hb.
    destruct (C40_intake dbg s pairs s1 Hreach T0 Hpt) as (Etx & Hval & Hsame & _ & Hroot).
    destruct (Hroot Hlen) as (Hholds & _ & _).
    destruct Hsame as (U1 & U2 & U3 & U4 & U5 & U6 & U7 & U8 & U9 & U10 & U11).
    assert (Hr1 : reached dbg s1). { eapply reached_intake; [ exact Hreach |]. left. exists tt. exact Hpt. }
    assert (Hll : length l = length pairs). { rewrite <- (map_length fst l), Hfst. apply map_length. }
    assert (HK1 : tree_holds dbg signer_cfg (a_signer_tree s1) ck0) by (rewrite U6; exact HK).
    destruct (C48_signers dbg contract s1 l s2 final ck0 Hr1 Hfit Hfin) as (_ & _ & HA & HT & _); [ congruence | congruence | rewrite Hll; exact Hlen | exact HK1 | exact Hps |].
    pose proof (steps_same dbg contract 0 l s1 s2 (run_ok dbg contract s1 l s2 Hr1 Hfit Hps)) as (E1 & E2 & _ & E4 & _).
    match type of HT with tree_holds _ _ _ ?f => set (ck := f) in * end.
    set (ct := tx_contents (map snd pairs)) in *.
    assert (HT2 : tree_holds dbg tx_cfg (a_tx_tree s2) ct) by (rewrite E2; exact Hholds).
    assert (Hrng : forall i, In i idx -> 0 < i < 4096).
    { intros i Hi. inversion Hsort as [|? ? _ H]; subst. rewrite Forall_forall in H. specialize (H i Hi). split; [ exact H |].
      destruct (Hidx i Hi) as (t & k0 & osg & En & _). assert (Hx : (Z.to_nat i < length pairs)%nat) by (apply nth_error_Some; congruence). lia. }
    destruct (C79_prepares dbg (a_tx_tree s2) (a_signer_tree s2) ct ck b k (map (fun i => (i, i)) idx) HT2 HT) as (a & Ha).
    { intros i j Hij. apply in_map_iff in Hij as (x & E & Hx). apply pair_equal_spec in E as [<- <-]. specialize (Hrng x Hx). lia. }
    assert (Hroots : root (a_tx_tree s2) = Ok (tx_tree_root b) /\ root (a_signer_tree s2) = Ok (signer_tree_root b) /\ height b = a_height s2).
    { unfold produce_block in Hblk.
      destruct (root (a_utxo_tree s2)) as [ur| |]; try discriminate Hblk.
      destruct (root (a_tx_tree s2)) as [tr| |]; try discriminate Hblk.
      destruct (root (a_signer_tree s2)) as [sr| |]; try discriminate Hblk.
      match type of Hblk with rbind ?m _ = _ => destruct m; try discriminate Hblk end. cbn [rbind] in Hblk.
      match type of Hblk with rbind ?m _ = _ => destruct m; try discriminate Hblk end. cbn [rbind] in Hblk.
      match type of Hblk with rbind ?m _ = _ => destruct m; try discriminate Hblk end. cbn [rbind] in Hblk.
      assert (Eb := f_equal (fun r => match r with Ok x => (tx_tree_root x, signer_tree_root x, height x) | _ => (Fzero, Fzero, u64of 0) end) Hblk).
      cbn in Eb. assert (tr = tx_tree_root b) by congruence. assert (sr = signer_tree_root b) by congruence.
      assert (a_height s2 = height b) by congruence. subst. auto. }
    destruct Hroots as (R1 & R2 & R3).
    apply not_eq_sym, Feqb_neq in Hb.
    destruct (C79_accepted acc dbg (a_tx_tree s2) (a_signer_tree s2) ct ck b k (map (fun i => (i, i)) idx) a us HT2 HT R1 R2 Ha Hpk)
      as (us' & S1 & S2 & S3 & _).
    - rewrite R3, E4, U8. exact Hh.
    - rewrite Hb. pose proof max_cmp_big. lia.
    - rewrite Hb, map_map. cbn [fst]. rewrite map_id. exact Hsort.
    - intros i j Hij. apply in_map_iff in Hij as (x & E & Hx). apply pair_equal_spec in E as [<- <-].
      pose proof (Hrng x Hx). split; [ lia |]. split; [ lia |].
      destruct (Hidx x Hx) as (t & k0 & osg & En & El & Hau & Hreal).
      assert (Et : nth_error (a_txs s1) (Z.to_nat x) = Some t) by (rewrite Etx, nth_error_map, En; reflexivity).
      pose proof (HA _ _ _ _ Et El) as Hsg. rewrite Hau in Hsg.
      assert (Ect : ct x = t).
      { unfold ct, tx_contents. replace (x <? 0) with false by (symmetry; apply Z.ltb_ge; lia).
        apply nth_error_nth. rewrite nth_error_map, En. reflexivity. }
      unfold ck. rewrite Hsg, Ect. symmetry. apply signer_of_owned; [| exact Hreal ].
      rewrite Forall_forall in Hval. pose proof (Hval _ (nth_error_In _ _ En)) as Hv. unfold valid in Hv. cbn [fst snd] in Hv.
      destruct (owned_dec k0 t) as [Ho|Ho]; [ exact Ho |]. rewrite (is_valid_not_owned dbg t k0 Ho) in Hv. discriminate Hv.
    - exists a, us'. rewrite map_length in S1, S2. rewrite map_map in S3. cbn [fst] in S3. auto.
  Qed.
End epoch.

Section coins.
  Context {hs : Hashes} {G : Curve}.
  Variables (contract k : pt).

  Lemma held_app a b : held k (a ++ b) = held k a + held k b.
  Proof. induction a as [|u a IH]; cbn [app held]; lia. Qed.
  Lemma held_nonneg l : 0 <= held k l.
  Proof. induction l as [|u l IH]; cbn [held]; [ lia |]. pose proof (F_range (v_amount u)). destruct (pt_eqb _ _); lia. Qed.
  Lemma held_perm a b : Permutation a b -> held k a = held k b.
  Proof. induction 1; cbn [held]; lia. Qed.
  Lemma held_flat_map {A} (f : A -> list utxoV) l : held k (flat_map f l) = zsumm (map (fun x => held k (f x)) l).
  Proof. induction l as [|x l IH]; cbn [flat_map map zsumm]; [ reflexivity |]. rewrite held_app, IH. reflexivity. Qed.
  (** entries flagged as dummies that [k] holds bear no amount *)
  Definition no_flagged (l : list utxoV) : Prop :=
    forall u, In u l -> v_dummy u = true -> v_pk u = k -> zval (v_amount u) = 0.
  Lemma held_real l : no_flagged l -> held k (filter (fun u => negb (v_dummy u)) l) = held k l.
  Proof.
    induction l as [|u l IH]; intros H; [ reflexivity |]. cbn [filter held].
    assert (Hl : no_flagged l) by (intros v Hv; apply H; now right). specialize (IH Hl).
    destruct (v_dummy u) eqn:E; cbn [negb held]; [| lia ].
    destruct (pt_eqb (v_pk u) k) eqn:Ek; [| lia ]. apply pt_eqb_eq in Ek.
    rewrite (H u ltac:(now left) E Ek). lia.
  Qed.
  Lemma held_not_contract l : k <> contract -> held k (filter (fun u => negb (pt_eqb (v_pk u) contract)) l) = held k l.
  Proof.
    intros Hk. induction l as [|u l IH]; [ reflexivity |]. cbn [filter held].
    destruct (pt_eqb (v_pk u) contract) eqn:E; cbn [negb held]; [| lia ].
    apply pt_eqb_eq in E. rewrite E. replace (pt_eqb contract k) with false; [ lia |].
    symmetry. apply pt_eqb_neq. congruence.
  Qed.
  Lemma held_other l : (forall u, In u l -> v_pk u <> k) -> held k l = 0.
  Proof.
    induction l as [|u l IH]; intros H; [ reflexivity |]. cbn [held]. rewrite IH by (intros v Hv; apply H; now right).
    replace (pt_eqb (v_pk u) k) with false; [ reflexivity |]. symmetry. apply pt_eqb_neq. apply H. now left.
  Qed.

  (** ** C80: along any proof of the aggregator, the value of the coins of [k] changes by what the
      applied transactions bring to [k] by the user's count *)
  Theorem C80_coins to z bs z' (c : contents utxoV_cfg) :
    ivc contract to (z_list z) bs (z_list z') -> z_utxo z = merkle_root c ->
    ~ collides utxoV_cfg utxo_encV c (flat_map (coin_writes contract (z_tx_final z)) (concat bs)) ->
    k <> contract ->
    let applied := filter (is_applied contract (z_tx_final z)) (concat bs) in
    (forall x, In x applied -> no_flagged (a4_list (v_inputs (x_tx x))) /\ no_flagged (a4_list (v_outputs (x_tx x)))) ->
    exists c' : contents utxoV_cfg,
      z_utxo z' = merkle_root c' /\
      held k (live c') = held k (live c) + zsumm (map (fun x => gain k (x_tx x)) applied).
  Proof.
    intros H Hr Hc Hk applied Hf. destruct (C55_no_double_spend contract to z bs z' c H Hr Hc) as (c' & E & HP).
    exists c'. split; [ exact E |]. apply held_perm in HP. rewrite !held_app, !held_flat_map in HP.
    apply ivc_crun in H as (z1 & E1 & H). apply z_list_inj in E1. subst z1.
    set (xs := concat bs) in *. set (final := z_tx_final z) in *.
    pose proof (crun_steps contract to xs z z' H) as HS. fold final in HS. rewrite Forall_forall in HS.
    assert (Hx : forall x, In x xs -> held k (created contract final x) - held k (consumed final x)
                   = if is_applied contract final x then gain k (x_tx x) else 0).
    { intros x Hin. destruct (HS x Hin) as (za & zb & _ & Hw & Hs).
      pose proof (step_facts_of contract to za x zb Hw Hs) as S. destruct (sf_valid _ _ _ _ _ S) as [Ho _].
      unfold created, consumed. destruct (is_applied contract final x) eqn:Ea.
      - destruct (Hf x) as [F1 F2]; [ apply filter_In; auto |].
        rewrite held_not_contract by exact Hk. unfold realV. rewrite held_real by exact F2. unfold gain.
        destruct (is_signed final x) eqn:Es.
        + rewrite held_real by exact F1. reflexivity.
        + unfold is_applied in Ea. rewrite Es in Ea. cbn [orb] in Ea. unfold by_contract in Ea. apply pt_eqb_eq in Ea.
          rewrite <- (held_real (a4_list (v_inputs (x_tx x)))) by exact F1.
          rewrite (held_other (filter _ _)); [ cbn [held]; lia |].
          intros u Hu. apply filter_In in Hu as [Hu Hd]. apply negb_true_iff in Hd. rewrite (Ho u Hu Hd), Ea. congruence.
      - assert (Es : is_signed final x = false) by (unfold is_applied in Ea; now apply orb_false_iff in Ea as [Ea _]).
        rewrite Es. cbn [held]. lia. }
    assert (Hsum : zsumm (map (fun x => held k (created contract final x)) xs) - zsumm (map (fun x => held k (consumed final x)) xs)
                   = zsumm (map (fun x => gain k (x_tx x)) applied)).
    { unfold applied. clear - Hx. induction xs as [|x xs IH]; [ reflexivity |]. cbn [map zsumm filter].
      specialize (IH (fun y Hy => Hx y (or_intror Hy))). specialize (Hx x (or_introl eq_refl)).
      destruct (is_applied contract final x); cbn [map zsumm]; lia. }
    clear - HP Hsum. lia.
  Qed.

  (** a transaction that concerns [k] *)
  Definition concerns (t : txV) : bool := negb (gain k t =? 0).
  Lemma zsumm_perm a b : Permutation a b -> zsumm a = zsumm b.
  Proof. induction 1; cbn [zsumm]; lia. Qed.
  Lemma zsumm_concerns l : zsumm (map (gain k) (filter concerns l)) = zsumm (map (gain k) l).
  Proof.
    induction l as [|t l IH]; [ reflexivity |]. cbn [filter map zsumm]. unfold concerns at 1.
    destruct (gain k t =? 0) eqn:E; cbn [negb map zsumm]; [ apply Z.eqb_eq in E |]; lia.
  Qed.
  Lemma zsumm_flat {A} (f : A -> list txV) l : zsumm (map (fun a => zsumm (map (gain k) (f a))) l) = zsumm (map (gain k) (flat_map f l)).
  Proof. induction l as [|x l IH]; [ reflexivity |]. cbn [map zsumm flat_map]. now rewrite map_app, zsumm_app, IH. Qed.

  (** A user who processes exactly the applied transactions that concern them, each once, ends with
      a balance that differs from the value of their coins by as much as at the start. *)
  Theorem C80_balance_is_coins acc N to z bs z' (c : contents utxoV_cfg) l s s' :
    ivc contract to (z_list z) bs (z_list z') -> z_utxo z = merkle_root c ->
    ~ collides utxoV_cfg utxo_encV c (flat_map (coin_writes contract (z_tx_final z)) (concat bs)) ->
    k <> contract ->
    let applied := filter (is_applied contract (z_tx_final z)) (concat bs) in
    (forall x, In x applied -> no_flagged (a4_list (v_inputs (x_tx x))) /\ no_flagged (a4_list (v_outputs (x_tx x)))) ->
    (* the user's run *)
    urun acc N (u_list s) l (u_list s') -> (forall a, In a l -> ux_pk a = k) ->
    Permutation (filter concerns (flat_map transactions l)) (filter concerns (map x_tx applied)) ->
    exists c' : contents utxoV_cfg,
      z_utxo z' = merkle_root c' /\
      (zval (us_balance s') - held k (live c')) mod p = (zval (us_balance s) - held k (live c)) mod p /\
      (zval (us_balance s) = held k (live c) -> held k (live c') < p -> zval (us_balance s') = held k (live c')).
  Proof.
    intros H Hr Hc Hk applied Hf Hu Hpk HP.
    destruct (C80_coins to z bs z' c H Hr Hc Hk Hf) as (c' & E & Hc'). fold applied in Hc'.
    exists c'. split; [ exact E |].
    destruct (C64_balance acc N l s _ Hu) as (s1 & E1 & B & _). apply u_list_inj in E1. subst s1.
    assert (Es : zsumm (map step_gain l) = zsumm (map (fun x => gain k (x_tx x)) applied)).
    { rewrite (map_ext_in _ (fun a => zsumm (map (gain k) (transactions a)))).
      - rewrite zsumm_flat, <- zsumm_concerns, (zsumm_perm _ _ (Permutation_map (gain k) HP)), zsumm_concerns, map_map. reflexivity.
      - intros a Ha. unfold step_gain. now rewrite (Hpk a Ha). }
    rewrite Es in B. pose proof (held_nonneg (live c')) as Hn. revert B Hc' Hn. clear.
    generalize (held k (live c')), (held k (live c)). intros h' h B Ec Hn. rewrite B. split.
    - rewrite Zminus_mod_idemp_l. f_equal. lia.
    - intros E0 Hlt. rewrite E0, <- Ec. apply Z.mod_small. lia.
  Qed.
End coins.

Print Assumptions C79_epoch.
Print Assumptions C80_coins.
Print Assumptions C80_balance_is_coins.

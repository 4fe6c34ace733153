(** Properties C64-C68, C72-C74: the user's circuit, step by step and along runs. *)
From Coq Require Import ZArith List Bool Lia Sorted.
Import ListNotations.
From Verif Require Import Base Env Circuit SparseMT SparseMTSpec SparseMTHeap SparseMTRep SparseMTProofs
  SparseMTGadget SparseMTGadgetProofs Data DataSpec DataFacts Gadgets GadgetsProofs PropsData AggCircuit AggCircuitSpec CircuitRun
  PropsTree Client ClientSpec ClientFacts.
Open Scope Z_scope.

Section props.
  Context {hs : Hashes} {G : Curve}.
  Variables (acc : accumulator) (N : nat).

  Lemma u_of_u_list s : u_of_list (u_list s) = Some s.
  Proof. now destruct s. Qed.
  Lemma satisfied_state s a z' : satisfied acc N (u_list s) a z' <-> step_conditions N s a /\ z' = u_list (step_result acc s a).
  Proof.
    rewrite satisfied_iff. split.
    - intros (s' & E & H). rewrite u_of_u_list in E. assert (s' = s) as -> by congruence. exact H.
    - intros H. exists s. split; [ apply u_of_u_list | exact H ].
  Qed.
  Lemma u_list_inj s s' : u_list s = u_list s' -> s = s'.
  Proof. intros H. apply (f_equal u_of_list) in H. rewrite !u_of_u_list in H. congruence. Qed.

  Lemma urun_inv s a l z' : urun acc N (u_list s) (a :: l) z' ->
    step_conditions N s a /\ urun acc N (u_list (step_result acc s a)) l z'.
  Proof.
    intros H. inversion H as [|? ? z1 ? ? H1 H2 ]. apply satisfied_state in H1 as [C ->]. auto.
  Qed.
  Lemma urun_nil_inv s z' : urun acc N (u_list s) [] z' -> z' = u_list s.
  Proof. intros H. inversion H. reflexivity. Qed.

  (** Induction over runs of states *)
  Lemma run_ind (Q : ustate -> list user_auxV -> ustate -> Prop) :
    (forall s, Q s [] s) ->
    (forall s a l s', step_conditions N s a -> urun acc N (u_list (step_result acc s a)) l (u_list s') ->
       Q (step_result acc s a) l s' -> Q s (a :: l) s') ->
    forall l s z', urun acc N (u_list s) l z' -> exists s', z' = u_list s' /\ Q s l s'.
  Proof.
    intros H0 H1 l. induction l as [|a l IH]; intros s z' H.
    - apply urun_nil_inv in H as ->. exists s. auto.
    - apply urun_inv in H as [C H6]. destruct (IH _ _ H6) as (s' & -> & HQ). exists s'. split; auto.
  Qed.

  (** ** C64 *)
  Theorem C64_balance l s z' :
    urun acc N (u_list s) l z' ->
    exists s', z' = u_list s' /\
      zval (us_balance s') = (zval (us_balance s) + zsumm (map step_gain l)) mod p /\
      zval (us_nonce s') = (zval (us_nonce s) + zsumm (map step_signed l)) mod p.
  Proof.
    apply (run_ind (fun s l s' => zval (us_balance s') = (zval (us_balance s) + zsumm (map step_gain l)) mod p /\
      zval (us_nonce s') = (zval (us_nonce s) + zsumm (map step_signed l)) mod p)).
    - intros s0. cbn [map zsumm]. rewrite !Z.add_0_r, !Z.mod_small by apply F_range. auto.
    - intros s0 a l0 s' _ _ [H1 H2]. cbn [map zsumm]. cbn [step_result us_balance us_nonce] in H1, H2.
      rewrite zval_Fof, Zplus_mod_idemp_l in H1, H2. rewrite H1, H2. split; f_equal; lia.
  Qed.

  (** ** C66 *)
  Lemma lt_trans3 : Relations_1.Transitive Z.lt.
  Proof. intros x y z; lia. Qed.
  Lemma sorted_strong l : Sorted Z.lt l -> StronglySorted Z.lt l.
  Proof. apply Sorted_StronglySorted. intros x y z; lia. Qed.
  Lemma sorted_last x l y : StronglySorted Z.lt (x :: l) -> In y (x :: l) -> y <= last l x.
  Proof.
    revert x y. induction l as [|w l IH]; intros x y H Hy; cbn [In] in Hy.
    - cbn [last]. destruct Hy as [->|[]]. lia.
    - replace (last (w :: l) x) with (last l w).
      2:{ clear. revert w. induction l as [|v l IH]; intros w; [ reflexivity |].
          change (last (v :: l) w = last (v :: l) x). clear. revert v. induction l as [|u l IH]; intros v; [ reflexivity |].
          change (last (u :: l) w = last (u :: l) x). apply IH. }
      inversion H as [|? ? H1 H2]; subst. pose proof (Forall_inv H2) as H3. cbv beta in H3.
      destruct Hy as [<-|Hy].
      + specialize (IH w w H1 ltac:(now left)). lia.
      + apply IH; auto.
  Qed.
  Lemma sorted_app x l l' :
    StronglySorted Z.lt (x :: l) -> StronglySorted Z.lt (last l x :: l') -> StronglySorted Z.lt (x :: l ++ l').
  Proof.
    revert x. induction l as [|w l IH]; intros x H H'; cbn [app]; [ exact H' |].
    assert (E : last (w :: l) x = last l w).
    { clear. revert w. induction l as [|v l IH]; intros w; [ reflexivity |].
      change (last (v :: l) x = last (v :: l) w). clear. revert v. induction l as [|u l IH]; intros v; [ reflexivity |].
      change (last (u :: l) x = last (u :: l) w). apply IH. }
    rewrite E in H'. inversion H as [|? ? H1 H2]; subst. specialize (IH w H1 H').
    constructor; [ exact IH |]. constructor; [ exact (Forall_inv H2) |].
    inversion IH as [|? ? H3 H4]; subst. pose proof (Forall_inv H2) as H5. cbv beta in H5.
    eapply Forall_impl; [| exact H4 ]. intros v Hv. lia.
  Qed.

  Lemma indices_bound s a i : step_conditions N s a -> In i (indices a) -> 0 < i <= max_cmp.
  Proof.
    intros (L & _ & _ & _ & _ & Hs & Hi) Hin. apply sorted_strong in Hs.
    inversion Hs as [|? ? _ H]; subst. rewrite Forall_forall in H. specialize (H i Hin). pose proof (F_range (start_index s a)).
    split; [ lia |].
    unfold indices in Hin. apply in_map_iff in Hin as ([t j] & <- & Hin). apply filter_In in Hin as [Hin _].
    apply In_nth_error in Hin as (n & Hn). destruct L as (L1 & L2 & L3).
    assert (n < N)%nat by (rewrite <- L2; apply nth_error_Some; congruence).
    destruct (nth_error (ux_tx_proofs a) n) as [tp|] eqn:E1; [| apply nth_error_None in E1; lia ].
    destruct (nth_error (ux_signer_proofs a) n) as [sp|] eqn:E2; [| apply nth_error_None in E2; lia ].
    destruct (Hi n t j tp sp) as (_ & _ & HH & _); [ repeat split; assumption | exact HH ].
  Qed.
  Lemma index_after s a : step_conditions N s a ->
    zval (us_index (step_result acc s a)) = last (indices a) (zval (start_index s a)).
  Proof.
    intros C. cbn [step_result us_index]. apply zval_Fof_small.
    pose proof (F_range (start_index s a)). pose proof C as (_ & _ & _ & _ & _ & Hs & _). apply sorted_strong in Hs.
    assert (In (last (indices a) (zval (start_index s a))) (zval (start_index s a) :: indices a)).
    { clear. generalize (zval (start_index s a)). induction (indices a) as [|x l IH]; intros z; [ now left |].
      destruct l as [|y l]; [ right; now left |]. change (last (x :: y :: l) z) with (last (y :: l) z).
      destruct (IH z) as [H|H]; [ now left | right; now right ]. }
    destruct H0 as [<-|H0]; [ assumption |]. apply (indices_bound s) in H0; [| exact C ].
    pose proof p_bounds. unfold max_cmp in H0. assert ((p - 1) / 2 < p) by (apply Z.div_lt_upper_bound; lia). lia.
  Qed.

  Theorem C66_step s a z' :
    satisfied acc N (u_list s) a z' ->
    exists s', z' = u_list s' /\
      let start := if Feqb (step_block a) (us_block s) then zval (us_index s) else 0 in
      StronglySorted Z.lt (start :: indices a) /\
      (forall i, In i (indices a) -> 0 < i <= max_cmp) /\
      us_block s' = step_block a /\ zval (us_index s') = last (indices a) start.
  Proof.
    rewrite satisfied_state. intros [C ->]. exists (step_result acc s a). split; [ reflexivity |].
    assert (E : (if Feqb (step_block a) (us_block s) then zval (us_index s) else 0) = zval (start_index s a)).
    { unfold start_index. destruct (Feqb _ _); auto. }
    cbv zeta. rewrite E. split; [ apply sorted_strong; apply C |]. split; [ intros i; now apply (indices_bound s) |].
    split; [ reflexivity | now apply index_after ].
  Qed.

  (** consecutive steps on one block *)
  Lemma same_block_run b l : forall s z', urun acc N (u_list s) l z' -> Forall (fun a => step_block a = b) l ->
    us_block s = b -> StronglySorted Z.lt (zval (us_index s) :: flat_map indices l).
  Proof.
    induction l as [|a l IH]; intros s z' H Hb Es; cbn [flat_map]; [ repeat constructor |].
    apply urun_inv in H as [C H5].
    inversion Hb as [|? ? Ha Hl]; subst. specialize (IH _ _ H5 Hl Ha). rewrite (index_after s a C) in IH.
    assert (E : start_index s a = us_index s) by (unfold start_index; now rewrite Ha, Feqb_refl).
    rewrite E in IH. apply sorted_app; [| exact IH ]. apply sorted_strong. rewrite <- E. apply C.
  Qed.
  Theorem C66_one_block b l s z' :
    urun acc N (u_list s) l z' -> Forall (fun a => step_block a = b) l ->
    StronglySorted Z.lt (flat_map indices l) /\
    (forall i, In i (flat_map indices l) -> 0 < i <= max_cmp) /\
    (us_block s = b -> forall i, In i (flat_map indices l) -> zval (us_index s) < i).
  Proof.
    intros H Hb. split; [| split ].
    - destruct l as [|a l]; [ constructor |]. apply urun_inv in H as [C H5].
      inversion Hb as [|? ? Ha Hl]; subst. cbn [flat_map].
      pose proof (same_block_run _ _ _ _ H5 Hl eq_refl) as H1. rewrite (index_after s a C) in H1.
      assert (H2 : StronglySorted Z.lt (zval (start_index s a) :: indices a ++ flat_map indices l)).
      { apply sorted_app; [| exact H1 ]. apply sorted_strong. apply C. }
      now inversion H2.
    - clear Hb. revert s H. induction l as [|a l IH]; intros s H i Hi; [ destruct Hi |].
      apply urun_inv in H as [C H5]. cbn [flat_map] in Hi. apply in_app_or in Hi as [Hi|Hi].
      + eapply indices_bound; eauto.
      + eapply IH; eauto.
    - intros Es i Hi. pose proof (same_block_run b l s z' H Hb Es) as H1. inversion H1 as [|? ? _ H2]; subst.
      rewrite Forall_forall in H2. auto.
  Qed.

  (** ** C67 *)
  Lemma slot_val (P : SparseConfig) (i : F) : 0 < capacity P -> in_range P (slot_of P i).
  Proof. intros H. unfold in_range, slot_of. now apply Z.mod_pos_bound. Qed.
  Lemma txV_ok : cfg_ok txV_cfg. Proof. unfold cfg_ok. cbn. lia. Qed.
  Lemma keyV_ok : cfg_ok keyV_cfg. Proof. unfold cfg_ok. cbn. lia. Qed.
  Lemma cap_tx : capacity txV_cfg = 4096. Proof. reflexivity. Qed.
  Lemma cap_key : capacity keyV_cfg = 4096. Proof. reflexivity. Qed.
  Lemma tx_ok_verify dbg blk t i tp : length tp = 12%nat ->
    tx_ok blk t i tp = true <-> verify_with_index dbg txV_cfg tp (vb_tx_root blk) t (slot_of txV_cfg i) = Ok true.
  Proof.
    intros L. rewrite (vwi_in dbg txV_cfg txV_ok) by (apply slot_val; rewrite cap_tx; lia).
    unfold chain_ok, tx_ok, slot_of. change (HEIGHT txV_cfg - 1)%nat with 12%nat. rewrite L, Nat.eqb_refl. cbn [andb].
    change (capacity txV_cfg) with (pw 12). rewrite chain_mod by exact L. change (LeafHash txV_cfg t) with (tx_hashV t).
    generalize (match chain tp (zval i) (tx_hashV t) with Some y => Feqb (vb_tx_root blk) y | None => false end).
    intros b. split; [ intros ->; reflexivity | congruence ].
  Qed.
  Lemma signer_ok_verify blk t sp : length sp = 12%nat ->
    signer_ok blk t sp = true <-> verify keyV_cfg sp (vb_signer_root blk) (signer_of t) = Ok true.
  Proof.
    intros L. rewrite (verify_eq keyV_cfg keyV_ok).
    unfold signer_ok. change (HEIGHT keyV_cfg - 1)%nat with 12%nat. rewrite L, Nat.eqb_refl. cbn [andb].
    change (LeafHash keyV_cfg (signer_of t)) with (pk_hashV (signer_of t)).
    generalize (match verify_loop sp (pk_hashV (signer_of t)) with Some y => Feqb (vb_signer_root blk) y | None => false end).
    intros b. split; [ intros ->; reflexivity | congruence ].
  Qed.

  Theorem C67_inclusion s a z' n t i tp sp :
    satisfied acc N (u_list s) a z' -> item_at a n t i tp sp -> regular t = true ->
    (forall ct : contents txV_cfg, vb_tx_root (ux_block a) = merkle_root ct ->
       let pos := zval i mod 4096 in
       t = ct pos \/ collision2 (tp ++ genuine_path ct pos) \/ crh_collision (tx_encV t) (tx_encV (ct pos))) /\
    (forall ck : contents keyV_cfg, vb_signer_root (ux_block a) = merkle_root ck ->
       exists pos, 0 <= pos < 4096 /\
         (signer_of t = ck pos \/ collision2 (sp ++ genuine_path ck pos) \/
          crh_collision (pt_encV (signer_of t)) (pt_encV (ck pos)))).
  Proof.
    rewrite satisfied_state. intros [(L & _ & _ & _ & _ & _ & C) _] Hi Hr.
    destruct (C _ _ _ _ _ Hi) as (L1 & L2 & _ & H). destruct (H Hr) as [H1 H2].
    apply (tx_ok_verify true) in H1; [| exact L1 ]. apply signer_ok_verify in H2; [| exact L2 ].
    split.
    - intros ct Ec. rewrite Ec in H1. cbv zeta. change (zval i mod 4096) with (slot_of txV_cfg i).
      assert (Hu : is_u64 (slot_of txV_cfg i)).
      { pose proof (slot_val txV_cfg i ltac:(rewrite cap_tx; lia)) as Hv. unfold in_range in Hv. rewrite cap_tx in Hv.
        unfold is_u64, two64. lia. }
      apply (C08_verify_with_index_sound txV_cfg txV_ok) in H1; [| exact Hu ]. destruct H1 as [_ [H1|H1]]; [| right; left; exact H1 ].
      destruct (list_eq_dec (fun x y : F => F_eq_dec x y) (tx_encV t) (tx_encV (ct (slot_of txV_cfg i)))) as [E|E].
      + left. now apply tx_encV_inj.
      + right. right. split; [ exact E | exact H1 ].
    - intros ck Ec. rewrite Ec in H2. apply (C09_verify_sound keyV_cfg keyV_ok) in H2 as (j & Hj & _ & H2).
      exists j. split; [ exact Hj |]. destruct H2 as [H2|H2]; [| right; left; exact H2 ].
      destruct (list_eq_dec (fun x y : F => F_eq_dec x y) (pt_encV (signer_of t)) (pt_encV (ck j))) as [E|E].
      + left. now apply pt_encV_inj.
      + right. right. split; [ exact E | exact H2 ].
  Qed.

  (** ** C68 *)
  Lemma sorted_nodup l : StronglySorted Z.lt l -> NoDup l.
  Proof.
    induction 1 as [|x l H IH Hx]; constructor; auto. intros Hin. rewrite Forall_forall in Hx. specialize (Hx x Hin). lia.
  Qed.
  Lemma mod_small_map l : (forall i, In i l -> 0 < i < 4096) -> map (fun i => i mod 4096) l = l.
  Proof.
    induction l as [|x l IH]; intros H; cbn [map]; [ reflexivity |]. rewrite Z.mod_small by (specialize (H x ltac:(now left)); lia).
    f_equal. apply IH. intros i Hi. apply H. now right.
  Qed.
  Theorem C68_no_double_credit b l s z' :
    urun acc N (u_list s) l z' -> Forall (fun a => step_block a = b) l ->
    (forall i, In i (flat_map indices l) -> i < 4096) ->
    NoDup (map (fun i => i mod 4096) (flat_map indices l)).
  Proof.
    intros H Hb Hi. destruct (C66_one_block b l s z' H Hb) as (H1 & H2 & _).
    rewrite mod_small_map by (intros i Hin; specialize (Hi i Hin); specialize (H2 i Hin); lia).
    now apply sorted_nodup.
  Qed.

  Lemma nth_map_inv {A B} (f : A -> B) l : forall n y, nth_error (map f l) n = Some y -> exists x, nth_error l n = Some x /\ y = f x.
  Proof.
    induction l as [|a l IH]; intros [|n] y H; cbn in H; try discriminate H; [| now apply IH ].
    exists a. split; [ reflexivity | congruence ].
  Qed.
  (** the same step with every index increased by the capacity of the transaction tree *)
  Definition shifted (a : user_auxV) : user_auxV :=
    {| ux_tx_proofs := ux_tx_proofs a; ux_signer_proofs := ux_signer_proofs a; ux_block := ux_block a;
       ux_txs := map (fun ti => (fst ti, Fof (zval (snd ti) + 4096))) (ux_txs a); ux_pk := ux_pk a |}.
  Lemma shifted_indices a : (forall t i, In (t, i) (ux_txs a) -> zval i + 4096 <= max_cmp) ->
    indices (shifted a) = map (fun i => i + 4096) (indices a).
  Proof.
    intros H. unfold indices, regular_entries, shifted. cbn [ux_txs]. rewrite filter_map. cbn [fst].
    rewrite !map_map. cbn [fst snd]. apply map_ext_in. intros [t i] Hin. apply filter_In in Hin as [Hin _]. cbn [snd].
    specialize (H t i Hin). apply zval_Fof_small. pose proof (F_range i). pose proof p_bounds. unfold max_cmp in H.
    assert ((p - 1) / 2 < p) by (apply Z.div_lt_upper_bound; lia). lia.
  Qed.
  Lemma shifted_gain a : step_gain (shifted a) = step_gain a.
  Proof. unfold step_gain, transactions, shifted. cbn [ux_txs ux_pk]. rewrite !map_map. reflexivity. Qed.
  Lemma max_lt_p : max_cmp < p.
  Proof. pose proof p_bounds. unfold max_cmp. apply Z.div_lt_upper_bound; lia. Qed.
  Theorem C68_replay s a s' :
    satisfied acc N (u_list s) a (u_list s') ->
    (forall i, In i (indices a) -> i < 4096) ->
    (forall t i, In (t, i) (ux_txs a) -> zval i + 4096 <= max_cmp) ->
    exists s'', satisfied acc N (u_list s') (shifted a) (u_list s'') /\
      step_block (shifted a) = step_block a /\ transactions (shifted a) = transactions a /\
      zval (us_balance s'') = (zval (us_balance s') + step_gain a) mod p.
  Proof.
    rewrite satisfied_state. intros [C E] Hs Hm. apply u_list_inj in E as ->.
    exists (step_result acc (step_result acc s a) (shifted a)).
    rewrite satisfied_state. split; [| split; [ reflexivity | split ] ].
    - split; [| reflexivity ]. pose proof (index_after s a C) as Ei. pose proof C as (L & H1 & H2 & H3 & H4 & H5 & H6).
      assert (Est : start_index (step_result acc s a) (shifted a) = us_index (step_result acc s a)).
      { unfold start_index. change (us_block (step_result acc s a)) with (step_block (shifted a)). now rewrite Feqb_refl. }
      unfold step_conditions. rewrite Est, Ei, (shifted_indices a Hm).
      split; [| split; [| split; [| split; [| split; [| split ] ] ] ] ].
      + destruct L as (L1 & L2 & L3). unfold lengths_ok, shifted. cbn [ux_tx_proofs ux_txs ux_signer_proofs]. now rewrite map_length.
      + exact H1.
      + apply Z.le_refl.
      + exact H3.
      + intros Hn. specialize (H4 Hn).
        assert (Hl : forall l z, z <= max_cmp -> (forall i, In i l -> i <= max_cmp) -> last l z <= max_cmp).
        { clear. induction l as [|x l IH]; intros z Hz Hl; [ exact Hz |]. destruct l as [|y l]; [ apply Hl; now left |].
          apply IH; [ exact Hz |]. intros i Hi. apply Hl. now right. }
        apply Hl; [ exact H4 |]. intros i Hi. pose proof (indices_bound s a i C Hi). lia.
      + assert (Hb : forall i, In i (indices a) -> 0 < i < 4096).
        { intros i Hi. pose proof (indices_bound s a i C Hi). specialize (Hs i Hi). lia. }
        inversion H5 as [|? ? S1 S2]; subst. revert Hb S1. clear. generalize (zval (start_index s a)). intros st.
        generalize (indices a). intros l Hb S.
        assert (Hl : l = [] \/ last l st < 4096).
        { destruct l as [|x l]; [ now left | right ]. clear S. revert x Hb. induction l as [|y l IH]; intros x Hb.
          - cbn. specialize (Hb x ltac:(now left)). lia.
          - change (last (y :: l) st < 4096). apply IH. intros i Hi. apply Hb. now right. }
        destruct l as [|x l]; [ repeat constructor |]. destruct Hl as [Hl|Hl]; [ discriminate Hl |].
        constructor.
        * revert S. clear. intros S. induction S as [|y r S IH H]; cbn [map]; constructor; auto. destruct H; cbn [map]; constructor. lia.
        * cbn [map]. constructor. specialize (Hb x ltac:(now left)). lia.
      + intros n t i tp sp (I1 & I2 & I3). unfold shifted in I1, I2, I3. cbn [ux_tx_proofs ux_txs ux_signer_proofs] in I1, I2, I3.
        apply nth_map_inv in I1 as ([t0 i0] & E0 & I1). cbn [fst snd] in I1. apply pair_equal_spec in I1 as [-> ->].
        destruct (H6 n t0 i0 tp sp) as (Q1 & Q2 & Q3 & Q4); [ repeat split; assumption |].
        pose proof (Hm t0 i0 (nth_error_In _ _ E0)) as Hb. pose proof (F_range i0). pose proof max_lt_p.
        assert (Ez : zval (Fof (zval i0 + 4096)) = zval i0 + 4096) by (apply zval_Fof_small; lia).
        split; [ exact Q1 |]. split; [ exact Q2 |]. split; [ lia |].
        intros Hr. destruct (Q4 Hr) as [Q5 Q6]. split; [| exact Q6 ].
        apply (tx_ok_verify true); [ exact Q1 |]. apply (tx_ok_verify true) in Q5; [| exact Q1 ].
        replace (slot_of txV_cfg (Fof (zval i0 + 4096))) with (slot_of txV_cfg i0); [ exact Q5 |].
        unfold slot_of. rewrite Ez, cap_tx. symmetry. exact (Z_mod_plus_full (zval i0) 1 4096).
    - unfold transactions, shifted. cbn [ux_txs]. rewrite map_map. reflexivity.
    - cbn [step_result us_balance]. rewrite shifted_gain. apply zval_Fof.
  Qed.
End props.

Print Assumptions C64_balance.
Print Assumptions C66_step.
Print Assumptions C66_one_block.
Print Assumptions C67_inclusion.
Print Assumptions C68_no_double_credit.
Print Assumptions C68_replay.

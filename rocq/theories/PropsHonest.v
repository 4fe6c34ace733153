(** C53: an honestly run epoch is provable, and its final circuit state is what the contract
    derives from the produced block. *)
From Coq Require Import ZArith List Bool Lia Permutation.
Import ListNotations.
From Verif Require Import Base Env Circuit SparseMT SparseMTSpec SparseMTHeap SparseMTRep SparseMTNew
  SparseMTProofs SparseMTGadget SparseMTGadgetProofs Data DataSpec DataFacts PropsData Gadgets GadgetsProofs Schnorr SchnorrProofs
  HMap Contract ContractSpec PropsContract PropsBlock Aggregator AggSpec AggFacts AggSign AggIntake PropsIntake
  AggCircuit AggCircuitFacts AggCircuitSpec CircuitRun PropsCircuit PropsCircuit2 PropsCircuit3 Honest.
From Verif Require PropsSign.
Open Scope Z_scope.

Section props.
  Context {hs : Hashes} {G : Curve} (dbg : bool) (contract : pt).

  (** ** Logs against chain entries *)
  Lemma real_alloc v : realV (a4_map utxo_alloc v) = map utxo_alloc (real (a4_list v)).
  Proof.
    unfold realV, real. rewrite a4_map_list. induction (a4_list v) as [|u l IH]; [ reflexivity |].
    cbn [map filter]. cbn [utxo_alloc v_dummy]. destruct (negb (is_dummy u)); cbn [map]; now rewrite IH.
  Qed.
  Lemma amount_entry_alloc k (a : u64) : amount_entry k (zval (Fu64 a)) = entry_bytes (k, a).
  Proof. unfold amount_entry, entry_bytes. cbn [fst snd]. now rewrite zval_Fu64. Qed.
  Lemma deposit_log inp :
    deposit_entries contract (inputs_alloc inp) =
    map entry_bytes (new_deposits contract (i_sender inp) (real (a4_list (outputs (i_tx inp))))).
  Proof.
    unfold deposit_entries, by_contract, new_deposits. cbn [inputs_alloc x_sender x_tx tx_alloc v_outputs].
    destruct (pt_eqb (i_sender inp) contract); [| reflexivity ].
    rewrite real_alloc, !map_map. apply map_ext. intros u. cbn [utxo_alloc v_pk v_amount]. apply amount_entry_alloc.
  Qed.
  Lemma withdrawn_alloc inp : AggCircuitSpec.withdrawn contract (inputs_alloc inp) = AggSign.withdrawn contract (i_tx inp).
  Proof.
    unfold AggCircuitSpec.withdrawn, AggSign.withdrawn, AggFacts.to_contract, real.
    cbn [inputs_alloc x_tx tx_alloc v_outputs]. rewrite a4_map_list.
    induction (a4_list (outputs (i_tx inp))) as [|u l IH]; [ reflexivity |].
    cbn [map filter]. cbn [utxo_alloc v_pk].
    destruct (pt_eqb (pk u) contract) eqn:Ek, (is_dummy u) eqn:Ed; cbn [negb filter vtotal map]; rewrite ?Ek;
      cbn [utxo_alloc v_dummy v_amount map]; rewrite ?Ed, ?zval_Fu64; auto.
    change (zval (amount u) + vtotal (filter (fun u0 : utxoV => pt_eqb (v_pk u0) contract) (map utxo_alloc l)) =
            zval (amount u) + zsum (map (fun u => zval (amount u)) (filter (fun u => pt_eqb (pk u) contract) (filter (fun u => negb (is_dummy u)) l)))).
    f_equal. exact IH.
  Qed.
  Lemma withdrawal_log inp : AggSign.withdrawn contract (i_tx inp) < two64 ->
    withdrawal_entries contract (inputs_alloc inp) =
    map entry_bytes (wd_entry (i_sender inp) (AggSign.withdrawn contract (i_tx inp) mod two64)).
  Proof.
    intros Hl. unfold withdrawal_entries, wd_entry. rewrite withdrawn_alloc.
    pose proof (AggSign.withdrawn_nonneg contract (i_tx inp)) as Hn. rewrite Z.mod_small by lia.
    destruct (AggSign.withdrawn contract (i_tx inp) =? 0) eqn:E.
    - apply Z.eqb_eq in E. rewrite E. reflexivity.
    - apply Z.eqb_neq in E. assert (E1 : 0 <? AggSign.withdrawn contract (i_tx inp) = true) by (apply Z.ltb_lt; lia).
      rewrite E1. cbn [map inputs_alloc x_sender]. f_equal. unfold amount_entry, entry_bytes. cbn [fst snd].
      f_equal. unfold u64_bytes. f_equal. symmetry. apply zval_u64of_small. lia.
  Qed.
  Lemma signed_alloc final inp :
    is_signed final (inputs_alloc inp) = verify_signature (i_sender inp) (tx_enc (i_tx inp) ++ [final]) (i_sig inp).
  Proof.
    unfold is_signed. rewrite (alloc_given (i_sig inp)), (alloc_e_lt (i_sig inp)), andb_true_r by reflexivity.
    cbn [inputs_alloc x_sender x_tx]. pose proof (tx_encV_alloc (i_tx inp)) as E.
    now rewrite E.
  Qed.
  Lemma wf_alloc inp : wf_input (inputs_alloc inp).
  Proof. unfold wf_input, inputs_alloc. cbn [x_sig]. unfold sig_alloc. cbn [v_e]. apply sig_alloc_len. Qed.

  (** ** What one signature step records *)
  Definition real_inputs_by (sv : bool) (t : tx) : Prop :=
    forall u, In u (a4_list (inputs t)) -> is_dummy u = false -> if sv then pk u <> contract else pk u = contract.

  Lemma sign_records s c w ck r t i k osg s' :
    CoinInv dbg s c w ->
    tree_holds dbg signer_cfg (a_signer_tree s) ck -> in_range signer_cfg (Z.of_nat (length (a_signers s))) ->
    nth_error (a_txs s) i = Some t -> root (a_tx_tree s) = Ok r ->
    (authorised contract r t (k, osg) = true ->
       a_index s + Z.of_nat (length (creates contract t)) <= capacity utxo_cfg /\
       real_inputs_by (verify_signature k (tx_enc t ++ [r]) (osig osg)) t) ->
    sign_one dbg contract s tt (i, (k, osg)) = MOk s' tt ->
    exists inp c',
      a_ivc s' = a_ivc s ++ [inp] /\ i_tx inp = t /\ i_sender inp = k /\ i_sig inp = osig osg /\
      nth_error (a_tx_proofs s) i = Some (i_tx_proof inp) /\
      (exists w', CoinInv dbg s' c' w') /\ length (i_signer_proof inp) = 12%nat /\
      let x := inputs_alloc inp in
      let sv := verify_signature k (tx_enc t ++ [r]) (osig osg) in
      let tv := authorised contract r t (k, osg) in
      Forall (fun y => length (snd (fst y)) = 31%nat) (dels x) /\
      Forall (fun y => length (snd (fst y)) = 31%nat) (adds x) /\
      ok_fold (del_ok sv) (del_next sv) (dels x) (merkle_root c) = true /\
      ok_fold (item_ok utxoV_cfg (add_write contract tv)) (item_next utxoV_cfg (add_write contract tv)) (adds x)
        (fold_left (del_next sv) (dels x) (merkle_root c)) = true /\
      fold_left (item_next utxoV_cfg (add_write contract tv)) (adds x)
        (fold_left (del_next sv) (dels x) (merkle_root c)) = merkle_root c' /\
      if tv then
        i_signer_proof inp = sib_path 0 12 (digests ck) (Z.of_nat (length (a_signers s))) /\
        tree_holds dbg signer_cfg (a_signer_tree s') (set_leaf ck (Z.of_nat (length (a_signers s))) k)
      else a_signer_tree s' = a_signer_tree s.
  Proof.
    intros HI HK Hin Et Er Hau H. unfold sign_one in H. rewrite Et, Er in H. fold (osig osg) in H.
    change (accepts contract r t k (osig osg)) with (authorised contract r t (k, osg)) in H.
    destruct (authorised contract r t (k, osg)) eqn:Ea.
    - destruct (Hau eq_refl) as [Hcap Hby].
      destruct (tree_holds_update dbg signer_cfg AggFacts.signer_cfg_ok _ _ _ k HK Hin) as (st & spf & Eu & HK' & Espf & _).
      rewrite Eu in H. cbn [mlift mbind fst snd] in H.
      pose proof (coin_inv_signer dbg s c w st (Some k) HI) as HI1.
      destruct (mfold (delete_one dbg contract) _ _ _) as [s2 [dpos dpf]|s2 e|] eqn:Ed; cbn [mbind] in H; try discriminate.
      apply (del_trace dbg contract (verify_signature k (tx_enc t ++ [r]) (osig osg)) t _ c w) in Ed as (c2 & w2 & HI2 & Es2 & Ld & Od & Nd);
        [| exact HI1 | exact Hby ]. cbn [fst snd] in Ld, Od, Nd.
      destruct (mfold (add_one dbg contract k) _ _ _) as [s3 [[apos apf] wd]|s3 e|] eqn:Eadd; cbn [mbind] in H; try discriminate.
      pose proof (add_loop dbg contract k (enum_real (outputs t)) s2 c2 w2
                    (a4_const Fzero) (a4_const (default_two_paths utxo_cfg)) (u64of 0) HI2) as HA.
      rewrite real_enum, <- creates_eq in HA.
      assert (Ei2 : a_index s2 = a_index s) by (rewrite Es2; reflexivity).
      rewrite Eadd in HA. destruct HA as (_ & _ & _ & Es3 & _); [ rewrite Ei2; exact Hcap |].
      apply (add_trace dbg contract k t s2 c2 w2) in Eadd as (c3 & w3 & HI3 & La & Oa & Na);
        [| exact HI2 | rewrite Ei2; exact Hcap ].
      set (s4 := if 0 <? zval wd then with_logs s3 (a_deposits s3) (a_withdrawals s3 ++ [(k, wd)]) else s3) in *.
      assert (E1 : forall A (f : agg -> A), (forall x u v j, f (with_coins x u v j) = f x) ->
                (forall x d e, f (with_logs x d e) = f x) -> f s4 = f (with_signer s st (Some k))).
      { intros A f H1 H2. transitivity (f s3).
        - unfold s4. destruct (0 <? zval wd); auto.
        - rewrite Es3, H2, H1, Es2, H1. reflexivity. }
      destruct (nth_error (a_tx_proofs s4) i) as [tpf|] eqn:Ep; [| discriminate ].
      assert (Es' : s' = with_ivc s4 (mkInputs t tpf dpf dpos apf apos spf k (osig osg))) by congruence.
      exists (mkInputs t tpf dpf dpos apf apos spf k (osig osg)), c3.
      subst s'. split; [ cbn [with_ivc a_ivc]; now rewrite (E1 _ a_ivc) |].
      do 3 (split; [ reflexivity |]). split; [ rewrite (E1 _ a_tx_proofs) in Ep by reflexivity; exact Ep |].
      split. { exists w3. apply coin_inv_ivc. unfold s4. destruct (0 <? zval wd); auto. now apply coin_inv_logs. }
      split. { cbn [i_signer_proof]. rewrite Espf. apply sib_path_length. }
      cbv zeta. change (dels (inputs_alloc (mkInputs t tpf dpf dpos apf apos spf k (osig osg)))) with (a4_zip3 (a4_map utxo_alloc (inputs t)) dpf dpos).
      change (adds (inputs_alloc (mkInputs t tpf dpf dpos apf apos spf k (osig osg)))) with (a4_zip3 (a4_map utxo_alloc (outputs t)) apf apos).
      split; [ exact Ld |]. split; [ exact La |]. split; [ exact Od |]. rewrite Nd. split; [ exact Oa |]. split; [ exact Na |].
      split; [ exact Espf |]. cbn [with_ivc a_signer_tree]. rewrite (E1 _ a_signer_tree) by reflexivity. exact HK'.
    - cbn [mbind] in H. destruct (nth_error (a_tx_proofs (with_signer s (a_signer_tree s) None)) i) as [tpf|] eqn:Ep; [| discriminate ].
      match type of H with MOk (with_ivc _ ?inp) _ = _ => set (inp0 := inp) in * end.
      assert (Es' : s' = with_ivc (with_signer s (a_signer_tree s) None) inp0) by congruence. subst s'.
      exists inp0, c. split; [ reflexivity |]. do 3 (split; [ reflexivity |]). split; [ exact Ep |].
      split. { exists w. now apply coin_inv_ivc, coin_inv_signer. }
      split; [ reflexivity |]. cbv zeta.
      assert (Esv : verify_signature k (tx_enc t ++ [r]) (osig osg) = false).
      { unfold authorised in Ea. cbn [fst snd] in Ea. fold (osig osg) in Ea. now apply orb_false_elim in Ea. }
      rewrite Esv.
      assert (Ed : forall l r0, ok_fold (del_ok false) (del_next false) l r0 = true /\ fold_left (del_next false) l r0 = r0).
      { induction l as [|[[u pf] pos] l IH]; intros r0; [ split; reflexivity |]. cbn [ok_fold fold_left].
        change (del_next false r0 (u, pf, pos)) with r0. exact (IH r0). }
      assert (Eadd : forall l r0, ok_fold (item_ok utxoV_cfg (add_write contract false)) (item_next utxoV_cfg (add_write contract false)) l r0 = true
                 /\ fold_left (item_next utxoV_cfg (add_write contract false)) l r0 = r0).
      { induction l as [|[[u pf] pos] l IH]; intros r0; [ split; reflexivity |]. cbn [ok_fold fold_left].
        change (item_next utxoV_cfg (add_write contract false) r0 (u, pf, pos)) with r0. exact (IH r0). }
      split; [ repeat constructor |]. split; [ repeat constructor |].
      rewrite (proj2 (Ed _ _)). split; [ apply Ed |]. split; [ apply Eadd |]. split; [ apply Eadd | reflexivity ].
  Qed.

  (** ** Simulation *)
  (** A transaction with its sender and signature, as the circuit can handle it: the sender owns
      the real inputs and the amounts balance (both checked at intake) without exceeding 64 bits;
      if it is not applied it pays nothing to the contract; if the contract signs, it has no real
      inputs. *)
  Record provable (final : F) (t : tx) (ks : pt * option signature) : Prop :=
    { pv_owned : owned_by (fst ks) t;
      pv_balance : total_in t = total_out t;
      pv_small : AggSign.withdrawn contract t < two64;
      pv_unapplied : authorised contract final t ks = false ->
        forall u, In u (a4_list (outputs t)) -> is_dummy u = false -> pk u = contract -> zval (amount u) = 0;
      pv_contract : fst ks = contract -> verify_signature (fst ks) (tx_enc t ++ [final]) (osig (snd ks)) = true ->
        forall u, In u (a4_list (inputs t)) -> is_dummy u = true }.

  Record Sim (final : F) (n : nat) (s : agg) (z : zstate) : Prop := mkSim
    { sim_epoch : EpochInv dbg s;
      sim_len : Z.of_nat (length (a_txs s)) <= 4096;
      sim_root : root (a_tx_tree s) = Ok final;
      sim_coins : exists c w, CoinInv dbg s c w /\ z_utxo z = merkle_root c;
      sim_key : exists ck, tree_holds dbg signer_cfg (a_signer_tree s) ck /\ z_signer z = merkle_root ck /\
                  forall i, Z.of_nat n <= i < Z.of_nat (length (a_txs s)) -> ck i = pzero;
      sim_tx : z_tx z = merkle_root (tx_contents (firstn n (a_txs s)));
      sim_final : z_tx_final z = final;
      sim_step : z_step z = Fof (Z.of_nat n);
      sim_signers : length (a_signers s) = n;
      sim_acc : z_signer_acc z = chain (map slot_bytes (a_signers s));
      sim_dep : z_deposit z = chain (map entry_bytes (a_deposits s));
      sim_wd : z_withdrawal z = chain (map entry_bytes (a_withdrawals s)) }.

  Lemma chain_more l l' : chain_from (chain l) l' = chain (l ++ l').
  Proof. unfold chain_from, chain. now rewrite fold_left_app. Qed.
  Lemma zval_step n : Z.of_nat n < 4096 -> zval (Fof (Z.of_nat n)) = Z.of_nat n.
  Proof.
    intros H. apply zval_Fof_small. split; [ lia |]. eapply Z.lt_trans; [ exact H |]. eapply Z.lt_trans; [| exact p_big ]. reflexivity.
  Qed.
  Lemma total_amount u l : In u l -> is_dummy u = false -> zval (amount u) <= total l.
  Proof.
    assert (Hn : forall l, 0 <= total l).
    { induction l0 as [|v l0 IH]; cbn [total]; [ lia |]. pose proof (u64_range (amount v)). destruct (is_dummy v); lia. }
    induction l as [|v l IH]; [ intros [] |]. cbn [total]. pose proof (u64_range (amount v)). specialize (Hn l).
    intros [->|Hi] Hd; [ rewrite Hd; lia |]. specialize (IH Hi Hd). destruct (is_dummy v); lia.
  Qed.
  Lemma withdrawn_zero t :
    (forall u, In u (a4_list (outputs t)) -> is_dummy u = false -> pk u = contract -> zval (amount u) = 0) ->
    AggSign.withdrawn contract t = 0.
  Proof.
    unfold AggSign.withdrawn, AggFacts.to_contract, real. induction (a4_list (outputs t)) as [|u l IH]; intros H; [ reflexivity |].
    cbn [filter]. assert (IH' := IH (fun v Hv => H v (or_intror Hv))). clear IH.
    destruct (is_dummy u) eqn:Ed; cbn [negb filter]; [ exact IH' |].
    destruct (pt_eqb (pk u) contract) eqn:Ek; [| exact IH' ]. apply pt_eqb_eq in Ek.
    cbn [map]. specialize (H u (or_introl eq_refl) Ed Ek).
    change (zval (amount u) + zsum (map (fun u => zval (amount u)) (filter (fun u => pt_eqb (pk u) contract) (filter (fun u => negb (is_dummy u)) l))) = 0).
    rewrite H. exact IH'.
  Qed.

  Lemma sim_one final n s z k osg t s' : p <= q ->
    Sim final n s z -> nth_error (a_txs s) n = Some t -> provable final t (k, osg) ->
    (authorised contract final t (k, osg) = true ->
       a_index s + Z.of_nat (length (creates contract t)) <= capacity utxo_cfg) ->
    sign_one dbg contract s tt (n, (k, osg)) = MOk s' tt ->
    exists inp z', a_ivc s' = a_ivc s ++ [inp] /\ sat (c_step contract false z (inputs_alloc inp)) z' /\
      Sim final (S n) s' z'.
  Proof.
    intros Hpq HS Et HP Hcap H. pose proof HS as [HE Hlen Hr (c & w & HI & Hzu) (ck & HK & Hzk & Hck) Hzt Hzf Hzs Hsg Hacc Hdep Hwd].
    destruct HP as [P1 P2 P3 P4 P5]. cbn [fst snd] in P1, P5.
    assert (Hn : (n < length (a_txs s))%nat) by (apply nth_error_Some; congruence).
    assert (Hin : in_range signer_cfg (Z.of_nat (length (a_signers s)))).
    { unfold in_range. rewrite signer_capacity, Hsg. lia. }
    pose proof (sign_one_spec dbg contract s c w n k osg HI) as HSO. rewrite H in HSO.
    destruct HSO as (t0 & r0 & SO).
    { intros t0 r0 E1 E2 E3. rewrite Et in E1. rewrite Hr in E2. injection E1 as <-. injection E2 as <-. now apply Hcap. }
    pose proof (so_tx _ _ _ _ _ _ _ _ _ SO) as E0. rewrite Et in E0. injection E0 as <-.
    pose proof (so_root _ _ _ _ _ _ _ _ _ SO) as E0. rewrite Hr in E0. injection E0 as <-.
    assert (Hby : authorised contract final t (k, osg) = true -> real_inputs_by (verify_signature k (tx_enc t ++ [final]) (osig osg)) t).
    { intros Ha u Hu Hd. pose proof (P1 u Hu Hd) as Ek.
      destruct (verify_signature k (tx_enc t ++ [final]) (osig osg)) eqn:Ev.
      - intros Ec. rewrite Ek in Ec. pose proof (P5 Ec eq_refl u Hu). congruence.
      - unfold authorised in Ha. cbn [fst snd] in Ha. fold (osig osg) in Ha. rewrite Ev in Ha. cbn [orb] in Ha.
        apply pt_eqb_eq in Ha. congruence. }
    destruct (sign_records s c w ck final t n k osg s' HI HK Hin Et Hr (fun Ha => conj (Hcap Ha) (Hby Ha)) H)
      as (inp & c' & Eivc & Etx & Ek & Esg & Etp & (w' & HI') & Lsp & Ld & La & Od & Oa & Na & Hsig).
    cbv zeta in *.
    assert (Esv : is_signed (z_tx_final z) (inputs_alloc inp) = verify_signature k (tx_enc t ++ [final]) (osig osg)).
    { rewrite signed_alloc, Hzf, Ek, Etx, Esg. reflexivity. }
    assert (Etv : is_applied contract (z_tx_final z) (inputs_alloc inp) = authorised contract final t (k, osg)).
    { unfold is_applied. rewrite Esv. unfold by_contract, authorised. cbn [inputs_alloc x_sender fst snd]. now rewrite Ek. }
    (* the transaction tree *)
    pose proof (ei_proofs _ _ HE Hlen n t Et) as Ep. rewrite Etp in Ep.
    assert (Ep' : i_tx_proof inp = sib_path 0 12 (digests (tx_contents (firstn n (a_txs s)))) (Z.of_nat n)) by congruence. clear Ep.
    assert (Hnt : in_range tx_cfg (Z.of_nat n)). { unfold in_range. rewrite tx_capacity. lia. }
    assert (Hfn : length (firstn n (a_txs s)) = n) by (rewrite firstn_length; lia).
    assert (Hdef : tx_contents (firstn n (a_txs s)) (Z.of_nat n) = tx_default).
    { unfold tx_contents. destruct (Z.of_nat n <? 0) eqn:E; auto. rewrite Nat2Z.id. apply nth_overflow. lia. }
    destruct (sib_path_roots tx_cfg (tx_contents (firstn n (a_txs s))) (Z.of_nat n) t Hnt) as [Rt1 Rt2]. rewrite Hdef in Rt1.
    change (HEIGHT tx_cfg - 1)%nat with 12%nat in Rt1, Rt2. rewrite <- Ep' in Rt1, Rt2.
    assert (Hsucc : firstn (S n) (a_txs s) = firstn n (a_txs s) ++ [t]).
    { clear -Et. revert Et. generalize (a_txs s) as l. induction n as [|n IH]; intros [|y l] E; try discriminate.
      - cbn in E. injection E as <-. reflexivity.
      - change (y :: firstn (S n) l = y :: (firstn n l ++ [t])). f_equal. now apply IH. }
    assert (Rt3 : merkle_root (set_leaf (tx_contents (firstn n (a_txs s))) (Z.of_nat n) t)
                  = merkle_root (tx_contents (firstn (S n) (a_txs s)))).
    { rewrite Hsucc. apply root_ext. intros i Hi. rewrite tx_contents_app by exact Hi. now rewrite Hfn. }
    (* the signer tree *)
    assert (Hks : authorised contract final t (k, osg) = true ->
        fold_sibs (i_signer_proof inp) (Z.of_nat n) (pk_hashV pzero) = z_signer z /\
        fold_sibs (i_signer_proof inp) (Z.of_nat n) (pk_hashV k) = merkle_root (set_leaf ck (Z.of_nat n) k)).
    { intros Ha. rewrite Ha in Hsig. destruct Hsig as [E1 _]. rewrite Hsg in E1, Hin. rewrite E1.
      destruct (sib_path_roots signer_cfg ck (Z.of_nat n) k Hin) as [R1 R2]. rewrite Hck in R1 by lia.
      split; [ rewrite Hzk; exact R1 | exact R2 ]. }
    assert (Hzn : zval (z_step z) = Z.of_nat n). { rewrite Hzs. apply zval_step. lia. }
    assert (Hwle : AggSign.withdrawn contract t < two64) by exact P3.
    destruct (step_intro contract z (inputs_alloc inp) (verify_signature k (tx_enc t ++ [final]) (osig osg)) (authorised contract final t (k, osg)) Hpq (wf_alloc inp)) as (z' & Hsat & Zu & Zt & Zk).
    - split; [ cbn [inputs_alloc x_tx_proof]; rewrite Ep'; apply sib_path_length |]. split; [ exact Lsp |]. split; [ exact Ld | exact La ].
    - exact Esv.
    - exact Etv.
    - cbn [inputs_alloc x_sender x_tx]. rewrite Ek, Etx. intros u Hu Hd. cbn [tx_alloc v_inputs] in Hu. rewrite a4_map_list in Hu.
      apply in_map_iff in Hu as (v & <- & Hv). exact (P1 v Hv Hd).
    - cbn [inputs_alloc x_tx]. rewrite Etx, vtotal_in_alloc, vtotal_out_alloc, P2. reflexivity.
    - cbn [inputs_alloc x_tx_proof]. rewrite Hzn, Hzt. exact Rt1.
    - rewrite Hzu. exact Od.
    - rewrite Hzu. exact Oa.
    - intros Ha. cbn [inputs_alloc x_signer_proof]. rewrite Hzn. now apply Hks.
    - rewrite withdrawn_alloc, Etx. exact Hwle.
    - cbn [inputs_alloc x_tx]. intros u Hu. cbn [tx_alloc v_outputs] in Hu. rewrite a4_map_list in Hu.
      apply in_map_iff in Hu as (v & <- & Hv). cbn [utxo_alloc v_amount]. rewrite zval_Fu64. apply (u64_range (amount v)).
    - exists inp, z'. split; [ exact Eivc |]. split; [ exact Hsat |].
      pose proof (step_facts_of contract false z (inputs_alloc inp) z' (wf_alloc inp) Hsat) as SF.
      assert (Etxs : a_txs s' = a_txs s) by exact (so_txs _ _ _ _ _ _ _ _ _ SO).
      constructor.
      + apply (epoch_same dbg s); [ exact HE | exact Etxs | apply (so_tx_tree _ _ _ _ _ _ _ _ _ SO) | apply (so_tx_proofs _ _ _ _ _ _ _ _ _ SO) ].
      + rewrite Etxs. exact Hlen.
      + rewrite (so_tx_tree _ _ _ _ _ _ _ _ _ SO). exact Hr.
      + exists c', w'. split; [ exact HI' |]. rewrite Zu, Hzu. exact Na.
      + destruct (authorised contract final t (k, osg)) eqn:Ea.
        * exists (set_leaf ck (Z.of_nat n) k). destruct Hsig as [_ HK']. rewrite Hsg in HK'. split; [ exact HK' |]. split.
          -- rewrite Zk. cbn [inputs_alloc x_signer_proof x_sender]. rewrite Hzn, Ek. now apply Hks.
          -- intros i Hi. rewrite Etxs in Hi. unfold set_leaf. destruct (i =? Z.of_nat n) eqn:E; [ apply Z.eqb_eq in E; lia |].
             apply Hck. lia.
        * exists ck. rewrite Hsig, Etxs. split; [ exact HK |]. split; [ rewrite Zk; exact Hzk |].
          intros i Hi. apply Hck. lia.
      + rewrite Zt, Etxs, <- Rt3. cbn [inputs_alloc x_tx_proof x_tx]. rewrite Hzn, Etx. exact Rt2.
      + rewrite (sf_final _ _ _ _ _ SF). exact Hzf.
      + rewrite (sf_step _ _ _ _ _ SF), Hzs. rewrite Nat2Z.inj_succ. rewrite <- Z.add_1_r, Fof_add. reflexivity.
      + rewrite (so_signers _ _ _ _ _ _ _ _ _ SO), app_length, Hsg. cbn [length]. lia.
      + rewrite (sf_acc _ _ _ _ _ SF), Hacc, chain_more, (so_signers _ _ _ _ _ _ _ _ _ SO), map_app. cbn [map].
        f_equal. f_equal. f_equal. unfold signer_entry, slot_bytes. rewrite Etv. cbn [inputs_alloc x_sender]. rewrite Ek.
        now destruct (authorised contract final t (k, osg)).
      + rewrite (sf_deposit _ _ _ _ _ SF), Hdep, chain_more, (so_deposits _ _ _ _ _ _ _ _ _ SO), map_app, deposit_log, Ek, Etx.
        f_equal. f_equal. destruct (authorised contract final t (k, osg)) eqn:Ea; [ reflexivity |].
        unfold authorised in Ea. apply orb_false_elim in Ea as [_ Ea]. cbn [fst] in Ea. unfold new_deposits. now rewrite Ea.
      + rewrite (sf_withdraw _ _ _ _ _ SF), Hwd, chain_more, (so_withdrawals _ _ _ _ _ _ _ _ _ SO), map_app.
        rewrite withdrawal_log by (rewrite Etx; exact Hwle). rewrite Ek, Etx.
        f_equal. f_equal. destruct (authorised contract final t (k, osg)) eqn:Ea; [ reflexivity |].
        rewrite withdrawn_zero by (apply P4; reflexivity). reflexivity.
  Qed.

  Lemma sim_run final l : p <= q -> forall n s z s',
    Sim final n s z -> (n + length l = length (a_txs s))%nat ->
    (forall t ks, In (t, ks) (combine (skipn n (a_txs s)) l) -> provable final t ks) ->
    a_index s + Z.of_nat (length (flat_map (creates contract) (applied contract final (skipn n (a_txs s)) l)))
      <= capacity utxo_cfg ->
    mfold (sign_one dbg contract) (combine (seq n (length l)) l) s tt = MOk s' tt ->
    exists new z', a_ivc s' = a_ivc s ++ new /\ length new = length l /\ crun contract false z (map inputs_alloc new) z' /\
      Sim final (n + length l) s' z'.
  Proof.
    intros Hpq. induction l as [|[k osg] l IH]; intros n s z s' HS Hlen Hp Hcap H.
    - cbn [length seq combine mfold] in H. assert (s' = s) by congruence. subst s'. exists [], z. rewrite app_nil_r.
      split; [ reflexivity |]. split; [ reflexivity |]. split; [ constructor |]. cbn [length]. rewrite Nat.add_0_r. exact HS.
    - cbn [length] in Hlen.
      destruct (nth_error (a_txs s) n) as [t|] eqn:Et; [| apply nth_error_None in Et; lia ].
      rewrite (nth_skipn n _ t Et) in Hp. cbn [combine] in Hp.
      rewrite (applied_cons _ _ _ _ t) in Hcap by exact Et.
      assert (Hc1 : authorised contract final t (k, osg) = true ->
                a_index s + Z.of_nat (length (creates contract t)) <= capacity utxo_cfg).
      { intros Ea. rewrite Ea in Hcap. cbn [app flat_map] in Hcap. rewrite app_length in Hcap. lia. }
      cbn [length seq combine mfold] in H.
      destruct (sign_one dbg contract s tt (n, (k, osg))) as [s1 []|s1 e|] eqn:E1; cbn [mbind] in H; try discriminate.
      pose proof (sim_one final n s z k osg t s1 Hpq HS Et (Hp _ _ (or_introl eq_refl)) Hc1 E1) as (inp & z1 & Ei & Hsat & HS1).
      destruct (sim_coins _ _ _ _ HS) as (c & w & HI & _).
      pose proof (sign_one_spec dbg contract s c w n k osg HI) as HSO. rewrite E1 in HSO.
      destruct HSO as (t0 & r0 & SO).
      { intros t0 r0 X1 X2 X3. rewrite Et in X1. rewrite (sim_root _ _ _ _ HS) in X2.
        assert (t0 = t) by congruence. assert (r0 = final) by congruence. subst. now apply Hc1. }
      pose proof (so_tx _ _ _ _ _ _ _ _ _ SO) as X1. rewrite Et in X1. assert (t0 = t) by congruence. subst t0.
      pose proof (so_root _ _ _ _ _ _ _ _ _ SO) as X2. rewrite (sim_root _ _ _ _ HS) in X2. assert (r0 = final) by congruence. subst r0.
      pose proof (so_txs _ _ _ _ _ _ _ _ _ SO) as Etx. pose proof (so_index _ _ _ _ _ _ _ _ _ SO) as Eix.
      destruct (IH (S n) s1 z1 s' HS1) as (new & z' & Ei' & Ln & Hrun & HS').
      + rewrite Etx. lia.
      + rewrite Etx. intros t1 ks1 Hi. apply Hp. now right.
      + rewrite Etx, Eix. rewrite flat_map_app, app_length in Hcap.
        destruct (authorised contract final t (k, osg)); cbn [flat_map length] in Hcap |- *;
          rewrite ?app_length in Hcap; cbn [length] in Hcap; lia.
      + exact H.
      + exists (inp :: new), z'. split; [ rewrite Ei', Ei, <- app_assoc; reflexivity |]. split; [ cbn [length]; now rewrite Ln |]. split.
        * cbn [map]. econstructor; [ apply wf_alloc | exact Hsat | exact Hrun ].
        * cbn [length]. rewrite <- Nat.add_succ_comm. exact HS'.
  Qed.

  (** ** C53 *)
  (** The state of the circuit at the start of an epoch: step 0, the coins' root, an empty
      transaction tree, the epoch's transaction root, the signers' root, empty chains. *)
  Definition epoch_start (coins_root tx_root signers_root : F) : list F :=
    [Fzero; coins_root; merkle_root (empty_contents tx_cfg); tx_root; signers_root; Fzero; Fzero; Fzero].

  Lemma start_ivc ur tr sr bs zl :
    (exists z', zl = z_list z' /\ crun contract false
       (mkZ Fzero ur (merkle_root (empty_contents tx_cfg)) tr sr Fzero Fzero Fzero) (concat bs) z') ->
    ivc contract false (epoch_start ur tr sr) bs zl.
  Proof.
    unfold epoch_start. generalize (merkle_root (empty_contents tx_cfg)) as e. intros e H.
    exact (proj2 (ivc_crun contract false bs (mkZ Fzero ur e tr sr Fzero Fzero Fzero) zl) H).
  Qed.

  Theorem C53_honest_epoch s s1 s2 pairs l ck kc calls c0 :
    p <= q ->
    (* an epoch starts: nothing taken in, nothing signed, the signer slots blank *)
    reached dbg s -> a_txs s = [] -> a_signers s = [] -> a_deposits s = [] -> a_withdrawals s = [] -> a_ivc s = [] ->
    tree_holds dbg signer_cfg (a_signer_tree s) ck ->
    (forall i, 0 <= i < Z.of_nat (length pairs) -> ck i = pzero) ->
    (* a batch is taken in, then signed by the same senders *)
    process_transactions dbg s pairs = MOk s1 tt -> Z.of_nat (length pairs) <= 4096 ->
    process_signatures dbg s1 contract l = MOk s2 tt -> fits contract s1 l ->
    map fst l = map fst pairs ->
    (* no overflow *)
    (forall k t, In (k, t) pairs -> total_in t < two64 /\ total_out t < two64) ->
    (* unapplied transactions pay nothing to the contract; the contract signs no transaction with a real input *)
    (forall final t ks, root (a_tx_tree s1) = Ok final -> In (t, ks) (combine (map snd pairs) l) ->
       (authorised contract final t ks = false ->
          forall u, In u (a4_list (outputs t)) -> is_dummy u = false -> pk u = contract -> zval (amount u) = 0) /\
       (fst ks = contract -> verify_signature (fst ks) (tx_enc t ++ [final]) (osig (snd ks)) = true ->
          forall u, In u (a4_list (inputs t)) -> is_dummy u = true)) ->
    (* the keys that occur are registered *)
    history dbg kc calls c0 -> Z.of_nat (length (pks c0)) <= 2 ^ 32 -> (forall k, In k (mentioned s2) -> In k (pks c0)) ->
    exists b pi ur tr sr,
      root (a_utxo_tree s) = Ok ur /\ root (a_tx_tree s1) = Ok tr /\ root (a_signer_tree s) = Ok sr /\
      produce_block s2 c0 = Ok b /\ derive_public_inputs c0 b = Ok pi /\
      length (a_ivc s2) = length pairs /\
      (* however the recorded inputs are cut into proof steps *)
      forall bs, concat bs = map inputs_alloc (a_ivc s2) -> ivc contract false (epoch_start ur tr sr) bs pi.
  Proof.
    intros Hpq Hreach T0 G0 D0 W0 I0 HK Hck Hpt Hlen Hps Hfit Hfst Hov Hcond Hhist Hpks Hment.
    destruct (PropsIntake.C40_intake dbg s pairs s1 Hreach T0 Hpt) as (Etx & Hval & Hsame & _ & Hroot).
    destruct (Hroot Hlen) as (Hholds & _ & _).
    destruct Hsame as (U1 & U2 & U3 & U4 & U5 & U6 & U7 & U8 & U9 & U10 & U11).
    assert (Hr1 : reached dbg s1). { eapply reached_intake; [ exact Hreach |]. left. exists tt. exact Hpt. }
    assert (Hr2 : reached dbg s2). { eapply reached_sign; [ exact Hr1 | exact Hfit |]. left. exists tt. exact Hps. }
    pose proof (reached_inv dbg s1 Hr1) as HI1. pose proof (reached_inv dbg s2 Hr2) as HI2.
    destruct (ri_coins _ _ HI1) as (c & w & HC1).
    set (final := merkle_root (tx_contents (map snd pairs))) in *.
    pose proof (tree_holds_root dbg tx_cfg AggFacts.tx_cfg_ok _ _ Hholds) as Htr. fold final in Htr.
    assert (Hll : length l = length pairs). { rewrite <- (map_length fst l), Hfst. apply map_length. }
    pose proof (tree_holds_root dbg signer_cfg AggFacts.signer_cfg_ok _ _ HK) as Hsr.
    assert (Hur : root (a_utxo_tree s1) = Ok (merkle_root c)).
    { unfold root. now rewrite (rep_root _ _ _ _ (built_rep dbg utxo_cfg AggFacts.utxo_cfg_ok _ _ _ (ci_built _ _ _ _ HC1))). }
    set (z0 := mkZ Fzero (merkle_root c) (merkle_root (empty_contents tx_cfg)) final (merkle_root ck) Fzero Fzero Fzero).
    assert (HS0 : Sim final 0 s1 z0).
    { constructor.
      - exact (ri_epoch _ _ HI1).
      - rewrite Etx, map_length. exact Hlen.
      - exact Htr.
      - exists c, w. split; [ exact HC1 | reflexivity ].
      - exists ck. rewrite U6. split; [ exact HK |]. split; [ reflexivity |]. rewrite Etx, map_length. exact Hck.
      - unfold z0. cbn [z_tx firstn]. apply root_ext. intros i _. unfold tx_contents, empty_contents.
        destruct (i <? 0); [ reflexivity |]. now destruct (Z.to_nat i).
      - reflexivity.
      - reflexivity.
      - rewrite U7, G0. reflexivity.
      - rewrite U7, G0. reflexivity.
      - rewrite U4, D0. reflexivity.
      - rewrite U5, W0. reflexivity. }
    destruct (sim_run final l Hpq 0 s1 z0 s2 HS0) as (new & z' & Ei & Ln & Hrun & HS2).
    - rewrite Etx, map_length. cbn. exact Hll.
    - cbn [skipn]. rewrite Etx. intros t ks Hin.
      assert (Hpair : In (fst ks, t) pairs).
      { clear -Hin Hfst. revert l Hfst Hin. induction pairs as [|[k0 t0] ps IH]; intros l Hfst Hin; [ destruct Hin |].
        destruct l as [|ks0 l]; [ destruct Hin |]. cbn [map fst snd combine] in *.
        assert (E1 : fst ks0 = k0) by congruence. assert (E2 : map fst l = map fst ps) by congruence.
        destruct Hin as [Hin|Hin].
        - left. assert (ks0 = ks) by congruence. assert (t0 = t) by congruence. subst. reflexivity.
        - right. exact (IH l E2 Hin). }
      destruct (Hov _ _ Hpair) as [O1 O2].
      rewrite Forall_forall in Hval. specialize (Hval _ Hpair). unfold PropsIntake.valid in Hval. cbn [fst snd] in Hval.
      apply (proj1 (C25_is_valid dbg t (fst ks) O1 O2)) in Hval as [V1 V2].
      destruct (Hcond final t ks Htr Hin) as [C1 C2].
      assert (Hw : AggSign.withdrawn contract t < two64) by (pose proof (PropsSign.withdrawn_le contract t); lia).
      constructor; auto.
    - cbn [skipn]. exact (Hfit final Htr).
    - exact Hps.
    - destruct (C39_block_public_inputs dbg s2 kc calls c0 Hr2 Hhist Hpks Hment)
        as (b & ur & tr & sr & Eb & Eur & Etr & Esr & _ & _ & _ & _ & _ & _ & _ & Epi).
      exists b. eexists. exists (merkle_root c), final, (merkle_root ck).
      split; [ rewrite <- U2; exact Hur |]. split; [ exact Htr |]. split; [ exact Hsr |]. split; [ exact Eb |]. split; [ exact Epi |].
      rewrite U11, I0 in Ei. cbn [app] in Ei.
      pose proof HS2 as [HE2 Hlen2 Hr Hc2 Hk2 Hzt Hzf Hzs Hsg Hacc Hdep Hwd].
      destruct Hc2 as (c2 & w2 & HC2 & Hzu). destruct Hk2 as (ck2 & HK2 & Hzk & _).
      assert (Etxs2 : a_txs s2 = a_txs s1).
      { pose proof (sign_run dbg contract l 0 s1 c w final HC1 Htr) as HR. cbn [skipn] in HR.
        specialize (HR (Hfit final Htr)). unfold process_signatures, enum in Hps. rewrite Hps in HR.
        now apply steps_same in HR as (E & _). }
      split.
      + rewrite Ei, Ln. exact Hll.
      + intros bs Hbs. apply start_ivc. exists z'. split; [| rewrite Hbs, Ei; exact Hrun ].
        unfold z_list. rewrite Hzs, Hsg, Hzu, Hzt, Hzf, Hzk, Hacc, Hdep, Hwd.
        assert (E1 : ur = merkle_root c2).
        { pose proof (rep_root _ _ _ _ (built_rep dbg utxo_cfg AggFacts.utxo_cfg_ok _ _ _ (ci_built _ _ _ _ HC2))) as X.
          assert (Y : root (a_utxo_tree s2) = Ok (merkle_root c2)) by (unfold root; now rewrite X). congruence. }
        assert (E2 : tr = final) by congruence.
        assert (E3 : sr = merkle_root ck2).
        { pose proof (tree_holds_root dbg signer_cfg AggFacts.signer_cfg_ok _ _ HK2). congruence. }
        assert (E4 : merkle_root (tx_contents (firstn (0 + length l) (a_txs s2))) = final).
        { unfold final. f_equal. f_equal. rewrite Etxs2, Etx. apply firstn_all2. rewrite map_length. cbn. lia. }
        rewrite E1, E2, E3, E4. reflexivity.
  Qed.

  Lemma valid_small t k : is_valid true t (Some k) = Ok tt -> total_in t < two64 /\ total_out t < two64.
  Proof.
    intros H. destruct (owned_dec k t) as [Ho|Ho]; [| rewrite is_valid_not_owned in H by exact Ho; discriminate ].
    destruct (Z_lt_ge_dec (total_in t) two64) as [H1|H1];
      [ destruct (Z_lt_ge_dec (total_out t) two64) as [H2|H2]; [ now split |] |];
      rewrite (proj1 C26_is_valid_overflow t k Ho) in H by lia; discriminate.
  Qed.
End props.

(** The first epoch of a new aggregator, overflow checks on. *)
Corollary C53_first_epoch {hs : Hashes} {G : Curve} (contract : pt) s1 s2 pairs l kc calls c0 :
  p <= q ->
  process_transactions true agg_new pairs = MOk s1 tt -> Z.of_nat (length pairs) <= 4096 ->
  process_signatures true s1 contract l = MOk s2 tt ->
  map fst l = map fst pairs ->
  (forall final t ks, root (a_tx_tree s1) = Ok final -> In (t, ks) (combine (map snd pairs) l) ->
     (authorised contract final t ks = false ->
        forall u, In u (a4_list (outputs t)) -> is_dummy u = false -> pk u = contract -> zval (amount u) = 0) /\
     (fst ks = contract -> verify_signature (fst ks) (tx_enc t ++ [final]) (osig (snd ks)) = true ->
        forall u, In u (a4_list (inputs t)) -> is_dummy u = true)) ->
  history true kc calls c0 -> Z.of_nat (length (pks c0)) <= 2 ^ 32 -> (forall k, In k (mentioned s2) -> In k (pks c0)) ->
  exists b pi tr,
    root (a_tx_tree s1) = Ok tr /\
    produce_block s2 c0 = Ok b /\ derive_public_inputs c0 b = Ok pi /\ length (a_ivc s2) = length pairs /\
    forall bs, concat bs = map inputs_alloc (a_ivc s2) ->
      ivc contract false (epoch_start (merkle_root (empty_contents utxo_cfg)) tr (merkle_root (empty_contents signer_cfg))) bs pi.
Proof.
  intros Hpq Hpt Hlen Hps Hfst Hcond Hh Hpk Hm.
  destruct (PropsIntake.C40_intake true agg_new pairs s1 (reached_new true) eq_refl Hpt) as (Etx & Hval & Hsame & _ & _).
  assert (Hfit : fits contract s1 l).
  { intros r _. destruct Hsame as (_ & _ & -> & _). cbn [agg_new a_index].
    assert (Hc : forall t, (length (creates contract t) <= 4)%nat).
    { intros t. unfold creates. pose proof (filter_len (fun u => negb (is_dummy u) && negb (pt_eqb (pk u) contract)) (a4_list (outputs t))).
      assert (length (a4_list (outputs t)) = 4%nat) by (destruct (outputs t); reflexivity). lia. }
    assert (Ha : forall txs, (length (flat_map (creates contract) (applied contract r txs l)) <= 4 * length l)%nat).
    { clear -Hc. induction l as [|x l IH]; intros txs.
      - unfold applied. destruct txs; cbn [combine flat_map length]; lia.
      - destruct txs as [|t txs]; [ unfold applied; cbn [combine flat_map length]; lia |].
        change (applied contract r (t :: txs) (x :: l))
          with ((if authorised contract r t x then [t] else []) ++ applied contract r txs l).
        rewrite flat_map_app, app_length. specialize (IH txs). specialize (Hc t).
        destruct (authorised contract r t x); cbn [flat_map length]; rewrite ?app_nil_r; cbn [length]; lia. }
    specialize (Ha (a_txs s1)). rewrite utxo_capacity.
    assert (length l = length pairs) by (rewrite <- (map_length fst l), Hfst; apply map_length). lia. }
  destruct (C53_honest_epoch true contract agg_new s1 s2 pairs l (empty_contents signer_cfg) kc calls c0)
    as (b & pi & ur & tr & sr & E1 & E2 & E3 & E4 & E5 & E6 & E7); auto using reached_new.
  - exists (empty_contents signer_cfg), (fun _ => false). split; [ apply built_blank | reflexivity ].
  - intros k t Hin. rewrite Forall_forall in Hval. exact (valid_small t k (Hval _ Hin)).
  - exists b, pi, tr. split; [ exact E2 |]. split; [ exact E4 |]. split; [ exact E5 |]. split; [ exact E6 |].
    pose proof (tree_holds_root true utxo_cfg AggFacts.utxo_cfg_ok _ (empty_contents utxo_cfg)
      (ex_intro _ (empty_contents utxo_cfg) (ex_intro _ (fun _ => false) (conj (built_blank true utxo_cfg) (fun i _ => eq_refl))))) as F1.
    pose proof (tree_holds_root true signer_cfg AggFacts.signer_cfg_ok _ (empty_contents signer_cfg)
      (ex_intro _ (empty_contents signer_cfg) (ex_intro _ (fun _ => false) (conj (built_blank true signer_cfg) (fun i _ => eq_refl))))) as F2.
    change (a_utxo_tree agg_new) with (blank utxo_cfg) in E1. change (a_signer_tree agg_new) with (blank signer_cfg) in E3.
    assert (G1 : ur = merkle_root (empty_contents utxo_cfg)) by congruence.
    assert (G3 : sr = merkle_root (empty_contents signer_cfg)) by congruence.
    rewrite <- G1, <- G3. exact E7.
Qed.

Print Assumptions C53_honest_epoch.
Print Assumptions C53_first_epoch.

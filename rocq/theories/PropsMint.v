(** C92, second part: a block may report a deposit that nobody made on L1, and its epoch is
    provable all the same. *)
From Coq Require Import ZArith List Bool Lia Permutation.
Import ListNotations.
From Verif Require Import Base Env Circuit SparseMT SparseMTSpec Data DataSpec DataFacts PropsData Schnorr SchnorrProofs PropsSchnorr
  HMap Contract ContractSpec PropsContract PropsBlock PropsL1 Aggregator AggSpec AggFacts AggSign AggIntake PropsIntake PropsSign
  AggCircuit AggCircuitSpec CircuitRun PropsCircuit PropsCircuit2 TruthSpec Honest PropsHonest.
Open Scope Z_scope.

Section props.
  Context {hs : Hashes} {G : Curve} (dbg : bool) (contract : pt).

  (** the contract pays [v] to [k] *)
  Definition mint (k : pt) (v : u64) : tx :=
    mkTx (A4 (utxo_new contract v) utxo_dummy utxo_dummy utxo_dummy)
         (A4 (utxo_new k v) utxo_dummy utxo_dummy utxo_dummy).

  Lemma mint_totals k v : total_in (mint k v) = zval v /\ total_out (mint k v) = zval v.
  Proof. split; change (zval v + 0 = zval v); apply Z.add_0_r. Qed.
  Lemma mint_owned k v : owned_by contract (mint k v).
  Proof. intros u Hu Hd. cbn in Hu. destruct Hu as [<-|[<-|[<-|[<-|[]]]]]; [ reflexivity | discriminate .. ]. Qed.
  Lemma mint_valid k v : is_valid dbg (mint k v) (Some contract) = Ok tt.
  Proof.
    destruct (mint_totals k v) as [E1 E2]. pose proof (u64_range v) as Hv.
    apply (C25_is_valid dbg (mint k v) contract); [ rewrite E1; exact (proj2 Hv) | rewrite E2; exact (proj2 Hv) |].
    split; [ apply mint_owned | now rewrite E1, E2 ].
  Qed.
  Lemma mint_consumes k v : consumes contract (mint k v) = [].
  Proof. unfold consumes, mint. cbn. now rewrite pt_eqb_refl. Qed.
  Lemma mint_creates k v : k <> contract -> creates contract (mint k v) = [utxo_new k v].
  Proof. intros H. unfold creates, mint. cbn. apply pt_eqb_neq in H. now rewrite H. Qed.
  Lemma mint_withdrawn k v : k <> contract -> AggSign.withdrawn contract (mint k v) = 0.
  Proof. intros H. unfold AggSign.withdrawn, AggFacts.to_contract, mint. cbn. apply pt_eqb_neq in H. now rewrite H. Qed.

  (** C92. At the start of any epoch (free signer slot, room for a coin), for every registered key
      [k] other than the contract's and every amount: one transaction of the contract, without a
      signature, makes the aggregator create a coin of that amount for [k]; the block is produced,
      reports the amount as a deposit of [k], and the recorded inputs prove it. Nothing is assumed
      of the deposits [c0] knows. The exception is a message whose challenge hash is zero. *)
  Theorem C92_unbacked_deposit s ck k v calls c0 :
    p <= q ->
    reached dbg s -> a_txs s = [] -> a_signers s = [] -> a_deposits s = [] -> a_withdrawals s = [] -> a_ivc s = [] ->
    tree_holds dbg signer_cfg (a_signer_tree s) ck -> ck 0 = pzero -> a_index s + 1 <= capacity utxo_cfg ->
    history dbg contract calls c0 -> Z.of_nat (length (pks c0)) <= 2 ^ 32 -> In k (pks c0) -> k <> contract ->
    exists s1 s2 tr,
      process_transactions dbg s [(contract, mint k v)] = MOk s1 tt /\
      process_signatures dbg s1 contract [(contract, None)] = MOk s2 tt /\
      root (a_tx_tree s1) = Ok tr /\
      Permutation (coins s2) (utxo_new k v :: coins s) /\
      (zval (crh (Fzero :: Fzero :: tx_enc (mint k v) ++ [tr])) <> 0 ->
       exists b pi ur sr, root (a_utxo_tree s) = Ok ur /\ root (a_signer_tree s) = Ok sr /\
         produce_block s2 c0 = Ok b /\ derive_public_inputs c0 b = Ok pi /\
         entries_are c0 (b_deposits b) [(k, zval v)] /\ b_withdrawals b = [] /\
         forall bs, concat bs = map inputs_alloc (a_ivc s2) -> ivc contract false (epoch_start ur tr sr) bs pi).
  Proof.
    intros Hpq Hr Ht Hsg Hdep Hwd Hivc Htree Hck0 Hidx Hh Hsm Hkin Hkc.
    pose proof (proj2 (C40_intake_accepts dbg s [(contract, mint k v)] Hr
                  ltac:(rewrite Ht; cbn [length]; unfold two64; lia))) as Hacc.
    destruct Hacc as (s1 & E1).
    { constructor; [ apply mint_valid | constructor ]. }
    assert (Hr1 : reached dbg s1) by (apply (reached_intake dbg s [(contract, mint k v)] s1 Hr); rewrite E1; left; now exists tt).
    destruct (C40_intake dbg s [(contract, mint k v)] s1 Hr Ht E1) as (Htx & _ & Hsame & _ & Hroot).
    cbn [map snd] in Htx. destruct Hroot as (_ & Htr & _); [ cbn; lia |].
    destruct Hsame as (Hs1 & Hs2 & Hs3 & Hs4 & Hs5 & Hs6 & Hs7 & Hs8 & Hs9 & Hs10 & Hs11).
    set (tr := epoch_root (map snd [(contract, mint k v)]) (length [(contract, mint k v)])) in *.
    set (l := [(contract, @None signature)]).
    assert (Happ : applied contract tr (a_txs s1) l = [mint k v]).
    { rewrite Htx. unfold applied, l. cbn [combine flat_map fst snd authorised app].
      unfold authorised. cbn [fst snd]. now rewrite pt_eqb_refl, orb_true_r. }
    assert (Hfit : fits contract s1 l).
    { intros r0 E0. assert (r0 = tr) by congruence. subst r0. rewrite Happ. cbn [flat_map app].
      rewrite (mint_creates k v Hkc), Hs3. exact Hidx. }
    assert (Hno : no_overflow s1 l).
    { split; [ rewrite Htx; cbn; lia |]. rewrite Hs7, Hsg; cbn; unfold two64; lia. }
    pose proof (proj2 (proj1 (C44_succeeds_iff dbg contract s1 l tr Hr1 Hfit Hno Htr))) as Hok.
    assert (Hled : forall c, apply_tx contract (mint k v) c (c ++ [utxo_new k v])).
    { intros c. exists c. rewrite mint_consumes, (mint_creates k v Hkc). split; reflexivity. }
    destruct Hok as (s2 & E2).
    { exists (coins s1 ++ [utxo_new k v]). rewrite Happ. econstructor; [ apply Hled | constructor; reflexivity ]. }
    pose proof (run_ok dbg contract s1 l s2 Hr1 Hfit E2) as Hst.
    assert (Hc2 : Permutation (coins s2) (utxo_new k v :: coins s)).
    { pose proof (C44_ledger dbg contract s1 l s2 tr Hr1 Hfit Htr E2) as HL. rewrite Happ in HL.
      assert (HL' : ledger contract [mint k v] (coins s1) (coins s1 ++ [utxo_new k v]))
        by (econstructor; [ apply Hled | constructor; reflexivity ]).
      rewrite (ledger_det contract _ _ _ _ HL HL'). 
      assert (Ec : coins s1 = coins s) by (unfold coins, positions; now rewrite Hs1).
      rewrite Ec. rewrite Permutation_app_comm. reflexivity. }
    inversion Hst as [|n0 k0 osg0 l0 sa sb sc t r0 Hstep Hrest]; subst n0 k0 osg0 l0 sa sc.
    inversion Hrest; subst.
    pose proof (so_tx _ _ _ _ _ _ _ _ _ Hstep) as Ht0. rewrite Htx in Ht0. cbn in Ht0.
    assert (t = mint k v) by congruence. subst t. clear Ht0.
    assert (Hau : authorised contract r0 (mint k v) (contract, None) = true).
    { unfold authorised. cbn [fst snd]. now rewrite pt_eqb_refl, orb_true_r. }
    pose proof (so_signers _ _ _ _ _ _ _ _ _ Hstep) as Esg. rewrite Hau, Hs7, Hsg in Esg. cbn [app] in Esg.
    pose proof (so_deposits _ _ _ _ _ _ _ _ _ Hstep) as Ede. rewrite Hau, Hs4, Hdep in Ede. cbn [app] in Ede.
    pose proof (so_withdrawals _ _ _ _ _ _ _ _ _ Hstep) as Ewd.
    rewrite Hau, Hs5, Hwd, (mint_withdrawn k v Hkc) in Ewd. change (a_withdrawals s2 = []) in Ewd.
    assert (Ede' : a_deposits s2 = [(k, v)]).
    { rewrite Ede. unfold new_deposits. rewrite pt_eqb_refl. reflexivity. }
    clear Ede.
    destruct (C38_registry dbg contract calls c0 Hh) as (Hpks & _ & _ & Hli & _).
    exists s1, s2, tr. repeat (split; [ assumption |]). intros Hz.
    destruct (C53_honest_epoch dbg contract s s1 s2 [(contract, mint k v)] l ck contract calls c0) as 
      (b & pi & ur & tr' & sr & R1 & R2 & R3 & Hb & Hpi & Hlen & Hiv); try assumption.
    - intros i Hi. cbn [length] in Hi. assert (i = 0) by lia. subst i. exact Hck0.
    - cbn; lia.
    - reflexivity.
    - intros k1 t [E|[]]. assert (t = mint k v) by congruence. subst t.
      destruct (mint_totals k v) as [A B]. rewrite A, B. split; exact (proj2 (u64_range v)).
    - intros final t ks Hf Hin. assert (final = tr) by congruence. subst final.
      change (In (t, ks) [(mint k v, (contract, @None signature))]) in Hin. destruct Hin as [E|[]].
      assert (t = mint k v) by congruence. assert (ks = (contract, None)) by congruence. subst t ks. split.
      + intros Hn. unfold authorised in Hn. cbn [fst snd] in Hn. rewrite pt_eqb_refl, orb_true_r in Hn. discriminate.
      + intros _ Hvs. exfalso. apply Hz. cbn [fst snd osig] in Hvs. now apply C35_missing_signature in Hvs.
    - intros k1 Hk1. unfold mentioned in Hk1. rewrite Esg, Ede', Ewd in Hk1. cbn in Hk1.
      destruct Hk1 as [<-|[<-|[]]]; [ rewrite Hpks; now left | exact Hkin ].
    - exists b, pi, ur, sr. assert (tr' = tr) by congruence. subst tr'.
      split; [ exact R1 |]. split; [ exact R3 |]. split; [ exact Hb |]. split; [ exact Hpi |].
      pose proof Hb as Hb'. unfold produce_block in Hb'. rewrite Esg, Ede', Ewd in Hb'.
      destruct (index_u32_ok c0 (fun k i E => proj1 (proj1 (Hli k i) E)) Hsm k) as (ik & Eik & Hik).
      { destruct (C38_registry dbg contract calls c0 Hh) as (_ & _ & _ & _ & Hex). apply Hex in Hkin as (i & ->). discriminate. }
      destruct (root (a_utxo_tree s2)), (root (a_tx_tree s2)), (root (a_signer_tree s2)); try discriminate Hb'.
      cbn [rmap fst snd] in Hb'. rewrite Eik in Hb'. destruct (index_u32 c0 contract); cbn [rbind] in Hb'; try discriminate Hb'.
      assert (Eb : b_deposits b = [(ik, v)] /\ b_withdrawals b = []).
      { injection Hb' as <-. split; reflexivity. }
      destruct Eb as [-> ->]. split; [ constructor; [ split; [ exact Hik | reflexivity ] | constructor ] |].
      split; [ reflexivity |]. exact Hiv.
  Qed.

  (** In particular for a key that never deposited anything. *)
  Corollary C92_nothing_deposited k v bal c0 :
    p <= q -> history dbg contract [Join bal k] c0 -> k <> contract ->
    pending c0 k = 0 /\ balance c0 0 = Some 0 /\
    exists s1 s2 tr,
      process_transactions dbg agg_new [(contract, mint k v)] = MOk s1 tt /\
      process_signatures dbg s1 contract [(contract, None)] = MOk s2 tt /\
      root (a_tx_tree s1) = Ok tr /\ Permutation (coins s2) [utxo_new k v] /\
      (zval (crh (Fzero :: Fzero :: tx_enc (mint k v) ++ [tr])) <> 0 ->
       exists b, produce_block s2 c0 = Ok b /\ entries_are c0 (b_deposits b) [(k, zval v)]).
  Proof.
    intros Hpq Hh Hk. unfold history in Hh. cbn [rfold perform rbind] in Hh.
    assert (E0 : c0 = fst (join (contract_new contract) bal k)) by congruence.
    split; [ now rewrite E0 |]. split; [ rewrite E0; reflexivity |].
    destruct (C92_unbacked_deposit agg_new (empty_contents signer_cfg) k v [Join bal k] c0)
      as (s1 & s2 & tr & A1 & A2 & A3 & A4 & A5); try assumption; try reflexivity.
    - constructor.
    - exists (empty_contents signer_cfg), (fun _ => false). split; [ constructor | reflexivity ].
    - rewrite utxo_capacity. cbn. lia.
    - rewrite E0. cbn. lia.
    - rewrite E0. cbn. auto.
    - exists s1, s2, tr. repeat (split; [ assumption |]). intros Hz.
      destruct (A5 Hz) as (b & pi & ur & sr & _ & _ & B1 & _ & B2 & _). now exists b.
  Qed.
End props.

Print Assumptions C92_unbacked_deposit.
Print Assumptions C92_nothing_deposited.

(** C100: every coin can leave and every registered key can receive a deposit. *)
From Coq Require Import ZArith List Bool Lia Permutation Sorted.
Import ListNotations.
From Verif Require Import Base Env Circuit SparseMT SparseMTSpec SparseMTProofs Data DataSpec DataFacts PropsData Schnorr HMap Contract ContractSpec
  PropsContract PropsBlock Aggregator AggSpec AggFacts AggSign AggIntake PropsIntake PropsSign
  AggCircuit AggCircuitSpec CircuitRun TruthSpec Honest PropsHonest Client PropsLive PropsReport.
Open Scope Z_scope.

Section props.
  Context {hs : Hashes} {G : Curve} (dbg : bool) (contract : pt).

  (** The start of an epoch: nothing taken in or recorded yet. *)
  Record fresh_epoch (s : agg) : Prop := mkFresh
    { fe_reached : reached dbg s;
      fe_empty : a_txs s = [] /\ a_signers s = [] /\ a_deposits s = [] /\ a_withdrawals s = [] /\ a_ivc s = [] }.
  (** The first signer slot is blank, as in the first epoch (cf. C78). *)
  Definition blank_slot (s : agg) : Prop := exists ck, tree_holds dbg signer_cfg (a_signer_tree s) ck /\ ck 0 = pzero.

  Lemma one_transaction s k t c' calls c0 :
    fresh_epoch s -> fair (k, t) ->
    ledger contract [t] (coins s) c' ->
    a_index s + Z.of_nat (length (creates contract t)) <= 2 ^ 31 ->
    history dbg contract calls c0 -> Z.of_nat (length (pks c0)) <= 2 ^ 32 ->
    In k (pks c0) -> (forall u, In u (a4_list (outputs t)) -> is_dummy u = false -> In (pk u) (pks c0)) ->
    exists s1 r ur sr, process_transactions dbg s [(k, t)] = MOk s1 tt /\ root (a_tx_tree s1) = Ok r /\
      root (a_utxo_tree s) = Ok ur /\ root (a_signer_tree s) = Ok sr /\
      forall osg, answers contract r (k, t) (k, osg) ->
        exists s2 b pi,
          process_signatures dbg s1 contract [(k, osg)] = MOk s2 tt /\ Permutation (coins s2) c' /\
          produce_block s2 c0 = Ok b /\ derive_public_inputs c0 b = Ok pi /\
          Forall2 (names_signer contract c0 r) [(t, (k, osg))] (b_signers b) /\
          Forall2 (names c0) (deposits_of contract (t, (k, osg))) (b_deposits b) /\
          Forall2 (names c0) (withdrawals_of contract r (t, (k, osg))) (b_withdrawals b) /\
          (p <= q -> blank_slot s ->
           (k = contract -> verify_signature contract (tx_enc t ++ [r]) (osig osg) = true ->
              forall u, In u (a4_list (inputs t)) -> is_dummy u = true) ->
           forall bs, concat bs = map inputs_alloc (ivc_inputs s2) -> ivc contract false (epoch_start ur r sr) bs pi).
  Proof.
    intros [Hr (Ht & Hsg & Hdp & Hwd & Hivc)] Hfair Hc Hidx Hh Hsm Hk Hout.
    assert (Hidx' : a_index s + Z.of_nat (length (flat_map (creates contract) (map snd [(k, t)]))) <= 2 ^ 31).
    { cbn [map snd flat_map]. rewrite app_nil_r. exact Hidx. }
    assert (Hfs : Forall fair [(k, t)]) by (constructor; [ exact Hfair | constructor ]).
    destruct (C96_requests_granted dbg contract s [(k, t)] c') as (s1 & r & E1 & Hroot & H); try assumption.
    { rewrite Hsg. cbn [length]. reflexivity. }
    assert (Hr1 : reached dbg s1) by (apply (reached_intake dbg s [(k, t)] s1 Hr); left; eauto).
    destruct (C40_intake dbg s [(k, t)] s1 Hr Ht E1) as (Htx & _ & Hsame & _ & _). cbn [map snd] in Htx.
    destruct Hsame as (S1 & S2 & S3 & S4 & S5 & S6 & S7 & _).
    assert (X : exists ur sr, root (a_utxo_tree s) = Ok ur /\ root (a_signer_tree s) = Ok sr).
    { pose proof (reached_inv dbg s Hr) as HI. destruct (ri_coins _ _ HI) as (cc & w & HC).
      destruct (coin_inv_match dbg s cc w HC) as (cc' & w' & _ & Hur & _).
      pose proof (ri_signer_root _ _ HI) as X. destruct (t_root (a_signer_tree s)) as [sr|] eqn:Es; [| now destruct X ].
      eexists. exists sr. split; [ exact Hur | unfold root; now rewrite Es ]. }
    destruct X as (ur & sr & Hur & Hsr).
    exists s1, r, ur, sr. do 4 (split; [ assumption |]). intros osg Ha.
    destruct (H [(k, osg)]) as (s2 & E2 & HP); [ constructor; [ exact Ha | constructor ] |].
    assert (Hfit : fits contract s1 [(k, osg)]).
    { intros r0 E0. assert (r0 = r) by congruence. subst r0. rewrite Htx, S3. unfold applied. cbn [combine flat_map fst snd].
      destruct (authorised contract r t (k, osg)); cbn [app flat_map length]; rewrite ?app_nil_r; [ exact Hidx |].
      change (capacity utxo_cfg) with (2 ^ 31). lia. }
    assert (Hr2 : reached dbg s2) by (apply (reached_sign dbg s1 contract [(k, osg)] s2 Hr1 Hfit); left; eauto).
    pose proof (run_ok dbg contract s1 [(k, osg)] s2 Hr1 Hfit E2) as Hst.
    destruct (steps_logs dbg contract 0 [(k, osg)] s1 s2 Hst r Hroot) as (L1 & L2 & L3).
    rewrite Htx in L1, L2, L3. cbn [skipn combine flat_map map fst snd] in L1, L2, L3. rewrite app_nil_r in L1, L2.
    replace (a_deposits s1) with (@nil (pt * u64)) in L1 by congruence.
    replace (a_withdrawals s1) with (@nil (pt * u64)) in L2 by congruence.
    replace (a_signers s1) with (@nil (option pt)) in L3 by congruence. cbn [map app] in L1, L2, L3.
    assert (Hm : forall k', In k' (mentioned s2) -> In k' (pks c0)).
    { assert (Hfst : forall lg : list (pt * u64), map fst lg = map fst (map as_z lg)) by (intros lg; rewrite map_map; reflexivity).
      intros k'. unfold mentioned. rewrite !in_app_iff, L3, (Hfst (a_deposits s2)), (Hfst (a_withdrawals s2)), L1, L2. intros [Hin|[Hin|Hin]].
      - cbn [flat_map] in Hin. destruct (authorised contract r t (k, osg)); [ destruct Hin as [<-|[]]; exact Hk | destruct Hin ].
      - unfold deposits_of in Hin. destruct (pt_eqb k contract); [| destruct Hin ].
        rewrite map_map in Hin. cbn [fst] in Hin. apply in_map_iff in Hin as (u & <- & Hin). apply filter_In in Hin as [Hu Hd].
        apply negb_true_iff in Hd. exact (Hout u Hu Hd).
      - unfold withdrawals_of in Hin. destruct (authorised contract r t (k, osg) && _); [| destruct Hin ].
        destruct Hin as [<-|[]]. exact Hk. }
    destruct (C39_block_public_inputs dbg s2 contract calls c0 Hr2 Hh Hsm Hm) as (b & ? & ? & ? & Eb & _ & _ & _ & _ & _ & _ & _ & _ & _ & _ & Epi).
    destruct (C99_block_reports dbg contract s1 [(k, osg)] s2 r contract calls c0 b Hr1 Hfit Hroot) as (_ & R1 & R2 & R3 & _); try assumption.
    { congruence. } { congruence. } { congruence. }
    rewrite Htx in R1, R2, R3. cbn [combine flat_map] in R1, R2, R3. rewrite app_nil_r in R2, R3.
    eexists s2, b, _. split; [ exact E2 |]. split; [ exact HP |]. split; [ exact Eb |]. split; [ exact Epi |].
    do 3 (split; [ assumption |]). intros Hpq (ck & Hck & Hck0) Hns.
    destruct (C97_payments_arrive dbg contract poseidon_acc s [(k, t)] c' ck contract calls c0) as (s1' & r' & E1' & Hroot' & H'); try assumption.
    - intros i Hi. cbn [length] in Hi. replace i with 0 by lia. exact Hck0.
    - cbn [length]. lia.
    - intros k' t' [E|[]]. apply pair_equal_spec in E as [<- <-]. split; [ exact Hk | exact Hout ].
    - assert (s1' = s1) by congruence. subst s1'. assert (r' = r) by congruence. subst r'.
      destruct (H' [(k, osg)]) as (s2' & b' & pi' & ur' & sr' & F2 & _ & Eu & Es & Eb' & Epi' & Hrun & _).
      + constructor; [ exact Ha | constructor ].
      + intros t' o u Hin Hv Hu. cbn [map snd combine] in Hin. destruct Hin as [E|[]].
        apply pair_equal_spec in E as [<- E]. apply pair_equal_spec in E as [E <-]. exact (Hns E Hv u Hu).
      + assert (s2' = s2) by congruence. subst s2'. assert (b' = b) by congruence. subst b'.
        assert (ur' = ur /\ sr' = sr) as [-> ->] by (split; congruence).
        rewrite Epi in Epi'. intros bs Hbs. specialize (Hrun bs Hbs). assert (X : forall x y : list F, @Ok no_error _ x = Ok y -> x = y) by (intros; congruence).
        rewrite (X _ _ Epi'). exact Hrun.
  Qed.

  Lemma f2_single {A B} (R : A -> B -> Prop) a m : Forall2 R [a] m -> exists b, m = [b] /\ R a b.
  Proof. intros H. inversion H as [|x b l m' H1 H2]; subst. inversion H2; subst. now exists b. Qed.
  Lemma f2_empty {A B} (R : A -> B -> Prop) m : Forall2 R [] m -> m = [].
  Proof. now inversion 1. Qed.

  (** The transaction by which the owner of [u] gives it back to the contract. *)
  Definition exit_tx (u : utxo) : tx :=
    mkTx (A4 u utxo_dummy utxo_dummy utxo_dummy) (A4 (utxo_new contract (amount u)) utxo_dummy utxo_dummy utxo_dummy).

  (** C100. The owner of any live coin with a value can leave in one epoch: once it signed, the block
      reports one withdrawal, of the owner's index and the coin's amount, and nothing else; the coin
      is gone, all others remain; and if the first signer slot is blank the recorded inputs prove
      the block. *)
  Theorem C100_exit s sk (u : utxo) rest calls c0 :
    fresh_epoch s -> pk u = public_key sk -> is_dummy u = false -> pk u <> contract -> zval (amount u) <> 0 ->
    Permutation (coins s) (u :: rest) -> a_index s <= 2 ^ 31 ->
    history dbg contract calls c0 -> Z.of_nat (length (pks c0)) <= 2 ^ 32 -> In (pk u) (pks c0) ->
    let t := exit_tx u in
    exists s1 r ur sr, process_transactions dbg s [(pk u, t)] = MOk s1 tt /\ root (a_tx_tree s1) = Ok r /\
      root (a_utxo_tree s) = Ok ur /\ root (a_signer_tree s) = Ok sr /\
      forall draws sg, sign sk (tx_enc t ++ [r]) draws = Ok (Some sg) ->
        exists s2 b pi i, process_signatures dbg s1 contract [(pk u, Some sg)] = MOk s2 tt /\
          Permutation (coins s2) rest /\
          produce_block s2 c0 = Ok b /\ index_of c0 (pk u) i /\
          b_signers b = [Some i] /\ b_deposits b = [] /\ b_withdrawals b = [(i, amount u)] /\
          derive_public_inputs c0 b = Ok pi /\
          (p <= q -> blank_slot s ->
           forall bs, concat bs = map inputs_alloc (ivc_inputs s2) -> ivc contract false (epoch_start ur r sr) bs pi).
  Proof.
    intros Hfe Hpk Hd Hnc Hz Hc Hidx Hh Hsm Hreg t. pose proof (u64_range (amount u)) as Hu.
    assert (Hncb : pt_eqb (pk u) contract = false) by now apply pt_eqb_neq.
    assert (Ec : consumes contract t = [u]).
    { unfold consumes, t, exit_tx. cbn. rewrite Hd, Hncb. reflexivity. }
    assert (Er : creates contract t = []).
    { unfold creates, t, exit_tx. cbn. now rewrite pt_eqb_refl. }
    assert (Eg : given_back contract t = zval (amount u)).
    { unfold given_back, t, exit_tx. cbn. rewrite pt_eqb_refl. cbn. apply Z.add_0_r. }
    assert (T1 : total_in t = zval (amount u) /\ total_out t = zval (amount u)).
    { unfold total_in, total_out, t, exit_tx. cbn [inputs outputs a4_list a4_0 a4_1 a4_2 a4_3].
      split; cbn [total utxo_dummy utxo_new is_dummy amount]; cbn; rewrite ?Hd; apply Z.add_0_r. }
    assert (Hck : In contract (pks c0)).
    { destruct (C38_registry dbg contract calls c0 Hh) as (E & _). rewrite E. now left. }
    destruct (one_transaction s (pk u) t rest calls c0) as (s1 & r & ur & sr & E1 & E2 & E3 & E4 & H); try assumption.
    - destruct T1 as [T1 T2]. split; [| split ]; cbn [fst snd].
      + intros v Hv Hvd. cbn [t exit_tx inputs a4_list a4_0 a4_1 a4_2 a4_3] in Hv. destruct Hv as [<-|[<-|[<-|[<-|[]]]]]; [ reflexivity | discriminate .. ].
      + congruence.
      + rewrite T2. exact (proj2 Hu).
    - pose proof (ledger_exists contract [t] (coins s) rest) as HL. cbn [flat_map] in HL. rewrite Ec, Er in HL.
      cbn [app] in HL. rewrite app_nil_r in HL. exact (HL Hc).
    - rewrite Er. cbn [length]. lia.
    - intros v Hv Hvd. cbn [t exit_tx outputs a4_list a4_0 a4_1 a4_2 a4_3] in Hv.
      destruct Hv as [<-|[<-|[<-|[<-|[]]]]]; [ exact Hck | discriminate .. ].
    - exists s1, r, ur, sr. do 4 (split; [ assumption |]). intros draws sg Hs.
      assert (Hans : answers contract r (pk u, t) (pk u, Some sg)).
      { split; [ reflexivity |]. right. exists sk, sg, draws. auto. }
      destruct (H (Some sg) Hans) as (s2 & b & pi & F1 & F2 & F3 & F4 & R1 & R2 & R3 & F5).
      pose proof (answers_authorised contract r (pk u, t) (pk u, Some sg) Hans) as Hauth. cbn [snd] in Hauth.
      apply f2_single in R1 as (o & Ho & R1). unfold names_signer in R1. cbn [fst snd] in R1. rewrite Hauth in R1.
      destruct R1 as (i & -> & Hi).
      unfold deposits_of in R2. rewrite Hncb in R2. apply f2_empty in R2.
      unfold withdrawals_of in R3. rewrite Hauth, Eg, (Z.mod_small _ _ Hu) in R3.
      replace (zval (amount u) =? 0) with false in R3 by (symmetry; now apply Z.eqb_neq). cbn [andb negb] in R3.
      apply f2_single in R3 as ([i' a] & Hw & R3). destruct R3 as [N1 N2]. cbn [fst snd] in N1, N2.
      assert (i' = i).
      { destruct N1 as [P1 [Q1 Q1']], Hi as [P2 [Q2 Q2']]. pose proof (Q1' _ Q2). pose proof (Q2' _ Q1). lia. }
      apply zval_inj in N2. subst i' a.
      exists s2, b, pi, i. repeat (split; [ assumption |]). intros Hpq Hbl. apply (F5 Hpq Hbl). intros E. now destruct Hnc.
  Qed.

  (** The contract's transaction that gives [a] to [k]. *)
  Definition deposit_tx (k : pt) (a : u64) : tx :=
    mkTx (A4 (utxo_new contract a) utxo_dummy utxo_dummy utxo_dummy) (A4 (utxo_new k a) utxo_dummy utxo_dummy utxo_dummy).

  (** C100. The contract can deposit any amount to any registered key in one epoch, without a
      signature: the block reports one deposit, of the receiver's index and the amount, and nothing
      else; exactly the coin is added; and if the first signer slot is blank the recorded inputs prove
      the block (unless the all-zero signature happens to verify for the contract's key). *)
  Theorem C100_deposit s k (a : u64) calls c0 :
    fresh_epoch s -> k <> contract -> a_index s < 2 ^ 31 ->
    history dbg contract calls c0 -> Z.of_nat (length (pks c0)) <= 2 ^ 32 -> In k (pks c0) ->
    let t := deposit_tx k a in
    exists s1 r ur sr, process_transactions dbg s [(contract, t)] = MOk s1 tt /\ root (a_tx_tree s1) = Ok r /\
      root (a_utxo_tree s) = Ok ur /\ root (a_signer_tree s) = Ok sr /\
        exists s2 b pi i0 i, process_signatures dbg s1 contract [(contract, None)] = MOk s2 tt /\
          Permutation (coins s2) (utxo_new k a :: coins s) /\
          produce_block s2 c0 = Ok b /\ index_of c0 contract i0 /\ index_of c0 k i /\
          b_signers b = [Some i0] /\ b_deposits b = [(i, a)] /\ b_withdrawals b = [] /\
          derive_public_inputs c0 b = Ok pi /\
          (p <= q -> blank_slot s -> verify_signature contract (tx_enc t ++ [r]) sig_default = false ->
           forall bs, concat bs = map inputs_alloc (ivc_inputs s2) -> ivc contract false (epoch_start ur r sr) bs pi).
  Proof.
    intros Hfe Hnc Hidx Hh Hsm Hreg t. pose proof (u64_range a) as Hu.
    assert (Hncb : pt_eqb k contract = false) by now apply pt_eqb_neq.
    assert (Ec : consumes contract t = []).
    { unfold consumes, t, deposit_tx. cbn. now rewrite pt_eqb_refl. }
    assert (Er : creates contract t = [utxo_new k a]).
    { unfold creates, t, deposit_tx. cbn. now rewrite Hncb. }
    assert (Eg : given_back contract t = 0).
    { unfold given_back, t, deposit_tx. cbn. now rewrite Hncb. }
    assert (T1 : total_in t = zval a /\ total_out t = zval a).
    { unfold total_in, total_out, t, deposit_tx. cbn [inputs outputs a4_list a4_0 a4_1 a4_2 a4_3].
      split; cbn [total utxo_dummy utxo_new is_dummy amount]; cbn; apply Z.add_0_r. }
    assert (Hck : In contract (pks c0)).
    { destruct (C38_registry dbg contract calls c0 Hh) as (E & _). rewrite E. now left. }
    destruct (one_transaction s contract t (coins s ++ [utxo_new k a]) calls c0) as (s1 & r & ur & sr & E1 & E2 & E3 & E4 & H); try assumption.
    - destruct T1 as [T1 T2]. split; [| split ]; cbn [fst snd].
      + intros v Hv Hvd. cbn [t deposit_tx inputs a4_list a4_0 a4_1 a4_2 a4_3] in Hv. destruct Hv as [<-|[<-|[<-|[<-|[]]]]]; [ reflexivity | discriminate .. ].
      + congruence.
      + rewrite T2. exact (proj2 Hu).
    - pose proof (ledger_exists contract [t] (coins s) (coins s)) as HL. cbn [flat_map] in HL. rewrite Ec, Er in HL.
      cbn [app] in HL. exact (HL (Permutation_refl _)).
    - rewrite Er. cbn [length]. lia.
    - intros v Hv Hvd. cbn [t deposit_tx outputs a4_list a4_0 a4_1 a4_2 a4_3] in Hv.
      destruct Hv as [<-|[<-|[<-|[<-|[]]]]]; [ exact Hreg | discriminate .. ].
    - exists s1, r, ur, sr. do 4 (split; [ assumption |]).
      assert (Hans : answers contract r (contract, t) (contract, None)) by (split; [ reflexivity | now left ]).
      destruct (H None Hans) as (s2 & b & pi & F1 & F2 & F3 & F4 & R1 & R2 & R3 & F5).
      pose proof (answers_authorised contract r (contract, t) (contract, None) Hans) as Hauth. cbn [snd] in Hauth.
      apply f2_single in R1 as (o & Ho & R1). unfold names_signer in R1. cbn [fst snd] in R1. rewrite Hauth in R1.
      destruct R1 as (i0 & -> & Hi0).
      unfold deposits_of in R2. rewrite pt_eqb_refl in R2. cbn in R2.
      apply f2_single in R2 as ([i a'] & Hd & R2). destruct R2 as [N1 N2]. cbn [fst snd] in N1, N2. apply zval_inj in N2. subst a'.
      unfold withdrawals_of in R3. rewrite Hauth, Eg in R3. cbn [andb negb Z.eqb Z.modulo Z.div_eucl] in R3. apply f2_empty in R3.
      exists s2, b, pi, i0, i. split; [ assumption |]. split; [ rewrite F2; apply Permutation_sym, Permutation_cons_append |].
      repeat (split; [ assumption |]). intros Hpq Hbl Hns. apply (F5 Hpq Hbl). intros _ Hv. cbn [osig] in Hv. congruence.
  Qed.
End props.

Print Assumptions C100_exit.
Print Assumptions C100_deposit.

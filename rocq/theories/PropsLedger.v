(** C125: the aggregator is the ledger machine of Ledger.v. *)
From Coq Require Import ZArith List Bool Lia Permutation.
Import ListNotations.
From Verif Require Import Base Env Circuit SparseMT SparseMTSpec Data DataSpec DataFacts PropsData Schnorr SparseMTRep
  HMap Contract ContractSpec PropsContract Aggregator AggSpec AggFacts AggSign AggIntake PropsIntake PropsSign PropsPad PropsRecord
  PropsTable PropsError Ledger.
Open Scope Z_scope.

Section props.
  Context {hs : Hashes} {G : Curve} (dbg : bool).

  (** ** The newest copy *)
  Lemma newest_spec (c : contents utxo_cfg) u n :
    match newest c u n with
    | Some i => 0 <= i < Z.of_nat n /\ c i = u /\ forall q, i < q < Z.of_nat n -> c q <> u
    | None => forall q, 0 <= q < Z.of_nat n -> c q <> u
    end.
  Proof.
    induction n as [|n IH]; cbn [newest]; [ intros q Hq; lia |].
    destruct (utxo_eqb (c (Z.of_nat n)) u) eqn:E.
    - apply utxo_eqb_eq in E. split; [ lia |]. split; [ exact E |]. intros q Hq. lia.
    - assert (N : c (Z.of_nat n) <> u) by (intros X; apply utxo_eqb_eq in X; congruence).
      destruct (newest c u n) as [i|].
      + destruct IH as (H1 & H2 & H3). split; [ lia |]. split; [ exact H2 |]. intros q Hq.
        destruct (Z.eq_dec q (Z.of_nat n)) as [->|Hn]; [ exact N | apply H3; lia ].
      + intros q Hq. destruct (Z.eq_dec q (Z.of_nat n)) as [->|Hn]; [ exact N | apply IH; lia ].
  Qed.

  Lemma stands s c w i u : CoinInv dbg s c w -> is_dummy u = false ->
    (In (i, u) (positions s) <-> 0 <= i < a_index s /\ c i = u).
  Proof.
    intros HI Hu. split; [ apply (ci_pos _ _ _ _ HI) |]. intros [Hi Hc].
    assert (Hr : in_range utxo_cfg i) by (unfold in_range; pose proof (ci_index _ _ _ _ HI); lia).
    destruct (in_dec Z.eq_dec i (map fst (positions s))) as [Hin|Hn].
    - apply in_map_iff in Hin as ([i' u'] & Ei & Hin). cbn [fst] in Ei. subst i'.
      pose proof (ci_pos _ _ _ _ HI _ _ Hin) as [_ E]. assert (Eu : u' = u) by congruence. rewrite <- Eu. exact Hin.
    - pose proof (ci_free _ _ _ _ HI i Hr Hn) as E. exfalso. assert (X : u = utxo_dummy) by congruence.
      rewrite X in Hu. discriminate Hu.
  Qed.

  Definition same_rest (s s' : agg) : Prop :=
    s' = with_coins s (a_utxos s') (a_utxo_tree s') (a_index s).

  Lemma known_one contract h s a j u s' a' : indexed s h ->
    delete_one dbg contract s a (j, u) = MOk s' a' -> indexed s' h.
  Proof.
    intros HK E. pose proof (delete_known dbg contract h [(j, u)] s a HK) as H.
    cbn [mfold] in H. rewrite E in H. cbn [mbind] in H. apply H.
  Qed.
  Lemma known_missing contract h s a j u s' e : indexed s h -> pk u <> contract ->
    delete_one dbg contract s a (j, u) = MErr s' e ->
    e = if existsb (utxo_eqb u) h then UTXOError else UTXONonExisting.
  Proof.
    intros HK Hk E. pose proof (delete_known dbg contract h [(j, u)] s a HK) as H.
    cbn [mfold] in H. rewrite E in H. cbn [mbind] in H. destruct H as (_ & _ & don & u' & todo & E1 & _ & _ & H).
    cbn [map filter snd] in E1. unfold noncontract in E1. rewrite (proj2 (pt_eqb_neq _ _) Hk) in E1. cbn [negb] in E1.
    assert (u' = u) by (destruct don as [|x don]; cbn [app] in E1; [ congruence | destruct don; discriminate E1 ]). subst u'.
    destruct (existsb (utxo_eqb u) h) eqn:Ex.
    - apply existsb_exists in Ex as (x & Hx & Ex). apply utxo_eqb_eq in Ex. subst x.
      destruct H as [[_ H]|[H _]]; [ tauto | exact H ].
    - destruct H as [[H _]|[_ H]]; [ exact H |]. exfalso.
      assert (X : existsb (utxo_eqb u) h = true) by (apply existsb_exists; exists u; split; [ exact H | apply utxo_eqb_refl ]).
      congruence.
  Qed.

  (** ** The input loop *)
  Lemma led_delete contract h L0 : forall s c w n a, CoinInv dbg s c w -> ordered s -> indexed s h ->
    a_index s = Z.of_nat n -> Forall (fun ju : nat * utxo => is_dummy (snd ju) = false) L0 ->
    match mfold (delete_one dbg contract) L0 s a with
    | MOk s' _ => exists c' w', spend c n (filter (noncontract contract) (map snd L0)) = (c', None) /\
        CoinInv dbg s' c' w' /\ ordered s' /\ indexed s' h /\ same_rest s s'
    | MErr s' e => exists c' w' u, spend c n (filter (noncontract contract) (map snd L0)) = (c', Some u) /\
        CoinInv dbg s' c' w' /\ ordered s' /\ indexed s' h /\ same_rest s s' /\
        e = if existsb (utxo_eqb u) h then UTXOError else UTXONonExisting
    | MPanic => False
    end.
  Proof.
    induction L0 as [|[j u] L0 IH]; intros s c w n a HI HO HK Hn HR; cbn [mfold map filter snd].
    { exists c, w. split; [ reflexivity |]. split; [ exact HI |]. split; [ exact HO |]. split; [ exact HK |]. unfold same_rest. now destruct s. }
    pose proof (Forall_inv HR) as Hu. cbn [snd] in Hu. pose proof (Forall_inv_tail HR) as HR'. clear HR.
    destruct (noncontract contract u) eqn:Ek; unfold noncontract in Ek;
      [ apply negb_true_iff in Ek; apply pt_eqb_neq in Ek
      | apply negb_false_iff in Ek; apply pt_eqb_eq in Ek ]; cycle 1.
    { rewrite delete_one_contract by auto. cbn [mbind]. now apply (IH s c w n a). }
    cbn [spend]. pose proof (newest_spec c u n) as HN.
    destruct (utxo_in_dec u (coins s)) as [Hin|Hout].
    - destruct a as [pos pf].
      destruct (delete_one_present dbg contract s c w (pos, pf) j u HI Ek Hin) as (ix & s1 & w1 & Hix & E & Es & HP & HI1).
      pose proof (del_step dbg contract s pos pf j u (conj (ex_intro _ c (ex_intro _ w HI)) HO)) as HD.
      rewrite E in HD. cbn [fst snd] in HD. destruct HD as ((_ & HO1) & _ & HD).
      rewrite (proj2 (pt_eqb_neq _ _) Ek) in HD. destruct HD as (ix' & _ & _ & HP' & Hmax).
      assert (ix' = ix).
      { assert (X : In (ix', u) ((ix, u) :: positions s1)).
        { apply (Permutation_in _ HP). apply (Permutation_in _ (Permutation_sym HP')). now left. }
        destruct X as [X|X]; [ now apply pair_equal_spec in X as [X _] |]. exfalso.
        pose proof (Permutation_NoDup (Permutation_map fst HP') (ci_nodup _ _ _ _ HI)) as Hnd.
        cbn [map fst] in Hnd. apply NoDup_cons_iff in Hnd as [Hnd _]. apply Hnd. apply in_map_iff. exists (ix', u). split; [ reflexivity | exact X ]. }
      subst ix'. apply (stands s c w _ _ HI Hu) in Hix as [Hix Hc].
      assert (En : newest c u n = Some ix).
      { destruct (newest c u n) as [i|]; [| exfalso; apply (HN ix); [ lia | exact Hc ] ].
        destruct HN as (H1 & H2 & H3). f_equal. apply Z.le_antisymm.
        - apply Hmax. apply (stands s c w _ _ HI Hu). split; [ lia | exact H2 ].
        - apply Z.nlt_ge. intros X. apply (H3 ix); [ lia | exact Hc ]. }
      rewrite En, E. cbn [mbind fst snd].
      pose proof (known_one contract h s _ j u s1 _ HK E) as HK1.
      assert (I1 : a_index s1 = Z.of_nat n) by (rewrite Es; exact Hn).
      specialize (IH s1 _ w1 n (a4_set j (Fof ix) pos, a4_set j (sib_path 0 31 (digests c) ix) pf) HI1 HO1 HK1 I1 HR').
      assert (HT : forall s', same_rest s1 s' -> same_rest s s').
      { intros s' X. unfold same_rest in *. rewrite X. rewrite Es. cbn. reflexivity. }
      destruct (mfold (delete_one dbg contract) L0 s1 _) as [s' [p1 p2]|s' e|]; [| | exact IH ].
      + destruct IH as (c' & w' & A & B & C & D & X). exists c', w'. split; [ exact A |].
        split; [ exact B |]. split; [ exact C |]. split; [ exact D | now apply HT ].
      + destruct IH as (c' & w' & x & A & B & C & D & X & Y). exists c', w', x. split; [ exact A |].
        split; [ exact B |]. split; [ exact C |]. split; [ exact D |]. split; [ now apply HT | exact Y ].
    - assert (En : newest c u n = None).
      { destruct (newest c u n) as [i|]; [| reflexivity ]. exfalso. destruct HN as (H1 & H2 & _). apply Hout.
        unfold coins. apply in_map_iff. exists (i, u). split; [ reflexivity |]. apply (stands s c w _ _ HI Hu). split; [ lia | exact H2 ]. }
      rewrite En.
      destruct (delete_one_absent dbg contract s c w a j u HI Ek Hout) as [E|E]; rewrite E; cbn [mbind];
        exists c, w, u; (split; [ reflexivity |]); (split; [ exact HI |]); (split; [ exact HO |]); (split; [ exact HK |]);
        (split; [ unfold same_rest; now destruct s | exact (known_missing contract h s a j u s _ HK Ek E) ]).
  Qed.

  (** ** The output loop *)
  Lemma led_add contract k L0 : forall s c w n pos pf wd, CoinInv dbg s c w -> a_index s = Z.of_nat n ->
    a_index s + Z.of_nat (length (filter (noncontract contract) (map snd L0))) <= capacity utxo_cfg ->
    match mfold (add_one dbg contract k) L0 s (pos, pf, wd) with
    | MOk s' (_, _, wd') => (exists w', CoinInv dbg s' (place c n (filter (noncontract contract) (map snd L0))) w') /\
        (dbg = true -> zval wd' = zval wd + to_contract contract (map snd L0))
    | MErr _ _ => False
    | MPanic => True
    end.
  Proof.
    induction L0 as [|[j u] L0 IH]; intros s c w n pos pf wd HI Hn Hcap; cbn [mfold map filter snd].
    { cbn [place]. split; [ now exists w |]. intros _. unfold to_contract. cbn. lia. }
    cbn [map filter snd] in Hcap.
    destruct (noncontract contract u) eqn:Ek; unfold noncontract in Ek;
      [ apply negb_true_iff in Ek; apply pt_eqb_neq in Ek
      | apply negb_false_iff in Ek; apply pt_eqb_eq in Ek ].
    - cbn [length place] in *. rewrite Nat2Z.inj_succ in Hcap.
      destruct (add_one_create dbg contract k s c w pos pf wd j u HI Ek ltac:(lia)) as (s1 & w1 & E & Es & HP & HI1).
      rewrite E. cbn [mbind].
      assert (I1 : a_index s1 = Z.of_nat (S n)) by (rewrite Es; cbn [with_coins a_index]; lia).
      rewrite <- Hn.
      specialize (IH s1 _ w1 (S n) (a4_set j (Fof (a_index s)) pos) (a4_set j (sib_path 0 31 (digests c) (a_index s)) pf) wd HI1 I1 ltac:(lia)).
      destruct (mfold (add_one dbg contract k) L0 s1 _) as [s' [[pos' pf'] wd']|s' e|]; [| exact IH | exact I ].
      destruct IH as [A B]. split; [ exact A |]. intros D. rewrite (B D). f_equal.
      unfold to_contract. cbn [filter]. apply pt_eqb_neq in Ek. now rewrite Ek.
    - rewrite add_one_withdraw by auto.
      pose proof (@add64_spec dbg no_error wd (amount u)) as Ha.
      destruct (@add64 no_error dbg wd (amount u)) as [wd1| |]; cbn [mbind]; [| exact I | exact I ].
      destruct Ha as [Ha Hd].
      pose proof (coin_inv_logged dbg contract k s c w u HI) as HI1.
      assert (Ei : a_index (logged contract k s u) = a_index s) by (unfold logged; now destruct (pt_eqb k contract)).
      specialize (IH _ _ _ n pos pf wd1 HI1). rewrite Ei in IH. specialize (IH Hn Hcap).
      destruct (mfold (add_one dbg contract k) L0 _ _) as [s' [[pos' pf'] wd']|s' e|]; [| exact IH | exact I ].
      destruct IH as [A B]. split; [ exact A |]. intros D. rewrite (B D), Ha.
      assert (Et : to_contract contract (u :: map snd L0) = zval (amount u) + to_contract contract (map snd L0)).
      { unfold to_contract. cbn [filter]. rewrite Ek, pt_eqb_refl. reflexivity. }
      rewrite Et. specialize (Hd D). pose proof (u64_range wd). pose proof (u64_range (amount u)).
      rewrite Z.mod_small by lia. lia.
  Qed.

  (** ** Agreement of the aggregator with the ledger *)
  Record agrees (s : agg) (L : ledger) : Prop := mkAgrees
    { ag_coins : exists w, CoinInv dbg s (slots L) w;
      ag_index : a_index s = Z.of_nat (next L);
      ag_ordered : ordered s;
      ag_known : indexed s (made L);
      ag_keys : tree_holds dbg signer_cfg (a_signer_tree s) (keys L);
      ag_epoch : EpochInv dbg s;
      ag_txs : a_txs s = epoch L;
      ag_signers : a_signers s = answers L;
      ag_deposits : a_deposits s = entered L;
      ag_withdrawals : a_withdrawals s = left L;
      ag_height : a_height s = u64of 0 }.

  Lemma agrees_start : agrees agg_new start.
  Proof.
    constructor; try reflexivity.
    - exists (fun _ => false). apply coin_inv_new.
    - intros u v H. discriminate H.
    - split; [ constructor |]. intros u. cbn. tauto.
    - exists (empty_contents signer_cfg), (fun _ => false). split; [ constructor | reflexivity ].
    - now apply epoch_fresh.
  Qed.

  Definition outcome {E} (rej : E -> verdict) (r : mres agg E unit) (vL : verdict * ledger) : Prop :=
    match r with
    | MOk s' _ => fst vL = Done /\ agrees s' (snd vL)
    | MErr s' e => fst vL = rej e /\ agrees s' (snd vL)
    | MPanic => fst vL = Panicked
    end.
  Definition grows (L L' : ledger) : Prop :=
    (next L <= next L')%nat /\ (length (epoch L) <= length (epoch L'))%nat /\
    (length (answers L) <= length (answers L'))%nat.
  Lemma grows_refl L : grows L L.
  Proof. unfold grows. lia. Qed.
  Lemma grows_roomy L L' : grows L L' -> roomy L' -> roomy L.
  Proof. unfold grows, roomy. lia. Qed.
  Lemma each_grows {X} (g : ledger -> X -> verdict * ledger) : (forall L x, grows L (snd (g L x))) ->
    forall l L, grows L (snd (each g l L)).
  Proof.
    intros H. induction l as [|x l IH]; intros L; cbn [each]; [ apply grows_refl |].
    pose proof (H L x) as Hx. destruct (g L x) as [v L']. cbn [snd] in Hx. destruct v; try exact Hx.
    specialize (IH L'). unfold grows in *. lia.
  Qed.
  Lemma each_sim {X E} (f : agg -> unit -> X -> mres agg E unit) (g : ledger -> X -> verdict * ledger) rej :
    (forall e, rej e <> Done) -> (forall L x, grows L (snd (g L x))) ->
    (forall s L x, agrees s L -> roomy (snd (g L x)) -> outcome rej (f s tt x) (g L x)) ->
    forall l s L, agrees s L -> roomy (snd (each g l L)) -> outcome rej (mfold f l s tt) (each g l L).
  Proof.
    intros Hrej Hg H. induction l as [|x l IH]; intros s L HA HR; cbn [each mfold] in *.
    { split; [ reflexivity | exact HA ]. }
    pose proof (H s L x HA) as Hx. destruct (g L x) as [v L'] eqn:Eg. cbn [snd] in Hx.
    assert (HR' : roomy L').
    { destruct v; cbn [snd] in HR; try exact HR. exact (grows_roomy _ _ (each_grows g Hg l L') HR). }
    specialize (Hx HR'). destruct (f s tt x) as [s' []|s' e|]; cbn [mbind outcome fst snd] in *.
    - destruct Hx as [-> HA']. cbn [snd] in HR. exact (IH s' L' HA' HR).
    - destruct Hx as [-> HA']. specialize (Hrej e). destruct (rej e) eqn:Er; try (split; [ reflexivity | exact HA' ]). congruence.
    - rewrite Hx. reflexivity.
  Qed.

  (** ** Taking in *)
  Lemma owns_spec k t : owns k t = true <-> owned_by k t.
  Proof.
    unfold owns, owned_by. rewrite forallb_forall. split.
    - intros H u Hu Hd. specialize (H u Hu). rewrite Hd in H. cbn [orb] in H. now apply pt_eqb_eq.
    - intros H u Hu. destruct (is_dummy u) eqn:Ed; [ reflexivity |]. cbn [orb]. apply pt_eqb_eq. now apply H.
  Qed.
  Lemma take_one_is L k t : take_one dbg L (k, t) =
    match is_valid dbg t (Some k) with
    | Ok _ => (Done, mkLedger (slots L) (next L) (made L) (keys L) (epoch L ++ [t]) (answers L) (entered L) (left L))
    | Err e => (Rejected e, L)
    | Panic => (Panicked, L)
    end.
  Proof.
    unfold take_one. destruct (owns k t) eqn:Eo; cbn [negb].
    - apply owns_spec in Eo. rewrite (is_valid_owned dbg t k Eo). destruct dbg; cbn [andb].
      + destruct (Z.ltb_spec (total_in t) two64) as [H1|H1].
        * rewrite (proj2 (Z.leb_gt _ _) H1). cbn [orb]. unfold total_in in H1. rewrite (sum_u64_ok true _ H1). cbn [rbind]. fold (total_in t) in *.
          destruct (Z.ltb_spec (total_out t) two64) as [H2|H2].
          -- rewrite (proj2 (Z.leb_gt _ _) H2). unfold total_out in H2. rewrite (sum_u64_ok true _ H2). cbn [rbind]. fold (total_out t) in *.
             assert (N1 : 0 <= total_in t) by apply total_nonneg. assert (N2 : 0 <= total_out t) by apply total_nonneg.
             rewrite !Z.mod_small by lia. now destruct (total_in t =? total_out t).
          -- rewrite (proj2 (Z.leb_le _ _) H2). unfold total_out in H2. rewrite (sum_u64_panic _ H2). reflexivity.
        * rewrite (proj2 (Z.leb_le _ _) H1). cbn [orb]. unfold total_in in H1. rewrite (sum_u64_panic _ H1). reflexivity.
      + rewrite !sum_u64_wrap. cbn [rbind]. fold (total_in t) (total_out t).
        now destruct (total_in t mod two64 =? total_out t mod two64).
    - assert (N : ~ owned_by k t) by (intros X; apply owns_spec in X; congruence).
      now rewrite (is_valid_not_owned dbg t k N).
  Qed.
  Lemma take_grows L kt : grows L (snd (take_one dbg L kt)).
  Proof.
    destruct kt as [k t]. rewrite take_one_is. destruct (is_valid dbg t (Some k)); cbn [snd]; try apply grows_refl.
    unfold grows. cbn [next epoch answers]. rewrite app_length. lia.
  Qed.
  Lemma take_sim s L kt : agrees s L -> roomy (snd (take_one dbg L kt)) ->
    outcome Rejected (intake_one dbg s tt kt) (take_one dbg L kt).
  Proof.
    destruct kt as [k t]. intros HA. rewrite take_one_is. pose proof (intake_one_spec dbg s k t (ag_epoch _ _ HA)) as H.
    destruct (is_valid dbg t (Some k)) as [[]|e|]; cbn [snd]; intros HR; cbn [outcome fst snd].
    - destruct (intake_one dbg s tt (k, t)) as [s' []|s' e|]; [| destruct H | exfalso ].
      + destruct H as (HE & Et & HS). split; [ reflexivity |].
        destruct HA as [A1 A2 A3 A4 A5 A6 A7 A8 A9 A10 A11]. destruct A1 as (w & A1).
        pose proof (coin_inv_intake dbg s s' _ w HS A1) as B1.
        destruct HS as (E1 & E2 & E3 & E4 & E5 & E6 & E7 & E8 & _).
        constructor; cbn [snd slots next made keys epoch answers entered left]; try congruence.
        * exists w. exact B1.
        * intros u v. rewrite E1. apply A3.
        * unfold indexed. rewrite E1. exact A4.
      + destruct HR as (_ & HR & _). cbn [epoch] in HR. rewrite app_length in HR. cbn [length] in HR.
        rewrite (ag_txs _ _ HA) in H. unfold two64 in H. lia.
    - rewrite H. split; [ reflexivity | exact HA ].
    - rewrite H. reflexivity.
  Qed.

  (** ** Answering *)
  Lemma spend_grows contract L x : grows L (snd (answer_one dbg contract L x)).
  Proof.
    destruct x as [i [k sg]]. unfold answer_one.
    destruct (nth_error (epoch L) i) as [t|]; [| apply grows_refl ].
    destruct (authorised _ _ t (k, sg)); [ destruct (spend _ _ _) as [sl [u|]] |];
      unfold grows; cbn [snd next epoch answers]; rewrite app_length; lia.
  Qed.
  Lemma enum_real_real v : Forall (fun ju : nat * utxo => is_dummy (snd ju) = false) (enum_real v).
  Proof.
    apply Forall_forall. intros [j u] H. apply filter_In in H as [_ H]. now apply negb_true_iff in H.
  Qed.
  Lemma leaving_eq contract t : leaving contract t = withdrawn contract t.
  Proof.
    unfold leaving, withdrawn, to_contract, value, real. do 2 f_equal.
    induction (a4_list (outputs t)) as [|u l IH]; [ reflexivity |]. cbn [filter].
    destruct (is_dummy u); cbn [negb andb filter]; [ exact IH |]. now destruct (pt_eqb (pk u) contract); rewrite IH.
  Qed.
  Lemma entering_eq contract k t : entering contract k t = new_deposits contract k (real (a4_list (outputs t))).
  Proof. reflexivity. Qed.
  Lemma u64of_mod z : u64of (z mod two64) = u64of z.
  Proof. apply zval_inj. cbn. apply Z.mod_mod. discriminate. Qed.

  Lemma answer_sim contract s L x : agrees s L -> roomy (snd (answer_one dbg contract L x)) ->
    outcome Refused (sign_one dbg contract s tt x) (answer_one dbg contract L x).
  Proof.
    destruct x as [i [k osg]]. intros HA HR.
    pose proof (grows_roomy _ _ (spend_grows contract L (i, (k, osg))) HR) as HR0.
    pose proof HA as [(w & A1) A2 A3 A4 A5 A6 A7 A8 A9 A10 A11].
    assert (Hroot : root (a_tx_tree s) = Ok (merkle_root (tx_contents (epoch L)))).
    { rewrite <- A7. apply (tree_holds_root dbg tx_cfg tx_cfg_ok). apply (ei_holds _ _ A6). rewrite A7. apply HR0. }
    revert HR. unfold answer_one, sign_one. rewrite <- A7 in *.
    destruct (nth_error (a_txs s) i) as [t|] eqn:Et; [| intros _; reflexivity ].
    rewrite Hroot. set (r := merkle_root (tx_contents (a_txs s))) in *. cbv zeta.
    assert (Ep : exists tpf, nth_error (a_tx_proofs s) i = Some tpf).
    { destruct (nth_error (a_tx_proofs s) i) as [tpf|] eqn:E; [ now exists tpf |]. exfalso.
      apply nth_error_None in E. rewrite (ei_len _ _ A6) in E. apply nth_error_None in E. congruence. }
    destruct Ep as (tpf & Ep).
    set (sg := match osg with Some sg => sg | None => sig_default end).
    change (accepts contract r t k sg) with (authorised contract r t (k, osg)).
    destruct (authorised contract r t (k, osg)) eqn:Ea.
    - (* applied *)
      intros HR.
      assert (Hl : Z.of_nat (length (answers L)) < 4096).
      { pose proof HR as (_ & _ & X). revert X. destruct (spend _ _ _) as [sl [u|]]; cbn [snd answers];
          rewrite app_length; cbn [length]; lia. }
      destruct (tree_holds_update dbg signer_cfg signer_cfg_ok _ _ (Z.of_nat (length (answers L))) k A5) as (st & spf & Eu & HK & _).
      { unfold in_range. rewrite signer_capacity. lia. }
      rewrite A8, Eu. cbn [mlift mbind fst snd].
      set (s1 := with_signer s st (Some k)) in *.
      assert (HI1 : CoinInv dbg s1 (slots L) w) by now apply coin_inv_signer.
      pose proof (led_delete contract (made L) (enum_real (inputs t)) s1 (slots L) w (next L)
                    (a4_const Fzero, a4_const (default_two_paths utxo_cfg)) HI1 A3 A4 A2 (enum_real_real _)) as HD.
      rewrite real_enum, <- consumes_eq in HD.
      destruct (mfold (delete_one dbg contract) (enum_real (inputs t)) s1 _) as [s2 [dpos dpf]|s2 e|] eqn:Ed; cbn [mbind]; [| | destruct HD ].
      + destruct HD as (c2 & w2 & ES & HI2 & HO2 & HK2 & Es2). rewrite ES in *. cbn [snd] in HR.
        assert (I2 : a_index s2 = Z.of_nat (next L)) by (rewrite Es2; exact A2).
        assert (Hcap : a_index s2 + Z.of_nat (length (creates contract t)) <= capacity utxo_cfg).
        { rewrite I2, utxo_capacity. destruct HR as (X & _). cbn [next] in X. rewrite Nat2Z.inj_add in X. lia. }
        pose proof (add_loop dbg contract k (enum_real (outputs t)) s2 c2 w2
                      (a4_const Fzero) (a4_const (default_two_paths utxo_cfg)) (u64of 0) HI2) as HB.
        pose proof (led_add contract k (enum_real (outputs t)) s2 c2 w2 (next L)
                      (a4_const Fzero) (a4_const (default_two_paths utxo_cfg)) (u64of 0) HI2 I2) as HB1.
        pose proof (add_loop_table dbg contract k (enum_real (outputs t)) s2
                      (a4_const Fzero) (a4_const (default_two_paths utxo_cfg)) (u64of 0)
                      (conj (ex_intro _ c2 (ex_intro _ w2 HI2)) HO2) (enum_real_lt (outputs t)) (enum_real_nodup (outputs t))) as HB2.
        pose proof (add_known dbg contract k (enum_real (outputs t)) s2
                      (a4_const Fzero, a4_const (default_two_paths utxo_cfg), u64of 0) (made L) HK2) as HB3.
        rewrite real_enum, <- creates_eq in HB, HB1. rewrite real_enum, <- creates_eq in HB3.
        rewrite kept_creates in HB2. specialize (HB Hcap). specialize (HB1 Hcap). specialize (HB2 Hcap).
        change (zval (u64of 0)) with 0 in HB, HB1. rewrite Z.add_0_l in HB, HB1.
        fold (withdrawn contract t) in HB, HB1. rewrite <- leaving_eq in HB, HB1.
        destruct (mfold (add_one dbg contract k) (enum_real (outputs t)) s2 _) as [s3 [[pos pf] wd]|s3 e|]; cbn [mbind].
        * destruct HB as (_ & _ & _ & Es3 & _ & Hwd). destruct HB1 as ((w3 & HI3) & Hd).
          destruct HB2 as ((_ & HO3) & _ & _). destruct HB3 as (HK3 & _).
          assert (Ev : dbg && (two64 <=? leaving contract t) = false).
          { destruct dbg; [| reflexivity ]. cbn [andb]. apply Z.leb_gt. rewrite <- (Hd eq_refl). apply u64_range. }
          rewrite Ev. rewrite <- entering_eq in Es3. rewrite Hwd.
          set (s4 := if 0 <? leaving contract t mod two64 then with_logs s3 (a_deposits s3) (a_withdrawals s3 ++ [(k, wd)]) else s3).
          assert (E4 : s4 = with_logs s3 (a_deposits s3) (a_withdrawals s3 ++
                        (if 0 <? leaving contract t mod two64 then [(k, u64of (leaving contract t))] else []))).
          { unfold s4. destruct (0 <? leaving contract t mod two64).
            - do 3 f_equal. f_equal. f_equal. apply zval_inj. rewrite Hwd. reflexivity.
            - rewrite app_nil_r. now destruct s3. }
          rewrite E4. clear s4 E4.
          assert (Ep3 : a_tx_proofs s3 = a_tx_proofs s) by (rewrite Es3, Es2; reflexivity).
          cbn [with_logs a_tx_proofs]. rewrite Ep3, Ep. cbn [outcome fst snd]. split; [ reflexivity |].
          constructor; cbn [slots next made keys epoch answers entered left].
          -- exists w3. apply coin_inv_ivc. now apply coin_inv_logs.
          -- rewrite Es3. cbn [with_ivc with_logs with_coins a_index]. rewrite I2. lia.
          -- exact HO3.
          -- exact HK3.
          -- rewrite Es3, Es2. exact HK.
          -- apply (epoch_same dbg s); [ exact A6 | | | ]; rewrite Es3, Es2; reflexivity.
          -- rewrite Es3, Es2. reflexivity.
          -- rewrite Es3, Es2. cbn. now rewrite A8.
          -- rewrite Es3, Es2. cbn. now rewrite A9.
          -- rewrite Es3, Es2. cbn. now rewrite A10.
          -- rewrite Es3, Es2. exact A11.
        * destruct HB.
        * destruct HB as [-> HB]. cbn [andb]. rewrite (proj2 (Z.leb_le _ _) HB). reflexivity.
      + destruct HD as (c2 & w2 & u & ES & HI2 & HO2 & HK2 & Es2 & ->). rewrite ES in *. cbn [outcome fst snd].
        split; [ reflexivity |].
        constructor; cbn [slots next made keys epoch answers entered left].
        * exists w2. exact HI2.
        * rewrite Es2. exact A2.
        * exact HO2.
        * exact HK2.
        * rewrite Es2. exact HK.
        * apply (epoch_same dbg s); [ exact A6 | | | ]; rewrite Es2; reflexivity.
        * rewrite Es2. reflexivity.
        * rewrite Es2. cbn. now rewrite A8.
        * rewrite Es2. exact A9.
        * rewrite Es2. exact A10.
        * rewrite Es2. exact A11.
    - (* not applied *)
      intros _. cbn [mbind with_signer a_tx_proofs]. rewrite Ep. cbn [outcome fst snd]. split; [ reflexivity |].
      constructor; cbn [slots next made keys epoch answers entered left]; try assumption.
      + exists w. apply coin_inv_ivc. now apply coin_inv_signer.
      + apply (epoch_same dbg s); [ exact A6 | | | ]; reflexivity.
      + reflexivity.
      + cbn. now rewrite A8.
  Qed.

  Lemma panicked_dec v : {v = Panicked} + {v <> Panicked}.
  Proof. destruct v; [ right; discriminate | right; discriminate | right; discriminate | now left ]. Qed.

  Lemma serve_sim s L q : agrees s L -> roomy (snd (serve dbg L q)) ->
    match obey dbg s q with
    | (v, Some s') => fst (serve dbg L q) = v /\ v <> Panicked /\ agrees s' (snd (serve dbg L q))
    | (v, None) => fst (serve dbg L q) = Panicked /\ v = Panicked
    end.
  Proof.
    intros HA. destruct q as [l|contract l|]; cbn [serve obey]; intros HR.
    - unfold process_transactions.
      pose proof (each_sim (intake_one dbg) (take_one dbg) Rejected ltac:(discriminate) take_grows take_sim l s L HA HR) as H.
      destruct (mfold (intake_one dbg) l s tt) as [s' u|s' e|]; cbn [outcome] in H;
        [ split; [ apply H | split; [ discriminate | apply H ] ] | split; [ apply H | split; [ discriminate | apply H ] ] | split; [ exact H | reflexivity ] ].
    - unfold process_signatures, enum.
      pose proof (each_sim (sign_one dbg contract) (answer_one dbg contract) Refused ltac:(discriminate) (spend_grows contract) (answer_sim contract)
                    (combine (seq 0 (length l)) l) s L HA HR) as H.
      destruct (mfold (sign_one dbg contract) (combine (seq 0 (length l)) l) s tt) as [s' u|s' e|]; cbn [outcome] in H;
        [ split; [ apply H | split; [ discriminate | apply H ] ] | split; [ apply H | split; [ discriminate | apply H ] ] | split; [ exact H | reflexivity ] ].
    - split; [ reflexivity |]. split; [ discriminate |]. cbn [snd].
      destruct HA as [(w & A1) A2 A3 A4 A5 A6 A7 A8 A9 A10 A11].
      constructor; cbn [slots next made keys epoch answers entered left]; try reflexivity; try assumption.
      + exists w. destruct A1; constructor; auto.
      + now apply epoch_fresh.
  Qed.

  Lemma play_sim qs : forall s L, agrees s L -> roomy L -> always_roomy dbg qs L ->
    match run dbg qs s with
    | (vs, Some s') => fst (play dbg qs L) = vs /\ ~ In Panicked vs /\ agrees s' (snd (play dbg qs L)) /\ roomy (snd (play dbg qs L))
    | (vs, None) => fst (play dbg qs L) = vs /\ In Panicked vs
    end.
  Proof.
    induction qs as [|q qs IH]; intros s L HA HR0 HR; cbn [run play always_roomy] in *.
    { split; [ reflexivity |]. split; [ tauto |]. split; assumption. }
    destruct HR as [HR HR']. pose proof (serve_sim s L q HA HR) as H.
    destruct (serve dbg L q) as [v L'] eqn:Es. cbn [fst snd] in *.
    destruct (obey dbg s q) as [v' [s'|]] eqn:Eo.
    - destruct H as (-> & Hv & HA'). specialize (IH s' L' HA' HR (HR' Hv)).
      assert (Ec : forall A (x y : A), match v' with Panicked => x | _ => y end = y) by (intros A x y; destruct v'; congruence).
      assert (E : match v' with Panicked => ([Panicked], L') | _ => let '(vs, L2) := play dbg qs L' in (v' :: vs, L2) end
                  = (v' :: fst (play dbg qs L'), snd (play dbg qs L'))).
      { destruct v'; try congruence; now destruct (play dbg qs L'). }
      match goal with |- context [fst ?X = _] => replace X with (v' :: fst (play dbg qs L'), snd (play dbg qs L')) by (symmetry; destruct v'; try congruence; now destruct (play dbg qs L')) end.
      destruct (run dbg qs s') as [vs [s2|]]; cbn [fst snd].
      + destruct IH as (E1 & E2 & E3 & E4). rewrite E1. split; [ reflexivity |]. split; [| split; assumption ].
        intros [X|X]; [ now apply Hv | exact (E2 X) ].
      + destruct IH as (E1 & E2). rewrite E1. split; [ reflexivity |]. now right.
    - destruct H as (-> & ->). split; [ reflexivity |]. now left.
  Qed.

  (** ** Blocks *)
  Lemma last_place_none k l : last_place k l = None -> forall j, nth_error l j <> Some k.
  Proof.
    induction l as [|x l IH]; intros H [|j]; cbn [last_place nth_error] in *; try discriminate.
    - destruct (last_place k l); [ discriminate H |]. destruct (pt_eqb x k) eqn:E; [ discriminate H |].
      apply pt_eqb_neq in E. congruence.
    - apply IH. destruct (last_place k l); [ discriminate H | reflexivity ].
  Qed.
  Lemma last_place_some k l : forall i, last_place k l = Some i -> last_index l k i.
  Proof.
    induction l as [|x l IH]; intros i H; cbn [last_place] in H; [ discriminate H |].
    destruct (last_place k l) as [i'|] eqn:E.
    - assert (Ei : i = S i') by congruence. subst i. destruct (IH i' eq_refl) as [H1 H2]. split; [ exact H1 |].
      intros [|j] Hj; [ lia |]. cbn [nth_error] in Hj. specialize (H2 j Hj). lia.
    - destruct (pt_eqb x k) eqn:Ex; [| discriminate H ]. assert (Ei : i = O) by congruence. subst i.
      apply pt_eqb_eq in Ex. split; [ cbn; congruence |]. intros [|j] Hj; [ lia |].
      exfalso. exact (last_place_none k l E j Hj).
  Qed.
  Lemma last_place_spec k l i : last_place k l = Some i <-> last_index l k i.
  Proof.
    split; [ apply last_place_some |]. intros [H1 H2]. destruct (last_place k l) as [i'|] eqn:E.
    - apply last_place_some in E as [E1 E2]. f_equal. apply Nat.le_antisymm; auto.
    - exfalso. exact (last_place_none k l E i H1).
  Qed.

  Lemma rmap_all_some {A B} (f : A -> res no_error B) (g : A -> option B) l :
    (forall a, f a = match g a with Some b => Ok b | None => Panic end) ->
    rmap f l = match all_some g l with Some m => Ok m | None => Panic end.
  Proof.
    intros H. induction l as [|a l IH]; cbn [rmap all_some]; [ reflexivity |]. rewrite H, IH.
    destruct (g a) as [b|]; cbn [rbind]; [| reflexivity ]. now destruct (all_some g l).
  Qed.

  Lemma index_is k0 cs c k : history dbg k0 cs c -> Z.of_nat (length (pks c)) <= 2 ^ 32 ->
    index_u32 c k = match last_place k (pks c) with Some i => Ok (Z.of_nat i) | None => Panic end.
  Proof.
    intros Hh Hl. pose proof (C38_registry dbg k0 cs c Hh) as (_ & _ & _ & H & _). unfold index_u32.
    destruct (last_place k (pks c)) as [i|] eqn:E.
    - apply last_place_spec in E. pose proof E as [Hn _]. apply H in E. rewrite E. cbn [unwrap rbind]. f_equal.
      assert (i < length (pks c))%nat by (apply nth_error_Some; congruence). apply Z.mod_small. lia.
    - destruct (hget pt_eqb (pk_indices c) k) as [i|] eqn:Ei; [| reflexivity ].
      apply H in Ei as [Ei _]. exfalso. exact (last_place_none k _ E i Ei).
  Qed.

  Definition ends (s : agg) (L : ledger) : Prop :=
    root (a_utxo_tree s) = Ok (merkle_root (slots L)) /\
    root (a_tx_tree s) = Ok (merkle_root (tx_contents (epoch L))) /\
    root (a_signer_tree s) = Ok (merkle_root (keys L)).

  Lemma block_is s L k0 cs c : agrees s L -> ends s L ->
    history dbg k0 cs c -> Z.of_nat (length (pks c)) <= 2 ^ 32 ->
    produce_block s c = match report L (pks c) with Some b => Ok b | None => Panic end.
  Proof.
    intros HA (R1 & R2 & R3) Hh Hl. unfold produce_block, report. rewrite R1, R2, R3.
    rewrite (ag_signers _ _ HA), (ag_deposits _ _ HA), (ag_withdrawals _ _ HA), (ag_height _ _ HA).
    rewrite (rmap_all_some _ (named_slot (pks c)) (answers L)); cycle 1.
    { intros [k|]; [| reflexivity ]. rewrite (index_is k0 cs c k Hh Hl). cbn [named_slot].
      destruct (last_place k (pks c)); reflexivity. }
    assert (N : forall a : pt * u64, (do i <- index_u32 c (fst a); Ok (i, snd a)) =
      match named (pks c) a with Some b => Ok b | None => Panic end).
    { intros a. rewrite (index_is k0 cs c (fst a) Hh Hl). unfold named. destruct (last_place (fst a) (pks c)); reflexivity. }
    rewrite (rmap_all_some _ (named (pks c)) (entered L) N), (rmap_all_some _ (named (pks c)) (left L) N).
    destruct (all_some (named_slot (pks c)) (answers L)); cbn [rbind]; [| reflexivity ].
    destruct (all_some (named (pks c)) (entered L)); cbn [rbind]; [| reflexivity ].
    destruct (all_some (named (pks c)) (left L)); reflexivity.
  Qed.

  Lemma ends_ok s L : agrees s L -> roomy L -> ends s L.
  Proof.
    intros HA (_ & HR & _). split; [| split ].
    - destruct (ag_coins _ _ HA) as (w & HI). apply (tree_holds_root dbg utxo_cfg utxo_cfg_ok).
      exists (slots L), w. split; [ exact (ci_built _ _ _ _ HI) | reflexivity ].
    - rewrite <- (ag_txs _ _ HA). apply (tree_holds_root dbg tx_cfg tx_cfg_ok). apply (ei_holds _ _ (ag_epoch _ _ HA)).
      rewrite (ag_txs _ _ HA). exact HR.
    - exact (tree_holds_root dbg signer_cfg signer_cfg_ok _ _ (ag_keys _ _ HA)).
  Qed.

  Lemma roomy_start : roomy start.
  Proof. split; [ cbn; lia | split; cbn; lia ]. Qed.

  (** The requests bound the room. *)
  Lemma creates_le contract t : (length (creates contract t) <= 4)%nat.
  Proof.
    unfold creates. assert (Hle : forall (f : utxo -> bool) m, (length (filter f m) <= length m)%nat).
    { intros f m. induction m as [|y m IH]; cbn [filter length]; [ lia |]. destruct (f y); cbn [length]; lia. }
    specialize (Hle (fun u => negb (is_dummy u) && negb (pt_eqb (pk u) contract)) (a4_list (outputs t))).
    assert (length (a4_list (outputs t)) = 4%nat) by (destruct (outputs t); reflexivity). lia.
  Qed.
  Lemma each_room {X} (f : ledger -> X -> verdict * ledger) a b c :
    (forall L x, (next (snd (f L x)) <= next L + a)%nat /\ (length (epoch (snd (f L x))) <= length (epoch L) + b)%nat /\
                 (length (answers (snd (f L x))) <= length (answers L) + c)%nat) ->
    forall l L, (next (snd (each f l L)) <= next L + a * length l)%nat /\
                (length (epoch (snd (each f l L))) <= length (epoch L) + b * length l)%nat /\
                (length (answers (snd (each f l L))) <= length (answers L) + c * length l)%nat.
  Proof.
    intros H. induction l as [|x l IH]; intros L; cbn [each length snd]; [ lia |].
    specialize (H L x). destruct (f L x) as [v L']. cbn [snd] in H.
    destruct v; cbn [snd]; [ specialize (IH L'); nia | nia | nia | nia ].
  Qed.
  Lemma take_room L x : next (snd (take_one dbg L x)) = next L /\
    (length (epoch (snd (take_one dbg L x))) <= length (epoch L) + 1)%nat /\
    length (answers (snd (take_one dbg L x))) = length (answers L).
  Proof.
    destruct x as [k t]. unfold take_one. destruct (negb _); cbn [snd]; [ lia |].
    destruct (dbg && _); cbn [snd]; [ lia |]. destruct (_ =? _); cbn [snd next epoch answers]; [| lia ].
    rewrite app_length. cbn [length]. lia.
  Qed.
  Lemma answer_room contract L x : (next (snd (answer_one dbg contract L x)) <= next L + 4)%nat /\
    length (epoch (snd (answer_one dbg contract L x))) = length (epoch L) /\
    (length (answers (snd (answer_one dbg contract L x))) <= length (answers L) + 1)%nat.
  Proof.
    destruct x as [i [k sg]]. unfold answer_one. destruct (nth_error (epoch L) i) as [t|]; cbn [snd]; [| lia ].
    pose proof (creates_le contract t) as Hc.
    destruct (authorised _ _ _ _); [ destruct (spend _ _ _) as [c [u|]] |]; cbn [snd next epoch answers];
      rewrite ?app_length; cbn [length]; lia.
  Qed.
  Lemma serve_room L q :
    (next (snd (serve dbg L q)) <= next L + 4 * snd (asks q))%nat /\
    (length (epoch (snd (serve dbg L q))) <= length (epoch L) + fst (asks q))%nat /\
    (length (answers (snd (serve dbg L q))) <= length (answers L) + snd (asks q))%nat.
  Proof.
    destruct q as [l|contract l|]; cbn [serve asks fst snd].
    - pose proof (each_room (take_one dbg) 0 1 0) as H. specialize (H ltac:(intros L0 x; pose proof (take_room L0 x); lia) l L). lia.
    - pose proof (each_room (answer_one dbg contract) 4 0 1) as H.
      specialize (H ltac:(intros L0 x; pose proof (answer_room contract L0 x); lia) (combine (seq 0 (length l)) l) L).
      rewrite combine_length, seq_length, Nat.min_id in H. lia.
    - cbn [next epoch answers length]. lia.
  Qed.
  Lemma room_run qs : forall L,
    Z.of_nat (next L + 4 * list_sum (map (fun q => snd (asks q)) qs)) <= 2 ^ 31 ->
    Z.of_nat (length (epoch L) + list_sum (map (fun q => fst (asks q)) qs)) <= 4096 ->
    Z.of_nat (length (answers L) + list_sum (map (fun q => snd (asks q)) qs)) <= 4096 -> always_roomy dbg qs L.
  Proof.
    induction qs as [|q qs IH]; intros L H1 H2 H3; cbn [always_roomy]; [ exact I |].
    change (list_sum (map (fun q => snd (asks q)) (q :: qs))) with (snd (asks q) + list_sum (map (fun q => snd (asks q)) qs))%nat in *.
    change (list_sum (map (fun q => fst (asks q)) (q :: qs))) with (fst (asks q) + list_sum (map (fun q => fst (asks q)) qs))%nat in *.
    pose proof (serve_room L q) as H.
    split; [ unfold roomy; lia |]. intros _. apply IH; lia.
  Qed.
  (** C125: few requests always have room. *)
  Theorem C125_room qs : few qs -> always_roomy dbg qs start.
  Proof. intros [H1 H2]. apply room_run; cbn [start next epoch answers length]; lia. Qed.

  (** C125: whatever the requests, the caller sees what the ledger machine shows, request by request, and
      the process dies exactly when the machine says so. *)
  Theorem C125_verdicts qs : always_roomy dbg qs start ->
    fst (run dbg qs agg_new) = fst (play dbg qs start) /\
    (snd (run dbg qs agg_new) = None <-> In Panicked (fst (play dbg qs start))).
  Proof.
    intros HR. pose proof (play_sim qs agg_new start agrees_start roomy_start HR) as H.
    destruct (run dbg qs agg_new) as [vs [s|]]; cbn [fst snd].
    - destruct H as (H1 & H2 & _). rewrite H1. split; [ reflexivity |]. split; [ discriminate | tauto ].
    - destruct H as (H1 & H2). rewrite H1. split; [ reflexivity |]. split; auto.
  Qed.

  (** C125: what the aggregator then holds is what the machine holds: the three trees commit to the coin
      slots, the transactions of the epoch and the key slots; the public lists are the machine's. *)
  Theorem C125_state qs vs s : always_roomy dbg qs start -> run dbg qs agg_new = (vs, Some s) ->
    let L := snd (play dbg qs start) in
    root (a_utxo_tree s) = Ok (merkle_root (slots L)) /\
    root (a_tx_tree s) = Ok (merkle_root (tx_contents (epoch L))) /\
    root (a_signer_tree s) = Ok (merkle_root (keys L)) /\
    a_index s = Z.of_nat (next L) /\ a_txs s = epoch L /\ a_signers s = answers L /\
    a_deposits s = entered L /\ a_withdrawals s = left L /\
    (forall i u, is_dummy u = false ->
       (In (i, u) (positions s) <-> 0 <= i < Z.of_nat (next L) /\ slots L i = u)).
  Proof.
    intros HR E L. pose proof (play_sim qs agg_new start agrees_start roomy_start HR) as H. rewrite E in H.
    destruct H as (_ & _ & HA & HR'). fold L in HA, HR'. destruct (ends_ok s L HA HR') as (R1 & R2 & R3).
    split; [ exact R1 |]. split; [ exact R2 |]. split; [ exact R3 |]. split; [ exact (ag_index _ _ HA) |].
    split; [ exact (ag_txs _ _ HA) |]. split; [ exact (ag_signers _ _ HA) |]. split; [ exact (ag_deposits _ _ HA) |].
    split; [ exact (ag_withdrawals _ _ HA) |]. intros i u Hu. destruct (ag_coins _ _ HA) as (w & HI).
    rewrite <- (ag_index _ _ HA). exact (stands s _ w i u HI Hu).
  Qed.

  (** C125: and the block is the machine's report, for any contract history: it panics exactly when a key of
      the epoch is not registered. *)
  Theorem C125_block qs vs s k0 cs c : always_roomy dbg qs start -> run dbg qs agg_new = (vs, Some s) ->
    history dbg k0 cs c -> Z.of_nat (length (pks c)) <= 2 ^ 32 ->
    produce_block s c = match report (snd (play dbg qs start)) (k0 :: joined cs) with Some b => Ok b | None => Panic end.
  Proof.
    intros HR E Hh Hl. pose proof (play_sim qs agg_new start agrees_start roomy_start HR) as H. rewrite E in H.
    destruct H as (_ & _ & HA & HR'). rewrite <- (proj1 (C38_registry dbg k0 cs c Hh)).
    exact (block_is s _ k0 cs c HA (ends_ok s _ HA HR') Hh Hl).
  Qed.
End props.

Print Assumptions C125_room.
Print Assumptions C125_verdicts.
Print Assumptions C125_state.
Print Assumptions C125_block.

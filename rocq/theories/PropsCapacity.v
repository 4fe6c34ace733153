(** C103: positions of the UTXO tree are used once, so the aggregator can create 2^31 coins in its
    lifetime; what happens at the limit. *)
From Coq Require Import ZArith List Bool Lia Permutation.
Import ListNotations.
From Verif Require Import Base Env Circuit SparseMT SparseMTSpec SparseMTHeap SparseMTRep SparseMTNew
  SparseMTProofs TreeTotal PropsTree Data DataSpec DataFacts PropsData Schnorr SchnorrProofs PropsSchnorr HMap Contract
  Aggregator AggSpec AggFacts AggSign AggIntake PropsIntake PropsSign
  AggCircuit AggCircuitSpec AggCircuitFacts CircuitRun PropsCircuit Honest PropsHonest PropsLimits.
Open Scope Z_scope.

Section props.
  Context {hs : Hashes} {G : Curve} (dbg : bool).

  (** * Specification *)

  (** A continuation of a history: any further calls, each returning or failing, within the size
      of the UTXO tree. *)
  Inductive continues : agg -> agg -> Prop :=
  | cont_here s : continues s s
  | cont_intake s s1 l s' :
      continues s s1 -> leaves (process_transactions dbg s1 l) s' -> continues s s'
  | cont_sign s s1 contract l s' :
      continues s s1 -> fits contract s1 l -> leaves (process_signatures dbg s1 contract l) s' ->
      continues s s'
  | cont_reset s s1 : continues s s1 -> continues s (reset_for_new_epoch s1).

  (** Position [i] of the coin tree holds no coin. *)
  Definition vacant (s : agg) (i : Z) : Prop := forall u, ~ In (i, u) (positions s).
  (** Every coin recorded in [s'] sat at the same position in [s] already, or sits at a position
      handed out since. *)
  Definition later (s s' : agg) : Prop :=
    a_index s <= a_index s' /\
    forall i u, In (i, u) (positions s') -> In (i, u) (positions s) \/ a_index s <= i < a_index s'.

  Lemma continues_reached s s' : reached dbg s -> continues s s' -> reached dbg s'.
  Proof.
    intros Hr H. induction H as [s|s s1 l s' _ IH Hl|s s1 contract l s' _ IH Hf Hl|s s1 _ IH]; auto.
    - exact (reached_intake dbg s1 l s' (IH Hr) Hl).
    - exact (reached_sign dbg s1 contract l s' (IH Hr) Hf Hl).
    - exact (reached_reset dbg s1 (IH Hr)).
  Qed.

  Lemma later_refl s : later s s.
  Proof. split; [ lia | auto ]. Qed.
  Lemma later_trans a b c : later a b -> later b c -> later a c.
  Proof.
    intros [H1 H2] [H3 H4]. split; [ lia |]. intros i u H. destruct (H4 i u H) as [H'|H']; [| lia ].
    destruct (H2 i u H'); [ auto | right; lia ].
  Qed.
  Lemma later_same s s' : a_index s' = a_index s -> positions s' = positions s -> later s s'.
  Proof. intros E1 E2. unfold later. rewrite E1, E2. split; [ lia | auto ]. Qed.

  Lemma delete_later contract l : forall s c w a s', CoinInv dbg s c w ->
    leaves (mfold (delete_one dbg contract) l s a) s' -> later s s'.
  Proof.
    induction l as [|[j u] l IH]; intros s c w a s' HI Hl; cbn [mfold] in Hl.
    - destruct Hl as [[b E]|[e E]]; [| discriminate ]. assert (s' = s) as -> by congruence. apply later_refl.
    - destruct (pt_eqb (pk u) contract) eqn:Ek.
      + apply pt_eqb_eq in Ek. rewrite delete_one_contract in Hl by exact Ek. exact (IH s c w a s' HI Hl).
      + apply pt_eqb_neq in Ek. destruct (utxo_in_dec u (coins s)) as [Hu|Hu].
        * destruct (delete_one_present dbg contract s c w a j u HI Ek Hu) as (i & s1 & w1 & _ & E & Es & HP & HI1).
          rewrite E in Hl. cbn [mbind] in Hl. apply (later_trans s s1); [| exact (IH s1 _ w1 _ s' HI1 Hl) ].
          split; [ rewrite Es; cbn; lia |]. intros i' u' Hin. left.
          apply (Permutation_in _ (Permutation_sym HP)). now right.
        * destruct (delete_one_absent dbg contract s c w a j u HI Ek Hu) as [E|E]; rewrite E in Hl; cbn [mbind] in Hl;
            destruct Hl as [[b E']|[e E']]; try discriminate; assert (s' = s) as -> by congruence; apply later_refl.
  Qed.
  Lemma add_later contract sender l : forall s c w a s', CoinInv dbg s c w ->
    a_index s + Z.of_nat (length (filter (noncontract contract) (map snd l))) <= capacity utxo_cfg ->
    leaves (mfold (add_one dbg contract sender) l s a) s' -> later s s'.
  Proof.
    induction l as [|[j u] l IH]; intros s c w [[pos pf] wd] s' HI Hcap Hl; cbn [mfold map filter snd] in Hl, Hcap.
    - destruct Hl as [[b E]|[e E]]; [| discriminate ]. assert (s' = s) as -> by congruence. apply later_refl.
    - unfold noncontract in Hcap at 1. destruct (pt_eqb (pk u) contract) eqn:Ek.
      + cbn [negb] in Hcap. unfold add_one in Hl at 1. fold (logged contract sender s u) in Hl. rewrite Ek in Hl. cbn [negb] in Hl.
        assert (Hlog : later s (logged contract sender s u)).
        { unfold logged. destruct (pt_eqb sender contract); [ apply later_same; reflexivity | apply later_refl ]. }
        destruct (@add64 no_error dbg wd (amount u)) as [w'|e|]; cbn [mbind] in Hl.
        * apply (later_trans _ _ _ Hlog).
          apply (IH _ c w _ s' (coin_inv_logged dbg contract sender s c w u HI)) with (2 := Hl).
          assert (a_index (logged contract sender s u) = a_index s) as ->
            by (unfold logged; destruct (pt_eqb sender contract); reflexivity). exact Hcap.
        * destruct e.
        * destruct Hl as [[b E']|[e E']]; discriminate.
      + cbn [negb length] in Hcap. apply pt_eqb_neq in Ek.
        destruct (add_one_create dbg contract sender s c w pos pf wd j u HI Ek) as (s1 & w1 & E & Es & HP & HI1); [ lia |].
        rewrite E in Hl. cbn [mbind] in Hl.
        assert (Ei : a_index s1 = a_index s + 1) by (rewrite Es; reflexivity).
        apply (later_trans s s1); [| apply (IH s1 _ w1 _ s' HI1) with (2 := Hl); lia ].
        split; [ lia |]. intros i' u' Hin. apply (Permutation_in _ HP) in Hin.
        destruct Hin as [Hin|Hin]; [| left; exact Hin ]. right. apply pair_equal_spec in Hin. lia.
  Qed.

  Lemma sign_one_later contract s c w i k osg s' : CoinInv dbg s c w ->
    (forall t r, nth_error (a_txs s) i = Some t -> root (a_tx_tree s) = Ok r ->
       authorised contract r t (k, osg) = true ->
       a_index s + Z.of_nat (length (creates contract t)) <= capacity utxo_cfg) ->
    leaves (sign_one dbg contract s tt (i, (k, osg))) s' -> later s s'.
  Proof.
    intros HI Hcap Hl. unfold sign_one in Hl.
    assert (Hno : forall x : agg, ~ leaves (@MPanic agg agg_error unit) x)
      by (intros x [[b E]|[e E]]; discriminate).
    destruct (nth_error (a_txs s) i) as [t|] eqn:Et; [| now apply Hno in Hl ].
    destruct (root (a_tx_tree s)) as [r|e|] eqn:Er; [| now apply Hno in Hl | now apply Hno in Hl ].
    specialize (Hcap t r eq_refl eq_refl). fold (osig osg) in Hl.
    change (accepts contract r t k (osig osg)) with (authorised contract r t (k, osg)) in Hl.
    destruct (authorised contract r t (k, osg)) eqn:Eau.
    - specialize (Hcap eq_refl).
      destruct (update_and_prove dbg signer_cfg (a_signer_tree s) (Z.of_nat (length (a_signers s))) k)
        as [[st spf]|e|] eqn:Eu; [| exfalso; now apply (update_no_err dbg signer_cfg _ _ _ e Eu) | now apply Hno in Hl ].
      cbn [mlift mbind fst snd] in Hl.
      pose proof (coin_inv_signer dbg s c w st (Some k) HI) as HI1.
      assert (L0 : later s (with_signer s st (Some k))) by (apply later_same; reflexivity).
      pose proof (delete_later contract (enum_real (inputs t)) (with_signer s st (Some k)) c w
                    (a4_const Fzero, a4_const (default_two_paths utxo_cfg))) as HL.
      pose proof (delete_loop dbg contract (enum_real (inputs t)) (with_signer s st (Some k)) c w
                    (a4_const Fzero, a4_const (default_two_paths utxo_cfg)) HI1) as HD.
      destruct (mfold _ (enum_real (inputs t)) _ _) as [s2 del|s2 e|] eqn:Ed in Hl, HD; [| | tauto ].
      + destruct HD as (c2 & w2 & HI2 & Es2 & HP2). cbn [mbind] in Hl.
        assert (L1 : later (with_signer s st (Some k)) s2).
        { apply (HL s2 HI1). left. exists del. exact Ed. }
        pose proof (add_later contract k (enum_real (outputs t)) s2 c2 w2
                      (a4_const Fzero, a4_const (default_two_paths utxo_cfg), u64of 0)) as HA.
        rewrite real_enum, <- creates_eq in HA.
        assert (Ei2 : a_index s2 = a_index s) by (rewrite Es2; reflexivity).
        destruct (mfold _ (enum_real (outputs t)) _ _) as [s3 [[pos pf] wd]|s3 e|] eqn:Ea in Hl; cbn [mbind] in Hl;
          [| | now apply Hno in Hl ].
        * assert (L2 : later s2 s3).
          { apply (HA s3 HI2); [ lia |]. left. eexists. exact Ea. }
          destruct del as [dpos dpf].
          apply (later_trans _ _ _ L0), (later_trans _ _ _ L1), (later_trans _ _ _ L2).
          destruct (nth_error _ i) as [tpf|] in Hl; [| now apply Hno in Hl ].
          destruct Hl as [[b E]|[e E]]; [| discriminate ].
          assert (Es' : s' = with_ivc (if 0 <? zval wd then with_logs s3 (a_deposits s3) (a_withdrawals s3 ++ [(k, wd)]) else s3)
                               (mkInputs t tpf dpf dpos pf pos spf k (osig osg))) by congruence.
          rewrite Es'. destruct (0 <? zval wd); apply later_same; reflexivity.
        * assert (L2 : later s2 s3).
          { apply (HA s3 HI2); [ lia |]. right. eexists. exact Ea. }
          destruct Hl as [[b E]|[e' E]]; [ discriminate |]. assert (s' = s3) as -> by congruence.
          exact (later_trans _ _ _ L0 (later_trans _ _ _ L1 L2)).
      + cbn [mbind] in Hl. destruct Hl as [[b E]|[e' E]]; [ discriminate |]. assert (s' = s2) as -> by congruence.
        apply (later_trans _ _ _ L0). apply (HL s2 HI1). right. exists e. exact Ed.
    - cbn [mbind] in Hl. destruct (nth_error _ i) as [tpf|] in Hl; [| now apply Hno in Hl ].
      destruct Hl as [[b E]|[e E]]; [| discriminate ]. set (x := mkInputs _ _ _ _ _ _ _ _ _) in E.
      assert (s' = with_ivc (with_signer s (a_signer_tree s) None) x) as -> by congruence.
      apply later_same; reflexivity.
  Qed.

  Lemma sign_later contract l : forall n s c w r s', CoinInv dbg s c w -> root (a_tx_tree s) = Ok r ->
    a_index s + Z.of_nat (length (flat_map (creates contract) (applied contract r (skipn n (a_txs s)) l)))
      <= capacity utxo_cfg ->
    leaves (mfold (sign_one dbg contract) (combine (seq n (length l)) l) s tt) s' -> later s s'.
  Proof.
    induction l as [|[k osg] l IH]; intros n s c w r s' HI Hr Hcap Hl; cbn [length seq combine mfold] in Hl.
    - destruct Hl as [[b E]|[e E]]; [| discriminate ]. assert (s' = s) as -> by congruence. apply later_refl.
    - assert (Hc1 : forall t r', nth_error (a_txs s) n = Some t -> root (a_tx_tree s) = Ok r' ->
         authorised contract r' t (k, osg) = true ->
         a_index s + Z.of_nat (length (creates contract t)) <= capacity utxo_cfg).
      { intros t r' Et Er' Ea. assert (r' = r) as -> by congruence.
        rewrite (applied_cons _ _ _ _ t) in Hcap by auto. rewrite Ea in Hcap. cbn [app flat_map] in Hcap.
        rewrite app_length in Hcap. lia. }
      pose proof (sign_one_spec dbg contract s c w n k osg HI Hc1) as H1.
      pose proof (fun s1 => sign_one_later contract s c w n k osg s1 HI Hc1) as HL.
      destruct (sign_one dbg contract s tt (n, (k, osg))) as [s1 []|s1 e|] eqn:Eone; cbn [mbind] in Hl.
      + apply (later_trans s s1); [ apply HL; left; now exists tt |].
        destruct H1 as (t & r' & H1).
        assert (r' = r) by (pose proof (so_root _ _ _ _ _ _ _ _ _ H1); congruence). subst r'.
        destruct (so_inv _ _ _ _ _ _ _ _ _ H1) as (c1 & w1 & HI1).
        apply (IH (S n) s1 c1 w1 r s' HI1) with (3 := Hl).
        * rewrite (so_tx_tree _ _ _ _ _ _ _ _ _ H1). exact Hr.
        * rewrite (so_txs _ _ _ _ _ _ _ _ _ H1), (so_index _ _ _ _ _ _ _ _ _ H1).
          rewrite (applied_cons _ _ _ _ t) in Hcap by apply H1.
          rewrite flat_map_app, app_length in Hcap.
          destruct (authorised contract r t (k, osg)); cbn [flat_map length] in Hcap |- *;
            rewrite ?app_length in Hcap; cbn [length] in Hcap; lia.
      + destruct Hl as [[b E]|[e' E]]; [ discriminate |]. assert (s' = s1) as -> by congruence.
        apply HL. right. now exists e.
      + destruct Hl as [[b E]|[e' E]]; discriminate.
  Qed.

  (** ** C103 *)

  (** Whatever is called, a coin is where it was or at a position handed out since. *)
  Theorem C103_positions s s' : reached dbg s -> continues s s' -> later s s'.
  Proof.
    intros Hr H. induction H as [s|s s1 l s' H IH Hl|s s1 contract l s' H IH Hf Hl|s s1 H IH].
    - apply later_refl.
    - apply (later_trans _ _ _ (IH Hr)). pose proof (reached_inv dbg s1 (continues_reached s s1 Hr H)) as HI.
      pose proof (intake_run dbg l s1 (ri_epoch _ _ HI)) as HR.
      destruct Hl as [[a E]|[e E]]; rewrite E in HR.
      + destruct HR as (_ & _ & _ & HS). destruct HS as (E1 & E2 & E3 & _).
        apply later_same; [ exact E3 | unfold positions; now rewrite E1 ].
      + destruct HR as (l1 & k & x & l2 & _ & _ & _ & _ & _ & _ & HS). destruct HS as (E1 & E2 & E3 & _).
        apply later_same; [ exact E3 | unfold positions; now rewrite E1 ].
    - apply (later_trans _ _ _ (IH Hr)). pose proof (reached_inv dbg s1 (continues_reached s s1 Hr H)) as HI.
      destruct (ri_coins _ _ HI) as (c & w & HC). destruct (reach_root dbg s1 HI) as (r & Hroot).
      exact (sign_later contract l 0 s1 c w r s' HC Hroot (Hf r Hroot) Hl).
    - apply (later_trans _ _ _ (IH Hr)). apply later_same; reflexivity.
  Qed.
  (** So a position that has been handed out and is vacant stays vacant for ever. *)
  Corollary C103_never_reused s s' i : reached dbg s -> continues s s' ->
    i < a_index s -> vacant s i -> vacant s' i.
  Proof.
    intros Hr H Hi Hv u Hu. destruct (C103_positions s s' Hr H) as [_ HL].
    destruct (HL i u Hu) as [H'|H']; [ exact (Hv u H') | lia ].
  Qed.
  (** And a position that changes hands is vacated, never handed to another coin. *)
  Corollary C103_one_coin_per_position s s' i u u' : reached dbg s -> continues s s' ->
    In (i, u) (positions s) -> In (i, u') (positions s') -> u' = u.
  Proof.
    intros Hr H H1 H2. destruct (C43_coins_match_tree dbg s Hr) as (c & w & _ & _ & HN & HP & _).
    destruct (C103_positions s s' Hr H) as [_ HL].
    destruct (HL i u' H2) as [H3|H3].
    - rewrite <- (proj2 (HP _ _ H1)), <- (proj2 (HP _ _ H3)). reflexivity.
    - pose proof (proj1 (HP _ _ H1)). lia.
  Qed.

  (** The counter is the number of coins created so far. *)
  Theorem C103_counter contract s l s' r : reached dbg s -> fits contract s l -> root (a_tx_tree s) = Ok r ->
    process_signatures dbg s contract l = MOk s' tt ->
    a_index s' = a_index s + Z.of_nat (length (flat_map (creates contract) (applied contract r (a_txs s) l))).
  Proof.
    intros Hr Hf Hroot E. pose proof (run_ok dbg contract s l s' Hr Hf E) as H.
    change (a_txs s) with (skipn 0 (a_txs s)). clear Hf E Hr. revert Hroot.
    induction H as [n s|n k osg l s s1 s' t r' H1 H2 IH]; intros Hroot.
    - unfold applied. destruct (skipn n (a_txs s)); cbn; lia.
    - assert (r' = r) by (pose proof (so_root _ _ _ _ _ _ _ _ _ H1); congruence). subst r'.
      rewrite (applied_cons _ _ _ _ t) by apply H1.
      rewrite (so_tx_tree _ _ _ _ _ _ _ _ _ H1), (so_txs _ _ _ _ _ _ _ _ _ H1) in IH.
      rewrite (IH Hroot), (so_index _ _ _ _ _ _ _ _ _ H1), flat_map_app, app_length.
      destruct (authorised contract r t (k, osg)); cbn [flat_map length app]; rewrite ?app_length; cbn [length]; lia.
  Qed.

  (** * At the limit *)
  Definition a4_get {A} (j : nat) (v : arr4 A) : A :=
    match j with 0%nat => a4_0 v | 1%nat => a4_1 v | 2%nat => a4_2 v | _ => a4_3 v end.
  Lemma a4_get_set {A} i j (x : A) v : (i < 4)%nat -> (j < 4)%nat ->
    a4_get i (a4_set j x v) = if (i =? j)%nat then x else a4_get i v.
  Proof.
    intros Hi Hj. do 4 (destruct i as [|i]; [ do 4 (destruct j as [|j]; [ reflexivity |]); lia |]). lia.
  Qed.


  Definition in_order (l : list (nat * utxo)) : Prop :=
    Forall (fun ju : nat * utxo => (fst ju < 4)%nat) l /\ NoDup (map fst l).
  Lemma in_order_tail x l : in_order (x :: l) -> in_order l.
  Proof. intros [H1 H2]. split; [ exact (Forall_inv_tail H1) | now inversion H2 ]. Qed.

  (** Adding coins to any tree, also beyond its end. *)
  Lemma add_total contract sender l : forall s pos pf (wd : u64), in_order l ->
    t_empty (a_utxo_tree s) = gen_empty_hashes utxo_cfg -> 0 <= a_index s ->
    a_index s + Z.of_nat (length l) + capacity utxo_cfg < two64 ->
    (dbg = true -> zval wd + AggFacts.to_contract contract (map snd l) < two64) ->
    exists s' pos' pf' (wd' : u64), mfold (add_one dbg contract sender) l s (pos, pf, wd : u64) = MOk s' (pos', pf', wd') /\
      a_index s' = a_index s + Z.of_nat (length (filter (noncontract contract) (map snd l))) /\
      a_tx_proofs s' = a_tx_proofs s /\ a_ivc s' = a_ivc s /\
      (forall x, In x (positions s) -> In x (positions s')) /\
      (forall j, (j < 4)%nat -> ~ In j (map fst l) -> a4_get j pos' = a4_get j pos) /\
      (forall l1 j u l2, l = l1 ++ (j, u) :: l2 -> filter (noncontract contract) (map snd l1) = [] ->
         noncontract contract u = true -> a4_get j pos' = Fof (a_index s) /\ In (a_index s, u) (positions s')).
  Proof.
    induction l as [|[j u] l IH]; intros s pos pf wd HO He Hi Hb Hw.
    - exists s, pos, pf, wd. cbn [mfold map filter length]. split; [ reflexivity |]. split; [ cbn; lia |].
      split; [ reflexivity |]. split; [ reflexivity |]. split; [ auto |]. split; [ auto |].
      intros l1 j0 u0 l2 Habs. destruct l1; discriminate Habs.
    - cbn [mfold map filter snd length].
      destruct (noncontract contract u) eqn:Ek; pose proof Ek as Ek'; unfold noncontract in Ek';
        [ apply negb_true_iff in Ek'; pose proof Ek' as Ekb; apply pt_eqb_neq in Ek'
        | apply negb_false_iff in Ek'; pose proof Ek' as Ekb; apply pt_eqb_eq in Ek' ].
      + unfold add_one at 1. fold (logged contract sender s u). rewrite Ekb. cbn [negb].
        assert (Ei : a_index (logged contract sender s u) = a_index s)
          by (unfold logged; destruct (pt_eqb sender contract); reflexivity).
        assert (Ep : positions (logged contract sender s u) = positions s)
          by (unfold logged; destruct (pt_eqb sender contract); reflexivity).
        assert (Et : a_utxo_tree (logged contract sender s u) = a_utxo_tree s)
          by (unfold logged; destruct (pt_eqb sender contract); reflexivity).
        assert (Exp : a_tx_proofs (logged contract sender s u) = a_tx_proofs s)
          by (unfold logged; destruct (pt_eqb sender contract); reflexivity).
        assert (Eiv : a_ivc (logged contract sender s u) = a_ivc s)
          by (unfold logged; destruct (pt_eqb sender contract); reflexivity).
        set (s0 := logged contract sender s u) in *. clearbody s0. rewrite <- Ei, <- Ep, <- Exp, <- Eiv in *. rewrite <- Et in He.
        clear Ei Ep Et Exp Eiv s. cbn [a_utxo_tree with_coins].
        destruct (update_total dbg utxo_cfg AggFacts.utxo_cfg_ok (a_utxo_tree s0) (a_index s0) u) as (t' & pf1 & E & _ & He' & _);
          [ lia | cbn [length] in Hb; lia | exact He |].
        rewrite E. cbn [mlift mbind fst snd with_coins a_utxos a_utxo_tree a_index].
        rewrite uadd_ok by (unfold is_u64; cbn [length] in Hb; pose proof (eq_refl : capacity utxo_cfg = 2147483648); lia).
        cbn [mbind].
        match goal with |- context [ mfold _ l ?x _ ] => set (s1 := x) end.
        pose proof (push_positions (a_utxos s0) u (a_index s0)) as HP. fold (positions s0) in HP.
        destruct (IH s1 (a4_set j (Fof (a_index s0)) pos) (a4_set j pf1 pf) wd (in_order_tail _ _ HO))
          as (s' & pos' & pf' & wd' & Em & Hi' & Hx' & Hv' & Hk' & Hj' & Hf').
        * exact He'.
        * unfold s1. cbn. lia.
        * unfold s1. cbn [with_coins a_index]. cbn [length] in Hb. lia.
        * intros Hd. specialize (Hw Hd). cbn [map snd] in Hw. unfold AggFacts.to_contract in Hw |- *. cbn [filter] in Hw.
          rewrite Ekb in Hw. exact Hw.
        * assert (Hin1 : forall x, In x ((a_index s0, u) :: positions s0) -> In x (positions s')).
          { intros x Hx. apply Hk'. exact (Permutation_in _ (Permutation_sym HP) Hx). }
          assert (Hget : a4_get j pos' = Fof (a_index s0)).
          { destruct HO as [HO1 HO2]. pose proof (Forall_inv HO1) as Hj4. cbn [fst] in Hj4.
            rewrite Hj'; [| exact Hj4 | cbn [map fst] in HO2; now inversion HO2 ].
            rewrite a4_get_set by exact Hj4. now rewrite Nat.eqb_refl. }
          exists s', pos', pf', wd'. split; [ exact Em |]. split; [| split; [| split; [| split; [| split ]]]].
          -- rewrite Hi'. unfold s1. cbn [with_coins a_index length]. lia.
          -- rewrite Hx'. reflexivity.
          -- rewrite Hv'. reflexivity.
          -- intros x Hx. apply Hin1. now right.
          -- intros i Hi4 Hn. rewrite Hj' by first [ exact Hi4 | intros Hx; apply Hn; right; exact Hx ].
             destruct HO as [HO1 _]. pose proof (Forall_inv HO1) as Hj4. cbn [fst] in Hj4.
             rewrite a4_get_set by assumption.
             destruct (i =? j)%nat eqn:E1; [ apply Nat.eqb_eq in E1; exfalso; apply Hn; now left | reflexivity ].
          -- intros l1 i v l2 El Hl1 Hv. destruct l1 as [|[i1 v1] l1].
             ++ cbn [app] in El. assert (i = j /\ v = u) as [-> ->] by (split; congruence).
                split; [ exact Hget | apply Hin1; now left ].
             ++ exfalso. cbn [app] in El. assert (v1 = u) as -> by congruence.
                cbn [map snd filter] in Hl1. rewrite Ek in Hl1. discriminate.
      + rewrite add_one_withdraw by exact Ek'.
        assert (Ei : a_index (logged contract sender s u) = a_index s)
          by (unfold logged; destruct (pt_eqb sender contract); reflexivity).
        assert (Ep : positions (logged contract sender s u) = positions s)
          by (unfold logged; destruct (pt_eqb sender contract); reflexivity).
        assert (Et : a_utxo_tree (logged contract sender s u) = a_utxo_tree s)
          by (unfold logged; destruct (pt_eqb sender contract); reflexivity).
        assert (Exp : a_tx_proofs (logged contract sender s u) = a_tx_proofs s)
          by (unfold logged; destruct (pt_eqb sender contract); reflexivity).
        assert (Eiv : a_ivc (logged contract sender s u) = a_ivc s)
          by (unfold logged; destruct (pt_eqb sender contract); reflexivity).
        set (s0 := logged contract sender s u) in *. clearbody s0. rewrite <- Ei, <- Ep, <- Exp, <- Eiv in *. rewrite <- Et in He.
        clear Ei Ep Et Exp Eiv s.
        assert (Hadd : exists w', @add64 no_error dbg wd (amount u) = Ok w' /\
                  (dbg = true -> zval w' = zval wd + zval (amount u))).
        { pose proof (u64_range wd). pose proof (u64_range (amount u)).
          pose proof (to_contract_nonneg contract (map snd l)) as Hn.
          cbn [map snd] in Hw. unfold AggFacts.to_contract in Hw, Hn. cbn [filter] in Hw. rewrite Ekb in Hw.
          cbn [map] in Hw.
          change (zsum (zval (amount u) :: map (fun u => zval (amount u)) (filter (fun u => pt_eqb (pk u) contract) (map snd l))))
            with (zval (amount u) + zsum (map (fun u => zval (amount u)) (filter (fun u => pt_eqb (pk u) contract) (map snd l)))) in Hw.
          pose proof (@add64_spec dbg no_error wd (amount u)) as HS.
          destruct (@add64 no_error dbg wd (amount u)) as [w'|e|].
          - exists w'. split; [ reflexivity |]. intros Hd. destruct HS as [HS1 HS2].
            exact (eq_trans HS1 (Z.mod_small _ _ (conj (Z.add_nonneg_nonneg _ _ (proj1 H) (proj1 H0)) (HS2 Hd)))).
          - destruct HS.
          - exfalso. destruct HS as [Hd HS]. specialize (Hw Hd). lia. }
        destruct Hadd as (w' & E & Ew). rewrite E. cbn [mbind].
        destruct (IH s0 pos pf w' (in_order_tail _ _ HO))
          as (s' & pos' & pf' & wd' & Em & Hi' & Hx' & Hv' & Hk' & Hj' & Hf').
        * exact He.
        * exact Hi.
        * cbn [length] in Hb. lia.
        * intros Hd. specialize (Hw Hd). rewrite (Ew Hd). cbn [map snd] in Hw. unfold AggFacts.to_contract in Hw |- *. cbn [filter] in Hw.
          rewrite Ekb in Hw. cbn [map] in Hw.
          change (zsum (zval (amount u) :: map (fun u => zval (amount u)) (filter (fun u => pt_eqb (pk u) contract) (map snd l))))
            with (zval (amount u) + zsum (map (fun u => zval (amount u)) (filter (fun u => pt_eqb (pk u) contract) (map snd l)))) in Hw. lia.
        * exists s', pos', pf', wd'. split; [ exact Em |]. split; [ exact Hi' |]. split; [ exact Hx' |]. split; [ exact Hv' |].
          split; [ exact Hk' |]. split.
          -- intros i Hi4 Hn. apply Hj'; [ exact Hi4 | intros Hx; apply Hn; right; exact Hx ].
          -- intros l1 i v l2 El Hl1 Hv. destruct l1 as [|[i1 v1] l1].
             ++ cbn [app] in El. assert (v = u) as -> by congruence. congruence.
             ++ cbn [app] in El. apply (Hf' l1 i v l2); [ congruence | | exact Hv ].
                cbn [map snd filter] in Hl1. assert (v1 = u) as -> by congruence. rewrite Ek in Hl1. exact Hl1.
  Qed.

  Lemma nodup_filter_fst {A B} (f : A * B -> bool) (l : list (A * B)) : NoDup (map fst l) -> NoDup (map fst (filter f l)).
  Proof.
    induction l as [|[a b] l IH]; intros H; [ exact H |]. cbn [map fst] in H. inversion H as [|? ? Hn Hd]; subst.
    cbn [filter]. destruct (f (a, b)); [| exact (IH Hd) ]. cbn [map fst]. constructor; [| exact (IH Hd) ].
    intros Hx. apply Hn. apply in_map_iff in Hx as (y & Ey & Hy). apply filter_In in Hy as [Hy _].
    apply in_map_iff. now exists y.
  Qed.
  Lemma enum_in_order v : in_order (enum_real v).
  Proof.
    split.
    - unfold enum_real. apply Forall_forall. intros x Hx. apply filter_In in Hx as [Hx _].
      unfold enum in Hx. destruct v as [a b c d]. cbn in Hx.
      destruct Hx as [<-|[<-|[<-|[<-|[]]]]]; cbn; lia.
    - unfold enum_real. apply nodup_filter_fst. unfold enum. destruct v as [a b c d]. cbn.
      repeat constructor; cbn; intuition congruence.
  Qed.

  Definition add_entry (contract : pt) (upp : utxoV * list F * F) : list (write utxoV) :=
    let '(u, path, pos) := upp in
    if true && negb (pt_eqb (v_pk u) contract) && negb (v_dummy u)
    then [mkWrite (slot_of utxoV_cfg pos) (utxo_alloc utxo_dummy) u path] else [].
  Lemma first_created_list contract l u us : forall n,
    filter (noncontract contract) (real l) = u :: us ->
    exists l1 j l2, filter (fun ju => negb (is_dummy (snd ju))) (combine (seq n (length l)) l) = l1 ++ (j, u) :: l2 /\
      filter (noncontract contract) (map snd l1) = [] /\
      noncontract contract u = true /\ is_dummy u = false /\
      forall g : nat -> list F * F, exists path tl,
        flat_map (add_entry contract)
          (map (fun nu => (utxo_alloc (snd nu), fst (g (fst nu)), snd (g (fst nu)))) (combine (seq n (length l)) l))
        = mkWrite (slot_of utxoV_cfg (snd (g j))) (utxo_alloc utxo_dummy) (utxo_alloc u) path :: tl.
  Proof.
    induction l as [|a l IH]; intros n H; [ discriminate |].
    unfold real in H. cbn [filter] in H. cbn [length seq combine filter snd map fst flat_map].
    unfold add_entry at 1. cbn [utxo_alloc v_pk v_dummy].
    destruct (is_dummy a) eqn:Da; cbn [negb] in H |- *; rewrite ?andb_false_r, ?andb_true_r; cbn [app andb].
    - exact (IH (S n) H).
    - cbn [filter] in H. unfold noncontract in H at 1. destruct (pt_eqb (pk a) contract) eqn:Ka; cbn [negb] in H |- *; cbn [app].
      + destruct (IH (S n) H) as (l1 & j & l2 & E1 & E2 & E3 & E4 & E5).
        exists ((n, a) :: l1), j, l2. rewrite E1. split; [ reflexivity |]. split; [| auto ].
        cbn [map snd filter]. unfold noncontract at 1. rewrite Ka. exact E2.
      + assert (a = u) as <- by congruence. eexists [], n, _. split; [ reflexivity |]. split; [ reflexivity |].
        split; [ unfold noncontract; now rewrite Ka |]. split; [ exact Da |]. intros g. eexists _, _. reflexivity.
  Qed.
  Lemma first_created contract v u us :
    filter (noncontract contract) (real (a4_list v)) = u :: us ->
    exists l1 j l2, enum_real v = l1 ++ (j, u) :: l2 /\ filter (noncontract contract) (map snd l1) = [] /\
      noncontract contract u = true /\ is_dummy u = false /\
      forall pfs pos, exists path tl,
        flat_map (add_entry contract) (a4_zip3 (a4_map utxo_alloc v) pfs pos)
        = mkWrite (slot_of utxoV_cfg (a4_get j pos)) (utxo_alloc utxo_dummy) (utxo_alloc u) path :: tl.
  Proof.
    intros H. destruct (first_created_list contract (a4_list v) u us 0 H) as (l1 & j & l2 & E1 & E2 & E3 & E4 & E5).
    exists l1, j, l2. split; [ exact E1 |]. split; [ exact E2 |]. split; [ exact E3 |]. split; [ exact E4 |].
    intros pfs pos. destruct (E5 (fun i => (a4_get i pfs, a4_get i pos))) as (path & tl & E).
    exists path, tl. exact E.
  Qed.

  Lemma utxo_alloc_inj u v : utxo_alloc u = utxo_alloc v -> u = v.
  Proof.
    destruct u as [a k d], v as [b k' d']. unfold utxo_alloc. cbn [amount pk is_dummy]. intros H.
    assert (E1 : Fu64 a = Fu64 b) by congruence. assert (E2 : k = k') by congruence. assert (E3 : d = d') by congruence.
    apply (f_equal zval) in E1. rewrite !zval_Fu64 in E1. subst. f_equal. now apply zval_inj.
  Qed.

  Lemma steps_real contract n l s s' : steps dbg contract n l s s' ->
    (forall u, In u (coins s) -> is_dummy u = false) -> forall u, In u (coins s') -> is_dummy u = false.
  Proof.
    induction 1 as [|n k osg l s s1 s' t r H1 H2 IH]; [ auto |]. intros H. apply IH. clear IH H2.
    pose proof (so_coins _ _ _ _ _ _ _ _ _ H1) as Hc. destruct (authorised contract r t (k, osg)).
    - destruct Hc as (rest & P1 & P2). intros u Hu. apply (Permutation_in _ P2) in Hu. apply in_app_or in Hu as [Hu|Hu].
      + apply H. apply (Permutation_in _ (Permutation_sym P1)). apply in_or_app. now right.
      + unfold creates in Hu. apply filter_In in Hu as [_ Hu]. apply andb_true_iff in Hu as [Hu _].
        now apply negb_true_iff in Hu.
    - now rewrite Hc.
  Qed.
  (** A placeholder is never recorded as a coin. *)
  Theorem C103_never_dummy s : reached dbg s -> forall u, In u (coins s) -> is_dummy u = false.
  Proof.
    induction 1 as [|s l s' Hr IH Hl|s contract l s' Hr IH Hf Hl|s Hr IH].
    - intros u [].
    - assert (coins s' = coins s) as ->; [| exact IH ].
      pose proof (intake_run dbg l s (ri_epoch _ _ (reached_inv dbg s Hr))) as HI.
      unfold coins, positions. destruct Hl as [[a E]|[e E]]; rewrite E in HI.
      + destruct HI as (_ & _ & _ & HS). destruct HS as (-> & _). reflexivity.
      + destruct HI as (l1 & k & x & l2 & _ & _ & _ & _ & _ & _ & HS). destruct HS as (-> & _). reflexivity.
    - destruct Hl as [[a E]|[e E]].
      + destruct a. exact (steps_real contract 0 l s s' (run_ok dbg contract s l s' Hr Hf E) IH).
      + destruct (run_err dbg contract s l s' e Hr Hf E) as (l1 & k & osg & l2 & s1 & t & r1 & -> & Hs & He & _).
        pose proof (steps_real _ _ _ _ _ Hs IH) as H1.
        destruct (se_coins _ _ _ _ _ _ _ _ _ _ He) as (don & u & todo & _ & HP & _).
        intros v Hv. apply H1. apply (Permutation_in _ (Permutation_sym HP)). apply in_or_app. now right.
    - exact IH.
  Qed.

  Lemma filter_le {A} (f : A -> bool) l : (length (filter f l) <= length l)%nat.
  Proof. induction l as [|x l IH]; cbn; [ lia |]. destruct (f x); cbn; lia. Qed.

  (** genuine writes that never replace [u] leave it where it is *)
  Lemma genuine_keeps ws : forall (c : contents utxoV_cfg) p u, genuine utxoV_cfg c ws -> c p = u ->
    (forall w, In w ws -> w_old w <> u) -> written utxoV_cfg c ws p = u.
  Proof.
    induction ws as [|w ws IH]; intros c p u Hg Hc Hn; [ exact Hc |]. cbn [genuine written] in *. destruct Hg as [H1 H2].
    apply (IH _ p u H2).
    - unfold set_leaf. destruct (p =? w_pos w) eqn:E; [| exact Hc ]. apply Z.eqb_eq in E. subst p.
      exfalso. apply (Hn w (or_introl eq_refl)). congruence.
    - intros v Hv. apply Hn. now right.
  Qed.

  (** A state whose coin tree has handed out all its positions: the next transaction that creates
      a coin is still applied, without an error, with a position one past the end of the tree; and
      while position 0 is occupied by a coin the transaction does not spend, the recorded input
      satisfies the circuit only with a collision. *)
  Theorem C103_full contract s t k osg r ur u us rest :
    reached dbg s -> a_index s = capacity utxo_cfg -> a_ivc s = [] ->
    nth_error (a_txs s) 0 = Some t -> root (a_tx_tree s) = Ok r -> root (a_utxo_tree s) = Ok ur ->
    no_overflow s [(k, osg)] -> authorised contract r t (k, osg) = true ->
    Permutation (coins s) (consumes contract t ++ rest) -> creates contract t = u :: us ->
    exists s', process_signatures dbg s contract [(k, osg)] = MOk s' tt /\
      a_index s' = capacity utxo_cfg + Z.of_nat (length (creates contract t)) /\
      In (capacity utxo_cfg, u) (positions s') /\
      forall u0, In (0, u0) (positions s) -> ~ In u0 (a4_list (inputs t)) ->
        exists c, tree_holds dbg utxo_cfg (a_utxo_tree s) c /\
        forall to z bs z', z_utxo z = ur -> z_tx_final z = r ->
          concat bs = map inputs_alloc (a_ivc s') -> ivc contract to (z_list z) bs (z_list z') ->
          collides utxoV_cfg utxo_encV (as_allocated c) (flat_map (coin_writes contract r) (map inputs_alloc (a_ivc s'))).
  Proof.
    intros Hr Hi H0 Et Er Eur (Hno1 & Hno2) Ha HP Hc.
    pose proof (reached_inv dbg s Hr) as HI. destruct (ri_coins _ _ HI) as (c & w & HC).
    unfold process_signatures, enum. cbn [length seq combine mfold]. unfold sign_one. rewrite Et, Er. fold (osig osg).
    change (accepts contract r t k (osig osg)) with (authorised contract r t (k, osg)). rewrite Ha.
    cbn [length] in Hno2.
    destruct (update_total dbg signer_cfg AggFacts.signer_cfg_ok (a_signer_tree s) (Z.of_nat (length (a_signers s))) k)
      as (st & spf & Eu & _); [ lia | rewrite signer_capacity; lia | exact (ri_signer_empty _ _ HI) |].
    rewrite Eu. cbn [mlift mbind fst snd].
    pose proof (coin_inv_signer dbg s c w st (Some k) HC) as HC1.
    pose proof (delete_loop dbg contract (enum_real (inputs t)) (with_signer s st (Some k)) c w
                  (a4_const Fzero, a4_const (default_two_paths utxo_cfg)) HC1) as HD.
    rewrite real_enum, <- consumes_eq in HD.
    destruct (mfold _ (enum_real (inputs t)) _ _) as [s2 [dpos dpf]|s2 e|] eqn:Ed in HD |- *; [| | tauto ].
    2:{ exfalso. destruct HD as (_ & c2 & w2 & don & v & todo & _ & _ & Ef & HP2 & Hn).
        rewrite Ef, <- app_assoc in HP. change (coins (with_signer s st (Some k))) with (coins s) in HP2.
        rewrite HP2 in HP. apply Permutation_app_inv_l in HP. apply Hn.
        apply (Permutation_in _ (Permutation_sym HP)). now left. }
    destruct HD as (c2 & w2 & HC2 & Es2 & HP2). cbn [mbind].
    destruct (first_created contract (outputs t) u us) as (l1 & j & l2 & El & E1 & E2 & E3 & Ew);
      [ now rewrite <- creates_eq |].
    destruct (add_total contract k (enum_real (outputs t)) s2 (a4_const Fzero) (a4_const (default_two_paths utxo_cfg)) (u64of 0))
      as (s3 & pos & pf & wd & Em & Hi3 & Hx3 & Hv3 & Hk3 & _ & Hf3).
    - apply enum_in_order.
    - exact (rep_empty _ _ _ _ (built_rep dbg utxo_cfg AggFacts.utxo_cfg_ok _ _ _ (ci_built _ _ _ _ HC2))).
    - pose proof (ci_index _ _ _ _ HC2). lia.
    - assert (a_index s2 = a_index s) as -> by (rewrite Es2; reflexivity). rewrite Hi.
      assert (Hlen : (length (enum_real (outputs t)) <= 4)%nat).
      { unfold enum_real. eapply Nat.le_trans; [ apply filter_le |]. rewrite enum_length. destruct (outputs t); cbn; lia. }
      pose proof (eq_refl : capacity utxo_cfg = 2147483648). unfold two64. lia.
    - intros Hd. rewrite real_enum. change (zval (u64of 0)) with 0.
      pose proof (reached_small dbg contract s t Hr Hd (nth_error_In _ _ Et)). unfold AggSign.withdrawn in *. lia.
    - rewrite Em. cbn [mbind].
      set (s4 := if 0 <? zval wd then with_logs s3 (a_deposits s3) (a_withdrawals s3 ++ [(k, wd)]) else s3).
      assert (Etp : a_tx_proofs s4 = a_tx_proofs s).
      { transitivity (a_tx_proofs s3); [ unfold s4; now destruct (0 <? zval wd) |]. rewrite Hx3, Es2. reflexivity. }
      rewrite Etp. destruct (nth_error (a_tx_proofs s) 0) as [tpf|] eqn:Ep.
      2:{ apply nth_error_None in Ep. rewrite (ei_len _ _ (ri_epoch _ _ HI)) in Ep.
          assert (nth_error (a_txs s) 0 <> None) as Hx by congruence. apply nth_error_Some in Hx. lia. }
      cbn [mbind]. eexists. split; [ reflexivity |].
      assert (Ei2 : a_index s2 = capacity utxo_cfg) by (rewrite Es2; exact Hi).
      destruct (Hf3 l1 j u l2 El E1 E2) as [Hg Hin]. rewrite Ei2 in Hg, Hin.
      split; [| split ].
      + cbn [with_ivc a_index]. transitivity (a_index s3); [ unfold s4; now destruct (0 <? zval wd) |].
        rewrite Hi3, Ei2, real_enum, <- creates_eq. reflexivity.
      + assert (positions (with_ivc s4 (mkInputs t tpf dpf dpos pf pos spf k (osig osg))) = positions s3) as ->
          by (unfold s4; now destruct (0 <? zval wd)). exact Hin.
      + intros u0 Hu0 Hn0. exists c. split; [ exists c, w; split; [ apply (ci_built _ _ _ _ HC) | reflexivity ] |].
        cbn [with_ivc a_ivc].
        assert (a_ivc s4 = []) as ->.
        { transitivity (a_ivc s3); [ unfold s4; now destruct (0 <? zval wd) |]. rewrite Hv3, Es2. exact H0. }
        cbn [app map].
        set (x := inputs_alloc (mkInputs t tpf dpf dpos pf pos spf k (osig osg))).
        intros to z bs z' Hzu Hzf Hbs Hivc.
        assert (Hroot : z_utxo z = merkle_root (as_allocated c)).
        { rewrite root_as_allocated, Hzu.
          pose proof (rep_root _ _ _ _ (built_rep dbg utxo_cfg AggFacts.utxo_cfg_ok _ _ _ (ci_built _ _ _ _ HC))) as X.
          assert (Y : root (a_utxo_tree s) = Ok (merkle_root c)) by (unfold root; now rewrite X). congruence. }
        pose proof (C54_coin_writes contract to z bs z' (as_allocated c) Hivc Hroot) as HW. cbv zeta in HW.
        rewrite Hbs, Hzf in HW. destruct HW as [[HG _]|HW]; [ exfalso | exact HW ].
        cbn [flat_map] in HG. rewrite app_nil_r in HG. unfold coin_writes in HG. apply genuine_app in HG as [HG1 HG2].
        assert (Hap : is_applied contract r x = true).
        { unfold is_applied, x. rewrite signed_alloc. cbn [i_sender i_tx i_sig]. unfold by_contract. cbn [inputs_alloc x_sender i_sender].
          exact Ha. }
        rewrite Hap in HG2.
        destruct (Ew (x_add_proofs x) (x_add_pos x)) as (path & tl & Eadd).
        match type of HG2 with genuine _ _ ?l => assert (El2 : l = flat_map (add_entry contract) (a4_zip3 (a4_map utxo_alloc (outputs t)) (x_add_proofs x) (x_add_pos x))) by reflexivity end.
        rewrite El2, Eadd in HG2. cbn [genuine w_pos w_old] in HG2. destruct HG2 as [HG2 _].
        assert (Hslot : slot_of utxoV_cfg (a4_get j (x_add_pos x)) = 0).
        { change (x_add_pos x) with pos. rewrite Hg. unfold slot_of. change (capacity utxoV_cfg) with (capacity utxo_cfg).
          rewrite zval_Fof_small; [ apply Z.mod_same; discriminate |].
          pose proof p_bounds. pose proof (eq_refl : capacity utxo_cfg = 2147483648). split; [ lia |].
          assert (2147483648 < 2 ^ 253) by reflexivity. lia. }
        rewrite Hslot in HG2.
        assert (Hc0 : as_allocated c 0 = utxo_alloc u0).
        { unfold as_allocated. now rewrite (proj2 (ci_pos _ _ _ _ HC _ _ Hu0)). }
        rewrite (genuine_keeps _ (as_allocated c) 0 (utxo_alloc u0) HG1 Hc0) in HG2.
        * apply utxo_alloc_inj in HG2.
          assert (Hd : is_dummy u0 = false).
          { apply (C103_never_dummy s Hr). unfold coins. apply in_map_iff. exists (0, u0). split; [ reflexivity | exact Hu0 ]. }
          rewrite HG2 in Hd. discriminate Hd.
        * intros v Hv Ev. apply in_flat_map in Hv as ([[y path'] pos'] & Hy & Hv).
          destruct (is_signed r x && negb (v_dummy y)); [| destruct Hv ]. destruct Hv as [<-|[]]. cbn [w_old] in Ev.
          apply Hn0. cbn [x inputs_alloc x_tx tx_alloc v_inputs i_tx] in Hy.
          unfold a4_zip3, a4_map in Hy. cbn [a4_0 a4_1 a4_2 a4_3] in Hy.
          assert (Hy' : exists y0, In y0 (a4_list (inputs t)) /\ y = utxo_alloc y0).
          { unfold a4_list. destruct Hy as [Hy|[Hy|[Hy|[Hy|[]]]]]; apply pair_equal_spec in Hy as [Hy _];
              apply pair_equal_spec in Hy as [<- _]; (eexists; split; [| reflexivity ]); cbn; tauto. }
          destruct Hy' as (y0 & Hy0 & ->). apply utxo_alloc_inj in Ev. subst y0. exact Hy0.
  Qed.

  (** ** The limit is reachable *)
  Definition one_deposit (contract k : pt) : tx :=
    mkTx (A4 (utxo_new contract (u64of 1)) utxo_dummy utxo_dummy utxo_dummy)
         (A4 (utxo_new k (u64of 1)) utxo_dummy utxo_dummy utxo_dummy).
  Lemma one_deposit_valid contract k : valid dbg (contract, one_deposit contract k).
  Proof.
    unfold valid. cbn [fst snd]. rewrite is_valid_owned.
    - destruct dbg; reflexivity.
    - intros u Hu Hd. cbn in Hu. destruct Hu as [<-|[<-|[<-|[<-|[]]]]]; try discriminate Hd. reflexivity.
  Qed.
  Lemma one_deposit_consumes contract k : consumes contract (one_deposit contract k) = [].
  Proof. unfold consumes. cbn. now rewrite pt_eqb_refl. Qed.
  Lemma one_deposit_creates contract k : k <> contract -> creates contract (one_deposit contract k) = [utxo_new k (u64of 1)].
  Proof. intros H. unfold creates. cbn. apply pt_eqb_neq in H. now rewrite H. Qed.

  Lemma deposit_taken contract k s : reached dbg s -> a_txs s = [] ->
    exists s1 r, process_transactions dbg s [(contract, one_deposit contract k)] = MOk s1 tt /\
      same_but_intake s s1 /\ a_txs s1 = [one_deposit contract k] /\ root (a_tx_tree s1) = Ok r.
  Proof.
    intros Hr H0.
    assert (Hlen : Z.of_nat (length (a_txs s)) + Z.of_nat (length [(contract, one_deposit contract k)]) + 4096 < two64)
      by (rewrite H0; reflexivity).
    destruct (proj2 (C40_intake_accepts dbg s [(contract, one_deposit contract k)] Hr Hlen)) as (s1 & E).
    - constructor; [ apply one_deposit_valid | constructor ].
    - destruct (C40_intake dbg s _ s1 Hr H0 E) as (Ht & _ & Hs & _ & HT).
      destruct (HT ltac:(cbn; lia)) as (_ & HR & _).
      exists s1, (epoch_root (map snd [(contract, one_deposit contract k)]) (length [(contract, one_deposit contract k)])).
      split; [ exact E |]. split; [ exact Hs |]. split; [ exact Ht | exact HR ].
  Qed.

  Lemma limit_approached contract k : k <> contract -> forall n : nat, Z.of_nat n <= capacity utxo_cfg ->
    exists s, reached dbg s /\ a_index s = Z.of_nat n /\ a_txs s = [] /\ a_ivc s = [] /\ a_signers s = [] /\
      length (coins s) = n /\ forall u, In u (coins s) -> u = utxo_new k (u64of 1).
  Proof.
    intros Hk. induction n as [|n IH]; intros Hn.
    - exists agg_new. split; [ apply reached_new |]. split; [ reflexivity |]. split; [ reflexivity |].
      split; [ reflexivity |]. split; [ reflexivity |]. split; [ reflexivity |]. intros u [].
    - destruct IH as (s & Hr & Hi & Ht & Hv & Hs & Hl & Hc); [ lia |].
      destruct (deposit_taken contract k s Hr Ht) as (s1 & r & E & HS & Ht1 & Hroot).
      destruct HS as (E1 & E2 & E3 & E4 & E5 & E6 & E7 & _).
      assert (Hr1 : reached dbg s1).
      { apply (reached_intake dbg s [(contract, one_deposit contract k)] s1 Hr). left. exists tt. exact E. }
      assert (Hau : authorised contract r (one_deposit contract k) (contract, None) = true).
      { unfold authorised. cbn [fst]. rewrite pt_eqb_refl. apply orb_true_r. }
      assert (Hap : applied contract r (a_txs s1) [(contract, None)] = [one_deposit contract k]).
      { rewrite Ht1. unfold applied. cbn [combine flat_map fst snd]. now rewrite Hau. }
      assert (Hf : fits contract s1 [(contract, None)]).
      { intros r' Hr'. assert (r' = r) as -> by congruence. rewrite Hap. cbn [flat_map].
        rewrite one_deposit_creates by exact Hk. cbn [app length]. rewrite E3, Hi. lia. }
      assert (Hno : no_overflow s1 [(contract, None)]).
      { split; [ rewrite Ht1; cbn; lia |]. rewrite E7, Hs. reflexivity. }
      assert (Hcs : coins s1 = coins s) by (unfold coins, positions; now rewrite E1).
      destruct (proj2 (proj1 (C44_succeeds_iff dbg contract s1 [(contract, None)] r Hr1 Hf Hno Hroot))) as (s2 & E').
      { rewrite Hap. exists (coins s1 ++ creates contract (one_deposit contract k)).
        econstructor; [| constructor; reflexivity ]. exists (coins s1). rewrite one_deposit_consumes. split; reflexivity. }
      pose proof (C44_ledger dbg contract s1 _ s2 r Hr1 Hf Hroot E') as HL. rewrite Hap in HL.
      inversion HL as [|? ? ? c1 ? HA HB]; subst. inversion HB as [? ? HP|]; subst.
      destruct HA as (rest & P1 & P2). rewrite one_deposit_consumes in P1. cbn [app] in P1.
      rewrite one_deposit_creates in P2 by exact Hk. rewrite <- P1 in P2. rewrite P2, Hcs in HP.
      exists (reset_for_new_epoch s2). split; [| split; [| split; [| split; [| split; [| split ]]]]]; try reflexivity.
      + apply reached_reset. apply (reached_sign dbg s1 contract [(contract, None)] s2 Hr1 Hf). left. exists tt. exact E'.
      + cbn [reset_for_new_epoch a_index]. rewrite (C103_counter contract s1 _ s2 r Hr1 Hf Hroot E'), Hap, E3, Hi.
        cbn [flat_map]. rewrite one_deposit_creates by exact Hk. cbn [app length]. lia.
      + change (coins (reset_for_new_epoch s2)) with (coins s2). apply Permutation_length in HP.
        rewrite app_length in HP. cbn [length] in HP. lia.
      + change (coins (reset_for_new_epoch s2)) with (coins s2). intros u Hu.
        apply (Permutation_in _ (Permutation_sym HP)) in Hu. apply in_app_or in Hu as [Hu|[Hu|[]]]; auto.
  Qed.

  (** positions handed out without a loss are all occupied *)
  Lemma all_occupied s n : reached dbg s -> a_index s = Z.of_nat (S n) -> length (coins s) = S n ->
    exists u, In (0, u) (positions s).
  Proof.
    intros Hr Hi Hl. destruct (C43_coins_match_tree dbg s Hr) as (c & w & _ & _ & HN & HP & _).
    destruct (in_dec Z.eq_dec 0 (map fst (positions s))) as [H|H].
    - apply in_map_iff in H as ([i u] & E & H). cbn in E. subst i. now exists u.
    - exfalso. assert (Hincl : incl (map fst (positions s)) (map Z.of_nat (seq 1 n))).
      { intros i Hin. pose proof Hin as Hin'. apply in_map_iff in Hin as ([i' u] & E & Hin). cbn in E. subst i'.
        pose proof (proj1 (HP _ _ Hin)) as Hb. rewrite Hi in Hb. apply in_map_iff. exists (Z.to_nat i).
        assert (i <> 0) by congruence. split; [ lia |]. apply in_seq. lia. }
      pose proof (NoDup_incl_length HN Hincl) as Hle. rewrite !map_length, seq_length in Hle.
      unfold coins in Hl. rewrite map_length in Hl. lia.
  Qed.

  (** Every contract key and every other key: a history of single deposits ends in a state that
      meets all conditions of [C103_full]. *)
  Theorem C103_limit_reachable contract k : k <> contract ->
    exists s t r ur u u0,
      reached dbg s /\ a_index s = capacity utxo_cfg /\ a_ivc s = [] /\
      nth_error (a_txs s) 0 = Some t /\ root (a_tx_tree s) = Ok r /\ root (a_utxo_tree s) = Ok ur /\
      no_overflow s [(contract, None)] /\ authorised contract r t (contract, None) = true /\
      Permutation (coins s) (consumes contract t ++ coins s) /\ creates contract t = [u] /\
      In (0, u0) (positions s) /\ ~ In u0 (a4_list (inputs t)).
  Proof.
    intros Hk.
    assert (Hcap : exists n, capacity utxo_cfg = Z.of_nat (S n)).
    { exists (Z.to_nat (capacity utxo_cfg - 1)).
      assert (Hpos : 0 < capacity utxo_cfg) by reflexivity. generalize dependent (capacity utxo_cfg). intros z Hz. lia. }
    destruct Hcap as (n & Hcap).
    destruct (limit_approached contract k Hk (S n) ltac:(lia)) as (s & Hr & Hi & Ht & Hv & Hs & Hl & Hc).
    destruct (all_occupied s n Hr Hi Hl) as (u0 & Hu0).
    destruct (deposit_taken contract k s Hr Ht) as (s1 & r & E & HS & Ht1 & Hroot).
    destruct HS as (E1 & E2 & E3 & E4 & E5 & E6 & E7 & _ & _ & _ & E8).
    assert (Hr1 : reached dbg s1).
    { apply (reached_intake dbg s [(contract, one_deposit contract k)] s1 Hr). left. exists tt. exact E. }
    destruct (C43_coins_match_tree dbg s1 Hr1) as (c & w & _ & Hur & _).
    exists s1, (one_deposit contract k), r, (merkle_root c), (utxo_new k (u64of 1)), u0.
    split; [ exact Hr1 |]. split; [ rewrite E3, Hi, Hcap; reflexivity |]. split; [ now rewrite E8 |].
    split; [ now rewrite Ht1 |]. split; [ exact Hroot |]. split; [ exact Hur |].
    split; [ split; [ rewrite Ht1; cbn; lia | rewrite E7, Hs; reflexivity ] |].
    split; [ unfold authorised; cbn [fst]; rewrite pt_eqb_refl; apply orb_true_r |].
    split; [ rewrite one_deposit_consumes; reflexivity |].
    split; [ now apply one_deposit_creates |].
    split; [ unfold positions; rewrite E1; exact Hu0 |].
    assert (u0 = utxo_new k (u64of 1)) as ->.
    { apply Hc. unfold coins. apply in_map_iff. exists (0, u0). split; [ reflexivity | exact Hu0 ]. }
    intros Hin. cbn in Hin. unfold utxo_new, utxo_dummy in Hin.
    destruct Hin as [Hin|[Hin|[Hin|[Hin|[]]]]]; try congruence.
  Qed.

  (** So some history of in-range calls ends in a state in which an honest deposit is applied
      without an error and can never be proved. *)
  Corollary C103_silent contract k : k <> contract ->
    exists s s' r ur c, reached dbg s /\ root (a_tx_tree s) = Ok r /\ root (a_utxo_tree s) = Ok ur /\
      tree_holds dbg utxo_cfg (a_utxo_tree s) c /\
      process_signatures dbg s contract [(contract, None)] = MOk s' tt /\
      (exists u, In (2 ^ 31, u) (positions s')) /\
      forall to z bs z', z_utxo z = ur -> z_tx_final z = r ->
        concat bs = map inputs_alloc (a_ivc s') -> ivc contract to (z_list z) bs (z_list z') ->
        collides utxoV_cfg utxo_encV (as_allocated c) (flat_map (coin_writes contract r) (map inputs_alloc (a_ivc s'))).
  Proof.
    intros Hk. destruct (C103_limit_reachable contract k Hk)
      as (s & t & r & ur & u & u0 & H1 & H2 & H3 & H4 & H5 & H6 & H7 & H8 & H9 & H10 & H11 & H12).
    destruct (C103_full contract s t contract None r ur u [] (coins s) H1 H2 H3 H4 H5 H6 H7 H8 H9 H10)
      as (s' & E & _ & Hin & HF).
    destruct (HF u0 H11 H12) as (c & Hc & Hrun).
    exists s, s', r, ur, c. split; [ exact H1 |]. split; [ exact H5 |]. split; [ exact H6 |]. split; [ exact Hc |].
    split; [ exact E |]. split; [ exists u; exact Hin |]. exact Hrun.
  Qed.
End props.

Print Assumptions C103_positions.
Print Assumptions C103_never_reused.
Print Assumptions C103_one_coin_per_position.
Print Assumptions C103_counter.
Print Assumptions C103_never_dummy.
Print Assumptions C103_full.
Print Assumptions C103_limit_reachable.
Print Assumptions C103_silent.

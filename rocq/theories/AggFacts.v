(** Lemmas about the aggregator: the coin index, the deletion and addition loops, one signature
    step. *)
From Coq Require Import ZArith List Bool Lia Permutation.
Import ListNotations.
From Verif Require Import Base Env Circuit SparseMT SparseMTSpec SparseMTHeap SparseMTRep SparseMTNew
  SparseMTProofs Data DataSpec DataFacts Schnorr HMap Contract Aggregator AggSpec.
Open Scope Z_scope.

Lemma utxo_cfg_ok {hs : Hashes} {G : Curve} : cfg_ok utxo_cfg.
Proof. unfold cfg_ok; cbn; lia. Qed.
Lemma tx_cfg_ok {hs : Hashes} {G : Curve} : cfg_ok tx_cfg.
Proof. unfold cfg_ok; cbn; lia. Qed.
Lemma signer_cfg_ok {hs : Hashes} {G : Curve} : cfg_ok signer_cfg.
Proof. unfold cfg_ok; cbn; lia. Qed.
Lemma utxo_capacity {hs : Hashes} {G : Curve} : capacity utxo_cfg = 2 ^ 31.
Proof. reflexivity. Qed.
Lemma tx_capacity {hs : Hashes} {G : Curve} : capacity tx_cfg = 4096.
Proof. reflexivity. Qed.
Lemma signer_capacity {hs : Hashes} {G : Curve} : capacity signer_cfg = 4096.
Proof. reflexivity. Qed.

Lemma mfold_app {S E A B} (f : S -> A -> B -> mres S E A) l1 l2 s a :
  mfold f (l1 ++ l2) s a = mbind (mfold f l1 s a) (fun s' a' => mfold f l2 s' a').
Proof.
  revert s a; induction l1 as [|x l1 IH]; intros s a; cbn; auto.
  destruct (f s a x); cbn; auto.
Qed.

Lemma enum_length {A} (l : list A) : length (enum l) = length l.
Proof. unfold enum. rewrite combine_length, seq_length. apply Nat.min_id. Qed.
Lemma enum_map_snd {A} (l : list A) : map snd (enum l) = l.
Proof.
  unfold enum. generalize 0%nat. induction l as [|x l IH]; intros n; cbn; auto. now rewrite IH.
Qed.
Lemma enum_app {A} (l : list A) x : enum (l ++ [x]) = enum l ++ [(length l, x)].
Proof.
  unfold enum. rewrite app_length, seq_app. cbn [length plus seq app].
  assert (H : forall n, combine (seq n (length l) ++ [(n + length l)%nat]) (l ++ [x])
              = combine (seq n (length l)) l ++ [((n + length l)%nat, x)]).
  { induction l as [|y l IH]; intros n; cbn; [ now rewrite Nat.add_0_r |].
    f_equal. specialize (IH (S n)). rewrite Nat.add_succ_comm in IH. exact IH. }
  apply (H 0%nat).
Qed.

Section facts.
  Context {hs : Hashes} {G : Curve} (dbg : bool).

  Definition noncontract (contract : pt) (u : utxo) : bool := negb (pt_eqb (pk u) contract).

  (** * The coin index *)
  Definition pos_of (m : hmap utxo (list Z)) : list (Z * utxo) :=
    flat_map (fun e => map (fun i => (i, fst e)) (snd e)) m.

  Lemma pos_of_app a b : pos_of (a ++ b) = pos_of a ++ pos_of b.
  Proof. unfold pos_of. now rewrite flat_map_app. Qed.

  Lemma pop_positions m u index v' :
    hget utxo_eqb m u = Some (rev (index :: v')) ->
    Permutation (pos_of m) ((index, u) :: pos_of (hset utxo_eqb m u (rev v'))).
  Proof.
    intros H. destruct (hset_split utxo_eqb utxo_eqb_eq m u (rev v') _ H) as (a & b & -> & ->).
    rewrite !pos_of_app. cbn [pos_of flat_map fst snd rev].
    rewrite map_app. cbn [map].
    change (Permutation (pos_of a ++ (map (fun i => (i, u)) (rev v') ++ [(index, u)]) ++ pos_of b)
              ((index, u) :: pos_of a ++ map (fun i => (i, u)) (rev v') ++ pos_of b)).
    rewrite <- !app_assoc. cbn [app].
    rewrite (app_assoc (pos_of a)), (app_assoc (pos_of a)).
    symmetry. apply Permutation_middle.
  Qed.

  Lemma push_positions m u i :
    Permutation (pos_of (hset utxo_eqb m u
                   ((match hget utxo_eqb m u with Some v => v | None => [] end) ++ [i])))
                ((i, u) :: pos_of m).
  Proof.
    destruct (hget utxo_eqb m u) as [v|] eqn:E.
    - destruct (hset_split utxo_eqb utxo_eqb_eq m u (v ++ [i]) _ E) as (a & b & -> & ->).
      rewrite !pos_of_app. cbn [pos_of flat_map fst snd].
      rewrite map_app. cbn [map].
      change (Permutation (pos_of a ++ (map (fun i => (i, u)) v ++ [(i, u)]) ++ pos_of b)
                ((i, u) :: pos_of a ++ map (fun i => (i, u)) v ++ pos_of b)).
      rewrite <- !app_assoc. cbn [app].
      rewrite (app_assoc (pos_of a)), (app_assoc (pos_of a)).
      symmetry. apply Permutation_middle.
    - rewrite hset_new by auto. rewrite pos_of_app. cbn. symmetry. apply Permutation_cons_append.
  Qed.

  Lemma hget_coin m u v i : hget utxo_eqb m u = Some v -> In i v -> In (i, u) (pos_of m).
  Proof.
    intros H Hi. apply (hget_in utxo_eqb utxo_eqb_eq) in H.
    unfold pos_of. apply in_flat_map. exists (u, v). split; auto. cbn.
    apply in_map_iff. eauto.
  Qed.
  Lemma coin_hget m u i : NoDup (hkeys m) -> In (i, u) (pos_of m) ->
    exists v, hget utxo_eqb m u = Some v /\ In i v.
  Proof.
    intros Hn H. unfold pos_of in H. apply in_flat_map in H as ([u' v] & H1 & H2).
    cbn in H2. apply in_map_iff in H2 as (j & Ej & Hj).
    apply pair_equal_spec in Ej as [-> ->]. exists v. split; auto.
    now apply (in_hget utxo_eqb utxo_eqb_eq).
  Qed.

  (** The invariant behind [coins_match_tree], for explicit contents. *)
  Record CoinInv (s : agg) (c : contents utxo_cfg) (w : Z -> bool) : Prop := mkCoinInv
    { ci_built : built dbg utxo_cfg (a_utxo_tree s) c w;
      ci_keys : NoDup (hkeys (a_utxos s));
      ci_nodup : NoDup (map fst (positions s));
      ci_pos : forall i u, In (i, u) (positions s) -> 0 <= i < a_index s /\ c i = u;
      ci_free : forall i, in_range utxo_cfg i -> ~ In i (map fst (positions s)) -> c i = utxo_dummy;
      ci_index : 0 <= a_index s <= capacity utxo_cfg }.

  Lemma coin_inv_match s c w : CoinInv s c w -> coins_match_tree dbg s.
  Proof.
    intros [H1 H2 H3 H4 H5 H6]. exists c, w. split; auto. split.
    - pose proof (built_rep dbg utxo_cfg utxo_cfg_ok _ _ _ H1) as HR.
      unfold root. now rewrite (rep_root _ _ _ _ HR).
    - auto.
  Qed.

  Lemma coin_inv_new : CoinInv agg_new (empty_contents utxo_cfg) (fun _ => false).
  Proof.
    constructor; try (cbn; constructor); cbn; auto; try tauto; try lia.
  Qed.

  (** * Deletions *)
  Lemma delete_one_contract contract s a j u : pk u = contract -> delete_one dbg contract s a (j, u) = MOk s a.
  Proof. intros H. unfold delete_one. rewrite H, pt_eqb_refl. reflexivity. Qed.

  Lemma delete_one_absent contract s c w a j u : CoinInv s c w ->
    pk u <> contract -> ~ In u (coins s) ->
    delete_one dbg contract s a (j, u) = MErr s UTXONonExisting \/
    delete_one dbg contract s a (j, u) = MErr s UTXOError.
  Proof.
    intros HI Hk Hu. unfold delete_one. apply pt_eqb_neq in Hk. rewrite Hk. cbn [negb].
    destruct (hget utxo_eqb (a_utxos s) u) as [v|] eqn:E; auto.
    destruct (rev v) as [|i v'] eqn:Ev; auto.
    exfalso. apply Hu. unfold coins. apply in_map_iff. exists (i, u). split; auto.
    unfold positions. fold (pos_of (a_utxos s)). apply (hget_coin _ _ v); auto.
    apply in_rev. rewrite Ev. now left.
  Qed.

  Lemma delete_one_present contract s c w a j u : CoinInv s c w ->
    pk u <> contract -> In u (coins s) ->
    exists index s' w',
      In (index, u) (positions s) /\
      delete_one dbg contract s a (j, u) =
        MOk s' (a4_set j (Fof index) (fst a),
                a4_set j (sib_path 0 31 (digests c) index) (snd a)) /\
      s' = with_coins s (a_utxos s') (a_utxo_tree s') (a_index s) /\
      Permutation (positions s) ((index, u) :: positions s') /\
      CoinInv s' (set_leaf c index utxo_dummy) w'.
  Proof.
    intros HI Hk Hu. unfold delete_one. pose proof (proj2 (pt_eqb_neq _ _) Hk) as Hk'.
    rewrite Hk'. cbn [negb].
    unfold coins in Hu. apply in_map_iff in Hu as ([i0 u0] & Eu & Hin). cbn in Eu. subst u0.
    destruct (coin_hget _ _ _ (ci_keys _ _ _ HI) Hin) as (v & E & Hi0). rewrite E.
    destruct (rev v) as [|index v'] eqn:Ev.
    { exfalso. apply (f_equal (@rev Z)) in Ev. rewrite rev_involutive in Ev. subst v. destruct Hi0. }
    assert (Hv : v = rev (index :: v')) by (rewrite <- Ev; now rewrite rev_involutive).
    assert (Hpos : In (index, u) (positions s)).
    { apply (hget_coin _ _ v); auto. rewrite Hv. apply in_rev. rewrite rev_involutive. now left. }
    pose proof (ci_pos _ _ _ HI _ _ Hpos) as [Hr Hc].
    assert (Hir : in_range utxo_cfg index).
    { unfold in_range. pose proof (ci_index _ _ _ HI). lia. }
    cbn [a_utxo_tree with_coins].
    pose proof (built_rep dbg utxo_cfg utxo_cfg_ok _ _ _ (ci_built _ _ _ HI)) as HR.
    destruct (update_rep dbg utxo_cfg utxo_cfg_ok _ _ _ index utxo_dummy HR Hir) as (t' & Et & HR').
    rewrite Et. cbn [mlift mbind fst snd a_utxos with_coins a_index a_utxo_tree].
    rewrite Hv in E.
    pose proof (pop_positions _ _ _ _ E) as HP. fold (positions s) in HP.
    eexists index, _, _. split; [ exact Hpos |]. split; [ reflexivity |].
    split; [ reflexivity |]. split; [ exact HP |].
    assert (HN : NoDup (map fst ((index, u) :: pos_of (hset utxo_eqb (a_utxos s) u (rev v'))))).
    { eapply Permutation_NoDup; [ apply Permutation_map, HP | apply (ci_nodup _ _ _ HI) ]. }
    cbn [map fst] in HN. apply NoDup_cons_iff in HN as [HN1 HN2].
    constructor; cbn [a_utxo_tree a_utxos a_index with_coins positions].
    - apply (built_update dbg utxo_cfg _ _ _ _ _ _ _ (ci_built _ _ _ HI) Hir Et).
    - apply (hset_nodup utxo_eqb utxo_eqb_eq), (ci_keys _ _ _ HI).
    - exact HN2.
    - intros i u' Hi.
      assert (Hi' : In (i, u') (positions s)).
      { apply (Permutation_in _ (Permutation_sym HP)). now right. }
      destruct (ci_pos _ _ _ HI _ _ Hi') as [A B]. split; auto.
      unfold set_leaf. destruct (i =? index) eqn:Ei; auto.
      apply Z.eqb_eq in Ei. subst i. exfalso. apply HN1.
      apply in_map_iff. exists (index, u'). auto.
    - intros i Hi Hn. unfold set_leaf. destruct (i =? index) eqn:Ei; auto.
      apply (ci_free _ _ _ HI); auto. intros H. apply Hn.
      apply (Permutation_in _ (Permutation_map fst HP)) in H. cbn in H.
      destruct H as [H|H]; auto. apply Z.eqb_neq in Ei. congruence.
    - apply (ci_index _ _ _ HI).
  Qed.

  Lemma with_coins_trans (s s1 s' : agg) :
    s1 = with_coins s (a_utxos s1) (a_utxo_tree s1) (a_index s) ->
    s' = with_coins s1 (a_utxos s') (a_utxo_tree s') (a_index s1) ->
    s' = with_coins s (a_utxos s') (a_utxo_tree s') (a_index s).
  Proof.
    intros H1 H2. rewrite H2. cbn [a_utxos a_utxo_tree with_coins].
    assert (E : a_index s1 = a_index s) by (rewrite H1; reflexivity). rewrite E.
    rewrite H1 at 1. reflexivity.
  Qed.

  Lemma utxo_in_dec (u : utxo) l : {In u l} + {~ In u l}.
  Proof. apply in_dec, utxo_eq_dec. Qed.

  Lemma delete_loop contract l : forall s c w a, CoinInv s c w ->
    match mfold (delete_one dbg contract) l s a with
    | MOk s' a' => exists c' w',
        CoinInv s' c' w' /\ s' = with_coins s (a_utxos s') (a_utxo_tree s') (a_index s) /\
        Permutation (coins s) (filter (noncontract contract) (map snd l) ++ coins s')
    | MErr s' e => (e = UTXONonExisting \/ e = UTXOError) /\
        exists c' w' don u todo,
        CoinInv s' c' w' /\ s' = with_coins s (a_utxos s') (a_utxo_tree s') (a_index s) /\
        filter (noncontract contract) (map snd l) = don ++ u :: todo /\
        Permutation (coins s) (don ++ coins s') /\ ~ In u (coins s')
    | MPanic => False
    end.
  Proof.
    induction l as [|[j u] l IH]; intros s c w a HI; cbn [mfold map filter snd].
    - exists c, w. split; auto. split; [ now destruct s |]. reflexivity.
    - destruct (noncontract contract u) eqn:Ek; unfold noncontract in Ek;
        [ apply negb_true_iff in Ek; apply pt_eqb_neq in Ek
        | apply negb_false_iff in Ek; apply pt_eqb_eq in Ek ]; cycle 1.
      + rewrite delete_one_contract by auto. cbn [mbind]. now apply (IH s c w).
      + destruct (utxo_in_dec u (coins s)) as [Hu|Hu].
        * destruct (delete_one_present contract s c w a j u HI Ek Hu)
            as (index & s1 & w1 & Hin & E & Es & HP & HI1).
          rewrite E. cbn [mbind].
          assert (HPc : Permutation (coins s) (u :: coins s1)).
          { change (u :: coins s1) with (map snd ((index, u) :: positions s1)).
            now apply Permutation_map. }
          specialize (IH s1 _ w1 (a4_set j (Fof index) (fst a),
                a4_set j (sib_path 0 31 (digests c) index) (snd a)) HI1).
          destruct (mfold _ l s1 _) as [s' a'|s' e|].
          -- destruct IH as (c' & w' & HI' & Es' & HP'). exists c', w'. split; auto. split.
             ++ now apply (with_coins_trans s s1).
             ++ rewrite HPc, HP'. reflexivity.
          -- destruct IH as (He & c' & w' & don & u' & todo & HI' & Es' & Ef & HP' & Hn).
             split; auto. exists c', w', (u :: don), u', todo. split; auto. split.
             ++ now apply (with_coins_trans s s1).
             ++ rewrite Ef. split; auto. split; auto. rewrite HPc, HP'. reflexivity.
          -- exact IH.
        * destruct (delete_one_absent contract s c w a j u HI Ek Hu) as [E|E]; rewrite E; cbn [mbind];
            (split; [ auto |]; exists c, w, [], u, (filter (noncontract contract) (map snd l));
             split; auto; split; [ now destruct s |]; split; auto).
  Qed.
  (** * Additions *)
  Lemma add64_spec {E} (a b : u64) :
    match @add64 E dbg a b with
    | Ok r => zval r = (zval a + zval b) mod two64 /\ (dbg = true -> zval a + zval b < two64)
    | Err _ => False
    | Panic => dbg = true /\ two64 <= zval a + zval b
    end.
  Proof.
    unfold add64, uadd. pose proof (u64_range a). pose proof (u64_range b).
    destruct (Z_lt_ge_dec (zval a + zval b) two64) as [Hl|Hl].
    - rewrite wrap64_ok by (unfold is_u64; lia). cbn [rbind].
      rewrite zval_u64of_small by lia. rewrite Z.mod_small by lia. auto.
    - rewrite wrap64_over by (unfold is_u64; lia). destruct dbg; cbn [rbind].
      + split; auto. lia.
      + split; [| discriminate ]. rewrite zval_u64of_small; auto.
        apply Z.mod_pos_bound. reflexivity.
  Qed.

  Definition logged (contract sender : pt) (s : agg) (u : utxo) : agg :=
    if pt_eqb sender contract
    then with_logs s (a_deposits s ++ [(pk u, amount u)]) (a_withdrawals s) else s.

  Lemma coin_inv_logs s c w d wd : CoinInv s c w -> CoinInv (with_logs s d wd) c w.
  Proof. intros [H1 H2 H3 H4 H5 H6]. constructor; auto. Qed.
  Lemma coin_inv_logged contract sender s c w u : CoinInv s c w -> CoinInv (logged contract sender s u) c w.
  Proof. unfold logged. destruct (pt_eqb sender contract); auto. apply coin_inv_logs. Qed.

  Lemma index_free s c w : CoinInv s c w -> a_index s < capacity utxo_cfg -> c (a_index s) = utxo_dummy.
  Proof.
    intros HI Hi. apply (ci_free _ _ _ HI).
    - pose proof (ci_index _ _ _ HI). unfold in_range. lia.
    - intros H. apply in_map_iff in H as ([i u] & E & H). cbn in E. subst i.
      apply (ci_pos _ _ _ HI) in H as [H _]. lia.
  Qed.

  Lemma add_one_create contract sender s c w pos pf wd j u : CoinInv s c w ->
    pk u <> contract -> a_index s < capacity utxo_cfg ->
    exists s' w',
      add_one dbg contract sender s (pos, pf, wd) (j, u) =
        MOk s' (a4_set j (Fof (a_index s)) pos,
                a4_set j (sib_path 0 31 (digests c) (a_index s)) pf, wd) /\
      s' = with_coins (logged contract sender s u) (a_utxos s') (a_utxo_tree s') (a_index s + 1) /\
      Permutation (positions s') ((a_index s, u) :: positions s) /\
      CoinInv s' (set_leaf c (a_index s) u) w'.
  Proof.
    intros HI0 Hk Hcap. unfold add_one. fold (logged contract sender s u).
    pose proof (coin_inv_logged contract sender s c w u HI0) as HI.
    assert (Ei : a_index s = a_index (logged contract sender s u))
      by (unfold logged; destruct (pt_eqb sender contract); reflexivity).
    assert (Ep : positions s = positions (logged contract sender s u))
      by (unfold logged; destruct (pt_eqb sender contract); reflexivity).
    rewrite Ei, Ep in *. clear HI0 Ei Ep.
    set (s0 := logged contract sender s u) in *. clearbody s0. clear s.
    pose proof (proj2 (pt_eqb_neq _ _) Hk) as Hk'. rewrite Hk'. cbn [negb].
    cbn [a_utxo_tree with_coins].
    assert (Hir : in_range utxo_cfg (a_index s0)).
    { unfold in_range. pose proof (ci_index _ _ _ HI). lia. }
    pose proof (built_rep dbg utxo_cfg utxo_cfg_ok _ _ _ (ci_built _ _ _ HI)) as HR.
    destruct (update_rep dbg utxo_cfg utxo_cfg_ok _ _ _ (a_index s0) u HR Hir) as (t' & Et & HR').
    rewrite Et. cbn [mlift mbind fst snd a_utxos with_coins a_index a_utxo_tree].
    assert (Hc31 : capacity utxo_cfg < two64) by reflexivity.
    pose proof (ci_index _ _ _ HI) as Hix.
    rewrite uadd_ok by (unfold is_u64; lia).
    pose proof (push_positions (a_utxos s0) u (a_index s0)) as HP. fold (positions s0) in HP.
    eexists _, _. split; [ reflexivity |]. split; [ reflexivity |].
    cbn [with_coins]. split; [ exact HP |].
    constructor; cbn [a_utxo_tree a_utxos a_index with_coins positions].
    - apply (built_update dbg utxo_cfg _ _ _ _ _ _ _ (ci_built _ _ _ HI) Hir Et).
    - apply (hset_nodup utxo_eqb utxo_eqb_eq), (ci_keys _ _ _ HI).
    - eapply Permutation_NoDup; [ apply Permutation_sym, Permutation_map, HP |].
      cbn [map fst]. constructor; [| apply (ci_nodup _ _ _ HI) ].
      intros H. apply in_map_iff in H as ([i u'] & E & H). cbn in E. subst i.
      apply (ci_pos _ _ _ HI) in H as [H _]. lia.
    - intros i u' Hi. apply (Permutation_in _ HP) in Hi. destruct Hi as [Hi|Hi].
      + apply pair_equal_spec in Hi as [<- <-]. split; [ lia |].
        unfold set_leaf. now rewrite Z.eqb_refl.
      + destruct (ci_pos _ _ _ HI _ _ Hi) as [A B]. split; [ lia |].
        unfold set_leaf. destruct (i =? a_index s0) eqn:E; auto.
        apply Z.eqb_eq in E. lia.
    - intros i Hi Hn. unfold set_leaf. destruct (i =? a_index s0) eqn:E.
      + apply Z.eqb_eq in E. exfalso. apply Hn.
        apply (Permutation_in _ (Permutation_sym (Permutation_map fst HP))).
        left. now symmetry.
      + apply (ci_free _ _ _ HI); auto. intros H. apply Hn.
        apply (Permutation_in _ (Permutation_sym (Permutation_map fst HP))).
        now right.
    - lia.
  Qed.

  Lemma add_one_withdraw contract sender s pos pf wd j u : pk u = contract ->
    add_one dbg contract sender s (pos, pf, wd) (j, u) =
    match @add64 no_error dbg wd (amount u) with
    | Ok w' => MOk (logged contract sender s u) (pos, pf, w')
    | _ => MPanic
    end.
  Proof.
    intros H. apply pt_eqb_eq in H. unfold add_one. fold (logged contract sender s u). rewrite H. reflexivity.
  Qed.

  (** Sum of the amounts addressed to the contract. *)
  Definition to_contract (contract : pt) (l : list utxo) : Z :=
    zsum (map (fun u => zval (amount u)) (filter (fun u => pt_eqb (pk u) contract) l)).
  Lemma to_contract_nonneg contract l : 0 <= to_contract contract l.
  Proof.
    unfold to_contract. induction (filter _ l) as [|u l' IH]; [ cbn; lia |].
    cbn [map]. pose proof (u64_range (amount u)).
    change (0 <= zval (amount u) + zsum (map (fun u => zval (amount u)) l')). lia.
  Qed.
  Definition new_deposits (contract sender : pt) (l : list utxo) : list (pt * u64) :=
    if pt_eqb sender contract then map (fun u => (pk u, amount u)) l else [].

  Lemma add_loop contract sender l : forall s c w pos pf wd, CoinInv s c w ->
    a_index s + Z.of_nat (length (filter (noncontract contract) (map snd l))) <= capacity utxo_cfg ->
    match mfold (add_one dbg contract sender) l s (pos, pf, wd) with
    | MOk s' (_, _, wd') => exists c' w',
        CoinInv s' c' w' /\
        s' = with_logs (with_coins s (a_utxos s') (a_utxo_tree s')
               (a_index s + Z.of_nat (length (filter (noncontract contract) (map snd l)))))
               (a_deposits s ++ new_deposits contract sender (map snd l)) (a_withdrawals s) /\
        Permutation (coins s') (coins s ++ filter (noncontract contract) (map snd l)) /\
        zval wd' = (zval wd + to_contract contract (map snd l)) mod two64
    | MErr _ _ => False
    | MPanic => dbg = true /\ two64 <= zval wd + to_contract contract (map snd l)
    end.
  Proof.
    induction l as [|[j u] l IH]; intros s c w pos pf wd HI Hcap.
    - cbn [mfold map filter length]. exists c, w. split; auto. split; [| split ].
      + unfold new_deposits. cbn. destruct (pt_eqb sender contract); rewrite app_nil_r, Z.add_0_r;
          now destruct s.
      + rewrite app_nil_r. reflexivity.
      + unfold to_contract. cbn. rewrite Z.add_0_r. symmetry. apply Z.mod_small, u64_range.
    - cbn [mfold map filter snd] in *.
      assert (Elog : forall s1 : agg, a_deposits (logged contract sender s1 u) =
                a_deposits s1 ++ new_deposits contract sender [u]).
      { intros s1. unfold logged, new_deposits. cbn. destruct (pt_eqb sender contract); cbn; auto.
        now rewrite app_nil_r. }
      assert (Edep : new_deposits contract sender [u] ++ new_deposits contract sender (map snd l)
                     = new_deposits contract sender (u :: map snd l)).
      { unfold new_deposits. cbn. now destruct (pt_eqb sender contract). }
      destruct (noncontract contract u) eqn:Ek.
      + assert (Hk : pk u <> contract).
        { unfold noncontract in Ek. apply negb_true_iff in Ek. now apply pt_eqb_neq in Ek. }
        assert (Et : to_contract contract (u :: map snd l) = to_contract contract (map snd l)).
        { unfold to_contract. cbn [filter]. apply pt_eqb_neq in Hk. now rewrite Hk. }
        rewrite Et. cbn [length] in *. rewrite Nat2Z.inj_succ in *.
        destruct (add_one_create contract sender s c w pos pf wd j u HI Hk) as (s1 & w1 & E & Es & HP & HI1);
          [ lia |].
        rewrite E. cbn [mbind].
        assert (Ei : a_index s1 = a_index s + 1) by (rewrite Es; reflexivity).
        specialize (IH s1 _ _ (a4_set j (Fof (a_index s)) pos)
                       (a4_set j (sib_path 0 31 (digests c) (a_index s)) pf) wd HI1).
        destruct (mfold _ l s1 _) as [s' [[pos' pf'] wd']|s' e|]; [| apply IH; lia | apply IH; lia ].
        destruct IH as (c' & w' & HI' & Es' & HP' & Hw'); [ lia |].
        exists c', w'. split; auto. split; [| split; auto ].
        * rewrite Es'. cbn [a_utxos a_utxo_tree with_logs with_coins].
          rewrite Ei. rewrite <- Z.add_assoc, Z.add_1_l.
          assert (Ed : a_deposits s1 = a_deposits s ++ new_deposits contract sender [u]).
          { rewrite Es. cbn. apply Elog. }
          rewrite Ed, <- app_assoc, Edep.
          assert (Ew : a_withdrawals s1 = a_withdrawals s).
          { rewrite Es. cbn. unfold logged. now destruct (pt_eqb sender contract). }
          rewrite Ew. rewrite Es at 1. unfold logged. destruct (pt_eqb sender contract); reflexivity.
        * rewrite HP'.
          assert (HPc : Permutation (coins s1) (u :: coins s)).
          { change (u :: coins s) with (map snd ((a_index s, u) :: positions s)).
            now apply Permutation_map. }
          rewrite HPc. cbn [app]. apply Permutation_middle.
      + assert (Hk : pk u = contract).
        { unfold noncontract in Ek. apply negb_false_iff in Ek. now apply pt_eqb_eq in Ek. }
        assert (Et : to_contract contract (u :: map snd l)
                     = zval (amount u) + to_contract contract (map snd l)).
        { unfold to_contract. cbn [filter]. rewrite Hk, pt_eqb_refl. reflexivity. }
        rewrite Et. rewrite add_one_withdraw by auto.
        pose proof (@add64_spec no_error wd (amount u)) as Ha.
        pose proof (to_contract_nonneg contract (map snd l)).
        destruct (@add64 no_error dbg wd (amount u)) as [wd1| |]; [| tauto | cbn [mbind]; destruct Ha; split; auto; lia ].
        cbn [mbind]. destruct Ha as [Ha Hd].
        pose proof (coin_inv_logged contract sender s c w u HI) as HI1.
        assert (Ei : a_index (logged contract sender s u) = a_index s)
          by (unfold logged; now destruct (pt_eqb sender contract)).
        specialize (IH _ _ _ pos pf wd1 HI1).
        destruct (mfold _ l _ _) as [s' [[pos' pf'] wd']|s' e|].
        * destruct IH as (c' & w' & HI' & Es' & HP' & Hw'); [ lia |].
          exists c', w'. split; auto. split; [| split ].
          -- rewrite Es'. cbn [a_utxos a_utxo_tree with_logs with_coins]. rewrite Ei, Elog, <- app_assoc, Edep.
             unfold logged; destruct (pt_eqb sender contract); reflexivity.
          -- rewrite HP'. unfold logged. now destruct (pt_eqb sender contract).
          -- rewrite Hw', Ha. rewrite Zplus_mod_idemp_l. f_equal. lia.
        * apply IH; lia.
        * destruct IH as [D IH]; [ lia |]. split; auto. specialize (Hd D). rewrite Ha in IH.
          rewrite Z.mod_small in IH; [ lia |]. pose proof (u64_range wd). pose proof (u64_range (amount u)). lia.
  Qed.
End facts.

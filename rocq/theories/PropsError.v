(** C115: which error a failed signature call returns. *)
From Coq Require Import ZArith List Bool Lia Permutation.
Import ListNotations.
From Verif Require Import Base Env Circuit SparseMT SparseMTSpec Data DataSpec DataFacts PropsData Schnorr
  HMap Contract ContractSpec Aggregator AggSpec AggFacts AggSign AggIntake PropsIntake PropsSign PropsPad.
Open Scope Z_scope.

(** ** Specification *)
Section spec.
  Context {hs : Hashes} {G : Curve} (dbg : bool).
  (** [ever s h]: the calls made on an aggregator led to [s], and [h] lists all the coins created by
      them. A failed signature call has created the coins of the transactions before the failing one. *)
  Inductive ever : agg -> list utxo -> Prop :=
  | ever_new : ever agg_new []
  | ever_intake s h l s' : ever s h -> leaves (process_transactions dbg s l) s' -> ever s' h
  | ever_sign s h contract l r s' : ever s h -> root (a_tx_tree s) = Ok r ->
      process_signatures dbg s contract l = MOk s' tt ->
      ever s' (h ++ flat_map (creates contract) (applied contract r (a_txs s) l))
  | ever_fail s h contract l1 x l2 r s1 s' e : ever s h -> root (a_tx_tree s) = Ok r ->
      process_signatures dbg s contract l1 = MOk s1 tt ->
      process_signatures dbg s contract (l1 ++ [x]) = MErr s' e ->
      process_signatures dbg s contract (l1 ++ x :: l2) = MErr s' e ->
      ever s' (h ++ flat_map (creates contract) (applied contract r (a_txs s) l1))
  | ever_reset s h : ever s h -> ever (reset_for_new_epoch s) h.
End spec.

Section props.
  Context {hs : Hashes} {G : Curve} (dbg : bool).

  Definition indexed (s : agg) (h : list utxo) : Prop :=
    NoDup (hkeys (a_utxos s)) /\ forall u, hget utxo_eqb (a_utxos s) u <> None <-> In u h.
  Definition same_epoch (s s' : agg) : Prop :=
    a_txs s' = a_txs s /\ a_tx_tree s' = a_tx_tree s /\ a_tx_proofs s' = a_tx_proofs s.
  Lemma same_trans s s1 s2 : same_epoch s s1 -> same_epoch s1 s2 -> same_epoch s s2.
  Proof. intros (A & B & C) (D & E & F). split; [| split ]; congruence. Qed.
  Lemma same_refl s : same_epoch s s.
  Proof. repeat split. Qed.

  Lemma set_indexed (m : hmap utxo (list Z)) v h u :
    NoDup (hkeys m) -> (forall x, hget utxo_eqb m x <> None <-> In x h) ->
    NoDup (hkeys (hset utxo_eqb m u v)) /\
    forall x, hget utxo_eqb (hset utxo_eqb m u v) x <> None <-> In x (h ++ [u]).
  Proof.
    intros Hn Hh. split; [ now apply (hset_nodup utxo_eqb utxo_eqb_eq) |].
    intros x. rewrite in_app_iff. destruct (utxo_eq_dec x u) as [->|Hx].
    - rewrite (hget_hset_same utxo_eqb utxo_eqb_eq). split; [ right; now left | discriminate ].
    - rewrite (hget_hset_other utxo_eqb utxo_eqb_eq) by auto. rewrite Hh. split; [ tauto |].
      intros [H|[H|[]]]; [ exact H | congruence ].
  Qed.

  Lemma delete_known contract h l : forall s a, indexed s h ->
    match mfold (delete_one dbg contract) l s a with
    | MOk s' _ => indexed s' h /\ same_epoch s s'
    | MErr s' e => indexed s' h /\ same_epoch s s' /\ exists don u todo,
        filter (noncontract contract) (map snd l) = don ++ u :: todo /\
        Permutation (coins s) (don ++ coins s') /\ ~ In u (coins s') /\
        (e = UTXONonExisting /\ ~ In u h \/ e = UTXOError /\ In u h)
    | MPanic => True
    end.
  Proof.
    induction l as [|[j u] l IH]; intros s a HI; cbn [mfold map filter snd].
    { split; [ exact HI | apply same_refl ]. }
    destruct (noncontract contract u) eqn:Ek; unfold noncontract in Ek;
      [ apply negb_true_iff in Ek; apply pt_eqb_neq in Ek
      | apply negb_false_iff in Ek; apply pt_eqb_eq in Ek ]; cycle 1.
    { rewrite delete_one_contract by auto. cbn [mbind]. now apply IH. }
    unfold delete_one at 1. pose proof (proj2 (pt_eqb_neq _ _) Ek) as Hk'. rewrite Hk'. cbn [negb].
    destruct HI as (Hn & Hh).
    destruct (hget utxo_eqb (a_utxos s) u) as [v|] eqn:E; cbn [mbind]; cycle 1.
    { split; [ split; auto |]. split; [ apply same_refl |].
      exists [], u, (filter (noncontract contract) (map snd l)). split; auto. split; [ reflexivity |]. split.
      - intros H. unfold coins in H. apply in_map_iff in H as ([i u0] & Eu & Hin). cbn in Eu. subst u0.
        destruct (coin_hget _ _ _ Hn Hin) as (v & E' & _). congruence.
      - left. split; auto. rewrite <- Hh. now rewrite E. }
    assert (Hu : In u h) by (rewrite <- Hh, E; discriminate).
    destruct (rev v) as [|index v'] eqn:Ev; cbn [mbind].
    { apply (f_equal (@rev Z)) in Ev. rewrite rev_involutive in Ev. cbn in Ev. subst v.
      split; [ split; auto |]. split; [ apply same_refl |].
      exists [], u, (filter (noncontract contract) (map snd l)). split; auto. split; [ reflexivity |]. split.
      - intros H. unfold coins in H. apply in_map_iff in H as ([i u0] & Eu & Hin). cbn in Eu. subst u0.
        destruct (coin_hget _ _ _ Hn Hin) as (v & E' & Hi). rewrite E in E'. injection E' as <-. destruct Hi.
      - now right. }
    assert (Hv : v = rev (index :: v')) by (rewrite <- Ev; now rewrite rev_involutive).
    cbv zeta. cbn [a_utxo_tree with_coins].
    destruct (update_and_prove dbg utxo_cfg (a_utxo_tree s) index utxo_dummy) as [tp|e|] eqn:Eu;
      [| exfalso; now apply (update_no_err dbg utxo_cfg _ _ _ e Eu) | exact I ].
    cbn [mlift mbind fst snd a_utxos with_coins a_index a_utxo_tree].
    match goal with |- context [mfold _ l ?x ?y] => set (s1 := x); set (a1 := y) end.
    assert (HI1 : indexed s1 h).
    { destruct (set_indexed _ (rev v') h u Hn Hh) as (A & B). split; [ exact A |].
      intros x. cbn [s1 a_utxos with_coins]. rewrite B, in_app_iff. split; [| tauto ].
      intros [H|[<-|[]]]; auto. }
    assert (HP : Permutation (coins s) (u :: coins s1)).
    { rewrite Hv in E. pose proof (pop_positions _ _ _ _ E) as HP.
      change (u :: coins s1) with (map snd ((index, u) :: positions s1)). now apply Permutation_map. }
    assert (HS : same_epoch s s1) by repeat split.
    specialize (IH s1 a1 HI1). clearbody s1 a1.
    destruct (mfold (delete_one dbg contract) l s1 a1) as [s' a'|s' e|]; [| | exact I ].
    - destruct IH as (A & B). split; [ exact A | exact (same_trans _ _ _ HS B) ].
    - destruct IH as (A & B & don & u' & todo & E1 & E2 & E3 & E4).
      split; [ exact A |]. split; [ exact (same_trans _ _ _ HS B) |].
      exists (u :: don), u', todo. rewrite E1. split; auto. split; auto. rewrite HP, E2. reflexivity.
  Qed.

  Lemma add_known contract sender l : forall s a h, indexed s h ->
    match mfold (add_one dbg contract sender) l s a with
    | MOk s' _ => indexed s' (h ++ filter (noncontract contract) (map snd l)) /\ same_epoch s s'
    | MErr _ _ => False
    | MPanic => True
    end.
  Proof.
    induction l as [|[j u] l IH]; intros s [[pos pf] wd] h HI; cbn [mfold map filter snd].
    { rewrite app_nil_r. split; [ exact HI | apply same_refl ]. }
    unfold add_one at 1. fold (logged contract sender s u).
    assert (HI0 : indexed (logged contract sender s u) h)
      by (unfold logged; destruct (pt_eqb sender contract); exact HI).
    assert (HS0 : same_epoch s (logged contract sender s u))
      by (unfold logged; destruct (pt_eqb sender contract); repeat split).
    set (s0 := logged contract sender s u) in *. clearbody s0.
    unfold noncontract at 1. destruct (negb (pt_eqb (pk u) contract)).
    - cbv zeta. cbn [a_utxo_tree with_coins].
      destruct (update_and_prove dbg utxo_cfg (a_utxo_tree s0) (a_index s0) u) as [tp|e|] eqn:Eu;
        [| exfalso; now apply (update_no_err dbg utxo_cfg _ _ _ e Eu) | exact I ].
      cbn [mlift mbind fst snd a_utxos with_coins a_index a_utxo_tree].
      destruct (@uadd no_error dbg (a_index s0) 1) as [i'|e|]; cbn [mbind]; [| exact I | exact I ].
      match goal with |- context [mfold _ l ?x ?y] => set (s1 := x); set (a1 := y) end.
      assert (HI1 : indexed s1 (h ++ [u])) by (apply set_indexed; apply HI0).
      assert (HS1 : same_epoch s s1) by (apply (same_trans _ _ _ HS0); repeat split).
      specialize (IH s1 a1 _ HI1). clearbody s1 a1.
      destruct (mfold (add_one dbg contract sender) l s1 a1) as [s' a'|s' e|]; [| exact IH | exact I ].
      destruct IH as (A & B). rewrite <- app_assoc in A. split; [ exact A | exact (same_trans _ _ _ HS1 B) ].
    - destruct (@add64 no_error dbg wd (amount u)) as [w'|e|]; cbn [mbind]; [| exact I | exact I ].
      specialize (IH s0 (pos, pf, w') _ HI0).
      destruct (mfold (add_one dbg contract sender) l s0 (pos, pf, w')) as [s' a'|s' e|]; [| exact IH | exact I ].
      destruct IH as (A & B). split; [ exact A | exact (same_trans _ _ _ HS0 B) ].
  Qed.

  (** The missing coin of a failing transaction. *)
  Definition missing (contract : pt) (t : tx) (s1 s' : agg) (h : list utxo) (e : agg_error) : Prop :=
    exists don u todo, consumes contract t = don ++ u :: todo /\
      Permutation (coins s1) (don ++ coins s') /\ ~ In u (coins s') /\
      (e = UTXONonExisting /\ ~ In u h \/ e = UTXOError /\ In u h).

  Lemma sign_one_known contract s h i k osg : indexed s h ->
    match sign_one dbg contract s tt (i, (k, osg)) with
    | MOk s' _ => same_epoch s s' /\ exists t r, nth_error (a_txs s) i = Some t /\ root (a_tx_tree s) = Ok r /\
        indexed s' (h ++ if authorised contract r t (k, osg) then creates contract t else [])
    | MErr s' e => same_epoch s s' /\ indexed s' h /\ exists t r, nth_error (a_txs s) i = Some t /\
        root (a_tx_tree s) = Ok r /\ authorised contract r t (k, osg) = true /\ missing contract t s s' h e
    | MPanic => True
    end.
  Proof.
    intros HI. unfold sign_one.
    destruct (nth_error (a_txs s) i) as [t|] eqn:Et; [| exact I ].
    destruct (root (a_tx_tree s)) as [r|e|] eqn:Er; [| exact I | exact I ].
    fold (osig osg). change (accepts contract r t k (osig osg)) with (authorised contract r t (k, osg)).
    destruct (authorised contract r t (k, osg)) eqn:Ea.
    - destruct (update_and_prove dbg signer_cfg (a_signer_tree s) (Z.of_nat (length (a_signers s))) k)
        as [[st spf]|e|] eqn:Eu; [| exfalso; now apply (update_no_err dbg signer_cfg _ _ _ e Eu) | exact I ].
      cbn [mlift mbind fst snd].
      set (s1 := with_signer s st (Some k)).
      assert (HI1 : indexed s1 h) by exact HI.
      pose proof (delete_known contract h (enum_real (inputs t)) s1
                    (a4_const Fzero, a4_const (default_two_paths utxo_cfg)) HI1) as HD.
      rewrite real_enum, <- consumes_eq in HD.
      destruct (mfold (delete_one dbg contract) (enum_real (inputs t)) s1 _) as [s2 del|s2 e|];
        cbn [mbind]; [| | exact I ].
      + destruct HD as (HI2 & HS2).
        pose proof (add_known contract k (enum_real (outputs t)) s2
                      (a4_const Fzero, a4_const (default_two_paths utxo_cfg), u64of 0) h HI2) as HA.
        rewrite real_enum, <- creates_eq in HA.
        destruct (mfold (add_one dbg contract k) (enum_real (outputs t)) s2 _) as [s3 [[pos pf] wd]|s3 e|];
          cbn [mbind]; [| destruct HA | exact I ].
        destruct HA as (HI3 & HS3).
        set (s4 := if 0 <? zval wd then _ else s3).
        assert (HI4 : indexed s4 (h ++ creates contract t)) by (unfold s4; destruct (0 <? zval wd); exact HI3).
        assert (HS4 : same_epoch s s4).
        { apply (same_trans _ s3); [| unfold s4; destruct (0 <? zval wd); repeat split ].
          apply (same_trans _ s2); [ apply (same_trans _ s1); [ repeat split | exact HS2 ] | exact HS3 ]. }
        clearbody s4. destruct del as [dpos dpf].
        destruct (nth_error (a_tx_proofs s4) i) as [tpf|]; [| exact I ].
        split; [ exact HS4 |]. exists t, r. rewrite Ea. repeat split; try assumption; apply HI4.
      + destruct HD as (HI2 & HS2 & don & u & todo & E1 & E2 & E3 & E4).
        split; [ apply (same_trans _ s1); [ repeat split | exact HS2 ] |]. split; [ exact HI2 |].
        exists t, r. repeat (split; [ first [ assumption | reflexivity ] |]). exists don, u, todo. auto.
    - cbn [mbind]. destruct (nth_error (a_tx_proofs (with_signer s (a_signer_tree s) None)) i) as [tpf|]; [| exact I ].
      split; [ repeat split |]. exists t, r. rewrite Ea, app_nil_r. repeat split; try assumption; apply HI.
  Qed.

  Lemma run_known contract r l : forall n s h, indexed s h -> root (a_tx_tree s) = Ok r ->
    match mfold (sign_one dbg contract) (combine (seq n (length l)) l) s tt with
    | MOk s' _ => indexed s' (h ++ flat_map (creates contract) (applied contract r (skipn n (a_txs s)) l))
    | MErr s' e => exists l1 k osg l2 s1 t, l = l1 ++ (k, osg) :: l2 /\
        mfold (sign_one dbg contract) (combine (seq n (length l1)) l1) s tt = MOk s1 tt /\
        mfold (sign_one dbg contract) (combine (seq n (length (l1 ++ [(k, osg)]))) (l1 ++ [(k, osg)])) s tt = MErr s' e /\
        nth_error (a_txs s) (n + length l1) = Some t /\ authorised contract r t (k, osg) = true /\
        let h1 := h ++ flat_map (creates contract) (applied contract r (skipn n (a_txs s)) l1) in
        indexed s' h1 /\ missing contract t s1 s' h1 e
    | MPanic => True
    end.
  Proof.
    induction l as [|[k osg] l IH]; intros n s h HI Hr; cbn [length seq combine mfold].
    - unfold applied. destruct (skipn n (a_txs s)); cbn; rewrite app_nil_r; exact HI.
    - pose proof (sign_one_known contract s h n k osg HI) as H1.
      destruct (sign_one dbg contract s tt (n, (k, osg))) as [s1 []|s1 e|] eqn:Eone; cbn [mbind]; [| | exact I ].
      + destruct H1 as ((E1 & E2 & _) & t & r' & Et & Er & HI1).
        assert (r' = r) by congruence. subst r'.
        rewrite <- E2 in Hr. specialize (IH (S n) s1 _ HI1 Hr). rewrite E1 in IH.
        assert (Eh : forall l0, (h ++ (if authorised contract r t (k, osg) then creates contract t else [])) ++
                       flat_map (creates contract) (applied contract r (skipn (S n) (a_txs s)) l0) =
                     h ++ flat_map (creates contract) (applied contract r (skipn n (a_txs s)) ((k, osg) :: l0))).
        { intros l0. rewrite (applied_cons _ _ _ _ t) by exact Et. rewrite flat_map_app, app_assoc. f_equal. f_equal.
          destruct (authorised contract r t (k, osg)); cbn [flat_map]; rewrite ?app_nil_r; reflexivity. }
        destruct (mfold _ (combine (seq (S n) (length l)) l) s1 tt) as [s' u|s' e|]; [| | exact I ].
        * rewrite <- Eh. exact IH.
        * destruct IH as (l1 & k1 & o1 & l2 & s2 & t2 & -> & M1 & M2 & N & A & HI' & HM).
          exists ((k, osg) :: l1), k1, o1, l2, s2, t2. split; [ reflexivity |].
          split; [ cbn [length seq combine mfold]; rewrite Eone; exact M1 |].
          split; [ cbn [app length seq combine mfold]; rewrite Eone; exact M2 |].
          cbn [length]. rewrite <- Nat.add_succ_comm. split; [ exact N |]. split; [ exact A |].
          cbv zeta. rewrite <- Eh. split; assumption.
      + destruct H1 as ((E1 & E2 & _) & HI1 & t & r' & Et & Er & Ea & HM).
        assert (r' = r) by congruence. subst r'.
        assert (Eh : forall txs, h ++ flat_map (creates contract) (applied contract r txs []) = h).
        { intros txs. unfold applied. destruct txs; cbn; apply app_nil_r. }
        exists [], k, osg, l, s, t. cbn [app length seq combine mfold]. rewrite Eone. cbn [mbind].
        rewrite Nat.add_0_r. repeat (split; [ first [ assumption | reflexivity ] |]).
        cbv zeta. rewrite Eh. split; assumption.
  Qed.

  Lemma intake_known l : forall s,
    match process_transactions dbg s l with
    | MOk s' _ | MErr s' _ => a_utxos s' = a_utxos s
    | MPanic => True
    end.
  Proof.
    unfold process_transactions. induction l as [|[k x] l IH]; intros s; cbn [mfold]; [ reflexivity |].
    unfold intake_one at 1. destruct (is_valid dbg x (Some k)) as [b|e|]; cbn [mbind]; [| reflexivity | exact I ].
    destruct (update_and_prove dbg tx_cfg (a_tx_tree s) (Z.of_nat (length (a_txs s))) x) as [tp|e|];
      cbn [mlift mbind]; [| reflexivity | exact I ].
    specialize (IH (with_tx s (fst tp) (snd tp) x)). exact IH.
  Qed.

  Lemma ever_indexed s h : ever dbg s h -> indexed s h.
  Proof.
    induction 1 as [|s h l s' _ IH Hl|s h contract l r s' _ IH Hr E|s h contract l1 x l2 r s1 s' e _ IH Hr E1 E2 _|s h _ IH].
    - split; [ constructor |]. intros u. cbn. tauto.
    - pose proof (intake_known l s) as Hk. unfold indexed. destruct Hl as [(a & E)|(e & E)]; rewrite E in Hk; rewrite Hk; exact IH.
    - pose proof (run_known contract r l 0 s h IH Hr) as HR. unfold process_signatures, enum in E.
      rewrite E in HR. exact HR.
    - pose proof (run_known contract r l1 0 s h IH Hr) as HR. unfold process_signatures, enum in E1.
      rewrite E1 in HR. unfold process_signatures in E2. rewrite enum_app, mfold_app in E2.
      unfold enum in E2. rewrite E1 in E2. cbn [mbind mfold] in E2.
      destruct x as [k osg]. pose proof (sign_one_known contract s1 _ (length l1) k osg HR) as H1.
      destruct (sign_one dbg contract s1 tt (length l1, (k, osg))) as [s2 a|s2 e2|]; cbn [mbind] in E2;
        [ discriminate E2 | | discriminate E2 ].
      assert (s2 = s') by congruence. subst s2. apply H1.
    - exact IH.
  Qed.

  (** C115 *)
  Theorem C115_which_error contract s h l r s' e : ever dbg s h -> root (a_tx_tree s) = Ok r ->
    process_signatures dbg s contract l = MErr s' e ->
    exists l1 k osg l2 s1 t don u todo,
      l = l1 ++ (k, osg) :: l2 /\
      process_signatures dbg s contract l1 = MOk s1 tt /\
      process_signatures dbg s contract (l1 ++ [(k, osg)]) = MErr s' e /\
      nth_error (a_txs s) (length l1) = Some t /\ authorised contract r t (k, osg) = true /\
      consumes contract t = don ++ u :: todo /\
      Permutation (coins s1) (don ++ coins s') /\ ~ In u (coins s') /\
      let h1 := h ++ flat_map (creates contract) (applied contract r (a_txs s) l1) in
      ever dbg s' h1 /\ (e = UTXONonExisting <-> ~ In u h1) /\ (e = UTXOError <-> In u h1).
  Proof.
    intros He Hr E. pose proof (run_known contract r l 0 s h (ever_indexed _ _ He) Hr) as HR.
    pose proof E as E'. unfold process_signatures, enum in E'. rewrite E' in HR.
    destruct HR as (l1 & k & osg & l2 & s1 & t & El & M1 & M2 & N & A & HI & don & u & todo & C1 & C2 & C3 & C4).
    exists l1, k, osg, l2, s1, t, don, u, todo. cbn [plus] in N. cbn [skipn] in *.
    repeat (split; [ assumption |]). cbv zeta. split.
    - apply (ever_fail dbg s h contract l1 (k, osg) l2 r s1 s' e); auto. now rewrite <- El.
    - destruct C4 as [(-> & C4)|(-> & C4)]; split; split; try tauto; try discriminate.
  Qed.

  (** Every reachable state has such a history; it contains the live coins, and two histories of the
      same state agree on which coins were ever created. *)
  Theorem C115_history s : reached dbg s -> exists h, ever dbg s h.
  Proof.
    induction 1 as [|s l s' _ (h & IH) Hl|s contract l s' Hr (h & IH) Hf Hl|s _ (h & IH)].
    - exists []. constructor.
    - exists h. econstructor; eauto.
    - destruct (reach_root dbg s (reached_inv dbg s Hr)) as (r & Hroot).
      destruct Hl as [([] & E)|(e & E)].
      + eexists. eapply ever_sign; eauto.
      + destruct (C115_which_error contract s h l r s' e IH Hroot E) as (l1 & k & osg & l2 & s1 & t & don & u & todo & H).
        eexists. apply H.
    - exists h. now constructor.
  Qed.

  Theorem C115_history_set s h h' u : ever dbg s h -> ever dbg s h' -> (In u h <-> In u h').
  Proof.
    intros H H'. rewrite <- (proj2 (ever_indexed _ _ H)), <- (proj2 (ever_indexed _ _ H')). tauto.
  Qed.

  Theorem C115_live s h u : ever dbg s h -> In u (coins s) -> In u h.
  Proof.
    intros H Hu. destruct (ever_indexed _ _ H) as (Hn & Hh). rewrite <- Hh.
    unfold coins in Hu. apply in_map_iff in Hu as ([i u0] & Eu & Hin). cbn in Eu. subst u0.
    destruct (coin_hget _ _ _ Hn Hin) as (v & E & _). rewrite E. discriminate.
  Qed.
End props.

Print Assumptions C115_which_error.
Print Assumptions C115_history.
Print Assumptions C115_history_set.
Print Assumptions C115_live.

(** C35 (aggregator), C43-C48, C51: applying the signed transactions. *)
From Coq Require Import ZArith List Bool Lia Permutation.
Import ListNotations.
From Verif Require Import Base Env Circuit SparseMT SparseMTSpec SparseMTHeap SparseMTRep SparseMTNew
  SparseMTProofs TreeTotal PropsTree Data DataSpec DataFacts PropsData Schnorr SchnorrProofs PropsSchnorr HMap Contract
  Aggregator AggSpec AggFacts AggSign AggIntake PropsIntake.
Open Scope Z_scope.

Section props.
  Context {hs : Hashes} {G : Curve} (dbg : bool).

  (** * C43 *)
  Theorem C43_coins_match_tree s : reached dbg s -> coins_match_tree dbg s.
  Proof.
    intros H. destruct (ri_coins _ _ (reached_inv dbg s H)) as (c & w & HC). now apply (coin_inv_match dbg s c w).
  Qed.

  (** * C44 *)

  (** Bounds under which the batch cannot panic: one transaction per supplied key, and the signer
      index stays far from 2^64. *)
  Definition no_overflow (s : agg) (l : list (pt * option signature)) : Prop :=
    (length l <= length (a_txs s))%nat /\
    Z.of_nat (length (a_signers s)) + Z.of_nat (length l) + 4096 < two64.

  Lemma withdrawn_le contract t : AggSign.withdrawn contract t <= total_out t.
  Proof.
    unfold AggSign.withdrawn, AggFacts.to_contract, real, total_out.
    induction (a4_list (outputs t)) as [|u l IH]; cbn [filter map total]; [ reflexivity |].
    pose proof (u64_range (amount u)). destruct (is_dummy u); cbn [negb filter]; [ lia |].
    destruct (pt_eqb (pk u) contract); cbn [map].
    - change (zsum (zval (amount u) :: map (fun u => zval (amount u)) (filter (fun u => pt_eqb (pk u) contract) (filter (fun u => negb (is_dummy u)) l))))
        with (zval (amount u) + zsum (map (fun u => zval (amount u)) (filter (fun u => pt_eqb (pk u) contract) (filter (fun u => negb (is_dummy u)) l)))). lia.
    - lia.
  Qed.
  Lemma reached_small contract s t : reached dbg s -> dbg = true -> In t (a_txs s) -> withdrawn contract t < two64.
  Proof.
    intros Hr Hd Ht. destruct (C40_only_valid dbg s Hr t Ht) as (k & Hv). unfold valid in Hv. cbn [fst snd] in Hv. rewrite Hd in Hv.
    pose proof (withdrawn_le contract t) as Hle.
    destruct (Z.lt_ge_cases (total_out t) two64) as [Ho|Ho]; [ lia | exfalso ].
    destruct (owned_dec k t) as [H|H].
    - rewrite (proj1 C26_is_valid_overflow t k H) in Hv by auto. discriminate Hv.
    - rewrite is_valid_not_owned in Hv by exact H. discriminate Hv.
  Qed.

  Lemma steps_len contract n l s s' : steps dbg contract n l s s' ->
    length (a_signers s') = (length (a_signers s) + length l)%nat.
  Proof.
    induction 1 as [|n k osg l s s1 s' t r H1 H2 IH]; [ cbn; lia |].
    rewrite IH, (so_signers _ _ _ _ _ _ _ _ _ H1), app_length. cbn [length]. lia.
  Qed.

  Lemma no_panic contract s l : reached dbg s -> fits contract s l -> no_overflow s l ->
    process_signatures dbg s contract l <> MPanic.
  Proof.
    intros Hr Hf (Hlen & Hsig) E. pose proof (reached_inv dbg s Hr) as HI.
    destruct (ri_coins _ _ HI) as (c & w & HC). destruct (reach_root dbg s HI) as (r & Hroot).
    pose proof (sign_run dbg contract l 0 s c w r HC Hroot (Hf r Hroot)) as HR.
    unfold process_signatures, enum in E. rewrite E in HR.
    destruct HR as (l1 & k & osg & l2 & s1 & -> & Hs & Hp).
    rewrite app_length in Hlen, Hsig. cbn [length] in Hlen, Hsig.
    pose proof (steps_same _ _ _ _ _ _ Hs) as (E1 & E2 & E3 & _).
    destruct (steps_signer dbg _ _ _ _ _ Hs (ri_signer_empty _ _ HI) (ri_signer_root _ _ HI)) as [A B].
    pose proof (steps_len _ _ _ _ _ Hs) as Hl1.
    unfold step_panic in Hp. rewrite E1, E2, E3 in Hp. cbn [plus] in Hp.
    destruct Hp as [Hp|[Hp|[Hp|[Hp|(t & Ht & Hd & Hw)]]]].
    - apply nth_error_None in Hp. lia.
    - apply nth_error_None in Hp. rewrite (ei_len _ _ (ri_epoch _ _ HI)) in Hp. lia.
    - exact (ei_root _ _ (ri_epoch _ _ HI) Hp).
    - destruct (update_total dbg signer_cfg signer_cfg_ok (a_signer_tree s1) (Z.of_nat (length (a_signers s1))) k)
        as (t' & pf & E' & _); [ lia | rewrite signer_capacity; lia | exact A |]. congruence.
    - apply nth_error_In in Ht. pose proof (reached_small contract s t Hr Hd Ht). lia.
  Qed.

  (** What a call leaves behind, in terms of single steps. *)
  Lemma run_ok contract s l s' : reached dbg s -> fits contract s l ->
    process_signatures dbg s contract l = MOk s' tt -> steps dbg contract 0 l s s'.
  Proof.
    intros Hr Hf E. pose proof (reached_inv dbg s Hr) as HI.
    destruct (ri_coins _ _ HI) as (c & w & HC). destruct (reach_root dbg s HI) as (r & Hroot).
    pose proof (sign_run dbg contract l 0 s c w r HC Hroot (Hf r Hroot)) as HR.
    unfold process_signatures, enum in E. rewrite E in HR. exact HR.
  Qed.
  Lemma run_err contract s l s' e : reached dbg s -> fits contract s l ->
    process_signatures dbg s contract l = MErr s' e ->
    exists l1 k osg l2 s1 t r, l = l1 ++ (k, osg) :: l2 /\ steps dbg contract 0 l1 s s1 /\
      step_err dbg contract (length l1) k osg s1 s' t r e /\
      process_signatures dbg s contract l1 = MOk s1 tt.
  Proof.
    intros Hr Hf E. pose proof (reached_inv dbg s Hr) as HI.
    destruct (ri_coins _ _ HI) as (c & w & HC). destruct (reach_root dbg s HI) as (r & Hroot).
    pose proof (sign_run dbg contract l 0 s c w r HC Hroot (Hf r Hroot)) as HR.
    unfold process_signatures, enum in E. rewrite E in HR. exact HR.
  Qed.

  Lemma ledger_det contract ts : forall c c1 c2, ledger contract ts c c1 -> ledger contract ts c c2 -> Permutation c1 c2.
  Proof.
    induction ts as [|t ts IH]; intros c c1 c2 H1 H2; inversion H1; inversion H2; subst.
    - now transitivity c; [ symmetry |].
    - match goal with A : apply_tx _ _ c ?x, B : apply_tx _ _ c ?y |- _ =>
        destruct A as (ra & A1 & A2); destruct B as (rb & B1 & B2);
        assert (Hp : Permutation x y); [| apply (IH x c1 c2); [ assumption | eapply ledger_perm; eassumption ] ] end.
      { rewrite A2, B2. apply Permutation_app_tail. apply (Permutation_app_inv_l (consumes contract t)).
        now rewrite <- A1, <- B1. }
  Qed.
  Lemma ledger_app contract a b : forall c c', ledger contract (a ++ b) c c' ->
    exists m, ledger contract a c m /\ ledger contract b m c'.
  Proof.
    induction a as [|t a IH]; intros c c' H.
    - exists c. split; [ now constructor | exact H ].
    - cbn [app] in H. inversion H; subst. destruct (IH c1 c') as (m & Hm1 & Hm2); auto.
      exists m. split; auto. econstructor; eauto.
  Qed.
  Lemma applied_app contract r txs l1 l2 : (length l1 <= length txs)%nat ->
    applied contract r txs (l1 ++ l2) = applied contract r txs l1 ++ applied contract r (skipn (length l1) txs) l2.
  Proof.
    revert txs. induction l1 as [|x l1 IH]; intros txs H.
    - cbn [length skipn app]. unfold applied at 2. now destruct txs.
    - destruct txs as [|t txs]; cbn [length] in H; [ lia |].
      change (applied contract r (t :: txs) ((x :: l1) ++ l2))
        with ((if authorised contract r t x then [t] else []) ++ applied contract r txs (l1 ++ l2)).
      change (applied contract r (t :: txs) (x :: l1))
        with ((if authorised contract r t x then [t] else []) ++ applied contract r txs l1).
      rewrite IH by lia. cbn [length skipn]. now rewrite app_assoc.
  Qed.

  (** A successful call moves the coins by the ledger rule, and only a batch that the ledger rule
      allows succeeds; whether a transaction is part of it is decided by [authorised] alone. *)
  Theorem C44_ledger contract s l s' r : reached dbg s -> fits contract s l ->
    root (a_tx_tree s) = Ok r -> process_signatures dbg s contract l = MOk s' tt ->
    ledger contract (applied contract r (a_txs s) l) (coins s) (coins s').
  Proof.
    intros Hr Hf Hroot E. pose proof (run_ok contract s l s' Hr Hf E) as HS.
    exact (steps_ledger dbg _ _ _ _ _ r HS Hroot).
  Qed.

  Theorem C44_succeeds_iff contract s l r : reached dbg s -> fits contract s l -> no_overflow s l ->
    root (a_tx_tree s) = Ok r ->
    ((exists s', process_signatures dbg s contract l = MOk s' tt) <->
     (exists c', ledger contract (applied contract r (a_txs s) l) (coins s) c')) /\
    ((exists s' e, process_signatures dbg s contract l = MErr s' e) <->
     ~ (exists c', ledger contract (applied contract r (a_txs s) l) (coins s) c')).
  Proof.
    intros Hr Hf Hno Hroot. pose proof (no_panic contract s l Hr Hf Hno) as Hp.
    destruct (process_signatures dbg s contract l) as [s' []|s' e|] eqn:E; [| | tauto ].
    - pose proof (C44_ledger contract s l s' r Hr Hf Hroot E) as HL. split; split.
      + intros _. eauto.
      + intros _. eauto.
      + intros (s1 & e & H). discriminate.
      + intros H. exfalso. eauto.
    - assert (Hn : ~ exists c', ledger contract (applied contract r (a_txs s) l) (coins s) c').
      { intros (c' & HL).
        destruct (run_err contract s l s' e Hr Hf E) as (l1 & k & osg & l2 & s1 & t & r1 & -> & Hs & He & _).
        destruct Hno as (Hlen & _). rewrite app_length in Hlen.
        rewrite applied_app in HL by lia. apply ledger_app in HL as (m & H1 & H2).
        pose proof (steps_ledger dbg _ _ _ _ _ r Hs Hroot) as H1'. cbn [skipn] in H1'.
        pose proof (ledger_det _ _ _ _ _ H1 H1') as Hperm.
        pose proof (steps_same _ _ _ _ _ _ Hs) as (E1 & E2 & _).
        assert (Et : nth_error (a_txs s) (length l1) = Some t) by (rewrite <- E1; apply He).
        assert (r1 = r) by (pose proof (se_root _ _ _ _ _ _ _ _ _ _ He) as X; rewrite E2 in X; congruence). subst r1.
        rewrite (applied_cons _ _ _ _ t) in H2 by exact Et.
        rewrite (se_auth _ _ _ _ _ _ _ _ _ _ He) in H2. cbn [app] in H2. inversion H2; subst.
        match goal with X : apply_tx _ _ _ _ |- _ => destruct X as (rest & A & _) end.
        destruct (se_coins _ _ _ _ _ _ _ _ _ _ He) as (don & u & todo & Ec & Hc & Hu).
        rewrite Ec, <- app_assoc in A.
        assert (HP : Permutation (don ++ coins s') (don ++ (u :: todo) ++ rest)).
        { rewrite <- Hc, <- Hperm. exact A. }
        apply Permutation_app_inv_l in HP. apply Hu. eapply Permutation_in; [ symmetry; exact HP |]. now left. }
      split; split.
      + intros (s1 & H). discriminate.
      + intros H. tauto.
      + intros _. exact Hn.
      + intros _. eauto.
  Qed.

  (** * C45 *)
  Definition count (u : utxo) (l : list utxo) : nat := count_occ utxo_eq_dec l u.
  Lemma count_app u a b : count u (a ++ b) = (count u a + count u b)%nat.
  Proof. apply count_occ_app. Qed.
  Lemma count_perm u a b : Permutation a b -> count u a = count u b.
  Proof. intros H. now apply (Permutation_count_occ utxo_eq_dec). Qed.
  Lemma count_in u l : (0 < count u l)%nat -> In u l.
  Proof. intros H. now apply (count_occ_In utxo_eq_dec). Qed.

  Lemma steps_consumed contract n l s s' u r : steps dbg contract n l s s' -> root (a_tx_tree s) = Ok r ->
    (count u (coins s') < count u (coins s))%nat ->
    exists i t k osg, nth_error (a_txs s) (n + i) = Some t /\ nth_error l i = Some (k, osg) /\
      authorised contract r t (k, osg) = true /\ In u (consumes contract t).
  Proof.
    induction 1 as [|n k osg l s s1 s' t r' H1 H2 IH]; intros Hroot Hlt; [ lia |].
    assert (r' = r) by (pose proof (so_root _ _ _ _ _ _ _ _ _ H1); congruence). subst r'.
    destruct (Nat.lt_ge_cases (count u (coins s1)) (count u (coins s))) as [Hc|Hc].
    - exists 0%nat, t, k, osg. rewrite Nat.add_0_r. split; [ apply H1 |]. split; [ reflexivity |].
      pose proof (so_coins _ _ _ _ _ _ _ _ _ H1) as Hs. destruct (authorised contract r t (k, osg)) eqn:Ea.
      + split; [ reflexivity |]. destruct Hs as (rest & A & B). apply (count_perm u) in A, B.
        rewrite count_app in A, B. apply count_in. lia.
      + rewrite Hs in Hc. lia.
    - rewrite (so_tx_tree _ _ _ _ _ _ _ _ _ H1), (so_txs _ _ _ _ _ _ _ _ _ H1) in IH.
      destruct (IH Hroot) as (i & t1 & k1 & o1 & A & B & C & D); [ lia |].
      exists (S i), t1, k1, o1. rewrite <- Nat.add_succ_comm. auto.
  Qed.

  (** A coin disappears in a call, successful or not, only through an authorised transaction. *)
  Theorem C45_authorisation contract s l s' r u : reached dbg s -> fits contract s l ->
    root (a_tx_tree s) = Ok r -> leaves (process_signatures dbg s contract l) s' ->
    (count u (coins s') < count u (coins s))%nat ->
    exists i t k osg, nth_error (a_txs s) i = Some t /\ nth_error l i = Some (k, osg) /\
      In u (a4_list (inputs t)) /\ is_dummy u = false /\ pk u <> contract /\
      (k = contract \/ verify_signature k (tx_enc t ++ [r]) (osig osg) = true) /\
      (owned_by k t -> pk u = k /\ verify_signature (pk u) (tx_enc t ++ [r]) (osig osg) = true).
  Proof.
    intros Hr Hf Hroot Hl Hlt.
    assert (exists i t k osg, nth_error (a_txs s) i = Some t /\ nth_error l i = Some (k, osg) /\
      authorised contract r t (k, osg) = true /\ In u (consumes contract t)) as (i & t & k & osg & A & B & C & D).
    { destruct Hl as [[a E]|[e E]].
      - destruct a. pose proof (run_ok contract s l s' Hr Hf E) as HS.
        exact (steps_consumed _ _ _ _ _ u r HS Hroot Hlt).
      - destruct (run_err contract s l s' e Hr Hf E) as (l1 & k & osg & l2 & s1 & t & r1 & -> & Hs & He & _).
        destruct (Nat.lt_ge_cases (count u (coins s1)) (count u (coins s))) as [Hc|Hc].
        + destruct (steps_consumed _ _ _ _ _ u r Hs Hroot Hc) as (i & t1 & k1 & o1 & A & B & C & D).
          exists i, t1, k1, o1. split; auto. split; auto.
          rewrite nth_error_app1 by (apply nth_error_Some; congruence). exact B.
        + pose proof (steps_same _ _ _ _ _ _ Hs) as (E1 & E2 & _).
          assert (r1 = r) by (pose proof (se_root _ _ _ _ _ _ _ _ _ _ He) as X; rewrite E2 in X; congruence). subst r1.
          exists (length l1), t, k, osg. split; [ rewrite <- E1; apply He |].
          split; [ rewrite nth_error_app2, Nat.sub_diag by lia; reflexivity |]. split; [ apply He |].
          destruct (se_coins _ _ _ _ _ _ _ _ _ _ He) as (don & v & todo & Ec & Hp & _).
          apply (count_perm u) in Hp. rewrite count_app in Hp.
          rewrite Ec. apply in_or_app. left. apply count_in. lia. }
    exists i, t, k, osg. split; auto. split; auto.
    unfold consumes in D. apply filter_In in D as [D1 D2]. apply andb_prop in D2 as [D2 D3].
    apply negb_true_iff in D2, D3. apply pt_eqb_neq in D3.
    split; auto. split; auto. split; auto.
    unfold authorised in C. cbn [fst snd] in C. fold (osig osg) in C. apply orb_prop in C.
    split.
    - destruct C as [C|C]; [ auto | left; now apply pt_eqb_eq ].
    - intros Ho. specialize (Ho u D1 D2). split; [ exact Ho |]. destruct C as [C|C]; [ now rewrite Ho |].
      apply pt_eqb_eq in C. congruence.
  Qed.

  (** The owner of the consumed coins is not consulted: any key whose signature verifies will do. *)
  Theorem C45_stranger contract s t ts r k sg : reached dbg s -> a_txs s = t :: ts ->
    root (a_tx_tree s) = Ok r -> a_index s + 4 <= capacity utxo_cfg ->
    no_overflow s [(k, Some sg)] ->
    verify_signature k (tx_enc t ++ [r]) sg = true ->
    (exists rest, Permutation (coins s) (consumes contract t ++ rest)) ->
    exists s', process_signatures dbg s contract [(k, Some sg)] = MOk s' tt /\
      apply_tx contract t (coins s) (coins s').
  Proof.
    intros Hr Ht Hroot Hcap Hno Hv (rest & Hp).
    assert (Ha : applied contract r (a_txs s) [(k, Some sg)] = [t]).
    { rewrite Ht. unfold applied, authorised. cbn [combine flat_map fst snd]. rewrite Hv.
      cbn [orb]. destruct ts; reflexivity. }
    assert (Hfit : fits contract s [(k, Some sg)]).
    { intros r' Hr'. rewrite Hroot in Hr'. injection Hr' as <-. rewrite Ha. cbn [flat_map].
      rewrite app_nil_r. unfold creates.
      assert (Hle : forall (f : utxo -> bool) m, (length (filter f m) <= length m)%nat).
      { intros f m. induction m as [|y m IH]; cbn [filter length]; [ lia |]. destruct (f y); cbn [length]; lia. }
      specialize (Hle (fun u => negb (is_dummy u) && negb (pt_eqb (pk u) contract)) (a4_list (outputs t))).
      assert (length (a4_list (outputs t)) = 4%nat) by (destruct (outputs t); reflexivity). lia. }
    destruct (C44_succeeds_iff contract s [(k, Some sg)] r Hr Hfit Hno Hroot) as [[_ H] _].
    destruct H as (s' & E).
    { exists (rest ++ creates contract t). rewrite Ha. econstructor; [| constructor; reflexivity ].
      exists rest. auto. }
    exists s'. split; [ exact E |]. pose proof (C44_ledger contract s _ s' r Hr Hfit Hroot E) as HL.
    rewrite Ha in HL. inversion HL; subst.
    match goal with X : ledger _ [] _ _ |- _ => inversion X; subst end.
    match goal with X : apply_tx _ _ _ _ |- _ => destruct X as (rest' & A & B) end.
    exists rest'. split; auto. symmetry. rewrite <- B. assumption.
  Qed.

  (** A missing signature has the effect of the pair (0,0), which is accepted for a key other than
      the contract's exactly when the hash of (0, 0, transaction, root) is 0. *)
  Theorem C35_missing_signature_is_zero contract s l :
    process_signatures dbg s contract l =
    process_signatures dbg s contract (map (fun ko => (fst ko, Some (osig (snd ko)))) l) /\
    (forall r t k, k <> contract ->
       authorised contract r t (k, None) = true <-> zval (crh (Fzero :: Fzero :: tx_enc t ++ [r])) = 0).
  Proof.
    split.
    - unfold process_signatures, enum. rewrite map_length. generalize 0%nat. revert s.
      induction l as [|[k o] l IH]; intros s n; cbn [length seq combine map mfold fst snd]; [ reflexivity |].
      assert (E : sign_one dbg contract s tt (n, (k, o)) = sign_one dbg contract s tt (n, (k, Some (osig o))))
        by (destruct o; reflexivity).
      rewrite E. destruct (sign_one dbg contract s tt (n, (k, Some (osig o)))) as [s1 []|s1 e|]; cbn [mbind]; auto.
    - intros r t k Hk. unfold authorised. cbn [fst snd]. apply pt_eqb_neq in Hk. rewrite Hk, orb_false_r.
      apply C35_missing_signature.
  Qed.
End props.

Print Assumptions C43_coins_match_tree.
Print Assumptions C44_ledger.
Print Assumptions C44_succeeds_iff.
Print Assumptions C45_authorisation.
Print Assumptions C45_stranger.
Print Assumptions C35_missing_signature_is_zero.

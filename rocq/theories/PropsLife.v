(** Property C88: value over the whole life of an aggregator. *)
From Coq Require Import ZArith List Bool Lia Permutation.
Import ListNotations.
From Verif Require Import Base Env Circuit SparseMT SparseMTSpec SparseMTHeap SparseMTRep SparseMTNew
  SparseMTProofs TreeTotal PropsTree Data DataSpec DataFacts PropsData Schnorr SchnorrProofs PropsSchnorr HMap Contract
  Aggregator AggSpec AggFacts AggSign AggIntake PropsIntake PropsSign PropsValue.
Open Scope Z_scope.

Section life.
  Context {hs : Hashes} {G : Curve} (dbg : bool).

  (** what a block says is paid in and paid out *)
  Definition block_in (b : block) : Z := zsum (map (fun ia => zval (snd ia)) (b_deposits b)).
  Definition block_out (b : block) : Z := zsum (map (fun ia => zval (snd ia)) (b_withdrawals b)).
  (** neither side of a transaction adds up to 2^64 *)
  Definition sums_fit (t : tx) : Prop := total_in t < two64 /\ total_out t < two64.

  (** An aggregator from its creation on: any number of calls in any order, where
      - in builds without overflow checks the transactions taken in do not overflow,
      - the keys given with the signatures are the senders the transactions were taken in with,
      - the UTXO tree does not run full,
      - a block is produced before each reset.
      [ks]: the senders of the current epoch; [bs]: the blocks; [ok]: no call to
      [process_signatures] returned an error. *)
  Inductive life (contract : pt) : agg -> list pt -> list block -> bool -> Prop :=
  | life_new : life contract agg_new [] [] true
  | life_intake s ks bs ok l s' :
      life contract s ks bs ok -> leaves (process_transactions dbg s l) s' ->
      (dbg = true \/ forall kx, In kx l -> sums_fit (snd kx)) ->
      life contract s' (ks ++ firstn (length (a_txs s') - length (a_txs s)) (map fst l)) bs ok
  | life_sign s ks bs ok l s' :
      life contract s ks bs ok -> fits contract s l ->
      (forall i k osg, nth_error l i = Some (k, osg) -> nth_error ks i = Some k) ->
      process_signatures dbg s contract l = MOk s' tt -> life contract s' ks bs ok
  | life_sign_failed s ks bs ok l s' e :
      life contract s ks bs ok -> fits contract s l ->
      (forall i k osg, nth_error l i = Some (k, osg) -> nth_error ks i = Some k) ->
      process_signatures dbg s contract l = MErr s' e -> life contract s' ks bs false
  | life_epoch s ks bs ok c b :
      life contract s ks bs ok -> produce_block s c = Ok b ->
      life contract (reset_for_new_epoch s) [] (bs ++ [b]) ok.

  Lemma rmap_amounts (c : Contract.contract) (l : list (pt * u64)) m :
    rmap (fun ka : pt * u64 => do i <- index_u32 c (fst ka); Ok (i, snd ka)) l = Ok m -> map snd m = map snd l.
  Proof.
    revert m. induction l as [|[k a] l IH]; intros m E; cbn [rmap] in E.
    - assert (m = []) by congruence. now subst m.
    - cbn [fst snd] in E. destruct (index_u32 c k) as [i| |]; cbn [rbind] in E; try discriminate E.
      destruct (rmap _ l) as [m'| |] eqn:E'; cbn [rbind] in E; try discriminate E.
      assert (m = (i, a) :: m') by congruence. subst m. cbn [map snd]. f_equal. now apply IH.
  Qed.
  Lemma block_amounts s c b : produce_block s c = Ok b ->
    block_in b = log_total (a_deposits s) /\ block_out b = log_total (a_withdrawals s).
  Proof.
    unfold produce_block. intros E.
    destruct (root (a_utxo_tree s)) as [ur| |]; try discriminate E.
    destruct (root (a_tx_tree s)) as [tr| |]; try discriminate E.
    destruct (root (a_signer_tree s)) as [sr| |]; try discriminate E.
    destruct (rmap _ (a_signers s)) as [sg| |]; cbn [rbind] in E; try discriminate E.
    destruct (rmap _ (a_deposits s)) as [d| |] eqn:Ed; cbn [rbind] in E; try discriminate E.
    destruct (rmap _ (a_withdrawals s)) as [w| |] eqn:Ew; cbn [rbind] in E; try discriminate E.
    apply rmap_amounts in Ed, Ew.
    assert (Eb : b_deposits b = d /\ b_withdrawals b = w) by (split; [ assert (X : forall u v : block, Ok (E := no_error) u = Ok v -> b_deposits u = b_deposits v) by congruence | assert (X : forall u v : block, Ok (E := no_error) u = Ok v -> b_withdrawals u = b_withdrawals v) by congruence ]; apply X in E; now rewrite <- E).
    destruct Eb as [E1 E2]. unfold block_in, block_out, log_total. rewrite E1, E2.
    assert (X : forall A B (m : list (A * u64)) (n : list (B * u64)), map snd m = map snd n ->
      zsum (map (fun ia => zval (snd ia)) m) = zsum (map (fun e => zval (snd e)) n)).
    { intros A B m. induction m as [|[i a] m IH]; intros [|[j c0] n] Em; cbn [map snd] in *; try discriminate Em; [ reflexivity |].
      assert (a = c0) by congruence. subst c0. change (zsum (?x :: ?y)) with (x + zsum y). rewrite (IH n); [ reflexivity | congruence ]. }
    split; apply X; assumption.
  Qed.

  Lemma life_reached contract s ks bs ok : life contract s ks bs ok -> reached dbg s.
  Proof.
    induction 1 as [|s ks bs ok l s' _ IH Hl _|s ks bs ok l s' _ IH Hf _ E|s ks bs ok l s' e _ IH Hf _ E|s ks bs ok c b _ IH _].
    - constructor.
    - exact (reached_intake dbg s l s' IH Hl).
    - refine (reached_sign dbg s contract l s' IH Hf _). left. eauto.
    - refine (reached_sign dbg s contract l s' IH Hf _). right. eauto.
    - now apply reached_reset.
  Qed.
  (** every transaction of the epoch is sound for the sender it was taken in with *)
  Definition senders_sound (s : agg) (ks : list pt) : Prop := Forall2 (sound_tx dbg) ks (a_txs s).
  Lemma intake_sound l ks txs : Forall (valid dbg) l -> (dbg = true \/ forall kx, In kx l -> sums_fit (snd kx)) ->
    Forall2 (sound_tx dbg) ks txs -> Forall2 (sound_tx dbg) (ks ++ map fst l) (txs ++ map snd l).
  Proof.
    intros Hv Hd H. apply Forall2_app; [ exact H |]. clear H.
    induction l as [|[k x] l IH]; cbn [map]; constructor.
    - split; [ exact (Forall_inv Hv) |]. destruct Hd as [Hd|Hd]; [ now left | right ]. exact (Hd _ (or_introl eq_refl)).
    - apply IH; [ exact (Forall_inv_tail Hv) |]. destruct Hd as [Hd|Hd]; [ now left | right ]. intros kx I. exact (Hd kx (or_intror I)).
  Qed.
  Lemma steps_txs contract n l s s' : steps dbg contract n l s s' -> a_txs s' = a_txs s.
  Proof. intros H. pose proof (steps_same _ _ _ _ _ _ H) as (E & _). exact E. Qed.
  Lemma life_sound contract s ks bs ok : life contract s ks bs ok -> senders_sound s ks.
  Proof.
    induction 1 as [|s ks bs ok l s' HL IH Hl Hd|s ks bs ok l s' HL IH Hf _ E|s ks bs ok l s' e HL IH Hf _ E|s ks bs ok c b _ IH _].
    - constructor.
    - pose proof (reached_inv dbg s (life_reached _ _ _ _ _ HL)) as HI.
      pose proof (intake_run dbg l s (ri_epoch _ _ HI)) as H. unfold senders_sound in *.
      destruct Hl as [[a E]|[e E]]; rewrite E in H.
      + destruct H as (Hv & _ & Ht & _). rewrite Ht, app_length, map_length.
        replace (length (a_txs s) + length l - length (a_txs s))%nat with (length (map fst l)) by (rewrite map_length; lia).
        rewrite firstn_all. now apply intake_sound.
      + destruct H as (l1 & k & x & l2 & El & Hv & _ & _ & _ & Ht & _). rewrite Ht, app_length, map_length, El, map_app.
        replace (length (a_txs s) + length l1 - length (a_txs s))%nat with (length (map fst l1) + 0)%nat by (rewrite map_length; lia).
        rewrite firstn_app_2. cbn [firstn]. rewrite app_nil_r. apply intake_sound; [ exact Hv | | exact IH ].
        destruct Hd as [Hd|Hd]; [ now left | right ]. intros kx I. apply Hd. rewrite El. apply in_or_app. now left.
    - unfold senders_sound in *. rewrite (steps_txs _ _ _ _ _ (run_ok dbg contract s l s' (life_reached _ _ _ _ _ HL) Hf E)). exact IH.
    - unfold senders_sound in *.
      destruct (run_err dbg contract s l s' e (life_reached _ _ _ _ _ HL) Hf E) as (l1 & k & osg & l2 & s1 & t & r & _ & Hs & He & _).
      destruct He as [_ _ _ _ _ _ _ Hsame _]. destruct Hsame as (_ & F1 & _).
      apply steps_txs in Hs. rewrite F1, Hs. exact IH.
    - constructor.
  Qed.

  Lemma zsum_snoc l x : zsum (l ++ [x]) = zsum l + x.
  Proof. rewrite zsum_app. unfold zsum at 2. cbn. lia. Qed.
  Lemma sign_sound s ks (l : list (pt * option signature)) : senders_sound s ks ->
    (forall i k osg, nth_error l i = Some (k, osg) -> nth_error ks i = Some k) ->
    forall i t k osg, nth_error (a_txs s) i = Some t -> nth_error l i = Some (k, osg) -> sound_tx dbg k t.
  Proof.
    unfold senders_sound. intros H Hk i t k osg E1 E2. specialize (Hk _ _ _ E2).
    clear E2. revert i Hk E1. induction H as [|k0 t0 ks txs H0 _ IH]; intros [|i] A B; cbn in A, B; try discriminate.
    - congruence.
    - exact (IH i A B).
  Qed.

  (** Nothing is created or lost: what users hold, plus what was ever paid out, is what was ever
      paid in -- exactly as long as no call to [process_signatures] failed; a failed call can only
      destroy value. *)
  Theorem C88_life contract s ks bs ok : life contract s ks bs ok ->
    let held := live_value s + log_total (a_withdrawals s) + zsum (map block_out bs) in
    let paid := log_total (a_deposits s) + zsum (map block_in bs) in
    (ok = true -> held = paid) /\ held <= paid.
  Proof.
    cbv zeta.
    induction 1 as [|s ks bs ok l s' HL IH Hl Hd|s ks bs ok l s' HL IH Hf Hk E|s ks bs ok l s' e HL IH Hf Hk E|s ks bs ok c b HL IH Eb].
    - unfold live_value, coins, positions, value, log_total, agg_new. cbn. split; lia.
    - pose proof (reached_inv dbg s (life_reached _ _ _ _ _ HL)) as HI.
      pose proof (intake_run dbg l s (ri_epoch _ _ HI)) as H.
      assert (Hs : same_but_intake s s').
      { destruct Hl as [[a E]|[e E]]; rewrite E in H; [ tauto |].
        destruct H as (l1 & k & x & l2 & _ & _ & _ & _ & _ & _ & Hs). exact Hs. }
      destruct Hs as (E1 & _ & _ & E4 & E5 & _).
      assert (Ev : live_value s' = live_value s) by (unfold live_value, coins, positions; now rewrite E1).
      rewrite Ev, E4, E5. exact IH.
    - pose proof (life_reached _ _ _ _ _ HL) as Hr.
      destruct (reach_root dbg s (reached_inv dbg s Hr)) as (r & Hroot).
      pose proof (C46_conservation dbg contract s l s' r Hr Hf Hroot E) as V.
      specialize (V (fun i t k osg A B _ => sign_sound s ks l (life_sound _ _ _ _ _ HL) Hk i t k osg A B)).
      destruct IH as [I1 I2]. split; [ intros Ho; specialize (I1 Ho) |]; lia.
    - split; [ discriminate |]. pose proof (life_reached _ _ _ _ _ HL) as Hr.
      destruct (reach_root dbg s (reached_inv dbg s Hr)) as (r & Hroot).
      destruct (run_err dbg contract s l s' e Hr Hf E) as (l1 & k & osg & l2 & s1 & t & r1 & El & Hs & He & _).
      destruct He as [_ _ _ _ (don & u & todo & _ & Hp & _) _ _ Hsame _].
      destruct Hsame as (_ & _ & _ & F4 & F5 & _).
      assert (V : live_value s1 + (log_total (a_withdrawals s1) - log_total (a_withdrawals s)) =
                  live_value s + (log_total (a_deposits s1) - log_total (a_deposits s))).
      { apply (steps_value dbg _ _ _ _ _ r Hs Hroot). intros i t' k' o' A B _. cbn [plus] in A.
        refine (sign_sound s ks l (life_sound _ _ _ _ _ HL) Hk i t' k' o' A _).
        rewrite El, nth_error_app1; [ exact B |]. apply nth_error_Some. congruence. }
      apply value_perm in Hp. rewrite value_app in Hp. pose proof (value_nonneg don).
      rewrite F4, F5. unfold live_value in *. lia.
    - destruct (block_amounts _ _ _ Eb) as [B1 B2]. rewrite !map_app. cbn [map]. rewrite !zsum_snoc, B1, B2.
      assert (Ev : live_value (reset_for_new_epoch s) = live_value s) by reflexivity.
      change (a_withdrawals (reset_for_new_epoch s)) with (@nil (pt * u64)).
      change (a_deposits (reset_for_new_epoch s)) with (@nil (pt * u64)).
      change (log_total []) with 0. rewrite Ev. destruct IH as [I1 I2]. split; [ intros Ho; specialize (I1 Ho) |]; lia.
  Qed.
  (** In particular the published blocks never pay out more than they pay in. *)
  Theorem C88_withdrawals_covered contract s ks bs ok : life contract s ks bs ok -> a_deposits s = [] ->
    zsum (map block_out bs) <= zsum (map block_in bs).
  Proof.
    intros H H0. destruct (C88_life _ _ _ _ _ H) as [_ V]. rewrite H0 in V. change (log_total []) with 0 in V.
    pose proof (value_nonneg (coins s)). unfold live_value in V.
    assert (0 <= log_total (a_withdrawals s)).
    { clear. unfold log_total. induction (a_withdrawals s) as [|[k a] l IH]; [ cbn; lia |].
      exact (Z.add_nonneg_nonneg _ _ (proj1 (u64_range a)) IH). }
    lia.
  Qed.
End life.

Print Assumptions C88_life.
Print Assumptions C88_withdrawals_covered.

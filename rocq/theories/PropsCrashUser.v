(** C118: what a panicking call on a user leaves behind. *)
From Coq Require Import ZArith List Bool Lia.
Import ListNotations.
From Verif Require Import Base Env Circuit SparseMT SparseMTSpec Data DataSpec DataFacts Gadgets PropsData Schnorr
  Aggregator AggCircuitSpec User Client ClientSpec PropsUser CrashUser.
Open Scope Z_scope.

Section props.
  Context {hs : Hashes} {G : Curve} (dbg : bool).

  Lemma left_ok op l : forall b b', rfold (fun b x => op b (zval (amount x))) l b = Ok b' -> balance_left op l b = (b', true).
  Proof.
    induction l as [|x l IH]; intros b b' H; cbn [rfold balance_left] in *; [ congruence |].
    destruct (op b (zval (amount x))) as [b1|[]|]; cbn [rbind] in H; [ exact (IH b1 b' H) | discriminate H ].
  Qed.
  Lemma left_panic op l : forall b, rfold (fun b x => op b (zval (amount x))) l b = Panic ->
    exists don x rest b1, l = don ++ x :: rest /\ rfold (fun b x => op b (zval (amount x))) don b = Ok b1 /\
      op b1 (zval (amount x)) = Panic /\ balance_left op l b = (b1, false).
  Proof.
    induction l as [|x l IH]; intros b H; cbn [rfold balance_left] in *; [ discriminate H |].
    destruct (op b (zval (amount x))) as [b1|[]|] eqn:E; cbn [rbind] in H.
    - destruct (IH b1 H) as (don & y & rest & b2 & -> & H1 & H2 & H3). exists (x :: don), y, rest, b2.
      cbn [app rfold]. rewrite E. cbn [rbind]. auto.
    - exists [], x, l, b. auto.
  Qed.
  Lemma rfold_sub_ok l : Forall (fun u => is_dummy u = false) l -> forall b b1, dbg = true -> 0 <= b < two64 ->
    rfold (fun b x => @usub no_error dbg b (zval (amount x))) l b = Ok b1 -> b1 = b - total l /\ 0 <= b1 < two64.
  Proof.
    intros Hf b b1 Hd Hb H. pose proof (total_nonneg l). destruct (Z.le_gt_cases (total l) b) as [A|A].
    - rewrite sub_from_ok in H by auto. assert (b1 = b - total l) by congruence. lia.
    - rewrite Hd, sub_from_panic in H by (auto; lia). discriminate H.
  Qed.
  Lemma rfold_add_ok l : Forall (fun u => is_dummy u = false) l -> forall b b1, dbg = true -> 0 <= b < two64 ->
    rfold (fun b x => @uadd no_error dbg b (zval (amount x))) l b = Ok b1 -> b1 = b + total l /\ 0 <= b1 < two64.
  Proof.
    intros Hf b b1 Hd Hb H. pose proof (total_nonneg l). destruct (Z.lt_ge_cases (b + total l) two64) as [A|A].
    - rewrite add_from_ok in H by (auto; lia). assert (b1 = b + total l) by congruence. lia.
    - rewrite Hd, add_from_panic in H by (auto; lia). discriminate H.
  Qed.
  Lemma wrap_panic z : @wrap64 no_error dbg z = Panic -> dbg = true /\ (z < 0 \/ two64 <= z).
  Proof.
    unfold wrap64. destruct (Z.leb_spec 0 z), (Z.ltb_spec z two64); cbn [andb]; intros E; try discriminate E;
      (destruct dbg; [ split; [ reflexivity | lia ] | discriminate E ]).
  Qed.
  Lemma rfold_panic_dbg (f : Z -> Z -> res no_error Z) l : (forall b a, f b a = Panic -> dbg = true) ->
    forall b, rfold (fun b x => f b (zval (amount x))) l b = Panic -> dbg = true.
  Proof.
    intros Hf. induction l as [|x l IH]; intros b H; cbn [rfold] in H; [ discriminate H |].
    destruct (f b (zval (amount x))) as [b1|[]|] eqn:E; cbn [rbind] in H; [ exact (IH b1 H) | exact (Hf _ _ E) ].
  Qed.
  Lemma forall_real l : Forall (fun u => is_dummy u = false) (real l).
  Proof. apply Forall_forall. apply real_forall. Qed.

  (** C118. A spend that returns leaves what it returns. One that panics (only with overflow checks) has
      subtracted the real inputs before the first one the rest of the balance does not cover, and has not counted
      the nonce; or it has subtracted them all and the nonce was the largest one. *)
  Theorem C118_spend u t :
    match spend_transaction dbg u t with
    | Ok u' => spend_left dbg u t = u'
    | _ =>
      let u' := spend_left dbg u t in dbg = true /\ nonce u' = nonce u /\ same_identity u u' /\
      ((exists don x rest, real (a4_list (inputs t)) = don ++ x :: rest /\
          zval (balance u') = zval (balance u) - total don /\ zval (balance u') < zval (amount x)) \/
       (zval (nonce u) + 1 = two64 /\ zval (balance u') = zval (balance u) - total_in t))
    end.
  Proof.
    pose proof (u64_range (balance u)) as Rb. pose proof (u64_range (nonce u)) as Rn.
    pose proof (forall_real (a4_list (inputs t))) as Hf.
    assert (En : forall b, nonce (with_balance_nonce u b (zval (nonce u))) = nonce u).
    { intros b. cbn [nonce with_balance_nonce]. apply zval_inj. now apply zval_u64of_small. }
    assert (Eb : forall b n, 0 <= b < two64 -> zval (balance (with_balance_nonce u b n)) = b).
    { intros b n Hb. cbn [balance with_balance_nonce]. now apply zval_u64of_small. }
    unfold spend_transaction, spend_left.
    destruct (rfold (fun b x => usub dbg b (zval (amount x))) (real (a4_list (inputs t))) (zval (balance u))) as [b|[]|] eqn:Er;
      cbn [rbind].
    - rewrite (left_ok _ _ _ _ Er). destruct (@uadd no_error dbg (zval (nonce u)) 1) as [n|[]|] eqn:Ea; cbn [rbind]; [ reflexivity |].
      apply wrap_panic in Ea as [Hd Ea]. split; [ exact Hd |]. split; [ apply En |]. split; [ repeat split |]. right.
      destruct (rfold_sub_ok _ Hf _ _ Hd Rb Er) as [E1 E2]. rewrite Eb by exact E2.
      split; [ lia |]. unfold total_in. rewrite <- total_real. exact E1.
    - assert (Hd : dbg = true) by (apply (rfold_panic_dbg (usub dbg) _ (fun b a E => proj1 (wrap_panic _ E)) _ Er)).
      destruct (left_panic _ _ _ Er) as (don & x & rest & b1 & El & H1 & H2 & H3). rewrite H3.
      split; [ exact Hd |]. split; [ apply En |]. split; [ repeat split |]. left. exists don, x, rest. split; [ exact El |].
      rewrite El in Hf. apply Forall_app in Hf as [Hf _].
      destruct (rfold_sub_ok _ Hf _ _ Hd Rb H1) as [E1 E2]. rewrite Eb by exact E2. split; [ exact E1 |].
      apply wrap_panic in H2 as [_ H2]. pose proof (u64_range (amount x)). lia.
  Qed.

  (** A receipt that panics has added the real outputs before the first one that does not fit. *)
  Theorem C118_receive u t :
    match receive_transaction dbg u t with
    | Ok u' => receive_left dbg u t = u'
    | _ =>
      let u' := receive_left dbg u t in dbg = true /\ nonce u' = nonce u /\ same_identity u u' /\
      exists don x rest, real (a4_list (outputs t)) = don ++ x :: rest /\
        zval (balance u') = zval (balance u) + total don /\ two64 <= zval (balance u') + zval (amount x)
    end.
  Proof.
    pose proof (u64_range (balance u)) as Rb. pose proof (u64_range (nonce u)) as Rn.
    pose proof (forall_real (a4_list (outputs t))) as Hf.
    assert (En : forall b, nonce (with_balance_nonce u b (zval (nonce u))) = nonce u).
    { intros b. cbn [nonce with_balance_nonce]. apply zval_inj. now apply zval_u64of_small. }
    assert (Eb : forall b n, 0 <= b < two64 -> zval (balance (with_balance_nonce u b n)) = b).
    { intros b n Hb. cbn [balance with_balance_nonce]. now apply zval_u64of_small. }
    unfold receive_transaction, receive_left.
    destruct (rfold (fun b x => uadd dbg b (zval (amount x))) (real (a4_list (outputs t))) (zval (balance u))) as [b|[]|] eqn:Er;
      cbn [rbind].
    - rewrite (left_ok _ _ _ _ Er). reflexivity.
    - assert (Hd : dbg = true) by (apply (rfold_panic_dbg (uadd dbg) _ (fun b a E => proj1 (wrap_panic _ E)) _ Er)).
      destruct (left_panic _ _ _ Er) as (don & x & rest & b1 & El & H1 & H2 & H3). rewrite H3.
      split; [ exact Hd |]. split; [ apply En |]. split; [ repeat split |]. exists don, x, rest. split; [ exact El |].
      rewrite El in Hf. apply Forall_app in Hf as [Hf _].
      destruct (rfold_add_ok _ Hf _ _ Hd Rb H1) as [E1 E2]. rewrite Eb by exact E2. split; [ exact E1 |].
      apply wrap_panic in H2 as [_ H2]. pose proof (u64_range (amount x)). lia.
  Qed.

  (** So a caught panic is not undone; in no case does a spend increase the balance. *)
  Theorem C118_never_gains u t : dbg = true -> zval (balance (spend_left dbg u t)) <= zval (balance u).
  Proof.
    intros Hd. pose proof (C118_spend u t) as H. assert (H2 := C75_spend u t). rewrite <- Hd in H2.
    destruct (spend_transaction dbg u t) as [u'|[]|] eqn:E.
    - rewrite H. destruct H2 as (_ & _ & H2 & _). destruct (H2 u' eq_refl) as [H3 _].
      pose proof (total_nonneg (a4_list (inputs t))) as Ht. fold (total_in t) in Ht. lia.
    - destruct H as (_ & _ & _ & [(don & x & rest & _ & H & _)|(_ & H)]).
      + pose proof (total_nonneg don). lia.
      + pose proof (total_nonneg (a4_list (inputs t))) as Ht. fold (total_in t) in Ht. lia.
  Qed.
End props.

Print Assumptions C118_spend.
Print Assumptions C118_receive.
Print Assumptions C118_never_gains.

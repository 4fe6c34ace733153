(** C98: exactly when the calls panic. *)
From Coq Require Import ZArith List Bool Lia Permutation.
Import ListNotations.
From Verif Require Import Base Env Circuit SparseMT SparseMTSpec SparseMTProofs TreeTotal Data DataSpec DataFacts PropsData Schnorr HMap Contract ContractSpec
  PropsContract PropsBlock Aggregator AggSpec AggFacts AggSign AggIntake PropsIntake PropsSign.
Open Scope Z_scope.

(** the first element at which a loop panics *)
Lemma mfold_panic {S Er A B} (f : S -> A -> B -> mres S Er A) l : forall s a,
  mfold f l s a = MPanic <-> exists l1 x l2 s1 a1, l = l1 ++ x :: l2 /\ mfold f l1 s a = MOk s1 a1 /\ f s1 a1 x = MPanic.
Proof.
  induction l as [|y l IH]; intros s a; cbn [mfold].
  - split; [ discriminate |]. intros (l1 & x & l2 & s1 & a1 & E & _). destruct l1; discriminate E.
  - split.
    + destruct (f s a y) as [s1 a1|s1 e|] eqn:Ef; cbn [mbind].
      * intros H. apply IH in H as (l1 & x & l2 & s2 & a2 & -> & H1 & H2). exists (y :: l1), x, l2, s2, a2.
        cbn [mfold app]. rewrite Ef. cbn [mbind]. auto.
      * discriminate.
      * intros _. exists [], y, l, s, a. auto.
    + intros (l1 & x & l2 & s1 & a1 & E & H1 & H2). destruct l1 as [|z l1]; cbn [app] in E.
      * assert (y = x) by congruence. subst y. cbn [mfold] in H1.
        assert (s1 = s /\ a1 = a) as [-> ->] by (split; congruence). rewrite H2. reflexivity.
      * assert (y = z) by congruence. subst y. assert (l = l1 ++ x :: l2) by congruence. subst l.
        cbn [mfold] in H1. destruct (f s a z) as [s2 a2|s2 e|]; cbn [mbind] in *; [| discriminate H1 .. ].
        apply IH. exists l1, x, l2, s1, a1. auto.
Qed.
Lemma enum_app {A} (l1 l2 : list A) n :
  combine (seq n (length (l1 ++ l2))) (l1 ++ l2) = combine (seq n (length l1)) l1 ++ combine (seq (n + length l1) (length l2)) l2.
Proof.
  revert n. induction l1 as [|x l1 IH]; intros n; cbn [app length seq combine].
  - now rewrite Nat.add_0_r.
  - rewrite IH. cbn [app]. do 4 f_equal. lia.
Qed.
Lemma mbind_unit {S Er B} (m : mres S Er unit) (k : S -> unit -> mres S Er B) :
  mbind m k = mbind m (fun s _ => k s tt).
Proof. destruct m as [s []|s e|]; reflexivity. Qed.

Section props.
  Context {hs : Hashes} {G : Curve} (dbg : bool).

  (** C98. Taking in a batch panics exactly if overflow checks are on and, after pairs that are all
      in order, there is one whose sender owns the real inputs but a total exceeds 64 bits. *)
  Definition in_order (kt : pt * tx) : Prop :=
    owned_by (fst kt) (snd kt) /\ total_in (snd kt) = total_out (snd kt) /\ total_in (snd kt) < two64.
  Lemma valid_checked k t : is_valid true t (Some k) = Ok tt <-> in_order (k, t).
  Proof.
    unfold in_order. cbn [fst snd].
    destruct (Z.lt_ge_cases (total_in t) two64) as [Hi|Hi], (Z.lt_ge_cases (total_out t) two64) as [Ho|Ho];
      [ rewrite (proj1 (C25_is_valid true t k Hi Ho)); tauto | | | ];
      (split; [ intros E; exfalso | lia ]);
      (assert (Hown : owned_by k t);
       [ destruct (owned_dec k t) as [H|H]; [ exact H |]; rewrite is_valid_not_owned in E by exact H; discriminate E |]);
      rewrite (proj1 C26_is_valid_overflow t k Hown) in E by auto; discriminate E.
  Qed.
  Lemma valid_panics k t : is_valid dbg t (Some k) = Panic <->
    dbg = true /\ owned_by k t /\ (two64 <= total_in t \/ two64 <= total_out t).
  Proof.
    split.
    - intros E. destruct (owned_dec k t) as [H|H]; [| rewrite is_valid_not_owned in E by exact H; discriminate E ].
      destruct (Z.lt_ge_cases (total_in t) two64) as [Hi|Hi], (Z.lt_ge_cases (total_out t) two64) as [Ho|Ho].
      { destruct (C25_is_valid dbg t k Hi Ho) as (A & _ & B). destruct (Z.eq_dec (total_in t) (total_out t)) as [Et|Et].
        - rewrite (proj2 A (conj H Et)) in E. discriminate E.
        - rewrite (proj2 B (conj H Et)) in E. discriminate E. }
      all: destruct dbg; [ auto |]; exfalso; rewrite is_valid_owned in E by exact H; rewrite !sum_u64_wrap in E; cbn [rbind] in E;
        match type of E with (if ?b then _ else _) = _ => destruct b | _ => idtac end; discriminate E.
    - intros (-> & Ho & Ht). exact (proj1 C26_is_valid_overflow t k Ho Ht).
  Qed.

  Theorem C98_intake_panics s l : reached dbg s ->
    Z.of_nat (length (a_txs s)) + Z.of_nat (length l) + 4096 < two64 ->
    process_transactions dbg s l = MPanic <->
    dbg = true /\ exists l1 k t l2, l = l1 ++ (k, t) :: l2 /\ Forall in_order l1 /\ owned_by k t /\
      (two64 <= total_in t \/ two64 <= total_out t).
  Proof.
    intros Hr Hlen. split.
    - intros E. pose proof (intake_run dbg l s (ri_epoch _ _ (reached_inv dbg s Hr))) as H. rewrite E in H.
      destruct H as [(l1 & k & t & l2 & -> & Hv & Hp)|H]; [| lia ]. apply valid_panics in Hp as (Hd & Ho & Ht).
      split; [ exact Hd |]. exists l1, k, t, l2. split; [ reflexivity |]. split; [| auto ].
      revert Hv. apply Forall_impl. intros [k' t'] Hv. rewrite Hd in Hv. now apply valid_checked.
    - intros (Hd & l1 & k & t & l2 & -> & Hv & Ho & Ht). apply mfold_panic.
      rewrite app_length in Hlen. cbn [length] in Hlen.
      destruct (proj2 (C40_intake_accepts dbg s l1 Hr ltac:(lia))) as (s1 & E1).
      { revert Hv. apply Forall_impl. intros [k' t'] Hv. unfold valid. cbn [fst snd]. rewrite Hd. now apply valid_checked. }
      exists l1, (k, t), l2, s1, tt. split; [ reflexivity |]. split; [ exact E1 |].
      unfold intake_one. rewrite (proj2 (valid_panics k t)) by auto. reflexivity.
  Qed.

  (** * Signatures *)

  (** Processing signatures panics exactly if there are more entries than transactions, and those
      for the transactions there are succeed. *)
  Theorem C98_signatures_panic contract s l : reached dbg s -> fits contract s l ->
    Z.of_nat (length (a_signers s)) + Z.of_nat (length l) + 4096 < two64 ->
    process_signatures dbg s contract l = MPanic <->
    (length (a_txs s) < length l)%nat /\
    exists s1, process_signatures dbg s contract (firstn (length (a_txs s)) l) = MOk s1 tt.
  Proof.
    intros Hr Hf Hlen. set (n := length (a_txs s)). set (l1 := firstn n l).
    destruct (reach_root dbg s (reached_inv dbg s Hr)) as (r & Hroot).
    assert (Hap : applied contract r (a_txs s) l1 = applied contract r (a_txs s) l).
    { unfold applied, l1, n. f_equal. generalize (a_txs s) as ts. clear. induction l as [|x l IH]; intros [|t ts]; try reflexivity.
      cbn [length firstn combine]. now rewrite IH. }
    assert (Hf1 : fits contract s l1).
    { intros r0 E0. assert (r0 = r) by congruence. subst r0. rewrite Hap. exact (Hf r E0). }
    assert (Hl1 : (length l1 <= n)%nat) by apply firstn_le_length.
    assert (Hl2 : (length l1 <= length l)%nat) by (unfold l1; rewrite firstn_length; lia).
    assert (Hnp : process_signatures dbg s contract l1 <> MPanic).
    { apply (no_panic dbg contract s l1 Hr Hf1). split; [ exact Hl1 | lia ]. }
    split.
    - intros E. destruct (le_lt_dec (length l) n) as [Hle|Hlt].
      + exfalso. apply Hnp. unfold l1. now rewrite firstn_all2.
      + split; [ exact Hlt |].
        assert (Hsplit : process_signatures dbg s contract l =
          mbind (process_signatures dbg s contract l1) (fun s' _ => mfold (sign_one dbg contract)
             (combine (seq (length l1) (length (skipn n l))) (skipn n l)) s' tt)).
        { unfold process_signatures. assert (X : enum l = enum l1 ++ combine (seq (length l1) (length (skipn n l))) (skipn n l)).
          { transitivity (enum (l1 ++ skipn n l)); [ unfold l1; now rewrite firstn_skipn | exact (enum_app l1 (skipn n l) 0) ]. }
          rewrite X, mfold_app.
          apply mbind_unit. }
        rewrite E in Hsplit. destruct (process_signatures dbg s contract l1) as [s1 []|s1 e|]; cbn [mbind] in Hsplit;
          [ now exists s1 | discriminate Hsplit | now destruct Hnp ].
    - intros (Hlt & s1 & E1). fold l1 in E1.
      pose proof (run_ok dbg contract s l1 s1 Hr Hf1 E1) as Hst. destruct (steps_same _ _ _ _ _ _ Hst) as (T1 & _).
      assert (Hn : length l1 = n) by (unfold l1; rewrite firstn_length; lia).
      destruct (skipn n l) as [|[k osg] l2] eqn:Es.
      { apply (f_equal (@length _)) in Es. rewrite skipn_length in Es. cbn [length] in Es. lia. }
      assert (El : l = l1 ++ (k, osg) :: l2) by (unfold l1; rewrite <- Es; symmetry; apply firstn_skipn).
      unfold process_signatures in *. apply mfold_panic.
      exists (enum l1), (length l1, (k, osg)), (combine (seq (S (length l1)) (length l2)) l2), s1, tt.
      split; [ rewrite El; exact (enum_app l1 ((k, osg) :: l2) 0) |]. split; [ exact E1 |].
      unfold sign_one. rewrite T1, Hn. rewrite (proj2 (nth_error_None (a_txs s) n)) by (unfold n; lia). reflexivity.
  Qed.

  (** Producing a block panics exactly if some key that occurs in it is not registered. *)
  Theorem C98_block_panics s kc calls c : reached dbg s -> history dbg kc calls c -> Z.of_nat (length (pks c)) <= 2 ^ 32 ->
    produce_block s c = Panic <-> exists k, In k (mentioned s) /\ ~ In k (pks c).
  Proof.
    intros Hr Hh Hsm. split.
    - intros E. destruct (forallb (fun k => existsb (pt_eqb k) (pks c)) (mentioned s)) eqn:H.
      + exfalso. rewrite forallb_forall in H.
        destruct (C39_block_public_inputs dbg s kc calls c Hr Hh Hsm) as (b & ur & tr & sr & X & _); [| congruence ].
        intros k Hk. specialize (H k Hk). apply existsb_exists in H as (k' & H1 & H2). apply pt_eqb_eq in H2. now subst k'.
      + assert (X : exists k, In k (mentioned s) /\ existsb (pt_eqb k) (pks c) = false).
        { clear -H. induction (mentioned s) as [|k m IH]; cbn [forallb] in H; [ discriminate H |].
          destruct (existsb (pt_eqb k) (pks c)) eqn:E; [| exists k; split; [ now left | exact E ] ].
          destruct (IH H) as (k' & H1 & H2). exists k'. split; [ now right | exact H2 ]. }
        destruct X as (k & H1 & H2). exists k. split; [ exact H1 |]. intros Hin.
        assert (existsb (pt_eqb k) (pks c) = true); [| congruence ]. apply existsb_exists. exists k. split; [ exact Hin | apply pt_eqb_refl ].
    - intros (k & H1 & H2). exact (C39_unregistered_panics dbg s kc calls c k Hh H1 H2).
  Qed.

  (** Deriving the public inputs panics exactly if the block names an index nobody has. *)
  Definition unknown (c : contract) (i : Z) : Prop := (length (pks c) <= Z.to_nat i)%nat.
  Lemma rfold_panic {A B} (f : A -> B -> res no_error A) (bad : B -> Prop) l :
    (forall a x, (f a x = Panic <-> bad x)) -> forall a, rfold f l a = Panic <-> Exists bad l.
  Proof.
    intros Hf. induction l as [|x l IH]; intros a; cbn [rfold].
    - split; [ discriminate | intros H; inversion H ].
    - destruct (f a x) as [b|[]|] eqn:E; cbn [rbind].
      + rewrite IH. split; [ now right |]. intros H. inversion H as [y m Hb|y m Hb]; subst; [| exact Hb ].
        apply (Hf a x) in Hb. congruence.
      + split; [| reflexivity ]. intros _. left. now apply (Hf a x).
  Qed.
  Theorem C98_public_inputs_panic c b :
    derive_public_inputs c b = Panic <->
    (exists i, In (Some i) (b_signers b) /\ unknown c i) \/
    (exists i a, In (i, a) (b_deposits b ++ b_withdrawals b) /\ unknown c i).
  Proof.
    assert (S1 : signer_acc c (b_signers b) = Panic <-> exists i, In (Some i) (b_signers b) /\ unknown c i).
    { unfold signer_acc. rewrite (rfold_panic _ (fun o => match o with Some i => unknown c i | None => False end)).
      - rewrite Exists_exists. split.
        + intros ([i|] & H1 & H2); [ eauto | destruct H2 ].
        + intros (i & H1 & H2). exists (Some i). auto.
      - intros a [i|]; unfold unknown; [| cbn; split; [ discriminate | tauto ] ].
        rewrite <- nth_error_None. destruct (nth_error (pks c) (Z.to_nat i)); cbn; split; congruence. }
    assert (A1 : forall l, amount_acc c l = Panic <-> exists i a, In (i, a) l /\ unknown c i).
    { intros l. unfold amount_acc. rewrite (rfold_panic _ (fun ia : Z * u64 => unknown c (fst ia))).
      - rewrite Exists_exists. split.
        + intros ([i a] & H1 & H2). eauto.
        + intros (i & a & H1 & H2). exists (i, a). auto.
      - intros a [i x]; unfold unknown. cbn [fst snd].
        rewrite <- nth_error_None. destruct (nth_error (pks c) (Z.to_nat i)); cbn; split; congruence. }
    pose proof (A1 (b_deposits b)) as D. pose proof (A1 (b_withdrawals b)) as W.
    assert (Q : (exists i a, In (i, a) (b_deposits b ++ b_withdrawals b) /\ unknown c i) <->
       (exists i a, In (i, a) (b_deposits b) /\ unknown c i) \/ (exists i a, In (i, a) (b_withdrawals b) /\ unknown c i)).
    { split.
      - intros (i & a & H1 & H2). apply in_app_iff in H1 as [H1|H1]; [ left | right ]; eauto.
      - intros [(i & a & H1 & H2)|(i & a & H1 & H2)]; exists i, a; rewrite in_app_iff; auto. }
    rewrite Q, <- S1, <- D, <- W. unfold derive_public_inputs.
    destruct (signer_acc c (b_signers b)) as [x|[]|]; cbn [rbind]; [| tauto ].
    destruct (amount_acc c (b_deposits b)) as [y|[]|]; cbn [rbind]; [| tauto ].
    destruct (amount_acc c (b_withdrawals b)) as [z|[]|]; cbn [rbind]; [| tauto ].
    split; [ discriminate |]. intros [H|[H|H]]; discriminate H.
  Qed.
End props.

Print Assumptions C98_intake_panics.
Print Assumptions C98_signatures_panic.
Print Assumptions C98_block_panics.
Print Assumptions C98_public_inputs_panic.

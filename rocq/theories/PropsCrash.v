(** C113: what a panicking call leaves behind. *)
From Coq Require Import ZArith List Bool Lia.
Import ListNotations.
From Verif Require Import Base Env Circuit SparseMT SparseMTSpec Data DataSpec DataFacts PropsData Schnorr HMap Contract ContractSpec
  PropsContract PropsBlock Aggregator AggSpec AggFacts AggSign AggIntake PropsIntake PropsSign PropsPanic Crash.
Open Scope Z_scope.

Lemma mfold_left_app {S E A B} (f : S -> A -> B -> mres S E A) left l1 l2 : forall s a s1 a1,
  mfold f l1 s a = MOk s1 a1 -> mfold_left f left (l1 ++ l2) s a = mfold_left f left l2 s1 a1.
Proof.
  induction l1 as [|x l1 IH]; intros s a s1 a1 H; cbn [mfold app mfold_left] in *.
  - assert (s1 = s) by congruence. assert (a1 = a) by congruence. now subst.
  - destruct (f s a x) as [s' a'|s' e|]; cbn [mbind] in H; [| discriminate H .. ]. exact (IH _ _ _ _ H).
Qed.
(** on calls that do not panic, nothing new is said *)
Lemma mfold_left_ok {S E A B} (f : S -> A -> B -> mres S E A) left l : forall s a,
  match mfold f l s a with
  | MOk s1 _ => mfold_left f left l s a = Some s1
  | MErr s1 _ => mfold_left f left l s a = Some s1
  | MPanic => True
  end.
Proof.
  induction l as [|x l IH]; intros s a; cbn [mfold mfold_left]; [ reflexivity |].
  destruct (f s a x) as [s' a'|s' e|]; cbn [mbind]; [ apply IH | reflexivity | exact I ].
Qed.

Section props.
  Context {hs : Hashes} {G : Curve} (dbg : bool).

  Lemma history_add k0 l x c : (exists c1, history dbg k0 l c1 /\ perform dbg c1 x = Ok c) -> history dbg k0 (l ++ [x]) c.
  Proof.
    intros (c1 & H & E). unfold history in *. revert H. generalize (contract_new k0). induction l as [|y l IH]; intros c0 H; cbn [app rfold] in *.
    - assert (c0 = c1) by congruence. subst c0. rewrite E. reflexivity.
    - destruct (perform dbg c0 y); cbn [rbind] in *; [| discriminate H .. ]. now apply IH.
  Qed.

  (** ** The contract *)
  (** A deposit that panics leaves the contract as it was, except when an addition overflows in a
      build with overflow checks: then the depositor has paid; if it is the contract's account that
      overflows nobody has received it, if it is the pending amount the contract has, but the
      depositor has no claim. *)
  Theorem C113_deposit c i (a : u64) : well_formed c ->
    match deposit dbg c i a with
    | Ok c' => deposit_left dbg c i a = c'
    | _ =>
      let c1 := deposit_left dbg c i a in
      ((i = 0%nat \/ balance c i = None \/ exists b, balance c i = Some b /\ b < zval a) /\ c1 = c) \/
      exists bi b0 k, dbg = true /\ (0 < i)%nat /\
        balance c i = Some bi /\ balance c 0 = Some b0 /\ key_of c i = Some k /\ zval a <= bi /\
        balance c1 i = Some (bi - zval a) /\
        (forall j, j <> 0%nat -> j <> i -> balance c1 j = balance c j) /\
        (forall k', pending c1 k' = pending c k') /\ pks c1 = pks c /\ pk_indices c1 = pk_indices c /\
        ((two64 <= b0 + zval a /\ balance c1 0 = Some b0 /\ total_balance c1 = total_balance c - zval a) \/
         (b0 + zval a < two64 /\ two64 <= pending c k + zval a /\ balance c1 0 = Some (b0 + zval a) /\
          total_balance c1 = total_balance c))
    end.
  Proof.
    intros [Hl Hn]. unfold deposit, deposit_left, balance, key_of, pending.
    destruct (Nat.leb_spec i (length (l1_accounts c))) as [Hi|Hi]; cbn [rassert rbind].
    2:{ left. split; [| reflexivity ]. right; left. rewrite (proj2 (nth_error_None _ _)) by lia. reflexivity. }
    rewrite nth_error_skipn.
    destruct (nth_error (l1_accounts c) i) as [bi|] eqn:Ebi; cbn [unwrap rbind option_map].
    2:{ left. split; [| reflexivity ]. right; left; reflexivity. }
    destruct (Nat.eq_dec i 0) as [->|Hi0]; [ left; split; [ left; reflexivity | reflexivity ] |].
    rewrite nth_error_firstn by lia.
    assert (Hlt : (i < length (l1_accounts c))%nat) by (apply nth_error_Some; congruence).
    destruct (nth_error (l1_accounts c) 0) as [b0|] eqn:Eb0; cbn [unwrap rbind].
    2:{ apply nth_error_None in Eb0. lia. }
    unfold transfer, transfer_left.
    assert (Hset : set_nth 0 b0 (firstn i (l1_accounts c)) ++ set_nth 0 bi (skipn i (l1_accounts c)) = l1_accounts c).
    { rewrite split_set by lia. assert (Hid : forall (m : list u64) n x, nth_error m n = Some x -> set_nth n x m = m).
      { induction m as [|y m IHm]; intros [|n] x E; cbn in *; try discriminate; try congruence. f_equal. now apply IHm. }
      rewrite (Hid _ i bi Ebi). apply Hid. exact Eb0. }
    destruct (Z.leb_spec (zval a) (zval bi)) as [Ha|Ha]; cbn [rassert rbind].
    2:{ left. split; [ right; right; eauto |]. rewrite Hset. destruct c; reflexivity. }
    destruct (@sub64_ok dbg no_error bi a Ha) as (xi & Es & Exi). rewrite Es. cbn [rbind].
    destruct (nth_error (pks c) i) as [k|] eqn:Ek.
    2:{ apply nth_error_None in Ek. lia. }
    pose proof (u64_range b0) as R0. pose proof (u64_range a) as Ra.
    (* the accounts after both writes *)
    assert (Hacc : forall x0 : u64,
      let m := set_nth 0 x0 (firstn i (l1_accounts c)) ++ set_nth 0 xi (skipn i (l1_accounts c)) in
      option_map zval (nth_error m i) = Some (zval bi - zval a) /\ option_map zval (nth_error m 0) = Some (zval x0) /\
      (forall j, j <> 0%nat -> j <> i -> nth_error m j = nth_error (l1_accounts c) j) /\
      zsum (map zval m) = zsum (map zval (l1_accounts c)) - zval a - zval b0 + zval x0).
    { intros x0 m. assert (Em : m = set_nth 0 x0 (set_nth i xi (l1_accounts c))) by (apply split_set; lia).
      rewrite Em. rewrite !nth_error_set_nth, set_nth_length'.
      destruct (Nat.eqb_spec i 0); [ lia |]. rewrite Nat.eqb_refl, (proj2 (Nat.ltb_lt i _)), (proj2 (Nat.ltb_lt 0 _)) by lia.
      cbn [andb Nat.eqb option_map]. rewrite Exi. split; [ reflexivity |]. split; [ reflexivity |]. split.
      - intros j Hj0 Hji. rewrite !nth_error_set_nth. destruct (Nat.eqb_spec j 0); [ lia |]. destruct (Nat.eqb_spec j i); [ lia |]. reflexivity.
      - rewrite !map_set_nth.
        rewrite (zsum_set_nth _ 0 _ (zval b0)).
        2:{ rewrite nth_error_set_nth. destruct (Nat.eqb_spec 0 i); [ lia |]. cbn [andb].
            rewrite nth_error_map. exact (f_equal (option_map zval) Eb0). }
        rewrite (zsum_set_nth _ i _ (zval bi)) by (rewrite nth_error_map; exact (f_equal (option_map zval) Ebi)).
        rewrite Exi. lia. }
    pose proof (@add64_cases dbg no_error b0 a) as H0.
    destruct (@add64 no_error dbg b0 a) as [x0|[]|] eqn:E0; cbn [rbind unwrap].
    2:{ right. destruct H0 as [Hd Ho]. destruct (Hacc b0) as (A1 & A2 & A3 & A4).
        exists (zval bi), (zval b0), k. cbn [l1_accounts pks pk_indices c_deposits].
        split; [ exact Hd |]. split; [ lia |]. split; [ reflexivity |]. split; [ reflexivity |]. split; [ reflexivity |].
        split; [ exact Ha |]. split; [ exact A1 |]. split; [ intros j J1 J2; now rewrite A3 |].
        split; [ reflexivity |]. split; [ reflexivity |]. split; [ reflexivity |]. left. split; [ exact Ho |].
        split; [ exact A2 |]. unfold total_balance. cbn [l1_accounts]. rewrite A4. lia. }
    destruct (hget pt_eqb (c_deposits c) k) as [e|] eqn:Ee; [| reflexivity ].
    pose proof (@add64_cases dbg no_error e a) as H1.
    destruct (@add64 no_error dbg e a) as [e'|[]|] eqn:E1; cbn [rbind]; [ reflexivity |].
    right. destruct H1 as [Hd Ho]. destruct (Hacc x0) as (A1 & A2 & A3 & A4).
    assert (Hno : zval b0 + zval a < two64).
    { unfold add64, uadd, wrap64 in E0. rewrite Hd in E0.
      destruct (Z.ltb_spec (zval b0 + zval a) two64); auto. rewrite andb_false_r in E0. discriminate. }
    rewrite Z.mod_small in H0 by lia. rewrite H0 in *.
    exists (zval bi), (zval b0), k. cbn [l1_accounts pks pk_indices c_deposits].
    split; [ exact Hd |]. split; [ lia |]. split; [ reflexivity |]. split; [ reflexivity |]. split; [ reflexivity |].
    split; [ exact Ha |]. split; [ exact A1 |]. split; [ intros j J1 J2; now rewrite A3 |].
    split; [ reflexivity |]. split; [ reflexivity |]. split; [ reflexivity |]. right. split; [ exact Hno |].
    split; [ rewrite Ee; exact Ho |]. split; [ exact A2 |]. unfold total_balance. cbn [l1_accounts]. rewrite A4. lia.
  Qed.

  (** As long as the funds brought along stay below 2^64, panics can be caught: the contract is always
      in a state that calls without panics lead to, and the contract's account backs all pending deposits. *)
  Theorem C113_caught k0 l : supply l < two64 ->
    (exists l', history dbg k0 l' (caught dbg k0 l) /\ supply l' = supply l /\ joined l' = joined l) /\
    balance (caught dbg k0 l) 0 = Some (total_pending (caught dbg k0 l)) /\
    total_balance (caught dbg k0 l) = supply l.
  Proof.
    assert (Hmain : supply l < two64 -> exists l', history dbg k0 l' (caught dbg k0 l) /\ supply l' = supply l /\ joined l' = joined l).
    { induction l as [|x l IH] using rev_ind; intros Hs.
      - exists []. split; [ reflexivity |]. split; reflexivity.
      - rewrite supply_snoc in Hs.
        destruct IH as (l' & H & S1 & J1).
        { destruct x as [bal k|i a]; [ pose proof (u64_range bal) |]; lia. }
        unfold caught in *. rewrite fold_left_app. cbn [fold_left]. set (c := fold_left (survive dbg) l (contract_new k0)) in *.
        destruct x as [bal k|i a]; cbn [survive].
        + exists (l' ++ [Join bal k]). split; [ apply history_add; exists c; split; [ exact H | reflexivity ] |].
          rewrite !supply_snoc, S1. split; [ reflexivity |]. rewrite !joined_snoc, J1. reflexivity.
        + destruct (hist_inv dbg k0 l' c H) as [I1 I2 I3 _ _].
          assert (Hw : well_formed c) by (split; [ exact I2 | rewrite I3; apply repeat_length ]).
          pose proof (C113_deposit c i a Hw) as D. destruct (deposit dbg c i a) as [c'|e|] eqn:Ed.
          * subst c'. exists (l' ++ [Deposit i a]). split; [ apply history_add; exists c; split; [ exact H | exact Ed ] |].
            rewrite !supply_snoc, S1. split; [ reflexivity |]. rewrite !joined_snoc, J1. reflexivity.
          * destruct e.
          * assert (Hsame : deposit_left dbg c i a = c).
            { destruct D as [[_ D]|(bi & b0 & k & Hd & Hi & Hbi & Hb0 & Hk & Ha & _ & _ & _ & _ & _ & D)]; [ exact D |].
              exfalso. destruct (C37_solvency dbg k0 l' c ltac:(right; lia) H) as (B0 & BT & _).
              assert (Hsum : b0 + bi <= total_balance c).
              { apply (zsum_two _ i); [ apply zvals_nonneg | exact Hi | |]; rewrite nth_error_map; assumption. }
              pose proof (pending_le c k) as Hp. assert (Hq : b0 = total_pending c) by congruence.
              destruct D as [[D _]|(_ & D & _)]; lia. }
            rewrite Hsame. exists l'. split; [ exact H |]. rewrite supply_snoc, S1. split; [ lia |].
            rewrite joined_snoc, J1. cbn. now rewrite app_nil_r. }
    intros Hs. split; [ exact (Hmain Hs) |]. destruct (Hmain Hs) as (l' & H & S1 & _).
    destruct (C37_solvency dbg k0 l' _ ltac:(right; lia) H) as (B0 & BT & _). split; [ exact B0 |]. now rewrite BT.
  Qed.

  (** ** The aggregator *)
  (** A panic while taking in transactions leaves what a successful call on the pairs before the
      offending one would have left. *)
  Theorem C113_intake s l : reached dbg s -> Z.of_nat (length (a_txs s)) + Z.of_nat (length l) + 4096 < two64 ->
    process_transactions dbg s l = MPanic ->
    exists l1 l2 s1, l = l1 ++ l2 /\ l2 <> [] /\ intake_left dbg s l = Some s1 /\
      process_transactions dbg s l1 = MOk s1 tt /\ reached dbg s1.
  Proof.
    intros Hr Hlen E. apply (C98_intake_panics dbg s l Hr Hlen) in E as (Hd & l1 & k & t & l2 & -> & Hv & Ho & Ht).
    rewrite app_length in Hlen. cbn [length] in Hlen.
    assert (Hl1 : Z.of_nat (length (a_txs s)) + Z.of_nat (length l1) + 4096 < two64) by lia.
    assert (Hp : is_valid dbg t (Some k) = Panic) by (apply valid_panics; auto).
    destruct (proj2 (C40_intake_accepts dbg s l1 Hr ltac:(lia))) as (s1 & E1).
    { revert Hv. apply Forall_impl. intros [k' t'] Hv. unfold valid. cbn [fst snd]. rewrite Hd. now apply valid_checked. }
    exists l1, ((k, t) :: l2), s1. split; [ reflexivity |]. split; [ discriminate |]. split.
    - unfold intake_left. unfold process_transactions in E1. rewrite (mfold_left_app _ _ _ _ _ _ _ _ E1).
      cbn [mfold_left]. unfold intake_one at 1, intake_one_left. cbn [fst snd]. rewrite Hp. reflexivity.
    - split; [ exact E1 |]. eapply reached_intake; [ exact Hr | left; exists tt; exact E1 ].
  Qed.

  (** A panic while processing signatures leaves what a successful call on as many answers as there are
      transactions would have left. *)
  Theorem C113_signatures contract s l : reached dbg s -> fits contract s l ->
    Z.of_nat (length (a_signers s)) + Z.of_nat (length l) + 4096 < two64 ->
    process_signatures dbg s contract l = MPanic ->
    exists s1, sign_left dbg s contract l = Some s1 /\
      process_signatures dbg s contract (firstn (length (a_txs s)) l) = MOk s1 tt /\ reached dbg s1.
  Proof.
    intros Hr Hf Hlen E. apply (C98_signatures_panic dbg contract s l Hr Hf Hlen) in E as (Hlt & s1 & E1).
    set (n := length (a_txs s)) in *. set (l1 := firstn n l) in *.
    destruct (reach_root dbg s (reached_inv dbg s Hr)) as (r & Hroot).
    assert (Hap : applied contract r (a_txs s) l1 = applied contract r (a_txs s) l).
    { unfold applied, l1, n. f_equal. generalize (a_txs s) as ts. clear. induction l as [|x l IH]; intros [|t ts]; try reflexivity.
      cbn [length firstn combine]. now rewrite IH. }
    assert (Hf1 : fits contract s l1).
    { intros r0 E0. assert (r0 = r) by congruence. subst r0. rewrite Hap. exact (Hf r E0). }
    pose proof (run_ok dbg contract s l1 s1 Hr Hf1 E1) as Hst. destruct (steps_same _ _ _ _ _ _ Hst) as (T1 & _).
    assert (Hn : length l1 = n) by (unfold l1; rewrite firstn_length; lia).
    exists s1. split; [| split; [ exact E1 |] ].
    - destruct (skipn n l) as [|[k osg] l2] eqn:Es.
      { apply (f_equal (@length _)) in Es. rewrite skipn_length in Es. cbn [length] in Es. lia. }
      assert (El : l = l1 ++ (k, osg) :: l2) by (unfold l1; rewrite <- Es; symmetry; apply firstn_skipn).
      assert (Ee : enum l = enum l1 ++ combine (seq (length l1) (length ((k, osg) :: l2))) ((k, osg) :: l2)).
      { rewrite El at 1. exact (enum_app l1 ((k, osg) :: l2) 0). }
      unfold sign_left, process_signatures in *. rewrite Ee, (mfold_left_app _ _ _ _ _ _ _ _ E1).
      cbn [length seq combine mfold_left]. unfold sign_one at 1, sign_one_left. rewrite T1, Hn.
      rewrite (proj2 (nth_error_None (a_txs s) n)) by (unfold n; lia). reflexivity.
    - eapply reached_sign; [ exact Hr | exact Hf1 | left; exists tt; exact E1 ].
  Qed.

  (** The calls that do not panic leave what the model of the calls says. *)
  Theorem C113_agrees s contract l ls :
    match process_transactions dbg s l with MOk s1 _ => intake_left dbg s l = Some s1 | MErr s1 _ => intake_left dbg s l = Some s1 | MPanic => True end /\
    match process_signatures dbg s contract ls with MOk s1 _ => sign_left dbg s contract ls = Some s1 | MErr s1 _ => sign_left dbg s contract ls = Some s1 | MPanic => True end.
  Proof. split; apply mfold_left_ok. Qed.
End props.

Print Assumptions C113_deposit.
Print Assumptions C113_caught.
Print Assumptions C113_intake.
Print Assumptions C113_signatures.
Print Assumptions C113_agrees.

(** C120: a user's books over many transactions. *)
From Coq Require Import ZArith List Bool Lia Permutation.
Import ListNotations.
From Verif Require Import Base Env Circuit SparseMT SparseMTSpec Data DataSpec DataFacts Gadgets PropsData Schnorr
  Aggregator AggCircuitSpec User Client ClientSpec PropsUser.
Open Scope Z_scope.

Section spec.
  Context {hs : Hashes} {G : Curve} (dbg : bool).
  (** entries of a user's books *)
  Inductive entry := Spend (t : tx) | Receive (t : tx).
  Definition enter (u : user) (e : entry) : res no_error user :=
    match e with Spend t => spend_transaction dbg u t | Receive t => receive_transaction dbg u t end.
  Definition books (u : user) (l : list entry) : res no_error user := rfold enter l u.
  (** totals of the real inputs spent and the real outputs received, and the number of spends *)
  Definition spent (l : list entry) : Z := zsum (map (fun e => match e with Spend t => total_in t | Receive _ => 0 end) l).
  Definition received (l : list entry) : Z := zsum (map (fun e => match e with Spend _ => 0 | Receive t => total_out t end) l).
  Definition spends (l : list entry) : Z := zsum (map (fun e => match e with Spend _ => 1 | Receive _ => 0 end) l).
  Definition receipts_first (l : list entry) : list entry :=
    filter (fun e => match e with Receive _ => true | Spend _ => false end) l ++
    filter (fun e => match e with Spend _ => true | Receive _ => false end) l.
End spec.

Section props.
  Context {hs : Hashes} {G : Curve} (dbg : bool).

  Lemma ident_trans u v w : same_identity u v -> same_identity v w -> same_identity u w.
  Proof. unfold same_identity. intuition congruence. Qed.
  Lemma user_eq u v : same_identity u v -> zval (balance u) = zval (balance v) -> zval (nonce u) = zval (nonce v) -> u = v.
  Proof.
    intros H Hb Hn. apply zval_inj in Hb, Hn. destruct u as [a1 a2 a3 a4 a5 a6], v as [b1 b2 b3 b4 b5 b6].
    unfold same_identity in H. cbn [us_sk us_key balance nonce user_acc user_id] in *. intuition congruence.
  Qed.
  Lemma total_in_nonneg t : 0 <= total_in t. Proof. apply total_nonneg. Qed.
  Lemma total_out_nonneg t : 0 <= total_out t. Proof. apply total_nonneg. Qed.
  Lemma zsum_cons x l : zsum (x :: l) = x + zsum l. Proof. reflexivity. Qed.
  Lemma zsum_pos l : Forall (fun z => 0 <= z) l -> 0 <= zsum l.
  Proof. induction 1; [ cbn; lia | rewrite zsum_cons; lia ]. Qed.
  Lemma spends_nonneg l : 0 <= spends l.
  Proof. apply zsum_pos, Forall_map, Forall_forall. intros [t|t] _; lia. Qed.
  Lemma spent_nonneg l : 0 <= spent l.
  Proof. apply zsum_pos, Forall_map, Forall_forall. intros [t|t] _; [ apply total_in_nonneg | lia ]. Qed.
  Lemma received_nonneg l : 0 <= received l.
  Proof. apply zsum_pos, Forall_map, Forall_forall. intros [t|t] _; [ lia | apply total_out_nonneg ]. Qed.

  (** one entry *)
  Lemma enter_spec u e :
    match enter dbg u e with
    | Ok u' => same_identity u u' /\
        zval (balance u') = (zval (balance u) + received [e] - spent [e]) mod two64 /\
        zval (nonce u') = (zval (nonce u) + spends [e]) mod two64 /\
        (dbg = true -> 0 <= zval (balance u) + received [e] - spent [e] < two64 /\ zval (nonce u) + spends [e] < two64)
    | _ => dbg = true /\ (zval (balance u) + received [e] - spent [e] < 0 \/ two64 <= zval (balance u) + received [e] - spent [e] \/
             two64 <= zval (nonce u) + spends [e])
    end.
  Proof.
    pose proof (u64_range (balance u)) as Rb. pose proof (u64_range (nonce u)) as Rn.
    destruct e as [t|t]; cbn [enter].
    - change (spent [Spend t]) with (total_in t + 0). change (received [Spend t]) with 0. change (spends [Spend t]) with 1.
      pose proof (total_in_nonneg t). destruct (C75_spend u t) as (S1 & S2 & S3 & S4). destruct dbg eqn:Hd.
      + destruct (spend_transaction true u t) as [u'|[]|] eqn:E.
        * destruct (S3 u' eq_refl) as (E1 & E2 & E3). destruct (proj1 S1 (ex_intro _ u' eq_refl)) as [A1 A2].
          split; [ exact E3 |]. rewrite E1, E2. split; [ rewrite Z.mod_small; lia |]. split; [ rewrite Z.mod_small; lia |]. lia.
        * split; [ reflexivity |]. destruct (Z.le_gt_cases (total_in t) (zval (balance u))) as [A|A]; [| left; lia ].
          destruct (Z.lt_ge_cases (zval (nonce u) + 1) two64) as [B|B]; [| right; right; lia ].
          destruct (proj2 S1 (conj A B)) as [u' Q]. discriminate Q.
      + destruct S4 as (u' & E & E1 & E2 & E3). rewrite E. split; [ exact E3 |]. split; [ rewrite E1; f_equal; lia |]. split; [ exact E2 |]. discriminate.
    - change (spent [Receive t]) with 0. change (received [Receive t]) with (total_out t + 0). change (spends [Receive t]) with 0.
      pose proof (total_out_nonneg t). destruct (C75_receive u t) as (S1 & S2 & S3 & S4). destruct dbg eqn:Hd.
      + destruct (receive_transaction true u t) as [u'|[]|] eqn:E.
        * destruct (S3 u' eq_refl) as (E1 & E2 & E3). pose proof (proj1 S1 (ex_intro _ u' eq_refl)) as A1.
          split; [ exact E3 |]. rewrite E1, E2. split; [ rewrite Z.mod_small; lia |]. split; [ rewrite Z.mod_small; lia |]. lia.
        * split; [ reflexivity |]. destruct (Z.lt_ge_cases (zval (balance u) + total_out t) two64) as [A|A]; [| right; left; lia ].
          destruct (proj2 S1 A) as [u' Q]. discriminate Q.
      + destruct S4 as (u' & E & E1 & E2 & E3). rewrite E. split; [ exact E3 |]. split; [ rewrite E1; f_equal; lia |].
        split; [ rewrite E2, Z.mod_small; lia |]. discriminate.
  Qed.

  Lemma spent_cons e l : spent (e :: l) = spent [e] + spent l. Proof. unfold spent; cbn [map]; rewrite !zsum_cons. change (zsum []) with 0. lia. Qed.
  Lemma received_cons e l : received (e :: l) = received [e] + received l. Proof. unfold received; cbn [map]; rewrite !zsum_cons. change (zsum []) with 0. lia. Qed.
  Lemma spends_cons e l : spends (e :: l) = spends [e] + spends l. Proof. unfold spends; cbn [map]; rewrite !zsum_cons. change (zsum []) with 0. lia. Qed.

  (** C120. What the books say after any sequence of entries: *)
  Theorem C120_totals l : forall u u', books dbg u l = Ok u' ->
    same_identity u u' /\
    zval (balance u') = (zval (balance u) + received l - spent l) mod two64 /\
    zval (nonce u') = (zval (nonce u) + spends l) mod two64 /\
    (dbg = true -> zval (balance u') = zval (balance u) + received l - spent l /\ zval (nonce u') = zval (nonce u) + spends l).
  Proof.
    induction l as [|e l IH]; intros u u' H; cbn [books rfold] in H.
    - assert (u' = u) by congruence. subst u'. change (spent []) with 0. change (received []) with 0. change (spends []) with 0.
      pose proof (u64_range (balance u)). pose proof (u64_range (nonce u)). split; [ repeat split |]. rewrite !Z.mod_small by lia. lia.
    - pose proof (enter_spec u e) as Q. destruct (enter dbg u e) as [u1|[]|]; cbn [rbind] in H; [| discriminate H ].
      destruct Q as (Q1 & Q2 & Q3 & Q4). destruct (IH u1 u' H) as (I1 & I2 & I3 & I4).
      split; [ exact (ident_trans _ _ _ Q1 I1) |]. rewrite spent_cons, received_cons, spends_cons. split.
      { rewrite I2, Q2. rewrite <- Z.add_sub_assoc, Zplus_mod_idemp_l. f_equal. lia. }
      split; [ rewrite I3, Q3, Zplus_mod_idemp_l; f_equal; lia |].
      intros Hd. destruct (I4 Hd) as [J1 J2]. destruct (Q4 Hd) as [K1 K2]. pose proof (u64_range (nonce u)). pose proof (spends_nonneg [e]).
      rewrite Z.mod_small in Q2 by lia. rewrite Z.mod_small in Q3 by lia. lia.
  Qed.

  (** when they can be kept: always without overflow checks; with them exactly when the balance never leaves its
      range between two entries, and the nonce has room *)
  Theorem C120_succeeds l : forall u,
    match books dbg u l with
    | Ok _ => dbg = true -> (forall l1 l2, l = l1 ++ l2 -> 0 <= zval (balance u) + received l1 - spent l1 < two64) /\
                            zval (nonce u) + spends l < two64
    | _ => dbg = true /\ ~ ((forall l1 l2, l = l1 ++ l2 -> 0 <= zval (balance u) + received l1 - spent l1 < two64) /\
                            zval (nonce u) + spends l < two64)
    end.
  Proof.
    induction l as [|e l IH]; intros u; cbn [books rfold].
    - intros _. pose proof (u64_range (balance u)). pose proof (u64_range (nonce u)). split; [| change (spends []) with 0; lia ].
      intros [|x l1] l2 E; [| discriminate E ]. change (spent []) with 0. change (received []) with 0. lia.
    - pose proof (enter_spec u e) as Q. destruct (enter dbg u e) as [u1|[]|]; cbn [rbind].
      + specialize (IH u1). unfold books in IH. destruct Q as (_ & Q2 & Q3 & Q4). pose proof (u64_range (balance u)). pose proof (u64_range (nonce u)). pose proof (spends_nonneg [e]).
        assert (Hiff : dbg = true ->
          ((forall l1 l2, l = l1 ++ l2 -> 0 <= zval (balance u1) + received l1 - spent l1 < two64) /\ zval (nonce u1) + spends l < two64) <->
          ((forall l1 l2, e :: l = l1 ++ l2 -> 0 <= zval (balance u) + received l1 - spent l1 < two64) /\ zval (nonce u) + spends (e :: l) < two64)).
        { intros Hd. destruct (Q4 Hd) as [K1 K2]. rewrite Z.mod_small in Q2 by lia. rewrite Z.mod_small in Q3 by lia.
          rewrite spends_cons, Q3. split; intros [A B].
          - split; [| lia ]. intros [|x l1] l2 E; [ change (spent []) with 0; change (received []) with 0; lia |].
            injection E as <- E. specialize (A l1 l2 E). rewrite spent_cons, received_cons. lia.
          - split; [| lia ]. intros l1 l2 E. specialize (A (e :: l1) l2). rewrite E in A. specialize (A eq_refl). rewrite spent_cons, received_cons in A. lia. }
        destruct (rfold (enter dbg) l u1) as [u'|[]|].
        * intros Hd. apply (Hiff Hd), (IH Hd).
        * destruct IH as [Hd IH]. split; [ exact Hd |]. intros A. apply IH, (Hiff Hd), A.
      + destruct Q as [Hd Q]. split; [ exact Hd |]. intros [A B]. specialize (A [e] l eq_refl). rewrite spends_cons in B. pose proof (spends_nonneg l). lia.
  Qed.

  Lemma zsum_perm' {A} (f : A -> Z) l l' : Permutation l l' -> zsum (map f l) = zsum (map f l').
  Proof. induction 1 as [|x l l' _ IH|x y l|l l' l'' _ IH1 _ IH2]; [ reflexivity | | | congruence ]; unfold zsum in *; cbn [map fold_right]; lia. Qed.

  (** so the order of the entries has no influence on what the books say in the end *)
  Theorem C120_order u l l' v v' : Permutation l l' -> books dbg u l = Ok v -> books dbg u l' = Ok v' -> v = v'.
  Proof.
    intros Hp H H'. destruct (C120_totals l u v H) as (A1 & A2 & A3 & _). destruct (C120_totals l' u v' H') as (B1 & B2 & B3 & _).
    apply user_eq.
    - apply (ident_trans v u v'); [| exact B1 ]. unfold same_identity in *. intuition congruence.
    - rewrite A2, B2. unfold received, spent. now rewrite !(zsum_perm' _ _ _ Hp).
    - rewrite A3, B3. unfold spends. now rewrite (zsum_perm' _ _ _ Hp).
  Qed.

  (** with overflow checks, entering the receipts first is the safest order against running out of funds *)
  Theorem C120_receipts_first u l v : books dbg u l = Ok v -> zval (balance u) + received l < two64 ->
    Permutation (receipts_first l) l /\ books dbg u (receipts_first l) = Ok v.
  Proof.
    intros H Hr.
    assert (Hp : Permutation (receipts_first l) l).
    { unfold receipts_first. clear. induction l as [|[t|t] l IH]; cbn [filter]; [ reflexivity | | cbn [app]; now constructor ].
      rewrite <- Permutation_middle. now constructor. }
    split; [ exact Hp |].
    assert (S : exists v', books dbg u (receipts_first l) = Ok v').
    { pose proof (C120_succeeds (receipts_first l) u) as Q. destruct (books dbg u (receipts_first l)) as [v'|[]|]; [ eauto |].
      exfalso. destruct Q as [Hd Q]. apply Q. pose proof (C120_succeeds l u) as P. rewrite H in P. specialize (P Hd) as [P1 P2].
      assert (Et : received (receipts_first l) = received l /\ spent (receipts_first l) = spent l /\ spends (receipts_first l) = spends l).
      { unfold received, spent, spends. now rewrite !(zsum_perm' _ _ _ Hp). }
      destruct Et as (E1 & E2 & E3). split; [| now rewrite E3 ].
      intros l1 l2 E.
      assert (Rsplit : received (receipts_first l) = received l1 + received l2) by (rewrite E; unfold received; now rewrite map_app, zsum_app).
      assert (Ssplit : spent (receipts_first l) = spent l1 + spent l2) by (rewrite E; unfold spent; now rewrite map_app, zsum_app).
      pose proof (received_nonneg l1). pose proof (received_nonneg l2). pose proof (spent_nonneg l1). pose proof (spent_nonneg l2).
      specialize (P1 l [] (eq_sym (app_nil_r l))). pose proof (u64_range (balance u)).
      split; [| lia ].
      (* either nothing is spent in [l1] or everything is received in it *)
      assert (Hor : spent l1 = 0 \/ received l2 = 0).
      { unfold receipts_first in E. destruct (app_eq_app _ _ _ _ E) as (m & [[M1 M2]|[M1 M2]]).
        - left. unfold spent. apply (f_equal (map (fun e => match e with Spend t => total_in t | Receive _ => 0 end))) in M1. rewrite map_app in M1.
          assert (Z0 : zsum (map (fun e => match e with Spend t => total_in t | Receive _ => 0 end) (filter (fun e => match e with Receive _ => true | Spend _ => false end) l)) = 0).
          { clear. induction l as [|[t|t] l IH]; cbn [filter map]; [ reflexivity | exact IH | rewrite zsum_cons; lia ]. }
          rewrite M1, zsum_app in Z0.
          pose proof (spent_nonneg l1) as N1. pose proof (spent_nonneg m) as N2. unfold spent in N1, N2. lia.
        - right. unfold received. apply (f_equal (map (fun e => match e with Spend _ => 0 | Receive t => total_out t end))) in M2. rewrite map_app in M2.
          assert (Z0 : zsum (map (fun e => match e with Spend _ => 0 | Receive t => total_out t end) (filter (fun e => match e with Spend _ => true | Receive _ => false end) l)) = 0).
          { clear. induction l as [|[t|t] l IH]; cbn [filter map]; [ reflexivity | rewrite zsum_cons; lia | exact IH ]. }
          rewrite M2, zsum_app in Z0.
          pose proof (received_nonneg l2) as N1. pose proof (received_nonneg m) as N2. unfold received in N1, N2. lia. }
      lia. }
    destruct S as [v' S]. rewrite S. f_equal. exact (C120_order u _ _ v' v Hp S H).
  Qed.
End props.

Print Assumptions C120_totals.
Print Assumptions C120_succeeds.
Print Assumptions C120_order.
Print Assumptions C120_receipts_first.

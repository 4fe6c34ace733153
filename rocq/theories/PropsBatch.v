(** C119: many deposits at once, in whatever order. *)
From Coq Require Import ZArith List Bool Lia Permutation.
Import ListNotations.
From Verif Require Import Base Env SparseMT SparseMTSpec Data DataSpec Schnorr HMap Contract ContractSpec PropsContract
  Aggregator PropsHash.
Open Scope Z_scope.

Section spec.
  Context {hs : Hashes} {G : Curve} (dbg : bool).
  (** deposits, each given by the index of the account and the amount, one after the other *)
  Definition deposit_all (c : contract) (ds : list (nat * u64)) : res no_error contract :=
    rfold (fun c x => deposit dbg c (fst x) (snd x)) ds c.
  (** what they bring: in all, from one account, for one key *)
  Definition paid_in (ds : list (nat * u64)) : Z := zsum (map (fun x => zval (snd x)) ds).
  Definition paid_by (i : nat) (ds : list (nat * u64)) : Z :=
    zsum (map (fun x => if (fst x =? i)%nat then zval (snd x) else 0) ds).
  Definition is_key (c : contract) (k : pt) (i : nat) : bool :=
    match key_of c i with Some k' => pt_eqb k' k | None => false end.
  Definition paid_for (c : contract) (k : pt) (ds : list (nat * u64)) : Z :=
    zsum (map (fun x => if is_key c k (fst x) then zval (snd x) else 0) ds).
  (** The deposits come from registered accounts other than the contract's own, and each account has the funds for
      all of its deposits; with overflow checks the contract's account and the pending amounts have room. *)
  Definition covered (c : contract) (ds : list (nat * u64)) : Prop :=
    Forall (fun x => (0 < fst x < length (pks c))%nat) ds /\
    (forall i b, balance c i = Some b -> paid_by i ds <= b) /\
    (dbg = true -> (forall b0, balance c 0 = Some b0 -> b0 + paid_in ds < two64) /\
                   (forall k, pending c k + paid_for c k ds < two64)).
  (** [c'] is [c] after the deposits *)
  Definition after_deposits (c : contract) (ds : list (nat * u64)) (c' : contract) : Prop :=
    (forall b0, balance c 0 = Some b0 -> balance c' 0 = Some ((b0 + paid_in ds) mod two64)) /\
    (forall i, i <> 0%nat -> balance c' i = option_map (fun b => b - paid_by i ds) (balance c i)) /\
    (forall k, pending c' k = (pending c k + paid_for c k ds) mod two64) /\
    (forall k, hget pt_eqb (c_deposits c') k = None <->
               hget pt_eqb (c_deposits c) k = None /\ Forall (fun x => is_key c k (fst x) = false) ds) /\
    length (l1_accounts c') = length (l1_accounts c) /\
    pks c' = pks c /\ pk_indices c' = pk_indices c /\ nonces c' = nonces c /\ block_hashes c' = block_hashes c.
End spec.

Section props.
  Context {hs : Hashes} {G : Curve} (dbg : bool).

  Lemma pending_range c k : 0 <= pending c k < two64.
  Proof. unfold pending. destruct (hget _ _ _) as [e|]; [ apply (u64_range e) |]. split; [ lia | reflexivity ]. Qed.
  Lemma balance_range c i b : balance c i = Some b -> 0 <= b < two64.
  Proof.
    unfold balance. destruct (nth_error (l1_accounts c) i) as [x|]; cbn [option_map]; intros H; [| discriminate H ].
    assert (b = zval x) by congruence. subst b. apply (u64_range x).
  Qed.
  Lemma paid_in_nonneg ds : 0 <= paid_in ds.
  Proof. apply zsum_nonneg. apply Forall_map, Forall_forall. intros x _. apply (u64_range (snd x)). Qed.
  Lemma paid_by_nonneg i ds : 0 <= paid_by i ds.
  Proof. apply zsum_nonneg. apply Forall_map, Forall_forall. intros x _. destruct (_ =? _)%nat; [ apply (u64_range (snd x)) | lia ]. Qed.
  Lemma paid_for_nonneg c k ds : 0 <= paid_for c k ds.
  Proof. apply zsum_nonneg. apply Forall_map, Forall_forall. intros x _. destruct (is_key _ _ _); [ apply (u64_range (snd x)) | lia ]. Qed.
  Lemma paid_for_keys c c' k ds : pks c' = pks c -> paid_for c' k ds = paid_for c k ds.
  Proof. intros H. unfold paid_for, is_key, key_of. now rewrite H. Qed.
  Lemma paid_in_cons x ds : paid_in (x :: ds) = zval (snd x) + paid_in ds. Proof. reflexivity. Qed.
  Lemma paid_by_cons i x ds : paid_by i (x :: ds) = (if (fst x =? i)%nat then zval (snd x) else 0) + paid_by i ds.
  Proof. reflexivity. Qed.
  Lemma paid_for_cons c k x ds : paid_for c k (x :: ds) = (if is_key c k (fst x) then zval (snd x) else 0) + paid_for c k ds.
  Proof. reflexivity. Qed.

  (** one deposit *)
  Lemma one_deposit c x : well_formed c ->
    match deposit dbg c (fst x) (snd x) with
    | Ok c' => after_deposits c [x] c' /\ well_formed c' /\ covered dbg c [x]
    | _ => ~ covered dbg c [x]
    end.
  Proof.
    intros Hw. destruct x as [i a]. cbn [fst snd]. pose proof (deposit_cases dbg c i a Hw) as Hc.
    destruct (deposit dbg c i a) as [c'|e|] eqn:E; [| contradiction |].
    - destruct (C36_deposit dbg c i a c' Hw E) as (k & bi & b0 & Hk & Hbi & Hb0 & E1 & E2 & E3 & E4 & E5 & E6 & E7 & E8 & E9 & E10 & E11 & E12 & _).
      destruct Hc as (k' & bi' & b0' & Hi & Hk' & _ & _ & _ & _ & _ & _ & _ & (x0 & xi & e & _ & _ & _ & Ed & _) & _).
      assert (k' = k) by congruence. subst k'.
      assert (Hil : (i < length (pks c))%nat) by (apply nth_error_Some; unfold key_of in Hk; congruence).
      assert (Hks : forall k0, is_key c k0 i = pt_eqb k k0) by (intros k0; unfold is_key; now rewrite Hk).
      assert (Hkk : forall k0, if pt_eqb k k0 then k0 = k else k0 <> k).
      { intros k0. destruct (pt_eqb k k0) eqn:Q; [ apply pt_eqb_eq' in Q; congruence |].
        intros ->. rewrite (proj2 (pt_eqb_eq' k k) eq_refl) in Q. discriminate Q. }
      split; [| split ].
      + repeat split; try assumption.
        * intros b Hb. assert (b = b0) by congruence. subst b. rewrite E3. do 2 f_equal. rewrite paid_in_cons. cbn [snd]. change (paid_in []) with 0. lia.
        * intros j Hj. rewrite paid_by_cons. cbn [fst snd]. change (paid_by j []) with 0. destruct (Nat.eqb_spec i j) as [->|Hij].
          -- rewrite E1, Hbi. cbn [option_map]. f_equal. lia.
          -- rewrite E4 by lia. destruct (balance c j) as [b|]; cbn [option_map]; [| reflexivity ]. f_equal. lia.
        * intros k0. rewrite paid_for_cons. cbn [fst snd]. change (paid_for c k0 []) with 0. rewrite Hks. specialize (Hkk k0). destruct (pt_eqb k k0).
          -- subst k0. rewrite E5. f_equal. lia.
          -- rewrite E6 by exact Hkk. pose proof (pending_range c k0) as R. rewrite !Z.add_0_r, Z.mod_small by exact R. reflexivity.
        * specialize (Hkk k0). destruct (pt_eqb k k0) eqn:Q.
          -- exfalso. subst k0. rewrite Ed, (hget_hset_same pt_eqb pt_eqb_eq') in H. discriminate H.
          -- rewrite Ed, (hget_hset_other pt_eqb pt_eqb_eq') in H by exact Hkk. exact H.
        * specialize (Hkk k0). destruct (pt_eqb k k0) eqn:Q.
          -- exfalso. subst k0. rewrite Ed, (hget_hset_same pt_eqb pt_eqb_eq') in H. discriminate H.
          -- constructor; [ cbn [fst]; now rewrite Hks | constructor ].
        * intros [H1 H2]. specialize (Hkk k0). rewrite Ed. apply Forall_inv in H2. cbn [fst] in H2. rewrite Hks in H2. rewrite H2 in Hkk.
          now rewrite (hget_hset_other pt_eqb pt_eqb_eq') by exact Hkk.
      + destruct Hw as [W1 W2]. split; congruence.
      + split; [ constructor; [ cbn [fst]; lia | constructor ] |]. split.
        * intros j b Hb. rewrite paid_by_cons. cbn [fst snd]. change (paid_by j []) with 0. pose proof (balance_range _ _ _ Hb).
          destruct (Nat.eqb_spec i j) as [->|_]; [ assert (b = bi) by congruence; subst b |]; lia.
        * intros Hd. destruct (E12 Hd) as [F1 F2]. split.
          -- intros b Hb. assert (b = b0) by congruence. subst b. rewrite paid_in_cons. cbn [snd]. change (paid_in []) with 0. lia.
          -- intros k0. rewrite paid_for_cons. cbn [fst snd]. change (paid_for c k0 []) with 0. rewrite Hks. specialize (Hkk k0). pose proof (pending_range c k0).
             destruct (pt_eqb k k0); [ subst k0 |]; lia.
    - intros (C1 & C2 & C3). apply Forall_inv in C1. cbn [fst] in C1. destruct Hc as [H|[H|[(b & H & Hb)|(Hd & [(b & H & Hb)|(k & H & Hb)])]]].
      + lia.
      + unfold balance in H. destruct (nth_error (l1_accounts c) i) eqn:Q; [ discriminate H |]. apply nth_error_None in Q. destruct Hw. lia.
      + specialize (C2 i b H). rewrite paid_by_cons in C2. cbn [fst snd] in C2. change (paid_by i []) with 0 in C2. rewrite Nat.eqb_refl in C2. lia.
      + destruct (C3 Hd) as [F1 _]. specialize (F1 b H). rewrite paid_in_cons in F1. cbn [snd] in F1. change (paid_in []) with 0 in F1. lia.
      + destruct (C3 Hd) as [_ F2]. specialize (F2 k). rewrite paid_for_cons in F2. cbn [fst snd] in F2.
        unfold is_key in F2. rewrite H, (proj2 (pt_eqb_eq' k k) eq_refl) in F2. change (paid_for c k []) with 0 in F2. lia.
  Qed.

  Lemma balance_some c c' i : length (l1_accounts c') = length (l1_accounts c) -> balance c i = None <-> balance c' i = None.
  Proof.
    intros H. unfold balance. split; intros Q.
    - destruct (nth_error (l1_accounts c) i) eqn:R; [ discriminate Q |]. apply nth_error_None in R. rewrite (proj2 (nth_error_None _ _)) by lia. reflexivity.
    - destruct (nth_error (l1_accounts c') i) eqn:R; [ discriminate Q |]. apply nth_error_None in R. rewrite (proj2 (nth_error_None _ _)) by lia. reflexivity.
  Qed.
  Lemma is_key_keys c c' k i : pks c' = pks c -> is_key c' k i = is_key c k i.
  Proof. intros H. unfold is_key, key_of. now rewrite H. Qed.

  Lemma covered_cons c x c1 ds : after_deposits c [x] c1 -> covered dbg c [x] -> covered dbg c1 ds <-> covered dbg c (x :: ds).
  Proof.
    intros (A1 & A2 & A3 & _ & A5 & A6 & _) (B1 & B2 & B3).
    assert (Hx : fst x <> 0%nat) by (apply Forall_inv in B1; lia).
    unfold covered. rewrite A6. split; intros (C1 & C2 & C3).
    - split; [ constructor; [ exact (Forall_inv B1) | exact C1 ] |]. split.
      + intros i b Hb. destruct (Nat.eq_dec i 0) as [->|Hi].
        * assert (Z0 : paid_by 0 (x :: ds) = 0); [| rewrite Z0; pose proof (balance_range _ _ _ Hb); lia ].
          rewrite paid_by_cons. destruct (Nat.eqb_spec (fst x) 0); [ contradiction |].
          clear - C1. induction C1 as [|y ds Hy _ IH]; [ reflexivity |]. rewrite paid_by_cons. destruct (Nat.eqb_spec (fst y) 0); [ lia |]. lia.
        * specialize (A2 i Hi). rewrite Hb in A2. cbn [option_map] in A2. specialize (C2 i _ A2).
          rewrite paid_by_cons. rewrite (paid_by_cons i x []) in C2. change (paid_by i []) with 0 in C2. lia.
      + intros Hd. destruct (C3 Hd) as [F1 F2]. destruct (B3 Hd) as [G1 G2]. split.
        * intros b0 Hb. specialize (A1 b0 Hb). specialize (F1 _ A1). specialize (G1 b0 Hb). pose proof (balance_range _ _ _ Hb).
          pose proof (paid_in_nonneg [x]).
          rewrite Z.mod_small in F1 by lia. rewrite paid_in_cons in F1, G1 |- *. change (paid_in []) with 0 in *. lia.
        * intros k. specialize (A3 k). specialize (F2 k). specialize (G2 k). pose proof (pending_range c k). pose proof (paid_for_nonneg c k [x]).
          rewrite A3, Z.mod_small in F2 by lia. rewrite (paid_for_keys _ _ _ _ A6) in F2.
          rewrite paid_for_cons in F2, G2 |- *. change (paid_for c k []) with 0 in *. lia.
    - split; [ exact (Forall_inv_tail C1) |]. split.
      + intros i b1 Hb1. destruct (Nat.eq_dec i 0) as [->|Hi].
        * assert (Z0 : paid_by 0 ds = 0); [| rewrite Z0; pose proof (balance_range _ _ _ Hb1); lia ].
          apply Forall_inv_tail in C1. clear - C1. induction C1 as [|y ds Hy _ IH]; [ reflexivity |]. rewrite paid_by_cons. destruct (Nat.eqb_spec (fst y) 0); [ lia |]. lia.
        * specialize (A2 i Hi). destruct (balance c i) as [b|] eqn:Hb; cbn [option_map] in A2; [| congruence ].
          assert (b1 = b - paid_by i [x]) by congruence. subst b1. specialize (C2 i b Hb). rewrite paid_by_cons in C2 |- *. change (paid_by i []) with 0. lia.
      + intros Hd. destruct (C3 Hd) as [F1 F2]. destruct (B3 Hd) as [G1 G2]. split.
        * intros b1 Hb1. destruct (balance c 0) as [b0|] eqn:Hb.
          -- specialize (A1 b0 eq_refl). specialize (F1 b0 eq_refl). specialize (G1 b0 eq_refl). pose proof (balance_range _ _ _ Hb). pose proof (paid_in_nonneg [x]).
             assert (b1 = b0 + paid_in [x]) by (rewrite Z.mod_small in A1 by lia; congruence). subst b1.
             rewrite paid_in_cons in F1 |- *. change (paid_in []) with 0. lia.
          -- apply (balance_some c c1 0 A5) in Hb. congruence.
        * intros k. specialize (A3 k). specialize (F2 k). specialize (G2 k). pose proof (pending_range c k). pose proof (paid_for_nonneg c k [x]).
          rewrite A3, Z.mod_small by lia. rewrite (paid_for_keys _ _ _ _ A6).
          rewrite paid_for_cons in F2 |- *. change (paid_for c k []) with 0. lia.
  Qed.

  Lemma after_cons c x c1 ds c2 : fst x <> 0%nat -> after_deposits c [x] c1 -> after_deposits c1 ds c2 -> after_deposits c (x :: ds) c2.
  Proof.
    intros Hx (A1 & A2 & A3 & A4 & A5 & A6 & A7 & A8 & A9) (B1 & B2 & B3 & B4 & B5 & B6 & B7 & B8 & B9).
    repeat split; try congruence.
    - intros b0 Hb. specialize (A1 b0 Hb). rewrite (B1 _ A1). rewrite Zplus_mod_idemp_l. do 2 f_equal. rewrite !paid_in_cons. change (paid_in []) with 0. lia.
    - intros i Hi. rewrite (B2 i Hi), (A2 i Hi). destruct (balance c i); cbn [option_map]; [| reflexivity ]. f_equal.
      rewrite !paid_by_cons. change (paid_by i []) with 0. lia.
    - intros k. rewrite B3, A3, Zplus_mod_idemp_l, (paid_for_keys _ _ _ _ A6). f_equal. rewrite !paid_for_cons. change (paid_for c k []) with 0. lia.
    - apply B4 in H as [H _]. apply A4 in H. tauto.
    - apply B4 in H as [H1 H2]. apply A4 in H1 as [_ H1]. constructor; [ exact (Forall_inv H1) |].
      eapply Forall_impl; [| exact H2 ]. intros y; cbv beta; now rewrite (is_key_keys _ _ _ _ A6).
    - intros [H1 H2]. apply B4. split.
      + apply A4. split; [ exact H1 | constructor; [ exact (Forall_inv H2) | constructor ] ].
      + eapply Forall_impl; [| exact (Forall_inv_tail H2) ]. intros y; cbv beta; now rewrite (is_key_keys _ _ _ _ A6).
  Qed.

  (** C119. A batch of deposits goes through exactly when it is covered, and panics otherwise; what it leaves is
      given by the three totals. *)
  Theorem C119_batch c ds : well_formed c ->
    match deposit_all dbg c ds with
    | Ok c' => covered dbg c ds /\ after_deposits c ds c'
    | _ => ~ covered dbg c ds
    end.
  Proof.
    revert c. induction ds as [|x ds IH]; intros c Hw; cbn [deposit_all rfold].
    - split.
      + split; [ constructor |]. split; [ intros i b Hb; change (paid_by i []) with 0; pose proof (balance_range _ _ _ Hb); lia |].
        intros _. split; [ intros b Hb; pose proof (balance_range _ _ _ Hb); change (paid_in []) with 0; lia |].
        intros k. pose proof (pending_range c k). change (paid_for c k []) with 0. lia.
      + repeat split; try tauto.
        * intros b Hb. rewrite Hb. change (paid_in []) with 0. pose proof (balance_range _ _ _ Hb). rewrite Z.mod_small by lia. f_equal. lia.
        * intros i _. change (paid_by i []) with 0. destruct (balance c i); cbn [option_map]; [ f_equal; lia | reflexivity ].
        * intros k. change (paid_for c k []) with 0. pose proof (pending_range c k). rewrite Z.mod_small; lia.
        * constructor.
    - pose proof (one_deposit c x Hw) as H1. destruct (deposit dbg c (fst x) (snd x)) as [c1|e|] eqn:E; cbn [rbind].
      + destruct H1 as (A & W & Cx). specialize (IH c1 W). unfold deposit_all in IH.
        destruct (rfold _ ds c1) as [c2|e|].
        * destruct IH as [I1 I2]. split; [ exact (proj1 (covered_cons c x c1 ds A Cx) I1) |].
          apply (after_cons c x c1 ds c2); [| exact A | exact I2 ]. destruct Cx as [Cx _]. apply Forall_inv in Cx. lia.
        * intros Q. exact (IH (proj2 (covered_cons c x c1 ds A Cx) Q)).
        * intros Q. exact (IH (proj2 (covered_cons c x c1 ds A Cx) Q)).
      + intros Q. apply H1. clear - Q. destruct Q as (C1 & C2 & C3). split; [ constructor; [ exact (Forall_inv C1) | constructor ] |]. split.
        * intros i b Hb. specialize (C2 i b Hb). pose proof (paid_by_nonneg i ds). rewrite paid_by_cons in C2 |- *. change (paid_by i []) with 0. lia.
        * intros Hd. destruct (C3 Hd) as [F1 F2]. split.
          -- intros b Hb. specialize (F1 b Hb). pose proof (paid_in_nonneg ds). rewrite paid_in_cons in F1 |- *. change (paid_in []) with 0. lia.
          -- intros k. specialize (F2 k). pose proof (paid_for_nonneg c k ds). rewrite paid_for_cons in F2 |- *. change (paid_for c k []) with 0. lia.
      + intros Q. apply H1. clear - Q. destruct Q as (C1 & C2 & C3). split; [ constructor; [ exact (Forall_inv C1) | constructor ] |]. split.
        * intros i b Hb. specialize (C2 i b Hb). pose proof (paid_by_nonneg i ds). rewrite paid_by_cons in C2 |- *. change (paid_by i []) with 0. lia.
        * intros Hd. destruct (C3 Hd) as [F1 F2]. split.
          -- intros b Hb. specialize (F1 b Hb). pose proof (paid_in_nonneg ds). rewrite paid_in_cons in F1 |- *. change (paid_in []) with 0. lia.
          -- intros k. specialize (F2 k). pose proof (paid_for_nonneg c k ds). rewrite paid_for_cons in F2 |- *. change (paid_for c k []) with 0. lia.
  Qed.

  Lemma perm_zsum {A} (f : A -> Z) l l' : Permutation l l' -> zsum (map f l) = zsum (map f l').
  Proof.
    induction 1 as [|x l l' _ IH|x y l|l l' l'' _ IH1 _ IH2]; [ reflexivity | | | congruence ]; unfold zsum in *; cbn [map fold_right]; lia.
  Qed.
  Lemma nth_ext_error {A} (l : list A) : forall l', (forall i, nth_error l i = nth_error l' i) -> l = l'.
  Proof.
    induction l as [|x l IH]; intros [|y l'] H; [ reflexivity | specialize (H 0%nat); discriminate H | specialize (H 0%nat); discriminate H |].
    pose proof (H 0%nat) as H0. cbn [nth_error] in H0. rewrite (IH l'); [ congruence |]. intros i. exact (H (S i)).
  Qed.
  Lemma after_alike c ds ds' c1 c2 : Permutation ds ds' -> after_deposits c ds c1 -> after_deposits c ds' c2 -> alike_contract c1 c2.
  Proof.
    intros Hp (A1 & A2 & A3 & A4 & A5 & A6 & A7 & A8 & A9) (B1 & B2 & B3 & B4 & B5 & B6 & B7 & B8 & B9).
    assert (Ha : l1_accounts c1 = l1_accounts c2).
    { assert (Hb : forall i, balance c1 i = balance c2 i).
      { intros [|i].
        - destruct (balance c 0) as [b0|] eqn:E.
          + rewrite (A1 b0 eq_refl), (B1 b0 eq_refl). unfold paid_in. now rewrite (perm_zsum _ _ _ Hp).
          + rewrite (proj1 (balance_some c c1 0 A5) E), (proj1 (balance_some c c2 0 B5) E). reflexivity.
        - rewrite A2, B2 by discriminate. unfold paid_by. now rewrite (perm_zsum _ _ _ Hp). }
      apply nth_ext_error. intros i. specialize (Hb i). unfold balance in Hb.
      destruct (nth_error (l1_accounts c1) i) as [x|], (nth_error (l1_accounts c2) i) as [y|]; cbn [option_map] in Hb; try congruence.
      f_equal. apply zval_inj. congruence. }
    split; [ intros k; congruence |]. split.
    - intros k. assert (Hn : hget pt_eqb (c_deposits c1) k = None <-> hget pt_eqb (c_deposits c2) k = None).
      { rewrite A4, B4. split; intros [H1 H2]; (split; [ exact H1 |]);
          rewrite Forall_forall in H2 |- *; intros x Hx; apply H2;
          [ exact (Permutation_in _ (Permutation_sym Hp) Hx) | exact (Permutation_in _ Hp Hx) ]. }
      assert (Hv : pending c1 k = pending c2 k) by (rewrite A3, B3; unfold paid_for; now rewrite (perm_zsum _ _ _ Hp)).
      unfold pending in Hv.
      destruct (hget pt_eqb (c_deposits c1) k) as [x|], (hget pt_eqb (c_deposits c2) k) as [y|].
      + f_equal. apply zval_inj. exact Hv.
      + destruct (proj2 Hn eq_refl). reflexivity.
      + destruct (proj1 Hn eq_refl). reflexivity.
      + reflexivity.
    - destruct c2 as [q1 q2 q3 q4 q5 q6]; cbn [pks pk_indices l1_accounts nonces block_hashes c_deposits] in *. congruence.
  Qed.
  Lemma covered_perm c ds ds' : Permutation ds ds' -> covered dbg c ds -> covered dbg c ds'.
  Proof.
    intros Hp (C1 & C2 & C3). unfold covered, paid_by, paid_in, paid_for in *. split; [ exact (Permutation_Forall Hp C1) |].
    split; [ intros i b Hb; rewrite <- (perm_zsum _ _ _ Hp); exact (C2 i b Hb) |].
    intros Hd. destruct (C3 Hd) as [F1 F2].
    split; [ intros b Hb; rewrite <- (perm_zsum _ _ _ Hp); exact (F1 b Hb) | intros k; rewrite <- (perm_zsum _ _ _ Hp); exact (F2 k) ].
  Qed.

  (** So the order of the deposits plays no role: they all go through in every order or in none, and leave the same
      contract (up to the arrangement of its hash maps). *)
  Theorem C119_order c ds ds' : well_formed c -> Permutation ds ds' ->
    alike_result (deposit_all dbg c ds) (deposit_all dbg c ds').
  Proof.
    intros Hw Hp. pose proof (C119_batch c ds Hw) as H1. pose proof (C119_batch c ds' Hw) as H2.
    destruct (deposit_all dbg c ds) as [c1|[]|] eqn:E1, (deposit_all dbg c ds') as [c2|[]|] eqn:E2; cbn [alike_result].
    - exact (after_alike c ds ds' c1 c2 Hp (proj2 H1) (proj2 H2)).
    - exact (H2 (covered_perm _ _ _ Hp (proj1 H1))).
    - exact (H1 (covered_perm _ _ _ (Permutation_sym Hp) (proj1 H2))).
    - exact I.
  Qed.

  (** the joins and the deposits of a history, each in their order *)
  Definition joins_of (l : list call) : list call := filter (fun x => match x with Join _ _ => true | Deposit _ _ => false end) l.
  Definition deposits_of (l : list call) : list (nat * u64) :=
    flat_map (fun x => match x with Join _ _ => [] | Deposit i a => [(i, a)] end) l.
  Definition as_calls (ds : list (nat * u64)) : list call := map (fun x => Deposit (fst x) (snd x)) ds.

  Lemma deposit_join c i a c1 b k : well_formed c -> deposit dbg c i a = Ok c1 ->
    deposit dbg (fst (join c b k)) i a = Ok (fst (join c1 b k)).
  Proof.
    intros [Hw1 Hw2] H. unfold deposit, join in *. cbn [fst l1_accounts pks pk_indices nonces block_hashes c_deposits].
    destruct (Nat.leb_spec i (length (l1_accounts c))) as [Hi|Hi]; cbn [rassert rbind] in H; [| discriminate H ].
    rewrite app_length. rewrite (proj2 (Nat.leb_le i _)) by lia. cbn [rassert rbind].
    rewrite firstn_app, skipn_app. replace (i - length (l1_accounts c))%nat with 0%nat by lia. cbn [firstn skipn]. rewrite app_nil_r.
    destruct (skipn i (l1_accounts c)) as [|r0 r] eqn:Er; cbn [nth_error unwrap rbind] in H; [ discriminate H |]. cbn [app nth_error unwrap rbind].
    destruct (firstn i (l1_accounts c)) as [|l0 ll]; cbn [app nth_error unwrap rbind] in *; [ discriminate H |].
    destruct (transfer dbg r0 l0 a) as [[r0' l0']|[]|]; cbn [rbind] in *; [| discriminate H ].
    assert (Hil : (i < length (pks c))%nat) by (rewrite <- Hw1; pose proof (skipn_length i (l1_accounts c)) as Q; rewrite Er in Q; cbn [length] in Q; lia).
    rewrite nth_error_app1 by exact Hil.
    destruct (nth_error (pks c) i) as [k'|]; cbn [unwrap rbind] in *; [| discriminate H ].
    destruct (match hget pt_eqb (c_deposits c) k' with Some e => add64 dbg e a | None => Ok a end) as [e|[]|]; cbn [rbind] in *; [| discriminate H ].
    assert (E : c1 = mkContract (pks c) (pk_indices c) (set_nth 0 l0' (l0 :: ll) ++ set_nth 0 r0' (r0 :: r)) (nonces c) (block_hashes c)
              (hset pt_eqb (c_deposits c) k' e)) by congruence.
    rewrite E. cbn [pks pk_indices l1_accounts nonces block_hashes c_deposits]. rewrite <- app_assoc. reflexivity.
  Qed.
  Lemma join_wf c b k : well_formed c -> well_formed (fst (join c b k)).
  Proof. intros [H1 H2]. split; cbn [join fst l1_accounts pks nonces]; rewrite !app_length; cbn [length]; lia. Qed.
  Lemma deposit_wf c i a c1 : well_formed c -> deposit dbg c i a = Ok c1 -> well_formed c1.
  Proof. intros Hw H. pose proof (one_deposit c (i, a) Hw) as Q. cbn [fst snd] in Q. rewrite H in Q. tauto. Qed.
  Lemma joins_run l : forall c, exists cj, rfold (perform dbg) (joins_of l) c = Ok cj.
  Proof.
    induction l as [|[b k|i a] l IH]; intros c; cbn [joins_of filter rfold]; [ eauto | cbn [perform rbind]; apply IH | apply IH ].
  Qed.
  Lemma deposit_joins l : forall c i a c1 cj, well_formed c -> deposit dbg c i a = Ok c1 -> rfold (perform dbg) (joins_of l) c1 = Ok cj ->
    exists cj0, rfold (perform dbg) (joins_of l) c = Ok cj0 /\ deposit dbg cj0 i a = Ok cj.
  Proof.
    induction l as [|[b k|i0 a0] l IH]; intros c i a c1 cj Hw Hd Hj; cbn [joins_of filter rfold] in *.
    - exists c. split; [ reflexivity | congruence ].
    - cbn [perform rbind] in *. apply (IH (fst (join c b k)) i a (fst (join c1 b k)) cj); [ apply join_wf, Hw | apply deposit_join; assumption | exact Hj ].
    - exact (IH c i a c1 cj Hw Hd Hj).
  Qed.
  Lemma joins_first l : forall c c', well_formed c -> rfold (perform dbg) l c = Ok c' ->
    exists cj, rfold (perform dbg) (joins_of l) c = Ok cj /\ well_formed cj /\ deposit_all dbg cj (deposits_of l) = Ok c'.
  Proof.
    induction l as [|[b k|i a] l IH]; intros c c' Hw H; cbn [rfold joins_of filter deposits_of flat_map app] in *.
    - exists c. split; [ reflexivity |]. split; [ exact Hw | exact H ].
    - cbn [perform rbind] in *. apply IH; [ apply join_wf, Hw | exact H ].
    - cbn [perform] in H. destruct (deposit dbg c i a) as [c1|[]|] eqn:E; cbn [rbind] in H; [| discriminate H ].
      destruct (IH c1 c' (deposit_wf _ _ _ _ Hw E) H) as (cj & J1 & J2 & J3).
      destruct (deposit_joins l c i a c1 cj Hw E J1) as (cj0 & K1 & K2). exists cj0. split; [ exact K1 |].
      assert (W0 : well_formed cj0).
      { clear - Hw K1. fold (joins_of l) in K1. revert c Hw K1. induction l as [|[b k|i a] l IH]; intros c Hw K1; cbn [joins_of filter rfold] in K1.
        - assert (cj0 = c) by congruence. now subst.
        - cbn [perform rbind] in K1. exact (IH _ (join_wf _ _ _ Hw) K1).
        - exact (IH _ Hw K1). }
      split; [ exact W0 |]. cbn [deposit_all rfold fst snd]. rewrite K2. cbn [rbind]. exact J3.
  Qed.
  Lemma rfold_app' {E A B} (f : A -> B -> res E A) l l' a : rfold f (l ++ l') a = do b <- rfold f l a; rfold f l' b.
  Proof. revert a. induction l as [|x l IH]; intros a; cbn [app rfold rbind]; [ reflexivity |]. destruct (f a x); cbn [rbind]; auto. Qed.
  Lemma rfold_calls ds : forall c, rfold (perform dbg) (as_calls ds) c = deposit_all dbg c ds.
  Proof. induction ds as [|x ds IH]; intros c; cbn [as_calls map rfold deposit_all]; [ reflexivity |]. cbn [perform]. destruct (deposit dbg c (fst x) (snd x)); cbn [rbind]; auto. apply IH. Qed.

  (** Over a whole history: all joins could have come first, in their order, and the deposits afterwards, in any
      order. So the contract a history leaves depends only on its joins in their order and on its deposits as a
      multiset. *)
  Theorem C119_joins_first k0 l c ds : history dbg k0 l c -> Permutation (deposits_of l) ds ->
    exists c', history dbg k0 (joins_of l ++ as_calls ds) c' /\ alike_contract c c'.
  Proof.
    intros H Hp. assert (W : well_formed (contract_new k0)) by (split; reflexivity).
    destruct (joins_first l _ _ W H) as (cj & J1 & J2 & J3). pose proof (C119_order cj _ _ J2 Hp) as Q. rewrite J3 in Q.
    destruct (deposit_all dbg cj ds) as [c'|e|] eqn:E; cbn [alike_result] in Q; [| contradiction | contradiction ].
    exists c'. split; [| exact Q ]. unfold history. rewrite rfold_app', J1. cbn [rbind]. rewrite rfold_calls. exact E.
  Qed.
  Theorem C119_history k0 l1 l2 c1 c2 : history dbg k0 l1 c1 -> history dbg k0 l2 c2 ->
    joins_of l1 = joins_of l2 -> Permutation (deposits_of l1) (deposits_of l2) -> alike_contract c1 c2.
  Proof.
    intros H1 H2 Hj Hp. assert (W : well_formed (contract_new k0)) by (split; reflexivity).
    destruct (joins_first l1 _ _ W H1) as (cj & J1 & J2 & J3). destruct (joins_first l2 _ _ W H2) as (cj' & J1' & _ & J3').
    assert (cj' = cj) by (rewrite Hj in J1; congruence). subst cj'.
    pose proof (C119_order cj _ _ J2 Hp) as Q. rewrite J3, J3' in Q. exact Q.
  Qed.
End props.

Print Assumptions C119_batch.
Print Assumptions C119_order.
Print Assumptions C119_joins_first.
Print Assumptions C119_history.

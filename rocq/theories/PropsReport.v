(** C99: what the block of an epoch reports about its transactions; exits and deposits. *)
From Coq Require Import ZArith List Bool Lia Permutation Sorted.
Import ListNotations.
From Verif Require Import Base Env Circuit SparseMT SparseMTSpec SparseMTProofs Data DataSpec DataFacts PropsData Schnorr HMap Contract ContractSpec
  PropsContract PropsBlock Aggregator AggSpec AggFacts AggSign AggIntake PropsIntake PropsSign.
Open Scope Z_scope.

Section props.
  Context {hs : Hashes} {G : Curve} (dbg : bool) (contract : pt).

  (** ** Specification. An entry of the epoch is a transaction with the key and signature supplied for it. *)
  Definition signed_tx : Type := (tx * (pt * option signature))%type.
  (** a deposit for every real output of a transaction answered for by the contract's key *)
  Definition deposits_of (x : signed_tx) : list (pt * Z) :=
    let '(t, (k, _)) := x in
    if pt_eqb k contract then map (fun u => (pk u, zval (amount u))) (real (a4_list (outputs t))) else [].
  (** what the real outputs of a transaction give to the contract; one withdrawal for an applied
      transaction for which this is not zero (as a u64) *)
  Definition given_back (t : tx) : Z :=
    zsum (map (fun u => zval (amount u)) (filter (fun u => pt_eqb (pk u) contract) (real (a4_list (outputs t))))).
  Definition withdrawals_of (r : F) (x : signed_tx) : list (pt * Z) :=
    let '(t, (k, osg)) := x in
    if authorised contract r t (k, osg) && negb (given_back t mod two64 =? 0) then [(k, given_back t mod two64)] else [].
  (** a block entry naming a key by its index in the contract's registry *)
  Definition index_of (c : Contract.contract) (k : pt) (i : Z) : Prop := 0 <= i /\ last_index (pks c) k (Z.to_nat i).
  Definition names (c : Contract.contract) (e : pt * Z) (m : Z * u64) : Prop :=
    index_of c (fst e) (fst m) /\ zval (snd m) = snd e.
  Definition names_signer (c : Contract.contract) (r : F) (x : signed_tx) (o : option Z) : Prop :=
    if authorised contract r (fst x) (snd x) then exists i, o = Some i /\ index_of c (fst (snd x)) i else o = None.

  Definition as_z (e : pt * u64) : pt * Z := (fst e, zval (snd e)).

  Lemma steps_logs n l s s' : steps dbg contract n l s s' -> forall r, root (a_tx_tree s) = Ok r ->
    let xs := combine (skipn n (a_txs s)) l in
    map as_z (a_deposits s') = map as_z (a_deposits s) ++ flat_map deposits_of xs /\
    map as_z (a_withdrawals s') = map as_z (a_withdrawals s) ++ flat_map (withdrawals_of r) xs /\
    a_signers s' = a_signers s ++ map (fun x => if authorised contract r (fst x) (snd x) then Some (fst (snd x)) else None) xs.
  Proof.
    induction 1 as [|n k osg l s s1 s' t r0 H1 H2 IH]; intros r Hr xs.
    - unfold xs. rewrite combine_nil. cbn [flat_map map]. now rewrite !app_nil_r.
    - assert (r0 = r) by (pose proof (so_root _ _ _ _ _ _ _ _ _ H1); congruence). subst r0.
      assert (Hr1 : root (a_tx_tree s1) = Ok r) by (rewrite (so_tx_tree _ _ _ _ _ _ _ _ _ H1); exact Hr).
      destruct (IH r Hr1) as (I1 & I2 & I3). rewrite (so_txs _ _ _ _ _ _ _ _ _ H1) in I1, I2, I3.
      unfold xs. rewrite (nth_skipn n (a_txs s) t (so_tx _ _ _ _ _ _ _ _ _ H1)). cbn [combine flat_map map].
      rewrite I1, I2, I3, (so_deposits _ _ _ _ _ _ _ _ _ H1), (so_withdrawals _ _ _ _ _ _ _ _ _ H1), (so_signers _ _ _ _ _ _ _ _ _ H1).
      rewrite !map_app, <- !app_assoc. split; [| split ].
      + f_equal. f_equal. unfold deposits_of, new_deposits. destruct (pt_eqb k contract) eqn:Ek.
        * assert (Ha : authorised contract r t (k, osg) = true) by (unfold authorised; cbn [fst]; rewrite Ek; apply orb_true_r).
          rewrite Ha, map_map. reflexivity.
        * destruct (authorised contract r t (k, osg)); reflexivity.
      + f_equal. f_equal. unfold withdrawals_of. destruct (authorised contract r t (k, osg)); [| reflexivity ].
        change (AggSign.withdrawn contract t) with (given_back t). unfold wd_entry. cbn [andb].
        assert (Hb : 0 <= given_back t mod two64 < two64) by (apply Z.mod_pos_bound; reflexivity).
        destruct (given_back t mod two64 =? 0) eqn:E0.
        * apply Z.eqb_eq in E0. rewrite E0. reflexivity.
        * apply Z.eqb_neq in E0. replace (0 <? given_back t mod two64) with true by (symmetry; apply Z.ltb_lt; lia).
          cbn [negb map]. unfold as_z. cbn [fst snd]. do 2 f_equal. exact (Z.mod_small _ _ Hb).
      + cbn [app fst snd]. reflexivity.
  Qed.

  Lemma rmap_f2 {A B} (f : A -> res no_error B) l : forall m, rmap f l = Ok m -> Forall2 (fun a b => f a = Ok b) l m.
  Proof.
    induction l as [|x l IH]; intros m H; cbn [rmap] in H.
    - assert (m = []) by congruence. subst m. constructor.
    - destruct (f x) as [b| |] eqn:E; cbn [rbind] in H; try discriminate H.
      destruct (rmap f l) as [m'| |]; cbn [rbind] in H; try discriminate H.
      assert (m = b :: m') by congruence. subst m. constructor; [ exact E | now apply IH ].
  Qed.
  Lemma f2_map_l {A B C} (f : A -> B) (R : B -> C -> Prop) l m :
    Forall2 R (map f l) m <-> Forall2 (fun a c => R (f a) c) l m.
  Proof.
    split.
    - remember (map f l) as l' eqn:E. intros H. revert l E. induction H as [|b c l' m H1 H2 IH]; intros [|a l] E; try discriminate E; constructor.
      + cbn [map] in E. congruence.
      + apply IH. cbn [map] in E. congruence.
    - induction 1; constructor; auto.
  Qed.
  Lemma f2_impl {A B} (R Q : A -> B -> Prop) l m : (forall a b, R a b -> Q a b) -> Forall2 R l m -> Forall2 Q l m.
  Proof. intros H. induction 1; constructor; auto. Qed.

  Lemma index_u32_names kc calls c k i : history dbg kc calls c -> Z.of_nat (length (pks c)) <= 2 ^ 32 ->
    index_u32 c k = Ok i -> index_of c k i.
  Proof.
    intros Hh Hs E. destruct (C38_registry dbg kc calls c Hh) as (_ & _ & _ & Hidx & _).
    unfold index_u32 in E. destruct (hget pt_eqb (pk_indices c) k) as [j|] eqn:Eg; cbn [unwrap rbind] in E; [| discriminate E ].
    apply Hidx in Eg. assert (Hj : (j < length (pks c))%nat) by (apply nth_error_Some; destruct Eg as [Eg _]; congruence).
    assert (Ei : i = Z.of_nat j mod 2 ^ 32) by congruence. rewrite Z.mod_small in Ei by lia. subst i.
    split; [ lia |]. now rewrite Nat2Z.id.
  Qed.

  (** C99. The block of an epoch says, for every transaction signed for, whether it was applied and
      by whom, and lists exactly the deposits and withdrawals of these transactions, in order. *)
  Theorem C99_block_reports s l s' r kc calls c b :
    reached dbg s -> fits contract s l -> root (a_tx_tree s) = Ok r ->
    a_signers s = [] -> a_deposits s = [] -> a_withdrawals s = [] ->
    process_signatures dbg s contract l = MOk s' tt ->
    history dbg kc calls c -> Z.of_nat (length (pks c)) <= 2 ^ 32 ->
    produce_block s' c = Ok b ->
    let xs := combine (a_txs s) l in
    length xs = length l /\
    Forall2 (names_signer c r) xs (b_signers b) /\
    Forall2 (names c) (flat_map deposits_of xs) (b_deposits b) /\
    Forall2 (names c) (flat_map (withdrawals_of r) xs) (b_withdrawals b) /\
    tx_tree_root b = r /\ height b = a_height s.
  Proof.
    intros Hr Hf Hroot E1 E2 E3 Hsign Hh Hsm Hb xs.
    pose proof (run_ok dbg contract s l s' Hr Hf Hsign) as Hst.
    destruct (steps_logs 0 l s s' Hst r Hroot) as (L1 & L2 & L3). cbn [skipn] in L1, L2, L3. fold xs in L1, L2, L3.
    rewrite E2 in L1. rewrite E3 in L2. rewrite E1 in L3. cbn [map app] in L1, L2, L3.
    destruct (steps_same _ _ _ _ _ _ Hst) as (_ & T2 & _ & T4 & _).
    pose proof (steps_len dbg contract 0 l s s' Hst) as Hlen. rewrite E1, L3, map_length in Hlen. cbn [length Nat.add] in Hlen.
    split; [ exact Hlen |].
    unfold produce_block in Hb. rewrite T2, Hroot in Hb.
    destruct (root (a_utxo_tree s')) as [ur| |]; try discriminate Hb. destruct (root (a_signer_tree s')) as [sr| |]; try discriminate Hb.
    match type of Hb with (do x <- ?e; _) = _ => destruct e as [ms| |] eqn:Ms; cbn [rbind] in Hb; try discriminate Hb end.
    match type of Hb with (do x <- ?e; _) = _ => destruct e as [md| |] eqn:Md; cbn [rbind] in Hb; try discriminate Hb end.
    match type of Hb with (do x <- ?e; _) = _ => destruct e as [mw| |] eqn:Mw; cbn [rbind] in Hb; try discriminate Hb end.
    apply rmap_f2 in Ms, Md, Mw.
    assert (Eb : b = mkBlock ur r sr ms (a_height s') md mw) by congruence. subst b.
    cbn [b_signers b_deposits b_withdrawals tx_tree_root height].
    assert (Hent : forall lg m, Forall2 (fun (ka : pt * u64) y => (do i <- index_u32 c (fst ka); Ok (i, snd ka)) = @Ok no_error _ y) lg m ->
              Forall2 (names c) (map as_z lg) m).
    { intros lg m H. apply f2_map_l. revert H. apply f2_impl. intros [k a] [i a'] H. cbn [fst snd] in H.
      destruct (index_u32 c k) as [i0| |] eqn:Ei; cbn [rbind] in H; try discriminate H.
      assert (X : (i0, a) = (i, a')) by congruence. apply pair_equal_spec in X as [-> ->].
      split; [ exact (index_u32_names kc calls c k i Hh Hsm Ei) | reflexivity ]. }
    split; [| split; [| split; [| split; [ reflexivity | exact T4 ] ] ] ].
    - rewrite L3 in Ms. apply f2_map_l in Ms. revert Ms. apply f2_impl. intros x o H. unfold names_signer.
      destruct (authorised contract r (fst x) (snd x)).
      + destruct (index_u32 c (fst (snd x))) as [i| |] eqn:Ei; cbn [rbind] in H; try discriminate H.
        exists i. split; [ congruence | exact (index_u32_names kc calls c _ i Hh Hsm Ei) ].
      + congruence.
    - rewrite <- L1. now apply Hent.
    - rewrite <- L2. now apply Hent.
  Qed.
End props.

Print Assumptions C99_block_reports.

(** C117: the order in which hash maps keep their entries has no influence. *)
From Coq Require Import ZArith List Bool Lia Permutation.
Import ListNotations.
From Verif Require Import Base Env Circuit SparseMT SparseMTSpec Data DataSpec DataFacts PropsData Schnorr
  HMap Contract ContractSpec Aggregator AggSpec AggFacts AggSign AggIntake PropsIntake PropsContract.
Open Scope Z_scope.

(** ** Specification *)
Section spec.
  Context {hs : Hashes} {G : Curve}.
  (** Two maps with the same entries: every key has the same value in both. *)
  Definition same_entries {K V} (eqb : K -> K -> bool) (m1 m2 : hmap K V) : Prop := forall k, hget eqb m1 k = hget eqb m2 k.
  (** Two aggregators that differ only in how their map of coins keeps its entries. *)
  Definition alike (s1 s2 : agg) : Prop :=
    same_entries utxo_eqb (a_utxos s1) (a_utxos s2) /\
    s2 = mkAgg (a_utxos s2) (a_utxo_tree s1) (a_index s1) (a_txs s1) (a_tx_tree s1) (a_deposits s1) (a_withdrawals s1)
               (a_signer_tree s1) (a_signers s1) (a_height s1) (a_acc_signer s1) (a_acc_pk s1) (a_tx_proofs s1) (a_ivc s1).
  (** Two contracts that differ only in how their two maps keep their entries. *)
  Definition alike_contract (c1 c2 : contract) : Prop :=
    same_entries pt_eqb (pk_indices c1) (pk_indices c2) /\ same_entries pt_eqb (c_deposits c1) (c_deposits c2) /\
    c2 = mkContract (pks c1) (pk_indices c2) (l1_accounts c1) (nonces c1) (block_hashes c1) (c_deposits c2).
  (** The same outcome of a call, up to that difference. *)
  Definition alike_call {E A} (r1 r2 : mres agg E A) : Prop :=
    match r1, r2 with
    | MOk s1 a, MOk s2 b => alike s1 s2 /\ a = b
    | MErr s1 e, MErr s2 f => alike s1 s2 /\ e = f
    | MPanic, MPanic => True
    | _, _ => False
    end.
  Definition alike_result (r1 r2 : res no_error contract) : Prop :=
    match r1, r2 with
    | Ok c1, Ok c2 => alike_contract c1 c2
    | Panic, Panic => True
    | _, _ => False
    end.
End spec.

Section props.
  Context {hs : Hashes} {G : Curve} (dbg : bool).

  Lemma same_set {K V} (eqb : K -> K -> bool) (eqb_eq : forall a b, eqb a b = true <-> a = b) (m1 m2 : hmap K V) k v :
    same_entries eqb m1 m2 -> same_entries eqb (hset eqb m1 k v) (hset eqb m2 k v).
  Proof.
    intros H k0. destruct (eqb k0 k) eqn:E.
    - apply eqb_eq in E. subst k0. now rewrite !(hget_hset_same eqb eqb_eq).
    - assert (k0 <> k) by (intros ->; rewrite (proj2 (eqb_eq k k) eq_refl) in E; discriminate E).
      rewrite !(hget_hset_other eqb eqb_eq) by auto. apply H.
  Qed.

  (** a state with another map of coins *)
  Definition other (s : agg) (m : hmap utxo (list Z)) : agg := with_coins s m (a_utxo_tree s) (a_index s).
  Lemma alike_other s1 s2 : alike s1 s2 <-> exists m, s2 = other s1 m /\ same_entries utxo_eqb (a_utxos s1) m.
  Proof.
    split.
    - intros [H E]. exists (a_utxos s2). split; [ exact E | exact H ].
    - intros (m & -> & H). split; [ exact H | reflexivity ].
  Qed.

  Lemma alike_bind {E A B} (r1 r2 : mres agg E A) (k1 k2 : agg -> A -> mres agg E B) :
    alike_call r1 r2 -> (forall s1 s2 a, alike s1 s2 -> alike_call (k1 s1 a) (k2 s2 a)) -> alike_call (mbind r1 k1) (mbind r2 k2).
  Proof.
    intros H Hk. destruct r1 as [s1 a|s1 e|], r2 as [s2 b|s2 f|]; cbn [alike_call mbind] in *; try contradiction; auto.
    destruct H as [H <-]. now apply Hk.
  Qed.
  Lemma alike_fold {E A B} (f : agg -> A -> B -> mres agg E A) :
    (forall s1 s2 a x, alike s1 s2 -> alike_call (f s1 a x) (f s2 a x)) ->
    forall l s1 s2 a, alike s1 s2 -> alike_call (mfold f l s1 a) (mfold f l s2 a).
  Proof.
    intros Hf l. induction l as [|x l IH]; intros s1 s2 a H; cbn [mfold]; [ now split |].
    apply alike_bind; [ now apply Hf |]. intros s3 s4 b H'. now apply IH.
  Qed.
  Lemma alike_lift {E E' A} s1 s2 (e : E) (r : res E' A) : alike s1 s2 -> alike_call (mlift s1 e r) (mlift s2 e r).
  Proof. intros H. destruct r; cbn [mlift alike_call]; auto. Qed.

  Lemma alike_delete contract s1 s2 a ju : alike s1 s2 -> alike_call (delete_one dbg contract s1 a ju) (delete_one dbg contract s2 a ju).
  Proof.
    intros H. destruct ju as [j u]. apply alike_other in H as (m & -> & H). unfold delete_one.
    destruct (negb (pt_eqb (pk u) contract)); [| split; [ apply alike_other; exists m; now split | reflexivity ] ].
    cbn [other with_coins a_utxos]. rewrite <- (H u).
    destruct (hget utxo_eqb (a_utxos s1) u) as [v|]; [| split; [ apply alike_other; exists m; now split | reflexivity ] ].
    destruct (rev v) as [|i v']; [ split; [ apply alike_other; exists m; now split | reflexivity ] |].
    cbv zeta. cbn [other with_coins a_utxo_tree a_index a_utxos].
    apply alike_bind.
    - apply alike_lift. apply alike_other. exists (hset utxo_eqb m u (rev v')). split; [ reflexivity |].
      apply (same_set utxo_eqb utxo_eqb_eq _ _ _ _ H).
    - intros s3 s4 tp H'. apply alike_other in H' as (m' & -> & H'). split; [| reflexivity ].
      apply alike_other. exists m'. split; [ reflexivity | exact H' ].
  Qed.
  Lemma alike_add contract sender s1 s2 a ju : alike s1 s2 -> alike_call (add_one dbg contract sender s1 a ju) (add_one dbg contract sender s2 a ju).
  Proof.
    intros H. destruct ju as [j u], a as [[pos pf] w]. unfold add_one. cbv zeta.
    set (t1 := if pt_eqb sender contract then with_logs s1 (a_deposits s1 ++ [(pk u, amount u)]) (a_withdrawals s1) else s1).
    set (t2 := if pt_eqb sender contract then with_logs s2 (a_deposits s2 ++ [(pk u, amount u)]) (a_withdrawals s2) else s2).
    assert (Ht : alike t1 t2).
    { unfold t1, t2. apply alike_other in H as (m & -> & H). apply alike_other. exists m.
      destruct (pt_eqb sender contract); split; first [ reflexivity | exact H ]. }
    clearbody t1 t2. clear s1 s2 H. apply alike_other in Ht as (m & -> & H).
    destruct (negb (pt_eqb (pk u) contract)).
    - cbn [other with_coins a_utxos a_index a_utxo_tree]. rewrite <- (H u).
      apply alike_bind.
      + apply alike_lift. apply alike_other. eexists. split; [ reflexivity |]. cbn [with_coins a_utxos].
        apply (same_set utxo_eqb utxo_eqb_eq _ _ _ _ H).
      + intros s3 s4 tp H'. apply alike_other in H' as (m' & -> & H').
        destruct (@uadd no_error dbg (a_index t1) 1) as [i'|e|]; [| exact I | exact I ]. split; [| reflexivity ].
        apply alike_other. exists m'. split; [ reflexivity | exact H' ].
    - destruct (@add64 no_error dbg w (amount u)) as [w'|e|]; [| exact I | exact I ]. split; [| reflexivity ].
      apply alike_other. exists m. split; [ reflexivity | exact H ].
  Qed.
  Lemma alike_intake s1 s2 a st : alike s1 s2 -> alike_call (intake_one dbg s1 a st) (intake_one dbg s2 a st).
  Proof.
    intros H. destruct st as [k x]. unfold intake_one. destruct (is_valid dbg x (Some k)) as [[]|e|]; [| now split | exact I ].
    pose proof H as H0. apply alike_other in H0 as (m & -> & H0). cbn [other with_coins a_tx_tree a_txs].
    apply alike_bind; [ now apply alike_lift |]. intros s3 s4 tp H'. apply alike_other in H' as (m' & -> & H').
    split; [| reflexivity ]. apply alike_other. exists m'. split; [ reflexivity | exact H' ].
  Qed.
  Lemma alike_sign contract s1 s2 a x : alike s1 s2 -> alike_call (sign_one dbg contract s1 a x) (sign_one dbg contract s2 a x).
  Proof.
    intros H. destruct x as [i [k osg]]. unfold sign_one. pose proof H as H0. apply alike_other in H0 as (m & -> & H0).
    cbn [other with_coins a_txs a_tx_tree a_signers a_signer_tree].
    destruct (nth_error (a_txs s1) i) as [t|]; [| exact I ]. destruct (root (a_tx_tree s1)) as [r|e|]; [| exact I | exact I ].
    cbv zeta. apply alike_bind.
    - match goal with |- alike_call (if ?b then _ else _) _ => destruct b end.
      + apply alike_bind; [ now apply alike_lift |]. clear s1 H m H0. intros s1 s2 tp H.
        apply alike_bind.
        { apply alike_fold; [ intros; now apply alike_delete |]. apply alike_other in H as (m & -> & H).
          apply alike_other. exists m. split; [ reflexivity | exact H ]. }
        clear s1 s2 H. intros s1 s2 del H. apply alike_bind.
        { apply alike_fold; [ intros; now apply alike_add | exact H ]. }
        clear s1 s2 H. intros s1 s2 [[pos pf] w] H. apply alike_other in H as (m & -> & H).
        split; [| reflexivity ]. apply alike_other. exists m. destruct (0 <? zval w); split; first [ reflexivity | exact H ].
      + split; [| reflexivity ]. apply alike_other. exists m. split; [ reflexivity | exact H0 ].
    - clear s1 H m H0. intros s1 s2 [[sp [dp df]] [ap af]] H. apply alike_other in H as (m & -> & H).
      cbn [other with_coins a_tx_proofs]. destruct (nth_error (a_tx_proofs s1) i) as [tpf|]; [| exact I ].
      split; [| reflexivity ]. apply alike_other. exists m. split; [ reflexivity | exact H ].
  Qed.

  (** C117. Calls on aggregators that differ only in the arrangement of their map of coins have the same
      outcome and leave aggregators that differ only in it, and all that is read from them is the same. *)
  Theorem C117_aggregator s1 s2 : alike s1 s2 ->
    (forall l, alike_call (process_transactions dbg s1 l) (process_transactions dbg s2 l)) /\
    (forall contract l, alike_call (process_signatures dbg s1 contract l) (process_signatures dbg s2 contract l)) /\
    alike (reset_for_new_epoch s1) (reset_for_new_epoch s2) /\
    (forall c1 c2, alike_contract c1 c2 -> produce_block s1 c1 = produce_block s2 c2) /\
    ivc_inputs s1 = ivc_inputs s2 /\ prove_transactions dbg s1 = prove_transactions dbg s2.
  Proof.
    intros H. split; [| split; [| split; [| split; [| split ] ] ] ].
    - intros l. apply alike_fold; [ intros; now apply alike_intake | exact H ].
    - intros contract l. apply alike_fold; [ intros; now apply alike_sign | exact H ].
    - apply alike_other in H as (m & -> & H). apply alike_other. exists m. split; [ reflexivity | exact H ].
    - intros c1 c2 (Hc & _). apply alike_other in H as (m & -> & _). unfold produce_block.
      cbn [other with_coins a_utxo_tree a_tx_tree a_signer_tree a_signers a_deposits a_withdrawals a_height].
      assert (Hi : forall k, index_u32 c1 k = index_u32 c2 k) by (intros k; unfold index_u32; now rewrite (Hc k)).
      assert (Hm : forall {A B} (f g : A -> res no_error B) l, (forall x, f x = g x) -> rmap f l = rmap g l).
      { intros A B f g l Hf. induction l as [|x l IH]; [ reflexivity |]. cbn [rmap]. now rewrite Hf, IH. }
      destruct (root (a_utxo_tree s1)); [| reflexivity .. ]. destruct (root (a_tx_tree s1)); [| reflexivity .. ].
      destruct (root (a_signer_tree s1)); [| reflexivity .. ].
      rewrite (Hm _ _ _ (fun o => match o with Some k => do i <- index_u32 c2 k; Ok (Some i) | None => Ok None end) (a_signers s1))
        by (intros [k|]; [ now rewrite Hi | reflexivity ]).
      rewrite (Hm _ _ _ (fun ka => do i <- index_u32 c2 (fst ka); Ok (i, snd ka)) (a_deposits s1)) by (intros ka; now rewrite Hi).
      rewrite (Hm _ _ _ (fun ka => do i <- index_u32 c2 (fst ka); Ok (i, snd ka)) (a_withdrawals s1)) by (intros ka; now rewrite Hi).
      reflexivity.
    - apply alike_other in H as (m & -> & _). reflexivity.
    - apply alike_other in H as (m & -> & _). reflexivity.
  Qed.

  Theorem C117_contract c1 c2 : alike_contract c1 c2 ->
    (forall bal k, alike_contract (fst (join c1 bal k)) (fst (join c2 bal k)) /\ snd (join c1 bal k) = snd (join c2 bal k)) /\
    (forall i a, alike_result (deposit dbg c1 i a) (deposit dbg c2 i a)) /\
    (forall b, derive_public_inputs c1 b = derive_public_inputs c2 b).
  Proof.
    intros (H1 & H2 & E). destruct c2 as [ks m2 ac no bh d2]. cbn [pk_indices c_deposits] in H1, H2, E.
    assert (ks = pks c1) by congruence. assert (ac = l1_accounts c1) by congruence.
    assert (no = nonces c1) by congruence. assert (bh = block_hashes c1) by congruence. subst ks ac no bh. clear E.
    split; [| split ].
    - intros bal k. unfold join. cbn [fst snd pks pk_indices l1_accounts nonces block_hashes c_deposits].
      split; [| reflexivity ]. split; [ apply (same_set pt_eqb pt_eqb_eq _ _ _ _ H1) |]. split; [ exact H2 | reflexivity ].
    - intros i a. unfold deposit. cbn [pks pk_indices l1_accounts nonces block_hashes c_deposits].
      destruct (rassert (i <=? length (l1_accounts c1))%nat); cbn [rbind]; [| destruct e | exact I ].
      destruct (unwrap (nth_error (skipn i (l1_accounts c1)) 0)) as [r0|[]|]; cbn [rbind]; [| exact I ].
      destruct (unwrap (nth_error (firstn i (l1_accounts c1)) 0)) as [l0|[]|]; cbn [rbind]; [| exact I ].
      destruct (transfer dbg r0 l0 a) as [[r0' l0']|[]|]; cbn [rbind]; [| exact I ].
      destruct (unwrap (nth_error (pks c1) i)) as [k|[]|]; cbn [rbind]; [| exact I ].
      rewrite <- (H2 k).
      match goal with |- context [rbind ?x _] => destruct x as [e|[]|] end; cbn [rbind]; [| exact I ].
      split; [ exact H1 |]. split; [ apply (same_set pt_eqb pt_eqb_eq _ _ _ _ H2) | reflexivity ].
    - intros b. reflexivity.
  Qed.

  Lemma reorder {K V} (eqb : K -> K -> bool) (eqb_eq : forall a b, eqb a b = true <-> a = b) (m m' : hmap K V) :
    NoDup (hkeys m) -> Permutation m m' -> same_entries eqb m m'.
  Proof.
    intros Hn HP k. assert (Hn' : NoDup (hkeys m')) by (apply (Permutation_NoDup (Permutation_map fst HP)); exact Hn).
    destruct (hget eqb m k) as [v|] eqn:E; symmetry.
    - apply (in_hget eqb eqb_eq); [ exact Hn' |]. apply (Permutation_in _ HP). now apply (hget_in eqb eqb_eq).
    - destruct (hget eqb m' k) as [v|] eqn:E'; [| reflexivity ]. apply (hget_in eqb eqb_eq) in E'.
      apply (Permutation_in _ (Permutation_sym HP)) in E'. apply (in_hget eqb eqb_eq _ _ _ Hn) in E'. congruence.
  Qed.
  (** Every arrangement of the entries of the maps of a reached aggregator, or of a contract with a history,
      is such a difference. *)
  Theorem C117_any_order s m : reached dbg s -> Permutation (a_utxos s) m ->
    alike s (mkAgg m (a_utxo_tree s) (a_index s) (a_txs s) (a_tx_tree s) (a_deposits s) (a_withdrawals s)
                   (a_signer_tree s) (a_signers s) (a_height s) (a_acc_signer s) (a_acc_pk s) (a_tx_proofs s) (a_ivc s)).
  Proof.
    intros Hr HP. destruct (ri_coins _ _ (reached_inv dbg s Hr)) as (c & w & HC).
    split; [| reflexivity ]. exact (reorder utxo_eqb utxo_eqb_eq _ _ (ci_keys _ _ _ _ HC) HP).
  Qed.
  Lemma history_keys k0 l : forall c, history dbg k0 l c -> NoDup (hkeys (pk_indices c)) /\ NoDup (hkeys (c_deposits c)).
  Proof.
    induction l as [|x l IH] using rev_ind; intros c H.
    - unfold history in H. cbn [rfold] in H. assert (E : c = contract_new k0) by congruence. rewrite E.
      split; [ apply (hset_nodup pt_eqb pt_eqb_eq); constructor | constructor ].
    - apply history_snoc in H as (c1 & H1 & Hp). specialize (IH c1 H1) as [I1 I2]. destruct x as [bal k|i a]; cbn [perform] in Hp.
      + assert (E : c = fst (join c1 bal k)) by congruence. rewrite E. unfold join. cbn [fst pk_indices c_deposits].
        split; [ now apply (hset_nodup pt_eqb pt_eqb_eq) | exact I2 ].
      + unfold deposit in Hp. destruct (rassert _) as [[]|[]|]; cbn [rbind] in Hp; [| discriminate Hp ].
        destruct (unwrap (nth_error (skipn i (l1_accounts c1)) 0)) as [r0|[]|]; cbn [rbind] in Hp; [| discriminate Hp ].
        destruct (unwrap (nth_error (firstn i (l1_accounts c1)) 0)) as [l0|[]|]; cbn [rbind] in Hp; [| discriminate Hp ].
        destruct (transfer dbg r0 l0 a) as [[r0' l0']|[]|]; cbn [rbind] in Hp; [| discriminate Hp ].
        destruct (unwrap (nth_error (pks c1) i)) as [k|[]|]; cbn [rbind] in Hp; [| discriminate Hp ].
        match type of Hp with context [rbind ?x _] => destruct x as [e|[]|] end; cbn [rbind] in Hp; [| discriminate Hp ].
        match type of Hp with Ok ?x = _ => assert (E : c = x) by congruence end. rewrite E. cbn [pk_indices c_deposits].
        split; [ exact I1 | now apply (hset_nodup pt_eqb pt_eqb_eq) ].
  Qed.
  Theorem C117_any_order_contract k0 l c m d : history dbg k0 l c -> Permutation (pk_indices c) m -> Permutation (c_deposits c) d ->
    alike_contract c (mkContract (pks c) m (l1_accounts c) (nonces c) (block_hashes c) d).
  Proof.
    intros H Hm Hd. destruct (history_keys k0 l c H) as [I1 I2].
    split; [ exact (reorder pt_eqb pt_eqb_eq _ _ I1 Hm) |]. split; [ exact (reorder pt_eqb pt_eqb_eq _ _ I2 Hd) | reflexivity ].
  Qed.
End props.

Print Assumptions C117_aggregator.
Print Assumptions C117_contract.
Print Assumptions C117_any_order.
Print Assumptions C117_any_order_contract.

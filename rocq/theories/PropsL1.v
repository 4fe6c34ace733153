(** C91, C92: what the L1 side guarantees over time, and what it does not check of L2 blocks. *)
From Coq Require Import ZArith List Bool Lia Permutation.
Import ListNotations.
From Verif Require Import Base Env SparseMT SparseMTSpec Data DataSpec Schnorr HMap Contract ContractSpec PropsContract
  Aggregator.
Open Scope Z_scope.

Section spec.
  Context {hs : Hashes} {G : Curve}.
  (** funds a list of calls moves into the contract, in all and from account [i] *)
  Definition moved (l : list call) : Z :=
    zsum (map (fun x => match x with Join _ _ => 0 | Deposit _ a => zval a end) l).
  Definition moved_from (i : nat) (l : list call) : Z :=
    zsum (map (fun x => match x with Join _ _ => 0 | Deposit j a => if (j =? i)%nat then zval a else 0 end) l).
End spec.

Section props.
  Context {hs : Hashes} {G : Curve} (dbg : bool).

  Lemma moved_snoc l x : moved (l ++ [x]) = moved l + match x with Join _ _ => 0 | Deposit _ a => zval a end.
  Proof. unfold moved. rewrite map_app, zsum_app. cbn [map]. f_equal. destruct x; cbn; lia. Qed.
  Lemma moved_from_snoc i l x : moved_from i (l ++ [x]) =
    moved_from i l + match x with Join _ _ => 0 | Deposit j a => if (j =? i)%nat then zval a else 0 end.
  Proof. unfold moved_from. rewrite map_app, zsum_app. cbn [map]. f_equal. destruct x as [|j a]; [ cbn; lia |].
    destruct (j =? i)%nat; cbn; lia. Qed.
  Lemma moved_nonneg l : 0 <= moved l.
  Proof. apply zsum_nonneg. apply Forall_map, Forall_forall. intros [|j a] _; [ lia | apply (u64_range a) ]. Qed.
  Lemma moved_from_nonneg i l : 0 <= moved_from i l.
  Proof. apply zsum_nonneg. apply Forall_map, Forall_forall. intros [|j a] _; [ lia |].
    destruct (j =? i)%nat; [ apply (u64_range a) | lia ]. Qed.

  (** One deposit in a history, without overflow. *)
  Lemma deposit_in_history k0 l c i a c' : dbg = true \/ supply l < two64 ->
    history dbg k0 l c -> deposit dbg c i a = Ok c' ->
    exists k bi b0, (0 < i)%nat /\ key_of c i = Some k /\ balance c i = Some bi /\ balance c 0 = Some b0 /\
      zval a <= bi /\ balance c' i = Some (bi - zval a) /\ balance c' 0 = Some (b0 + zval a) /\
      (forall j, j <> i -> j <> 0%nat -> balance c' j = balance c j) /\
      pending c' k = pending c k + zval a /\ (forall k', k' <> k -> pending c' k' = pending c k') /\
      pks c' = pks c /\ pk_indices c' = pk_indices c.
  Proof.
    intros Hov Hh Hd. pose proof (hist_inv dbg _ _ _ Hh) as [I1 I2 I3 _ _].
    assert (Hw : well_formed c) by (split; [ exact I2 | rewrite I3; apply repeat_length ]).
    destruct (C37_solvency dbg k0 l c Hov Hh) as (B0 & BT & _).
    pose proof (deposit_cases dbg c i a Hw) as Hc. rewrite Hd in Hc.
    destruct Hc as (k & bi & b0 & Hi & Hk & Hbi & Hb0 & Ha & _).
    destruct (C36_deposit dbg c i a c' Hw Hd) as (k' & bi' & b0' & Hk' & Hbi' & Hb0' & E1 & E2 & E3 & E4 & E5 & E6 & E7 & E8 & _ & _ & _ & E9 & _).
    assert (k' = k) by congruence. assert (bi' = bi) by congruence. assert (b0' = b0) by congruence. subst k' bi' b0'.
    assert (Hb : b0 = total_pending c) by congruence.
    assert (Hsum : b0 + bi <= total_balance c).
    { unfold balance in Hb0, Hbi. apply (zsum_two _ i); [ apply zvals_nonneg | exact Hi | |]; rewrite nth_error_map; assumption. }
    pose proof (u64_range a) as Hra. pose proof (pending_le c k) as Hple.
    assert (Hpn : 0 <= pending c k).
    { unfold pending. destruct (hget _ _ _) as [e0|]; [ pose proof (u64_range e0) |]; lia. }
    assert (Hno : b0 + zval a < two64) by (destruct Hov as [Hdb|Hov]; [ now apply E9 | lia ]).
    rewrite Z.mod_small in E3 by lia. rewrite Z.mod_small in E5 by lia.
    exists k, bi, b0. repeat (split; [ assumption |]). assumption.
  Qed.

  (** C91. Whatever calls follow: account 0 only grows, by exactly the amounts deposited; every
      other account only shrinks, by exactly what was deposited from it; pending amounts never
      shrink, registered keys stay where they are and no block is ever recorded. *)
  Theorem C91_funds_locked k0 l1 l2 c1 c2 :
    dbg = true \/ supply (l1 ++ l2) < two64 ->
    history dbg k0 l1 c1 -> history dbg k0 (l1 ++ l2) c2 ->
    (exists b1, balance c1 0 = Some b1 /\ balance c2 0 = Some (b1 + moved l2) /\ 0 <= moved l2) /\
    (forall i b, i <> 0%nat -> balance c1 i = Some b ->
       balance c2 i = Some (b - moved_from i l2) /\ 0 <= moved_from i l2 <= b) /\
    (forall k, pending c1 k <= pending c2 k) /\
    (forall i k, key_of c1 i = Some k -> key_of c2 i = Some k) /\
    block_hashes c1 = [] /\ block_hashes c2 = [].
  Proof.
    revert c2. induction l2 as [|x l2 IH] using rev_ind; intros c2 Hov H1 H2.
    - rewrite app_nil_r in H2. assert (c2 = c1) by (unfold history in *; congruence). subst c2.
      pose proof (hist_inv dbg _ _ _ H1) as [I1 I2 _ _ I5].
      change (moved []) with 0.
      split.
      { assert (exists b1, balance c1 0 = Some b1) as (b1 & E).
        { unfold balance. destruct (nth_error (l1_accounts c1) 0) eqn:E; [ eexists; reflexivity |].
          apply nth_error_None in E. rewrite I2, I1 in E. cbn in E. lia. }
        exists b1. rewrite Z.add_0_r. repeat split; auto. lia. }
      split.
      { intros i b _ E. change (moved_from i []) with 0. rewrite Z.sub_0_r. split; auto.
        unfold balance in E. destruct (nth_error (l1_accounts c1) i) as [y|]; [| discriminate ].
        cbn in E. injection E as <-. split; [ lia | exact (proj1 (u64_range y)) ]. }
      split; [ reflexivity |]. auto.
    - rewrite app_assoc in H2, Hov. apply history_snoc in H2 as (cm & Hm & Hp).
      assert (Hovm : dbg = true \/ supply (l1 ++ l2) < two64).
      { destruct Hov as [?|Hov]; auto. right. rewrite supply_snoc in Hov.
        destruct x as [bal k|]; [ pose proof (u64_range bal) |]; lia. }
      destruct (IH cm Hovm H1 Hm) as ((b1 & Eb1 & Ebm & Hmv) & Hacc & Hpend & Hkeys & Hb1 & Hbm).
      pose proof (hist_inv dbg _ _ _ Hm) as [M1 M2 _ _ M5].
      rewrite moved_snoc. destruct x as [bal k1|i0 a]; cbn [perform] in Hp.
      + injection Hp as <-. rewrite Z.add_0_r.
        assert (Hin : forall i b, balance cm i = Some b -> balance (fst (join cm bal k1)) i = Some b).
        { intros i b E. unfold balance in *. cbn [join fst l1_accounts]. rewrite nth_error_app1; auto.
          destruct (nth_error (l1_accounts cm) i) eqn:E'; [ apply nth_error_Some; congruence | discriminate ]. }
        split; [ exists b1; repeat split; auto |].
        split. { intros i b Hi E. rewrite moved_from_snoc, Z.add_0_r. destruct (Hacc i b Hi E). auto. }
        split; [ exact Hpend |].
        split. { intros i k E. apply Hkeys in E. unfold key_of in *. cbn [join fst pks]. rewrite nth_error_app1; auto.
                 apply nth_error_Some. congruence. }
        split; auto.
      + destruct (deposit_in_history k0 (l1 ++ l2) cm i0 a c2 Hovm Hm Hp)
          as (k & bi & b0 & Hi0 & Hk & Hbi & Hb0 & Ha & Ebi & Eb0 & Eother & Ek & Eks & Epk & Eidx).
        pose proof (u64_range a) as Hra.
        assert (b0 = b1 + moved l2) by congruence. subst b0.
        split. { exists b1. rewrite Z.add_assoc. repeat split; auto. lia. }
        split.
        { intros i b Hi E. destruct (Hacc i b Hi E) as [E' Hr]. rewrite moved_from_snoc.
          destruct (Nat.eqb_spec i0 i) as [->|Hne].
          - assert (bi = b - moved_from i l2) by congruence. subst bi. rewrite Ebi. split; [ f_equal |]; lia.
          - rewrite Z.add_0_r. rewrite Eother by auto. split; auto. }
        split.
        { intros k'. destruct (pt_eq_dec k' k) as [->|Hne].
          - rewrite Ek. specialize (Hpend k). lia.
          - rewrite (Eks k' Hne). apply Hpend. }
        split. { intros i k' E. unfold key_of. rewrite Epk. apply Hkeys, E. }
        split; auto.
        assert (Hw : well_formed cm).
        { destruct (C38_registry dbg _ _ _ Hm) as (_ & A & B & _). split; assumption. }
        destruct (C36_deposit dbg cm i0 a c2 Hw Hp) as (? & ? & ? & _ & _ & _ & _ & _ & _ & _ & _ & _ & _ & _ & _ & E & _).
        now rewrite E.
  Qed.

  (** C92. Neither the block an aggregator produces nor the public inputs the contract derives
      from a block depend on anything but the order in which keys joined. *)
  Lemma rmap_ext {E A B} (f g : A -> res E B) l : (forall a, f a = g a) -> rmap f l = rmap g l.
  Proof. intros H. induction l as [|a l IH]; cbn [rmap]; [ reflexivity |]. now rewrite H, IH. Qed.
  Theorem C92_deposits_ignored k0 l l' c c' :
    history dbg k0 l c -> history dbg k0 l' c' -> joined l = joined l' ->
    (forall s, produce_block s c = produce_block s c') /\
    (forall b, derive_public_inputs c b = derive_public_inputs c' b).
  Proof.
    intros H H' Ej. destruct (C38_registry dbg _ _ _ H) as (P1 & _ & _ & X1 & _).
    destruct (C38_registry dbg _ _ _ H') as (P2 & _ & _ & X2 & _).
    assert (EP : pks c = pks c') by (rewrite P1, P2; now rewrite Ej).
    assert (EI : forall k, hget pt_eqb (pk_indices c) k = hget pt_eqb (pk_indices c') k).
    { intros k. destruct (hget pt_eqb (pk_indices c) k) as [i|] eqn:E.
      - apply X1 in E. rewrite EP in E. symmetry. now apply X2.
      - destruct (hget pt_eqb (pk_indices c') k) as [i|] eqn:E'; auto.
        apply X2 in E'. rewrite <- EP in E'. apply X1 in E'. congruence. }
    assert (EU : forall k, index_u32 c k = index_u32 c' k) by (intros k; unfold index_u32; now rewrite EI).
    split.
    - intros s. unfold produce_block.
      destruct (root (a_utxo_tree s)), (root (a_tx_tree s)), (root (a_signer_tree s)); auto.
      rewrite (rmap_ext _ (fun o : option pt => match o with Some k => do i <- index_u32 c' k; Ok (Some i) | None => Ok None end)
                 (a_signers s)) by (intros [k|]; [ now rewrite EU | reflexivity ]).
      rewrite (rmap_ext (fun ka : pt * u64 => do i <- index_u32 c (fst ka); Ok (i, snd ka))
                 (fun ka : pt * u64 => do i <- index_u32 c' (fst ka); Ok (i, snd ka)) (a_deposits s)) by (intros ka0; now rewrite EU).
      rewrite (rmap_ext (fun ka : pt * u64 => do i <- index_u32 c (fst ka); Ok (i, snd ka))
                 (fun ka : pt * u64 => do i <- index_u32 c' (fst ka); Ok (i, snd ka)) (a_withdrawals s)) by (intros ka0; now rewrite EU).
      reflexivity.
    - intros b. unfold derive_public_inputs, signer_acc, amount_acc. rewrite EP. reflexivity.
  Qed.
End props.

Print Assumptions C91_funds_locked.
Print Assumptions C92_deposits_ignored.

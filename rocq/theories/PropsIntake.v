(** C40-C42, C49, C50, C52: transaction intake, inclusion proofs, epochs. *)
From Coq Require Import ZArith List Bool Lia Permutation.
Import ListNotations.
From Verif Require Import Base Env Circuit SparseMT SparseMTSpec SparseMTHeap SparseMTRep SparseMTNew
  SparseMTProofs TreeTotal PropsTree Data DataSpec DataFacts Schnorr HMap Contract Aggregator AggSpec AggFacts AggSign AggIntake.
Open Scope Z_scope.

Lemma Some_inj' {A} (x y : A) : Some x = Some y -> x = y.
Proof. now intros [= ->]. Qed.

Section props.
  Context {hs : Hashes} {G : Curve} (dbg : bool).

  (** The pair passes the intake check. *)
  Definition valid (kx : pt * tx) : Prop := is_valid dbg (snd kx) (Some (fst kx)) = Ok tt.
  (** The root of the epoch's transaction tree after the first [k] transactions. *)
  Definition epoch_root (txs : list tx) (k : nat) : F := merkle_root (tx_contents (firstn k txs)).

  Lemma set_tx_contents txs k x : nth_error txs k = Some x -> (Z.of_nat k < 4096) ->
    merkle_root (set_leaf (tx_contents (firstn k txs)) (Z.of_nat k) x) = epoch_root txs (S k).
  Proof.
    intros E Hk. apply (root_ext tx_cfg). intros i Hi.
    assert (Hl : length (firstn k txs) = k).
    { apply firstn_length_le. assert (k < length txs)%nat by (apply nth_error_Some; congruence). lia. }
    assert (Es : firstn (S k) txs = firstn k txs ++ [x]).
    { clear - E. revert txs E. induction k as [|k IH]; intros [|y txs] E; try discriminate.
      - injection E as ->. reflexivity.
      - cbn [firstn app]. f_equal. apply IH. exact E. }
    rewrite Es. rewrite (tx_contents_app (firstn k txs) x i Hi), Hl. reflexivity.
  Qed.

  (** C40. A fresh epoch is a reached state without transactions. *)
  Theorem C40_intake s l s' :
    reached dbg s -> a_txs s = [] -> process_transactions dbg s l = MOk s' tt ->
    a_txs s' = map snd l /\ Forall valid l /\ same_but_intake s s' /\
    length (a_tx_proofs s') = length l /\
    (Z.of_nat (length l) <= 4096 ->
       tree_holds dbg tx_cfg (a_tx_tree s') (tx_contents (map snd l)) /\
       root (a_tx_tree s') = Ok (epoch_root (map snd l) (length l)) /\
       forall k x pf, nth_error (map snd l) k = Some x -> nth_error (a_tx_proofs s') k = Some pf ->
         verify_update dbg tx_cfg pf (epoch_root (map snd l) k) (epoch_root (map snd l) (S k))
                       tx_default x (Z.of_nat k) = Ok true).
  Proof.
    intros Hr H0 E. pose proof (reached_inv dbg s Hr) as HI.
    pose proof (intake_run dbg l s (ri_epoch _ _ HI)) as H. rewrite E, H0 in H. cbn [app] in H.
    destruct H as (Hv & HE & Ht & Hs). split; [ exact Ht |]. split; [ exact Hv |]. split; [ exact Hs |].
    split; [ rewrite (ei_len _ _ HE), Ht; apply map_length |].
    intros Hlen.
    assert (Hl : Z.of_nat (length (a_txs s')) <= 4096) by (rewrite Ht, map_length; lia).
    pose proof (ei_holds _ _ HE Hl) as Hh. rewrite Ht in Hh.
    split; [ exact Hh |]. split.
    - rewrite (tree_holds_root dbg tx_cfg tx_cfg_ok _ _ Hh). unfold epoch_root.
      rewrite firstn_all2 by (rewrite map_length; lia). reflexivity.
    - intros k x pf Ek Ep. pose proof (ei_proofs _ _ HE Hl k x) as Hp. rewrite Ht in Hp. specialize (Hp Ek).
      rewrite Hp in Ep. apply Some_inj' in Ep. subst pf.
      assert (Hk : (k < length l)%nat) by (rewrite <- (map_length snd l); apply nth_error_Some; congruence).
      assert (Hi : in_range tx_cfg (Z.of_nat k)) by (unfold in_range; rewrite tx_capacity; lia).
      rewrite <- (set_tx_contents _ _ x Ek) by lia. unfold epoch_root.
      set (c := tx_contents (firstn k (map snd l))).
      assert (Hc : c (Z.of_nat k) = tx_default).
      { unfold c, tx_contents. destruct (Z.ltb_spec (Z.of_nat k) 0); [ lia |]. rewrite Nat2Z.id.
        apply nth_overflow. rewrite firstn_length. lia. }
      rewrite vu_in by (auto using tx_cfg_ok). f_equal.
      destruct (sib_path_roots tx_cfg c (Z.of_nat k) x Hi) as [R1 R2].
      change (HEIGHT tx_cfg - 1)%nat with 12%nat in R1, R2 |- *. rewrite Hc in R1.
      rewrite R1, R2, sib_path_length, !Feqb_refl. reflexivity.
  Qed.

  (** Whatever the history, every transaction of the epoch passed the validity check of a sender. *)
  Theorem C40_only_valid s : reached dbg s -> forall t, In t (a_txs s) -> exists k, valid (k, t).
  Proof.
    induction 1 as [|s l s' Hr IH Hl|s contract l s' Hr IH Hf Hl|s Hr IH]; intros t Ht.
    - destruct Ht.
    - pose proof (intake_run dbg l s (ri_epoch _ _ (reached_inv dbg s Hr))) as HR.
      assert (X : exists l0, Forall valid l0 /\ a_txs s' = a_txs s ++ map snd l0).
      { destruct Hl as [[a E]|[e E]]; rewrite E in HR.
        - exists l. tauto.
        - destruct HR as (l1 & k & x & l2 & _ & A & _ & _ & _ & B & _). exists l1. auto. }
      destruct X as (l0 & Hv & E). rewrite E in Ht. apply in_app_iff in Ht as [Ht|Ht]; [ exact (IH t Ht) |].
      apply in_map_iff in Ht as ([k x] & <- & Hk). rewrite Forall_forall in Hv. exists k. exact (Hv _ Hk).
    - destruct (ri_coins _ _ (reached_inv dbg s Hr)) as (c & w & HC).
      destruct (reach_root dbg s (reached_inv dbg s Hr)) as (r & Hroot).
      pose proof (sign_run dbg contract l 0 s c w r HC Hroot (Hf r Hroot)) as HR.
      unfold process_signatures, enum in Hl. apply IH.
      destruct Hl as [[a E]|[e E]]; rewrite E in HR.
      + destruct (steps_same _ _ _ _ _ _ HR) as (E1 & _). now rewrite <- E1.
      + destruct HR as (l1 & k & osg & l2 & s1 & t1 & r' & _ & HR & He & _).
        destruct (steps_same _ _ _ _ _ _ HR) as (E1 & _). destruct (se_same _ _ _ _ _ _ _ _ _ _ He) as (_ & F1 & _).
        now rewrite <- E1, <- F1.
    - destruct Ht.
  Qed.

  (** Intake succeeds exactly on valid batches, as long as the epoch's length stays below 2^64. *)
  Theorem C40_intake_accepts s l :
    reached dbg s -> Z.of_nat (length (a_txs s)) + Z.of_nat (length l) + 4096 < two64 ->
    (exists s', process_transactions dbg s l = MOk s' tt) <-> Forall valid l.
  Proof.
    intros Hr Hlen. pose proof (intake_run dbg l s (ri_epoch _ _ (reached_inv dbg s Hr))) as H.
    split.
    - intros (s' & E). rewrite E in H. tauto.
    - intros Hv. destruct (process_transactions dbg s l) as [s' []|s' e|]; [ eauto | |].
      + destruct H as (l1 & k & x & l2 & -> & _ & He & _).
        apply Forall_elt in Hv. unfold valid in Hv. cbn [fst snd] in Hv. congruence.
      + destruct H as [(l1 & k & x & l2 & -> & _ & He)|H]; [| lia ].
        apply Forall_elt in Hv. unfold valid in Hv. cbn [fst snd] in Hv. congruence.
  Qed.

  (** C41 *)
  Theorem C41_intake_failure s l s' e :
    reached dbg s -> process_transactions dbg s l = MErr s' e ->
    exists l1 k x l2, l = l1 ++ (k, x) :: l2 /\ Forall valid l1 /\
      is_valid dbg x (Some k) = Err e /\
      process_transactions dbg s l1 = MOk s' tt /\
      a_txs s' = a_txs s ++ map snd l1 /\
      length (a_tx_proofs s') = (length (a_txs s) + length l1)%nat /\
      same_but_intake s s' /\
      (Z.of_nat (length (a_txs s')) <= 4096 ->
         root (a_tx_tree s') = Ok (merkle_root (tx_contents (a_txs s ++ map snd l1)))).
  Proof.
    intros Hr E. pose proof (intake_run dbg l s (ri_epoch _ _ (reached_inv dbg s Hr))) as H. rewrite E in H.
    destruct H as (l1 & k & x & l2 & El & Hv & He & Hp & HE & Ht & Hs).
    exists l1, k, x, l2. split; [ exact El |]. split; [ exact Hv |]. split; [ exact He |].
    split; [ exact Hp |]. split; [ exact Ht |]. split.
    { rewrite (ei_len _ _ HE), Ht, app_length, map_length. reflexivity. }
    split; [ exact Hs |]. intros Hl. rewrite <- Ht.
    apply (tree_holds_root dbg tx_cfg tx_cfg_ok). now apply (ei_holds _ _ HE).
  Qed.

  (** C42 *)
  Lemma rmap_spec {E A B} (f : A -> res E B) l : (forall a, In a l -> exists b, f a = Ok b) ->
    exists m, rmap f l = Ok m /\ Forall2 (fun a b => f a = Ok b) l m.
  Proof.
    induction l as [|x l IH]; intros H.
    - exists []. split; [ reflexivity | constructor ].
    - destruct (H x (or_introl eq_refl)) as (b & Eb). destruct IH as (m & Em & Hm); [ intros a Ha; apply H; now right |].
      exists (b :: m). cbn [rmap]. rewrite Eb. cbn [rbind]. rewrite Em. split; [ reflexivity | now constructor ].
  Qed.
  Lemma enum_nth {A} (l : list A) k x : nth_error l k = Some x <-> In (k, x) (enum l).
  Proof.
    unfold enum. assert (H : forall n, In (n + k, x)%nat (combine (seq n (length l)) l) <-> nth_error l k = Some x).
    { revert k. induction l as [|y l IH]; intros k n; cbn [length seq combine].
      - split; [ intros [] | destruct k; discriminate ].
      - destruct k as [|k].
        + rewrite Nat.add_0_r. cbn [nth_error]. split.
          * intros [H|H]; [ congruence |]. apply in_combine_l in H. apply in_seq in H. lia.
          * intros [= ->]. now left.
        + cbn [nth_error]. rewrite <- (IH k (S n)). rewrite Nat.add_succ_comm. split; [| now right ].
          intros [H|H]; auto. apply pair_equal_spec in H as [H _]. lia. }
    symmetry. apply (H 0%nat).
  Qed.
  Lemma enum_nth_error {A} (l : list A) k : nth_error (enum l) k = option_map (pair k) (nth_error l k).
  Proof.
    unfold enum. assert (H : forall n, nth_error (combine (seq n (length l)) l) k = option_map (pair (n + k)%nat) (nth_error l k)).
    { revert k. induction l as [|y l IH]; intros k n; cbn [length seq combine].
      - now destruct k.
      - destruct k as [|k]; cbn [nth_error option_map]; [ now rewrite Nat.add_0_r |].
        rewrite IH. now rewrite Nat.add_succ_comm. }
    apply (H 0%nat).
  Qed.

  Theorem C42_inclusion_proofs s :
    reached dbg s -> Z.of_nat (length (a_txs s)) <= 4096 ->
    exists ps r, prove_transactions dbg s = Ok ps /\ root (a_tx_tree s) = Ok r /\
      r = merkle_root (tx_contents (a_txs s)) /\
      length ps = length (a_txs s) /\
      forall k x path, nth_error (a_txs s) k = Some x -> nth_error ps k = Some path ->
        verify tx_cfg path r x = Ok true /\
        forall dbg', verify_with_index dbg' tx_cfg path r x (Z.of_nat k) = Ok true.
  Proof.
    intros Hr Hl. pose proof (ri_epoch _ _ (reached_inv dbg s Hr)) as HE.
    pose proof (ei_holds _ _ HE Hl) as Hh. pose proof (tree_holds_root dbg tx_cfg tx_cfg_ok _ _ Hh) as Hroot.
    destruct Hh as (c & w & Hb & Hc).
    assert (Hgen : forall k x, nth_error (a_txs s) k = Some x ->
      exists path, generate_proof dbg tx_cfg (a_tx_tree s) (Z.of_nat k) x = Ok path /\
        verify tx_cfg path (merkle_root (tx_contents (a_txs s))) x = Ok true /\
        forall dbg', verify_with_index dbg' tx_cfg path (merkle_root (tx_contents (a_txs s))) x (Z.of_nat k) = Ok true).
    { intros k x E. assert (Hk : (k < length (a_txs s))%nat) by (apply nth_error_Some; congruence).
      assert (Hi : in_range tx_cfg (Z.of_nat k)) by (unfold in_range; rewrite tx_capacity; lia).
      destruct (C06_membership_complete tx_cfg tx_cfg_ok dbg _ _ _ (Z.of_nat k) Hb Hi) as (Hrt & path & G1 & G2 & G3).
      assert (Ex : c (Z.of_nat k) = x).
      { rewrite Hc by exact Hi. unfold tx_contents. destruct (Z.ltb_spec (Z.of_nat k) 0); [ lia |].
        rewrite Nat2Z.id. now apply nth_error_nth. }
      rewrite Ex in *. assert (Em : merkle_root c = merkle_root (tx_contents (a_txs s))).
      { rewrite Hroot in Hrt. now injection Hrt. }
      rewrite Em in *. eauto. }
    destruct (rmap_spec (fun ix => generate_proof dbg tx_cfg (a_tx_tree s) (Z.of_nat (fst ix)) (snd ix)) (enum (a_txs s)))
      as (ps & Ep & Hf).
    { intros [k x] Hin. apply enum_nth in Hin. destruct (Hgen k x Hin) as (path & E & _). eauto. }
    exists ps, (merkle_root (tx_contents (a_txs s))). split; [ exact Ep |]. split; [ exact Hroot |].
    split; [ reflexivity |]. split; [ rewrite <- (enum_length (a_txs s)); clear - Hf; induction Hf; cbn [length]; congruence |].
    intros k x path Ex Epath. destruct (Hgen k x Ex) as (path' & E & V).
    assert (path' = path).
    { assert (Hx : nth_error (enum (a_txs s)) k = Some (k, x)) by (rewrite enum_nth_error, Ex; reflexivity).
      clear - Hf Hx Epath E. revert Hx Epath. generalize k at 1 3 as n.
      induction Hf as [|a b la lb H1 H2 IH]; intros [|n] Ha Hb; try discriminate.
      - injection Ha as ->. injection Hb as ->. cbn [fst snd] in H1. congruence.
      - exact (IH n Ha Hb). }
    subst path'. exact V.
  Qed.

  (** C52. More than 4096 transactions: accepted, but without any way to prove inclusion of the
      surplus, and proof generation for the epoch fails as a whole. *)
  Theorem C52_epoch_capacity s l :
    reached dbg s -> a_txs s = [] -> Forall valid l ->
    4096 < Z.of_nat (length l) -> Z.of_nat (length l) + 4096 < two64 ->
    exists s', process_transactions dbg s l = MOk s' tt /\ a_txs s' = map snd l /\
      prove_transactions dbg s' = Err GenericError /\
      forall k, 4096 <= Z.of_nat k < two64 ->
        (forall dbg' path r x, verify_with_index dbg' tx_cfg path r x (Z.of_nat k) <> Ok true) /\
        (forall dbg' path ro rn lo ln, verify_update dbg' tx_cfg path ro rn lo ln (Z.of_nat k) <> Ok true).
  Proof.
    intros Hr H0 Hv Hl Hlen.
    destruct (proj2 (C40_intake_accepts s l Hr ltac:(rewrite H0; cbn [length]; lia)) Hv) as (s' & E).
    exists s'. split; [ exact E |].
    pose proof (intake_run dbg l s (ri_epoch _ _ (reached_inv dbg s Hr))) as H. rewrite E, H0 in H. cbn [app] in H.
    destruct H as (_ & HE & Ht & _). split; [ exact Ht |]. split.
    - unfold prove_transactions. rewrite Ht.
      set (f := fun ix : nat * tx => generate_proof dbg tx_cfg (a_tx_tree s') (Z.of_nat (fst ix)) (snd ix)).
      assert (exists cap : nat, Z.of_nat cap = 4096) as (cap & Hcap).
      { exists (Z.to_nat 4096). apply Z2Nat.id. discriminate. }
      assert (Hnp : forall k x, (k <= cap)%nat -> f (k, x) <> Panic).
      { intros k x Hk. unfold f. cbn [fst snd]. apply (generate_proof_no_panic dbg tx_cfg tx_cfg_ok).
        - rewrite tx_capacity. lia.
        - apply HE. }
      assert (Hno : forall x p, f (cap, x) <> Ok p).
      { intros x p. unfold f. cbn [fst snd]. 
        apply (C11_out_of_range tx_cfg tx_cfg_ok dbg (a_tx_tree s') (Z.of_nat cap)).
        - rewrite Hcap. unfold is_u64, two64. split; [ lia |]. reflexivity.
        - unfold in_range. rewrite tx_capacity. lia. }
      assert (Hgen : forall m n, (n <= cap)%nat -> (cap < n + length m)%nat ->
                 rmap f (combine (seq n (length m)) m) = Err GenericError).
      { induction m as [|x m IH]; intros n Hn Hm; cbn [length seq combine rmap] in *; [ lia |].
        pose proof (Hnp n x Hn) as Hx. destruct (f (n, x)) as [p|[]|] eqn:Ef; cbn [rbind]; [| reflexivity | tauto ].
        destruct (Nat.eq_dec n cap) as [->|Hne]; [ exfalso; now apply (Hno x p) |].
        rewrite IH; [ reflexivity | lia | lia ]. }
      apply (Hgen (map snd l) 0%nat); [ lia | rewrite map_length; lia ].
    - intros k Hk. split; intros dbg'; intros;
        apply (C11_out_of_range tx_cfg tx_cfg_ok dbg' (a_tx_tree s') (Z.of_nat k));
        unfold is_u64, in_range; rewrite ?tx_capacity; lia.
  Qed.

  (** C49. *)
  Theorem C49_reset s l :
    let s0 := reset_for_new_epoch s in
    (* the coins survive *)
    positions s0 = positions s /\ coins s0 = coins s /\ a_index s0 = a_index s /\
    root (a_utxo_tree s0) = root (a_utxo_tree s) /\
    (* the epoch's data is that of a new aggregator *)
    a_txs s0 = a_txs agg_new /\ a_tx_tree s0 = a_tx_tree agg_new /\ a_tx_proofs s0 = a_tx_proofs agg_new /\
    a_deposits s0 = [] /\ a_withdrawals s0 = [] /\ a_signers s0 = [] /\ ivc_inputs s0 = [] /\
    a_acc_signer s0 = a_acc_signer agg_new /\ a_acc_pk s0 = a_acc_pk agg_new /\
    (* so that a batch is taken in as by a new aggregator *)
    match process_transactions dbg s0 l, process_transactions dbg agg_new l with
    | MOk s1 _, MOk s2 _ => a_txs s1 = a_txs s2 /\ a_tx_tree s1 = a_tx_tree s2 /\ a_tx_proofs s1 = a_tx_proofs s2
    | MErr s1 e1, MErr s2 e2 => e1 = e2 /\ a_txs s1 = a_txs s2 /\ a_tx_tree s1 = a_tx_tree s2 /\ a_tx_proofs s1 = a_tx_proofs s2
    | MPanic, MPanic => True
    | _, _ => False
    end /\
    (* but the signer tree keeps the last epoch's contents *)
    (forall c, tree_holds dbg signer_cfg (a_signer_tree s) c -> tree_holds dbg signer_cfg (a_signer_tree s0) c) /\
    (forall r, root (a_signer_tree s) = Ok r -> root (a_signer_tree s0) = Ok r).
  Proof.
    intros s0. do 13 (split; [ reflexivity |]). split; [| auto ].
    assert (E : a_txs s0 = a_txs agg_new /\ a_tx_tree s0 = a_tx_tree agg_new /\ a_tx_proofs s0 = a_tx_proofs agg_new) by auto.
    revert E. generalize s0 agg_new. clear s0 s. unfold process_transactions.
    induction l as [|[k x] l IH]; intros s1 s2 (E1 & E2 & E3); cbn [mfold]; [ auto |].
    assert (Hs : forall s, intake_one dbg s tt (k, x) =
      match is_valid dbg x (Some k) with
      | Panic => MPanic
      | Err e => MErr s e
      | Ok _ =>
        mbind (mlift s TransactionTreeFailure
                     (update_and_prove dbg tx_cfg (a_tx_tree s) (Z.of_nat (length (a_txs s))) x))
              (fun s tp => MOk (with_tx s (fst tp) (snd tp) x) tt)
      end) by reflexivity.
    rewrite (Hs s1), (Hs s2). clear Hs. destruct (is_valid dbg x (Some k)) as [[]|e|]; cbn [mbind]; auto.
    rewrite E1, E2. destruct (update_and_prove dbg tx_cfg (a_tx_tree s2) (Z.of_nat (length (a_txs s2))) x) as [[t pf]|e|];
      cbn [mlift mbind]; auto.
    apply IH. cbn [with_tx a_txs a_tx_tree a_tx_proofs fst snd]. rewrite E1, E3. auto.
  Qed.

  (** C50 *)
  Theorem C50_height s c b : reached dbg s -> produce_block s c = Ok b -> zval (height b) = 0.
  Proof.
    intros Hr. pose proof (ri_height _ _ (reached_inv dbg s Hr)) as Hh. unfold produce_block.
    destruct (root (a_utxo_tree s)), (root (a_tx_tree s)), (root (a_signer_tree s)); try discriminate.
    destruct (rmap _ (a_signers s)); cbn [rbind]; try discriminate.
    destruct (rmap _ (a_deposits s)); cbn [rbind]; try discriminate.
    destruct (rmap _ (a_withdrawals s)); cbn [rbind]; try discriminate.
    intros [= <-]. cbn [height]. rewrite Hh. reflexivity.
  Qed.
End props.

Print Assumptions C40_intake.
Print Assumptions C40_only_valid.
Print Assumptions C40_intake_accepts.
Print Assumptions C41_intake_failure.
Print Assumptions C42_inclusion_proofs.
Print Assumptions C52_epoch_capacity.
Print Assumptions C49_reset.
Print Assumptions C50_height.

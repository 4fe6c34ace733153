(** C39: blocks and the public inputs the contract derives from them. *)
From Coq Require Import ZArith List Bool Lia.
Import ListNotations.
From Verif Require Import Base Env SparseMT SparseMTSpec Data DataSpec Schnorr HMap Contract ContractSpec PropsContract
  Aggregator AggSpec AggFacts AggSign AggIntake.
Open Scope Z_scope.

Section props.
  Context {hs : Hashes} {G : Curve} (dbg : bool).

  (** The bytes hashed for a key, a signer slot (the identity when the transaction was not
      applied) and a (key, amount) entry. *)
  Definition slot_bytes (o : option pt) : list Z := pt_bytes (match o with Some k => k | None => pzero end).
  Definition entry_bytes (e : pt * u64) : list Z := pt_bytes (fst e) ++ u64_bytes (snd e).

  Definition mentioned (s : agg) : list pt :=
    flat_map (fun o => match o with Some k => [k] | None => [] end) (a_signers s)
    ++ map fst (a_deposits s) ++ map fst (a_withdrawals s).

  Lemma rmap_ok {E A B} (f : A -> res E B) l m : Forall2 (fun a b => f a = Ok b) l m -> rmap f l = Ok m.
  Proof. induction 1 as [|a b l m H1 H2 IH]; cbn; auto. rewrite H1. cbn. rewrite IH. reflexivity. Qed.
  Lemma rmap_panic {A B} (f : A -> res no_error B) l a : In a l -> f a = Panic -> rmap f l = Panic.
  Proof.
    induction l as [|x l IH]; [ intros [] |]. intros [->|H] Hp; cbn [rmap]; [ now rewrite Hp |].
    destruct (f x) as [b|[]|]; cbn [rbind]; auto. rewrite IH; auto.
  Qed.

  Section registered.
    Variable c : contract.
    Hypothesis Hreg : forall k i, hget pt_eqb (pk_indices c) k = Some i -> nth_error (pks c) i = Some k.
    Hypothesis Hsmall : Z.of_nat (length (pks c)) <= 2 ^ 32.

    Lemma index_u32_ok k : hget pt_eqb (pk_indices c) k <> None ->
      exists i, index_u32 c k = Ok i /\ nth_error (pks c) (Z.to_nat i) = Some k.
    Proof.
      intros H. unfold index_u32. destruct (hget pt_eqb (pk_indices c) k) as [i|] eqn:E; [| tauto ]. cbn [unwrap rbind].
      eexists. split; [ reflexivity |]. pose proof (Hreg k i E) as Hn.
      assert (i < length (pks c))%nat by (apply nth_error_Some; congruence).
      rewrite Z.mod_small by lia. now rewrite Nat2Z.id.
    Qed.
    Lemma index_u32_missing k : hget pt_eqb (pk_indices c) k = None -> index_u32 c k = Panic.
    Proof. unfold index_u32. now intros ->. Qed.

    Lemma slots l : (forall k, In (Some k) l -> hget pt_eqb (pk_indices c) k <> None) ->
      exists m, rmap (fun o : option pt => match o with
                       | Some k => do i <- index_u32 c k; Ok (Some i)
                       | None => Ok None
                       end) l = Ok m /\ length m = length l /\
        (forall acc, rfold (fun acc (index : option Z) =>
             do k <- match index with
                     | Some i => unwrap (nth_error (pks c) (Z.to_nat i))
                     | None => Ok pzero
                     end;
             Ok (sha_field (field_bytes acc ++ pt_bytes k))) m acc
         = @Ok no_error _ (fold_left (fun acc b => sha_field (field_bytes acc ++ b)) (map slot_bytes l) acc)).
    Proof.
      induction l as [|o l IH]; intros H.
      - exists []. cbn. auto.
      - destruct IH as (m & E & Hl & Hf); [ intros k Hk; apply H; now right |].
        destruct o as [k|].
        + destruct (index_u32_ok k) as (i & Ei & Hi); [ apply H; now left |].
          exists (Some i :: m). cbn [rmap rbind]. rewrite Ei. cbn [rbind]. rewrite E. cbn [rbind].
          split; [ reflexivity |]. split; [ cbn; now rewrite Hl |].
          intros acc. cbn [rfold]. rewrite Hi. cbn [unwrap rbind map fold_left]. apply Hf.
        + exists (None :: m). cbn [rmap rbind]. rewrite E. cbn [rbind].
          split; [ reflexivity |]. split; [ cbn; now rewrite Hl |].
          intros acc. cbn [rfold rbind map fold_left]. apply Hf.
    Qed.
    Lemma entries l : (forall k, In k (map fst l) -> hget pt_eqb (pk_indices c) k <> None) ->
      exists m, rmap (fun ka : pt * u64 => do i <- index_u32 c (fst ka); Ok (i, snd ka)) l = Ok m /\
        map snd m = map snd l /\
        (forall acc, rfold (fun acc (ia : Z * u64) =>
             do k <- unwrap (nth_error (pks c) (Z.to_nat (fst ia)));
             Ok (sha_field (field_bytes acc ++ pt_bytes k ++ u64_bytes (snd ia)))) m acc
         = @Ok no_error _ (fold_left (fun acc b => sha_field (field_bytes acc ++ b)) (map entry_bytes l) acc)).
    Proof.
      induction l as [|[k a] l IH]; intros H.
      - exists []. cbn. auto.
      - destruct IH as (m & E & Hl & Hf); [ intros k' Hk; apply H; now right |].
        destruct (index_u32_ok k) as (i & Ei & Hi); [ apply H; now left |].
        exists ((i, a) :: m). cbn [rmap rbind fst snd]. rewrite Ei. cbn [rbind]. rewrite E. cbn [rbind].
        split; [ reflexivity |]. split; [ cbn [map snd]; now rewrite Hl |].
        intros acc. cbn [rfold fst snd]. rewrite Hi. cbn [unwrap rbind map fold_left]. apply Hf.
    Qed.
  End registered.

  Lemma in_mentioned_signer s k : In (Some k) (a_signers s) -> In k (mentioned s).
  Proof.
    intros H. unfold mentioned. apply in_or_app. left. apply in_flat_map. exists (Some k). split; auto. now left.
  Qed.

  (** C39. Any aggregator state reached by API calls and any contract reached by joins and
      deposits. *)
  Theorem C39_block_public_inputs s kc calls c :
    reached dbg s -> history dbg kc calls c -> Z.of_nat (length (pks c)) <= 2 ^ 32 ->
    (forall k, In k (mentioned s) -> In k (pks c)) ->
    exists b ur tr sr,
      produce_block s c = Ok b /\
      root (a_utxo_tree s) = Ok ur /\ root (a_tx_tree s) = Ok tr /\ root (a_signer_tree s) = Ok sr /\
      utxo_tree_root b = ur /\ tx_tree_root b = tr /\ signer_tree_root b = sr /\ height b = a_height s /\
      length (b_signers b) = length (a_signers s) /\
      map snd (b_deposits b) = map snd (a_deposits s) /\
      map snd (b_withdrawals b) = map snd (a_withdrawals s) /\
      derive_public_inputs c b =
        Ok [Fof (Z.of_nat (length (a_signers s))); ur; tr; tr; sr;
            chain (map slot_bytes (a_signers s));
            chain (map entry_bytes (a_deposits s));
            chain (map entry_bytes (a_withdrawals s))].
  Proof.
    intros Hs Hc Hsmall Hin. pose proof (reached_inv dbg s Hs) as HI.
    destruct (C38_registry dbg kc calls c Hc) as (_ & _ & _ & Hidx & Hex).
    assert (Hreg : forall k i, hget pt_eqb (pk_indices c) k = Some i -> nth_error (pks c) i = Some k).
    { intros k i E. apply Hidx in E as [E _]. exact E. }
    assert (Hget : forall k, In k (mentioned s) -> hget pt_eqb (pk_indices c) k <> None).
    { intros k Hk. apply Hin, Hex in Hk as (i & ->). discriminate. }
    destruct (slots c Hreg Hsmall (a_signers s)) as (ms & Es & Hls & Hfs).
    { intros k Hk. apply Hget, in_mentioned_signer, Hk. }
    destruct (entries c Hreg Hsmall (a_deposits s)) as (md & Ed & Hld & Hfd).
    { intros k Hk. apply Hget. unfold mentioned. rewrite !in_app_iff. auto. }
    destruct (entries c Hreg Hsmall (a_withdrawals s)) as (mw & Ew & Hlw & Hfw).
    { intros k Hk. apply Hget. unfold mentioned. rewrite !in_app_iff. auto. }
    destruct (ri_coins _ _ HI) as (cc & w & HC).
    destruct (coin_inv_match dbg s cc w HC) as (cc' & w' & _ & Hur & _).
    destruct (reach_root dbg s HI) as (tr & Htr).
    assert (exists sr, root (a_signer_tree s) = Ok sr) as (sr & Hsr).
    { pose proof (ri_signer_root _ _ HI). unfold root. destruct (t_root (a_signer_tree s)) as [x|]; [ now exists x | tauto ]. }
    unfold produce_block. rewrite Hur, Htr, Hsr, Es, Ed, Ew. cbn [rbind].
    eexists. exists (merkle_root cc'), tr, sr. split; [ reflexivity |].
    do 3 (split; [ reflexivity |]).
    cbn [utxo_tree_root tx_tree_root signer_tree_root height b_signers b_deposits b_withdrawals].
    do 4 (split; [ reflexivity |]). split; [ exact Hls |]. split; [ exact Hld |]. split; [ exact Hlw |].
    unfold derive_public_inputs, signer_acc, amount_acc.
    cbn [utxo_tree_root tx_tree_root signer_tree_root height b_signers b_deposits b_withdrawals].
    rewrite Hfs, Hfd, Hfw. cbn [rbind]. rewrite Hls. reflexivity.
  Qed.

  (** A single unregistered key makes block production panic. *)
  Theorem C39_unregistered_panics s kc calls c k :
    history dbg kc calls c -> In k (mentioned s) -> ~ In k (pks c) -> produce_block s c = Panic.
  Proof.
    intros Hc Hk Hn. destruct (C38_registry dbg kc calls c Hc) as (_ & _ & _ & _ & Hex).
    assert (Hnone : hget pt_eqb (pk_indices c) k = None).
    { destruct (hget pt_eqb (pk_indices c) k) eqn:E; auto. exfalso. apply Hn, Hex. eauto. }
    pose proof (index_u32_missing c k Hnone) as Hp.
    unfold produce_block.
    destruct (root (a_utxo_tree s)), (root (a_tx_tree s)), (root (a_signer_tree s)); auto.
    unfold mentioned in Hk. rewrite !in_app_iff in Hk.
    set (f1 := fun o : option pt => _). set (f2 := fun ka : pt * u64 => _).
    assert (N1 : forall e, rmap f1 (a_signers s) <> Err e) by (intros []).
    assert (N2 : forall l e, rmap f2 l <> Err e) by (intros l []).
    destruct Hk as [Hk|Hk].
    - apply in_flat_map in Hk as ([k'|] & H1 & H2); [| destruct H2 ]. destruct H2 as [->|[]].
      rewrite (rmap_panic f1 _ (Some k) H1); [ reflexivity |]. unfold f1. now rewrite Hp.
    - assert (Hpe : forall l, In k (map fst l) -> rmap f2 l = Panic).
      { intros l Hl. apply in_map_iff in Hl as ([k' x] & Ek & Hl). cbn in Ek. subst k'.
        apply (rmap_panic f2 _ (k, x) Hl). unfold f2. cbn [fst]. now rewrite Hp. }
      destruct (rmap f1 (a_signers s)) as [m1|[]|]; cbn [rbind]; auto.
      destruct Hk as [Hk|Hk].
      + now rewrite Hpe.
      + destruct (rmap f2 (a_deposits s)) as [m2|[]|]; cbn [rbind]; auto. now rewrite Hpe.
  Qed.
End props.

Print Assumptions C39_block_public_inputs.
Print Assumptions C39_unregistered_panics.

(** Property C131: every epoch that is proved can be published, as long as the keys it mentions are
    registered. *)
From Coq Require Import ZArith List Bool Lia Permutation.
Import ListNotations.
From Verif Require Import Base Env Circuit SparseMT SparseMTSpec Data DataSpec DataFacts Gadgets Schnorr Contract ContractSpec
  Aggregator AggCircuit AggCircuitFacts AggCircuitSpec CircuitRun PropsCircuit PropsCircuit2 PropsCircuit3 TruthSpec PropsTruth
  Claims PropsClaims PropsMute.
Open Scope Z_scope.

Section publish.
  Context {hs : Hashes} {G : Curve}.
  Variable contract : pt.

  (** the keys a block about the transactions [xs] has to name *)
  Definition named (to : bool) (final : F) (xs : list agg_inputsV) (k : pt) : Prop :=
    (In k (run_signers contract final xs) /\ k <> pzero) \/
    (to = false /\ (In k (map fst (run_deposits contract xs)) \/ In k (map fst (run_withdrawals contract xs)))).

  Lemma registered_index (c : Contract.contract) k : In k (pks c) -> exists i, key_of c (Z.to_nat i) = Some k.
  Proof.
    intros H. apply In_nth_error in H as (n & H). exists (Z.of_nat n). unfold key_of. rewrite Nat2Z.id. exact H.
  Qed.
  Lemma signers_exist c keys : (forall k, In k keys -> k <> pzero -> In k (pks c)) -> exists l, signers_are c l keys.
  Proof.
    induction keys as [|k keys IH]; intros H; [ exists []; constructor |].
    destruct IH as (l & Hl); [ intros; apply H; [ now right | assumption ] |].
    destruct (pt_eqb k pzero) eqn:E.
    - apply pt_eqb_eq in E. exists (None :: l). constructor; [ exact E | exact Hl ].
    - apply pt_eqb_neq in E. destruct (registered_index c k (H k (or_introl eq_refl) E)) as (i & Hi).
      exists (Some i :: l). constructor; [ exact Hi | exact Hl ].
  Qed.
  Lemma entries_exist c es : (forall k, In k (map fst es) -> In k (pks c)) -> (forall e, In e es -> 0 <= snd e < 2 ^ 64) ->
    exists l, entries_are c l es.
  Proof.
    induction es as [|[k a] es IH]; intros H Ha; [ exists []; constructor |].
    destruct IH as (l & Hl); [ intros k' Hk; apply H; now right | intros e He; apply Ha; now right |].
    destruct (registered_index c k (H k (or_introl eq_refl))) as (i & Hi).
    exists ((i, u64of a) :: l). constructor; [| exact Hl ]. cbn [fst snd]. split; [ exact Hi |].
    apply zval_u64of_small. exact (Ha (k, a) (or_introl eq_refl)).
  Qed.
  Lemma signer_acc_ok c l keys : signers_are c l keys -> forall a0,
    @rfold no_error _ _ (fun acc (index : option Z) =>
             rbind (match index with Some i => unwrap (nth_error (pks c) (Z.to_nat i)) | None => Ok pzero end)
               (fun k => Ok (sha_field (field_bytes acc ++ pt_bytes k)))) l a0 = Ok (chain_from a0 (map pt_bytes keys)).
  Proof.
    induction 1 as [|o k l keys Hk _ IH]; intros a0; [ reflexivity |]. cbn [rfold].
    destruct o as [i|].
    - unfold key_of in Hk. rewrite Hk. cbn [unwrap rbind]. apply IH.
    - subst k. cbn [rbind]. apply IH.
  Qed.
  Lemma amount_acc_ok c l es : entries_are c l es -> forall a0,
    @rfold no_error _ _ (fun acc (ia : Z * u64) =>
             rbind (unwrap (nth_error (pks c) (Z.to_nat (fst ia))))
               (fun k => Ok (sha_field (field_bytes acc ++ pt_bytes k ++ u64_bytes (snd ia))))) l a0 = Ok (chain_from a0 (map amount_bytes es)).
  Proof.
    induction 1 as [|[i a] [k v] l es [Hk Hv] _ IH]; intros a0; [ reflexivity |]. cbn [rfold fst snd] in *.
    unfold key_of in Hk. rewrite Hk. cbn [unwrap rbind]. rewrite IH. subst v. reflexivity.
  Qed.
  Lemma derive_ok c b keys deps wds :
    signers_are c (b_signers b) keys -> entries_are c (b_deposits b) deps -> entries_are c (b_withdrawals b) wds ->
    derive_public_inputs c b =
      Ok [Fof (Z.of_nat (length (b_signers b))); utxo_tree_root b; tx_tree_root b; tx_tree_root b; signer_tree_root b;
          chain_from Fzero (map pt_bytes keys); chain_from Fzero (map amount_bytes deps); chain_from Fzero (map amount_bytes wds)].
  Proof.
    intros Hs Hd Hw. unfold derive_public_inputs, signer_acc, amount_acc.
    rewrite (signer_acc_ok _ _ _ Hs). cbn [rbind]. rewrite (amount_acc_ok _ _ _ Hd). cbn [rbind].
    rewrite (amount_acc_ok _ _ _ Hw). reflexivity.
  Qed.

  (** the amounts a full-circuit run puts into its chains are 64-bit numbers *)
  Lemma run_deposits_range z bs z' : ivc contract false (z_list z) bs (z_list z') ->
    forall e, In e (run_deposits contract (concat bs)) -> 0 <= snd e < 2 ^ 64.
  Proof.
    intros H e He. pose proof (C61_amounts_fit contract z bs z' H) as Hfit.
    unfold run_deposits in He. apply in_flat_map in He as (x & Hx & He).
    destruct (by_contract contract x); [| destruct He ]. apply in_map_iff in He as (u & <- & Hu). cbn [snd].
    split; [ apply zval_range |]. apply (proj2 (Hfit x Hx)). unfold realV in Hu. exact (proj1 (proj1 (filter_In _ _ _) Hu)).
  Qed.
  Lemma run_withdrawals_range z bs z' : ivc contract false (z_list z) bs (z_list z') ->
    forall e, In e (run_withdrawals contract (concat bs)) -> 0 <= snd e < 2 ^ 64.
  Proof.
    intros H e He. pose proof (C61_amounts_fit contract z bs z' H) as Hfit.
    unfold run_withdrawals in He. apply in_flat_map in He as (x & Hx & He).
    destruct (withdrawn contract x =? 0); [ destruct He |]. destruct He as [<-|[]]. cbn [snd].
    split; [ apply withdrawn_nonneg |]. exact (proj1 (Hfit x Hx)).
  Qed.

  (** ** C131: a proof that starts an epoch and whose transaction root is the one that was signed
      can be published: if every key it has to name is registered, there is a block of any height from
      which the contract derives exactly the state the proof ends in, and which names exactly the signers, deposits and withdrawals of
      the transactions (none of the latter two in the transfer-only circuit). *)
  Theorem C131_publishable to c z bs z' (h : u64) :
    ivc contract to (z_list z) bs (z_list z') -> begins z -> z_tx z' = z_tx_final z ->
    let xs := concat bs in
    (forall k, named to (z_tx_final z) xs k -> In k (pks c)) ->
    exists b,
      derive_public_inputs c b = Ok (z_list z') /\
      height b = h /\
      length (b_signers b) = length xs /\
      signers_are c (b_signers b) (run_signers contract (z_tx_final z) xs) /\
      entries_are c (b_deposits b) (if to then [] else run_deposits contract xs) /\
      entries_are c (b_withdrawals b) (if to then [] else run_withdrawals contract xs).
  Proof.
    intros H (B1 & B2 & B3 & B4 & B5) Ht xs Hreg.
    destruct (C59_tx_root_chain contract to z bs z' H B1 B2) as (F1 & F2 & _). fold xs in F2.
    pose proof H as Hrun. apply ivc_crun in Hrun as (z1 & E1 & Hrun). apply z_list_inj in E1. subst z1. fold xs in Hrun.
    destruct (run_chains contract to xs z z' Hrun) as (R1 & R2 & R3).
    destruct (signers_exist c (run_signers contract (z_tx_final z) xs)) as (sl & Hs).
    { intros k Hk Hn. apply Hreg. left. auto. }
    assert (Hdw : exists dl wl, entries_are c dl (if to then [] else run_deposits contract xs) /\
                                entries_are c wl (if to then [] else run_withdrawals contract xs)).
    { destruct to.
      - exists [], []. split; constructor.
      - destruct (entries_exist c (run_deposits contract xs)) as (dl & Hd);
          [ intros k Hk; apply Hreg; right; auto | exact (run_deposits_range z bs z' H) |].
        destruct (entries_exist c (run_withdrawals contract xs)) as (wl & Hw);
          [ intros k Hk; apply Hreg; right; auto | exact (run_withdrawals_range z bs z' H) |].
        exists dl, wl. auto. }
    destruct Hdw as (dl & wl & Hd & Hw).
    set (b := {| utxo_tree_root := z_utxo z'; tx_tree_root := z_tx_final z; signer_tree_root := z_signer z';
                 b_signers := sl; height := h; b_deposits := dl; b_withdrawals := wl |}).
    assert (Hlen : length sl = length xs).
    { transitivity (length (run_signers contract (z_tx_final z) xs)); [| unfold run_signers; apply map_length ].
      clear -Hs. unfold signers_are in Hs. induction Hs; cbn [length]; congruence. }
    exists b. split; [| repeat split; assumption ].
    rewrite (derive_ok c b _ _ _ Hs Hd Hw). unfold z_list. cbn [b b_signers utxo_tree_root tx_tree_root signer_tree_root].
    rewrite Hlen, F2, Ht, F1, R1, R2, R3, B3, B4, B5. unfold run_signers. rewrite map_map.
    destruct to; [ reflexivity |]. rewrite run_deposits_bytes, run_withdrawals_bytes. reflexivity.
  Qed.
  (** the registration of the keys is also needed, unless explicit hash inputs collide: a block that
      the proof ends in names registered keys only *)
  Theorem C131_registered_needed c b z bs z' :
    ivc contract false (z_list z) bs (z_list z') -> begins z ->
    derive_public_inputs c b = Ok (z_list z') ->
    let xs := concat bs in
    (z_tx z' = z_tx_final z /\ forall k, named false (z_tx_final z) xs k -> In k (pks c)) \/
    exists keys deps wds,
      signers_are c (b_signers b) keys /\ entries_are c (b_deposits b) deps /\ entries_are c (b_withdrawals b) wds /\
      (sha_event (chain_inputs Fzero (map pt_bytes keys) ++ chain_inputs Fzero (map pt_bytes (run_signers contract (z_tx_final z) xs))) \/
       sha_event (chain_inputs Fzero (map amount_bytes deps) ++ chain_inputs Fzero (map amount_bytes (run_deposits contract xs))) \/
       sha_event (chain_inputs Fzero (map amount_bytes wds) ++ chain_inputs Fzero (map amount_bytes (run_withdrawals contract xs)))).
  Proof.
    intros H B Hd xs.
    destruct (C82_truthful_block contract c b z bs z' H B Hd) as (Ef & _ & keys & deps & wds & K & D & W & Ck & Cd & Cw).
    destruct (derive_inv c b z' Hd) as (_ & _ & _ & _ & _ & _ & _ & _ & Et & _).
    fold xs in Ck, Cd, Cw. rewrite <- Ef in Ck.
    destruct Ck as [Ck|Ck]; [| right; exists keys, deps, wds; auto 8 ].
    destruct Cd as [Cd|Cd]; [| right; exists keys, deps, wds; auto 8 ].
    destruct Cw as [Cw|Cw]; [| right; exists keys, deps, wds; auto 8 ].
    left. split; [ congruence |].
    assert (Hent : forall l es, entries_are c l es -> forall k, In k (map fst es) -> In k (pks c)).
    { induction 1 as [|ia ka l es [E _] _ IH]; intros k Hk; [ destruct Hk |]. destruct Hk as [<-|Hk]; [| auto ].
      exact (nth_error_In _ _ E). }
    intros k [[Hk Hn]|[_ [Hk|Hk]]].
    - rewrite <- Ck in Hk. clear -K Hk Hn. induction K as [|o k' l keys E _ IH]; [ destruct Hk |].
      destruct Hk as [->|Hk]; [| auto ]. destruct o as [i|]; [ exact (nth_error_In _ _ E) | contradiction ].
    - rewrite <- Cd in Hk. exact (Hent _ _ D k Hk).
    - rewrite <- Cw in Hk. exact (Hent _ _ W k Hk).
  Qed.
  (** ** withheld signatures, up to the block *)
  Lemma claims_deposits xs ys : Forall2 same_claim xs ys -> run_deposits contract ys = run_deposits contract xs.
  Proof.
    induction 1 as [|x y xs ys (E1 & E2 & _) _ IH]; [ reflexivity |]. unfold run_deposits in *. cbn [flat_map].
    rewrite IH. unfold by_contract. now rewrite E1, E2.
  Qed.
  Lemma claims_withdrawals xs ys : Forall2 same_claim xs ys -> run_withdrawals contract ys = run_withdrawals contract xs.
  Proof.
    induction 1 as [|x y xs ys (E1 & E2 & _) _ IH]; [ reflexivity |]. unfold run_withdrawals in *. cbn [flat_map].
    rewrite IH. unfold withdrawn. now rewrite E1, E2.
  Qed.
  Lemma claims_signers final xs ys : Forall2 same_claim xs ys -> run_signers contract final ys = run_signers contract final xs.
  Proof.
    induction 1 as [|x y xs ys (E1 & E2 & E3 & _) _ IH]; [ reflexivity |]. unfold run_signers in *. cbn [map].
    rewrite IH. unfold is_applied, is_signed, by_contract, given_signature. now rewrite E1, E2, E3.
  Qed.
  Lemma mute_deposits l : run_deposits contract (map mute l) = run_deposits contract l.
  Proof. unfold run_deposits. induction l as [|x l IH]; [ reflexivity |]. cbn [map flat_map]. rewrite IH. reflexivity. Qed.
  Lemma mute_withdrawals l : run_withdrawals contract (map mute l) = run_withdrawals contract l.
  Proof. unfold run_withdrawals. induction l as [|x l IH]; [ reflexivity |]. cbn [map flat_map]. rewrite IH. reflexivity. Qed.
  Lemma mute_signers final l : (forall x, In x l -> x_sender x <> contract) ->
    run_signers contract final (map mute l) = repeat pzero (length l).
  Proof.
    intros H. unfold run_signers. induction l as [|x l IH]; [ reflexivity |]. cbn [map length repeat].
    rewrite IH by (intros y Hy; apply H; now right). rewrite mute_applied. unfold by_contract.
    rewrite (proj2 (pt_eqb_neq (x_sender x) contract)) by (apply H; now left). reflexivity.
  Qed.
  (** The signatures of any transactions at the end of an epoch, not sent by the contract, can be
      withheld, and the result published: the block reports the same transaction root, deposits and
      withdrawals, no signer for these transactions, and the coins as they were before them. *)
  Theorem C131_withheld_and_published c z (cu : contents utxoV_cfg) (ct : contents txV_cfg) (ck : contents keyV_cfg) xs last (h : u64) :
    p <= q -> z_utxo z = merkle_root cu -> z_tx z = merkle_root ct -> z_signer z = merkle_root ck ->
    begins z -> consistent contract false z cu ct ck (xs ++ last) -> (forall x, In x last -> x_sender x <> contract) ->
    let final := z_tx_final z in
    final = merkle_root (written txV_cfg ct (tx_writes Fzero (xs ++ last))) ->
    (forall k, named false final (xs ++ last) k -> In k (pks c)) ->
    exists ys zl' b,
      Forall2 same_claim (xs ++ map mute last) ys /\
      ivc contract false (z_list z) [ys] zl' /\ derive_public_inputs c b = Ok zl' /\ height b = h /\
      tx_tree_root b = final /\
      signers_are c (b_signers b) (run_signers contract final xs ++ repeat pzero (length last)) /\
      entries_are c (b_deposits b) (run_deposits contract (xs ++ last)) /\
      entries_are c (b_withdrawals b) (run_withdrawals contract (xs ++ last)) /\
      utxo_tree_root b = merkle_root (written utxoV_cfg cu (flat_map (coin_writes contract final) xs)).
  Proof.
    intros Hpq Hu Ht Hk HB HC Hlast final Hfin Hreg.
    destruct (C130_last_ones contract false z cu ct ck xs last Hpq Hu Ht Hk HC Hlast) as (ys & z2 & S1 & S2 & S3 & S4).
    assert (Hrun : ivc contract false (z_list z) [ys] (z_list z2)) by (apply S2; cbn [concat]; apply app_nil_r).
    pose proof HB as (B1 & B2 & _).
    assert (Eroot : z_tx z2 = z_tx_final z).
    { rewrite S3. unfold outcome. cbn [z_tx]. rewrite B1. symmetry. exact Hfin. }
    assert (Ed : run_deposits contract ys = run_deposits contract (xs ++ last)).
    { rewrite (claims_deposits _ _ S1). unfold run_deposits. rewrite !flat_map_app. f_equal. apply mute_deposits. }
    assert (Ew : run_withdrawals contract ys = run_withdrawals contract (xs ++ last)).
    { rewrite (claims_withdrawals _ _ S1). unfold run_withdrawals. rewrite !flat_map_app. f_equal. apply mute_withdrawals. }
    assert (Es : run_signers contract final ys = run_signers contract final xs ++ repeat pzero (length last)).
    { rewrite (claims_signers final _ _ S1). unfold run_signers. rewrite map_app. f_equal. now apply mute_signers. }
    assert (Ec : concat [ys] = ys) by (cbn [concat]; apply app_nil_r).
    destruct (C131_publishable false c z [ys] z2 h Hrun HB Eroot) as (b & D1 & D2 & D3 & D4 & D5 & D6).
    { rewrite Ec. intros k [[Hk' Hn]|[_ [Hk'|Hk']]]; apply Hreg.
      - left. split; [| exact Hn ]. fold final in Hk'. rewrite Es in Hk'. unfold run_signers in *. rewrite map_app.
        apply in_app_iff in Hk' as [Hk'|Hk']; [ apply in_or_app; now left |].
        apply repeat_spec in Hk'. contradiction.
      - right. split; [ reflexivity |]. left. now rewrite <- Ed.
      - right. split; [ reflexivity |]. right. now rewrite <- Ew. }
    rewrite Ec in D3, D4, D5, D6. fold final in D4. rewrite Es in D4. rewrite Ed in D5. rewrite Ew in D6.
    destruct (derive_inv c b z2 D1) as (_ & _ & _ & _ & _ & _ & _ & Eu & Et & _).
    exists ys, (z_list z2), b. split; [ exact S1 |]. split; [ exact Hrun |]. split; [ exact D1 |]. split; [ exact D2 |].
    split; [ unfold final; congruence |]. split; [ exact D4 |]. split; [ exact D5 |]. split; [ exact D6 |].
    rewrite <- Eu, S4. reflexivity.
  Qed.
End publish.

Print Assumptions C131_publishable.
Print Assumptions C131_registered_needed.
Print Assumptions C131_withheld_and_published.

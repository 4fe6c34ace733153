(** Properties C82 (what a block accepted by the contract says is true) and C83 (value over a
    sequence of blocks). *)
From Coq Require Import ZArith List Bool Lia Permutation.
Import ListNotations.
From Verif Require Import Base Env Circuit SparseMT SparseMTSpec Data DataSpec DataFacts Gadgets Schnorr Contract ContractSpec
  Aggregator AggCircuit AggCircuitFacts AggCircuitSpec CircuitRun PropsCircuit PropsCircuit2 TruthSpec.
Open Scope Z_scope.

Section chains.
  Context {hs : Hashes} {G : Curve}.

  Lemma field_bytes_length x : length (field_bytes x) = 32%nat.
  Proof. apply bytes_le_length. Qed.
  Lemma field_bytes_inj x y : field_bytes x = field_bytes y -> x = y.
  Proof.
    unfold field_bytes. intros E. apply zval_inj. pose proof (F_range x). pose proof (F_range y). pose proof p_bounds as [_ P].
    assert (2 ^ 254 < 256 ^ Z.of_nat 32) by reflexivity.
    apply (bytes_le_inj 32); [ lia | lia | exact E ].
  Qed.
  Lemma pt_bytes_length k : length (pt_bytes k) = 65%nat.
  Proof. unfold pt_bytes. destruct (affine k) as [[x y]|]; rewrite !app_length, !field_bytes_length; reflexivity. Qed.
  Lemma pt_bytes_inj k k' : pt_bytes k = pt_bytes k' -> k = k'.
  Proof.
    unfold pt_bytes. intros E. apply affine_inj. destruct (affine k) as [[x y]|], (affine k') as [[x' y']|].
    - apply app_inj_len in E as [E1 E]; [| now rewrite !field_bytes_length ].
      apply app_inj_len in E as [E2 _]; [| now rewrite !field_bytes_length ].
      now rewrite (field_bytes_inj _ _ E1), (field_bytes_inj _ _ E2).
    - apply app_inj_len in E as [E1 E]; [| now rewrite !field_bytes_length ].
      apply app_inj_len in E as [E2 E]; [| now rewrite !field_bytes_length ]. discriminate E.
    - apply app_inj_len in E as [E1 E]; [| now rewrite !field_bytes_length ].
      apply app_inj_len in E as [E2 E]; [| now rewrite !field_bytes_length ]. discriminate E.
    - reflexivity.
  Qed.
  Lemma amount_bytes_inj ka kb : 0 <= snd ka < 2 ^ 64 -> 0 <= snd kb < 2 ^ 64 -> amount_bytes ka = amount_bytes kb -> ka = kb.
  Proof.
    destruct ka as [k a], kb as [k' b]. unfold amount_bytes. cbn [fst snd]. intros Ha Hb E.
    apply app_inj_len in E as [E1 E2]; [| now rewrite !pt_bytes_length ].
    rewrite (pt_bytes_inj _ _ E1). f_equal. apply (bytes_le_inj 8); [ exact Ha | exact Hb | exact E2 ].
  Qed.

  Lemma chain_inputs_app acc l b : chain_inputs acc (l ++ [b]) = chain_inputs acc l ++ [field_bytes (chain_from acc l) ++ b].
  Proof. revert acc. induction l as [|x l IH]; intros acc; [ reflexivity |]. cbn [app chain_inputs]. rewrite IH. reflexivity. Qed.
  Lemma chain_from_app acc l b : chain_from acc (l ++ [b]) = sha_field (field_bytes (chain_from acc l) ++ b).
  Proof. unfold chain_from. rewrite fold_left_app. reflexivity. Qed.
  Lemma list_eq_dec_Z (a b : list Z) : {a = b} + {a <> b}.
  Proof. apply list_eq_dec. exact Z.eq_dec. Qed.
  Lemma sha_event_mono l l' : incl l l' -> sha_event l -> sha_event l'.
  Proof.
    intros H [(a & b & Ha & Hb & Hn & E)|(a & Ha & E)]; [ left; exists a, b | right; exists a ]; auto.
  Qed.
  (** chains from the starting value determine the list *)
  Lemma chain_sound l l' : chain_from Fzero l = chain_from Fzero l' ->
    l = l' \/ sha_event (chain_inputs Fzero l ++ chain_inputs Fzero l').
  Proof.
    revert l'. induction l as [|b l IH] using rev_ind; intros l'; destruct l' as [|b' l' _] using rev_ind; intros E.
    - now left.
    - right. right. eexists. split; [| rewrite chain_from_app in E; symmetry; exact E ].
      rewrite chain_inputs_app. apply in_or_app. right. apply in_or_app. right. left. reflexivity.
    - right. right. eexists. split; [| rewrite chain_from_app in E; exact E ].
      rewrite chain_inputs_app. apply in_or_app. left. apply in_or_app. right. left. reflexivity.
    - rewrite !chain_from_app in E. rewrite !chain_inputs_app.
      destruct (list_eq_dec_Z (field_bytes (chain_from Fzero l) ++ b) (field_bytes (chain_from Fzero l') ++ b')) as [Eb|Nb].
      + apply app_inj_len in Eb as [E1 E2]; [| now rewrite !field_bytes_length ]. apply field_bytes_inj in E1.
        destruct (IH l' E1) as [->|C]; [ left; now rewrite E2 | right ].
        eapply sha_event_mono; [| exact C ]. intros x Hx. rewrite !in_app_iff in *. tauto.
      + right. left. eexists _, _. split; [| split; [| split; [ exact Nb | exact E ] ] ]; rewrite !in_app_iff; cbn [In]; auto.
  Qed.

  Lemma unwrap_some {E A} (x : option A) (k : A) : @unwrap E A x = Ok k -> x = Some k.
  Proof. destruct x; cbn; congruence. Qed.
  (** what the contract computes *)
  Lemma signer_acc_chain c l : forall a0 r,
    @rfold no_error _ _ (fun acc (index : option Z) =>
             rbind (match index with Some i => unwrap (nth_error (pks c) (Z.to_nat i)) | None => Ok pzero end)
               (fun k => Ok (sha_field (field_bytes acc ++ pt_bytes k)))) l a0 = Ok r ->
    exists keys, signers_are c l keys /\ r = chain_from a0 (map pt_bytes keys).
  Proof.
    induction l as [|o l IH]; intros a0 r E; cbn [rfold] in E.
    - exists []. split; [ constructor |]. cbn. congruence.
    - destruct (match o with Some i => unwrap (nth_error (pks c) (Z.to_nat i)) | None => Ok pzero end) as [k| |] eqn:Ek;
        cbn [rbind] in E; [| discriminate E | discriminate E ].
      apply IH in E as (keys & H1 & H2). exists (k :: keys). split; [| exact H2 ].
      constructor; [| exact H1 ]. destruct o as [i|]; cbv beta iota; [| congruence ]. exact (unwrap_some _ _ Ek).
  Qed.
  Lemma amount_acc_chain c l : forall a0 r,
    @rfold no_error _ _ (fun acc (ia : Z * u64) =>
             rbind (unwrap (nth_error (pks c) (Z.to_nat (fst ia))))
               (fun k => Ok (sha_field (field_bytes acc ++ pt_bytes k ++ u64_bytes (snd ia))))) l a0 = Ok r ->
    exists es, entries_are c l es /\ r = chain_from a0 (map amount_bytes es).
  Proof.
    induction l as [|o l IH]; intros a0 r E; cbn [rfold] in E.
    - exists []. split; [ constructor |]. cbn. congruence.
    - destruct (unwrap (nth_error (pks c) (Z.to_nat (fst o)))) as [k| |] eqn:Ek;
        cbn [rbind] in E; [| discriminate E | discriminate E ].
      apply IH in E as (es & H1 & H2). exists ((k, zval (snd o)) :: es). split; [| exact H2 ].
      constructor; [| exact H1 ]. split; [| reflexivity ]. unfold key_of. cbn [fst].
      exact (unwrap_some _ _ Ek).
  Qed.
  Lemma derive_inv c b (z : zstate) : derive_public_inputs c b = Ok (z_list z) ->
    exists keys deps wds,
      signers_are c (b_signers b) keys /\ entries_are c (b_deposits b) deps /\ entries_are c (b_withdrawals b) wds /\
      z_step z = Fof (Z.of_nat (length (b_signers b))) /\ z_utxo z = utxo_tree_root b /\ z_tx z = tx_tree_root b /\
      z_tx_final z = tx_tree_root b /\ z_signer z = signer_tree_root b /\
      z_signer_acc z = chain_from Fzero (map pt_bytes keys) /\
      z_deposit z = chain_from Fzero (map amount_bytes deps) /\ z_withdrawal z = chain_from Fzero (map amount_bytes wds).
  Proof.
    unfold derive_public_inputs. intros E.
    destruct (signer_acc c (b_signers b)) as [a1| |] eqn:E1; cbn [rbind] in E; try discriminate E.
    destruct (amount_acc c (b_deposits b)) as [a2| |] eqn:E2; cbn [rbind] in E; try discriminate E.
    destruct (amount_acc c (b_withdrawals b)) as [a3| |] eqn:E3; cbn [rbind] in E; try discriminate E.
    apply signer_acc_chain in E1 as (keys & K1 & K2). apply amount_acc_chain in E2 as (deps & D1 & D2).
    apply amount_acc_chain in E3 as (wds & W1 & W2).
    assert (Ez : z = mkZ (Fof (Z.of_nat (length (b_signers b)))) (utxo_tree_root b) (tx_tree_root b) (tx_tree_root b)
                         (signer_tree_root b) a1 a2 a3).
    { apply z_list_inj. unfold z_list at 2. cbn [z_step z_utxo z_tx z_tx_final z_signer z_signer_acc z_deposit z_withdrawal]. congruence. }
    rewrite Ez. exists keys, deps, wds. cbn [z_step z_utxo z_tx z_tx_final z_signer z_signer_acc z_deposit z_withdrawal].
    repeat split; assumption.
  Qed.
  Lemma map_bytes_inj es es' : (forall e, In e es -> 0 <= snd e < 2 ^ 64) -> (forall e, In e es' -> 0 <= snd e < 2 ^ 64) ->
    map amount_bytes es = map amount_bytes es' -> es = es'.
  Proof.
    revert es'. induction es as [|e es IH]; intros [|e' es'] H H' E; try discriminate E; [ reflexivity |].
    cbn [map] in E. assert (E1 : amount_bytes e = amount_bytes e') by congruence.
    assert (E2 : map amount_bytes es = map amount_bytes es') by congruence.
    rewrite (amount_bytes_inj e e') by (auto using in_eq). f_equal. apply IH; auto using in_cons.
  Qed.
  Lemma map_pt_bytes_inj l l' : map pt_bytes l = map pt_bytes l' -> l = l'.
  Proof.
    revert l'. induction l as [|e l IH]; intros [|e' l'] E; try discriminate E; [ reflexivity |].
    cbn [map] in E. assert (E1 : pt_bytes e = pt_bytes e') by congruence.
    assert (E2 : map pt_bytes l = map pt_bytes l') by congruence.
    now rewrite (pt_bytes_inj e e' E1), (IH l' E2).
  Qed.
  Lemma entries_range c l es : entries_are c l es -> forall e, In e es -> 0 <= snd e < 2 ^ 64.
  Proof.
    induction 1 as [|[i a] [k v] l es [_ E] _ IH]; intros e He; [ destruct He |].
    destruct He as [<-|He]; [| auto ]. cbn [snd] in *. rewrite <- E. apply u64_range.
  Qed.
End chains.

Section truth.
  Context {hs : Hashes} {G : Curve}.
  Variable contract : pt.

  Lemma run_deposits_bytes xs : flat_map (deposit_entries contract) xs = map amount_bytes (run_deposits contract xs).
  Proof.
    unfold run_deposits. induction xs as [|x xs IH]; [ reflexivity |]. cbn [flat_map]. rewrite map_app, IH. f_equal.
    unfold deposit_entries. destruct (by_contract contract x); [| reflexivity ]. rewrite map_map. reflexivity.
  Qed.
  Lemma run_withdrawals_bytes xs : flat_map (withdrawal_entries contract) xs = map amount_bytes (run_withdrawals contract xs).
  Proof.
    unfold run_withdrawals. induction xs as [|x xs IH]; [ reflexivity |]. cbn [flat_map]. rewrite map_app, IH. f_equal.
    unfold withdrawal_entries. destruct (withdrawn contract x =? 0); reflexivity.
  Qed.

  Lemma vtotal_nonneg l : 0 <= vtotal l.
  Proof. induction l as [|u l IH]; cbn [vtotal]; [ lia |]. pose proof (F_range (v_amount u)). destruct (v_dummy u); lia. Qed.
  Lemma withdrawn_nonneg x : 0 <= withdrawn contract x.
  Proof. apply vtotal_nonneg. Qed.

  (** ** C82: a proof that ends in the public inputs the contract derives from a block shows that
      the block tells the truth about the transactions, the signers, the deposits and the
      withdrawals, or two hash inputs that occur collide. *)
  Theorem C82_truthful_block c b z bs z' :
    ivc contract false (z_list z) bs (z_list z') -> begins z ->
    derive_public_inputs c b = Ok (z_list z') ->
    let xs := concat bs in
    let final := tx_tree_root b in
    z_tx_final z = final /\
    (* the transactions *)
    (Z.of_nat (length xs) <= 4096 ->
     final = merkle_root (txs_of xs) \/ collides txV_cfg tx_encV (empty_contents txV_cfg) (tx_writes Fzero xs)) /\
    exists keys deps wds,
      signers_are c (b_signers b) keys /\ entries_are c (b_deposits b) deps /\ entries_are c (b_withdrawals b) wds /\
      (keys = run_signers contract final xs \/
       sha_event (chain_inputs Fzero (map pt_bytes keys) ++ chain_inputs Fzero (map pt_bytes (run_signers contract final xs)))) /\
      (deps = run_deposits contract xs \/
       sha_event (chain_inputs Fzero (map amount_bytes deps) ++ chain_inputs Fzero (map amount_bytes (run_deposits contract xs)))) /\
      (wds = run_withdrawals contract xs \/
       sha_event (chain_inputs Fzero (map amount_bytes wds) ++ chain_inputs Fzero (map amount_bytes (run_withdrawals contract xs)))).
  Proof.
    intros H (B1 & B2 & B3 & B4 & B5) Hd xs final.
    destruct (derive_inv c b z' Hd) as (keys & deps & wds & K & D & W & _ & _ & Et & Ef & _ & Ka & Da & Wa).
    destruct (C59_tx_root_chain contract false z bs z' H B1 B2) as (F1 & _ & F2). fold xs in F2.
    assert (Efz : z_tx_final z = final) by (unfold final; congruence).
    split; [ exact Efz |]. split.
    { intros Hn. destruct F2 as [C|[C _]]; [ pose proof p_bounds; lia | right; exact C | left ].
      unfold final. rewrite <- Et. apply C. exact Hn. }
    exists keys, deps, wds. split; [ exact K |]. split; [ exact D |]. split; [ exact W |].
    pose proof (C61_amounts_fit contract z bs z' H) as Hfit. fold xs in Hfit.
    pose proof H as Hrun. apply ivc_crun in Hrun as (z1 & E1 & Hrun). apply z_list_inj in E1. subst z1. fold xs in Hrun.
    destruct (run_chains contract false xs z z' Hrun) as (R1 & R2 & R3).
    split; [| split ].
    - destruct (chain_sound (map pt_bytes keys) (map pt_bytes (run_signers contract final xs))) as [E|E]; [| left; now apply map_pt_bytes_inj | now right ].
      rewrite <- Ka, R1, B3, Efz. unfold run_signers. rewrite map_map. reflexivity.
    - destruct (chain_sound (map amount_bytes deps) (map amount_bytes (run_deposits contract xs))) as [E|E]; [| left | now right ].
      + rewrite <- Da, R2, B4, run_deposits_bytes. reflexivity.
      + apply map_bytes_inj; [ exact (entries_range _ _ _ D) | | exact E ].
        intros e He. unfold run_deposits in He. apply in_flat_map in He as (x & Hx & He).
        destruct (by_contract contract x); [| destruct He ]. apply in_map_iff in He as (u & <- & Hu). cbn [snd].
        split; [ apply zval_range |]. apply (proj2 (Hfit x Hx)). unfold realV in Hu. exact (proj1 (proj1 (filter_In _ _ _) Hu)).
    - destruct (chain_sound (map amount_bytes wds) (map amount_bytes (run_withdrawals contract xs))) as [E|E]; [| left | now right ].
      + rewrite <- Wa, R3, B5, run_withdrawals_bytes. reflexivity.
      + apply map_bytes_inj; [ exact (entries_range _ _ _ W) | | exact E ].
        intros e He. unfold run_withdrawals in He. apply in_flat_map in He as (x & Hx & He).
        destruct (withdrawn contract x =? 0); [ destruct He |]. destruct He as [<-|[]]. cbn [snd].
        split; [ apply withdrawn_nonneg |]. exact (proj1 (Hfit x Hx)).
  Qed.
End truth.

Print Assumptions C82_truthful_block.

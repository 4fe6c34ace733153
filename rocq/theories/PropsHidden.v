(** C124: the transfer-only circuit against the full one, over whole proofs and blocks. *)
From Coq Require Import ZArith List Bool Lia.
Import ListNotations.
From Verif Require Import Base Env Circuit SparseMT SparseMTSpec Data DataSpec DataFacts Gadgets Schnorr Contract ContractSpec
  Aggregator AggCircuit AggCircuitFacts AggCircuitSpec CircuitRun PropsCircuit PropsCircuit2 TruthSpec PropsTruth ExactSpec PropsExact.
Open Scope Z_scope.

Section props.
  Context {hs : Hashes} {G : Curve} (contract : pt).

  (** ** Specification *)
  (** a state with other deposit and withdrawal chains *)
  Definition with_chains (z : zstate) (d w : F) : zstate :=
    {| z_step := z_step z; z_utxo := z_utxo z; z_tx := z_tx z; z_tx_final := z_tx_final z;
       z_signer := z_signer z; z_signer_acc := z_signer_acc z; z_deposit := d; z_withdrawal := w |}.
  (** all output amounts, and what goes back to the contract, are below 2^64 *)
  Definition in_u64 (x : agg_inputsV) : Prop :=
    (forall u, In u (a4_list (v_outputs (x_tx x))) -> zval (v_amount u) < 2 ^ 64) /\ withdrawn contract x < 2 ^ 64.
  (** the block without its deposits and withdrawals *)
  Definition hide (b : block) : block :=
    mkBlock (utxo_tree_root b) (tx_tree_root b) (signer_tree_root b) (b_signers b) (height b) [] [].

  Lemma with_chains_same z : with_chains z (z_deposit z) (z_withdrawal z) = z.
  Proof. destruct z. reflexivity. Qed.

  Lemma relax_step z x z' d w : accepted contract false z x z' -> accepted contract true (with_chains z d w) x (with_chains z' d w).
  Proof. intros [H1 H2 H3 H4 H5 H6 H7 H8 H9 H10 H11 H12 H13 H14 H15]. constructor; try assumption. split; reflexivity. Qed.
  Lemma relax_run z xs z' d w : all_accepted contract false z xs z' -> all_accepted contract true (with_chains z d w) xs (with_chains z' d w).
  Proof. induction 1 as [z|z x z1 xs z' A H IH]; [ constructor | exact (aa_cons contract true _ x _ xs _ (relax_step z x z1 d w A) IH) ]. Qed.
  Lemma run_range z xs z' : all_accepted contract false z xs z' -> Forall in_u64 xs.
  Proof.
    induction 1 as [z|z x z1 xs z' A H IH]; constructor; [| exact IH ].
    destruct (ac_chains _ _ _ _ _ A) as (R & W & _). split; [ exact R | exact W ].
  Qed.
  Lemma run_chains_true z xs z' : all_accepted contract true z xs z' -> z_deposit z' = z_deposit z /\ z_withdrawal z' = z_withdrawal z.
  Proof.
    induction 1 as [z|z x z1 xs z' A H IH]; [ split; reflexivity |].
    destruct (ac_chains _ _ _ _ _ A) as [D1 D2]. destruct IH as [I1 I2]. split; congruence.
  Qed.
  Lemma run_chains_false z xs z' : all_accepted contract false z xs z' ->
    z_deposit z' = chain_from (z_deposit z) (flat_map (deposit_entries contract) xs) /\
    z_withdrawal z' = chain_from (z_withdrawal z) (flat_map (withdrawal_entries contract) xs).
  Proof.
    induction 1 as [z|z x z1 xs z' A H IH]; [ split; reflexivity |].
    destruct (ac_chains _ _ _ _ _ A) as (_ & _ & D1 & D2). destruct IH as [I1 I2]. cbn [flat_map].
    unfold chain_from in *. rewrite !fold_left_app. split; congruence.
  Qed.
  Lemma strict_step z x z' d w : accepted contract true z x z' -> in_u64 x ->
    accepted contract false (with_chains z d w) x
      (with_chains z' (chain_from d (deposit_entries contract x)) (chain_from w (withdrawal_entries contract x))).
  Proof.
    intros [H1 H2 H3 H4 H5 H6 H7 H8 H9 H10 H11 H12 H13 H14 H15] [R W]. constructor; try assumption.
    split; [ exact R |]. split; [ exact W |]. split; reflexivity.
  Qed.
  Lemma chain_split a l m : chain_from a (l ++ m) = chain_from (chain_from a l) m.
  Proof. unfold chain_from. apply fold_left_app. Qed.
  Lemma strict_run z xs z' : all_accepted contract true z xs z' -> Forall in_u64 xs -> forall d w,
    all_accepted contract false (with_chains z d w) xs
      (with_chains z' (chain_from d (flat_map (deposit_entries contract) xs)) (chain_from w (flat_map (withdrawal_entries contract) xs))).
  Proof.
    induction 1 as [z|z x z1 xs z' A H IH]; intros HR d w; [ constructor |].
    apply Forall_cons_iff in HR as [R HR]. cbn [flat_map].
    refine (aa_cons contract false _ x _ xs _ (strict_step z x z1 d w A R) _).
    rewrite !chain_split. exact (IH HR _ _).
  Qed.
  Lemma z_list_eq z z' : z_list z = z_list z' -> z = z'.
  Proof. destruct z, z'. unfold z_list. cbn. intros E. congruence. Qed.

  (** C124. A proof in transfer-only mode with amounts in range is exactly a proof of the full circuit,
      over the same inputs, with the deposit and withdrawal chains left out. *)
  Theorem C124_proofs z bs z' :
    ivc contract true (z_list z) bs (z_list z') /\ Forall in_u64 (concat bs) <->
    z_deposit z' = z_deposit z /\ z_withdrawal z' = z_withdrawal z /\
    ivc contract false (z_list z) bs
      (z_list (with_chains z' (chain_from (z_deposit z) (flat_map (deposit_entries contract) (concat bs)))
                              (chain_from (z_withdrawal z) (flat_map (withdrawal_entries contract) (concat bs))))).
  Proof.
    split.
    - intros [H R]. apply C106_aggregator_proof in H as (y & Ey & H). apply z_list_eq in Ey. subst y.
      destruct (run_chains_true _ _ _ H) as [D W]. split; [ exact D |]. split; [ exact W |].
      apply C106_aggregator_proof. eexists. split; [ reflexivity |].
      pose proof (strict_run _ _ _ H R (z_deposit z) (z_withdrawal z)) as X. rewrite with_chains_same in X. exact X.
    - intros (D & W & H). apply C106_aggregator_proof in H as (y & Ey & H). apply z_list_eq in Ey. subst y.
      split; [| exact (run_range _ _ _ H) ].
      apply C106_aggregator_proof. exists z'. split; [ reflexivity |].
      pose proof (relax_run _ _ _ (z_deposit z) (z_withdrawal z) H) as X. rewrite with_chains_same in X.
      replace z' with (with_chains z' (z_deposit z) (z_withdrawal z)) by (rewrite <- D, <- W; apply with_chains_same). exact X.
  Qed.

  (** If nothing enters and nothing leaves, and amounts are in range, both circuits prove the same. *)
  Corollary C124_same z bs z' :
    flat_map (deposit_entries contract) (concat bs) = [] -> flat_map (withdrawal_entries contract) (concat bs) = [] ->
    (ivc contract true (z_list z) bs (z_list z') /\ Forall in_u64 (concat bs) <-> ivc contract false (z_list z) bs (z_list z')).
  Proof.
    intros Ed Ew. pose proof (C124_proofs z bs z') as X. rewrite Ed, Ew in X. cbn in X. rewrite X. split.
    - intros (D & W & H). rewrite <- D, <- W, with_chains_same in H. exact H.
    - intros H. pose proof H as H0. apply C106_aggregator_proof in H0 as (y & Ey & H0). apply z_list_eq in Ey. subst y.
      destruct (run_chains_false _ _ _ H0) as [D W]. rewrite Ed in D. rewrite Ew in W. cbn in D, W.
      split; [ exact D |]. split; [ exact W |]. rewrite <- D, <- W, with_chains_same. exact H.
  Qed.

  (** A transfer-only proof fits only blocks that report no deposit and no withdrawal. *)
  Theorem C124_reports_none c b z bs pi :
    ivc contract true (z_list z) bs pi -> z_deposit z = Fzero -> z_withdrawal z = Fzero ->
    derive_public_inputs c b = Ok pi ->
    (b_deposits b = [] \/ exists deps, entries_are c (b_deposits b) deps /\ sha_event (chain_inputs Fzero (map amount_bytes deps))) /\
    (b_withdrawals b = [] \/ exists wds, entries_are c (b_withdrawals b) wds /\ sha_event (chain_inputs Fzero (map amount_bytes wds))).
  Proof.
    intros H D W Hd. apply C106_aggregator_proof in H as (z' & -> & H). destruct (run_chains_true _ _ _ H) as [D' W'].
    destruct (derive_inv c b z' Hd) as (keys & deps & wds & _ & KD & KW & _ & _ & _ & _ & _ & _ & Da & Wa).
    assert (X : forall (bl : list (Z * u64)) es, entries_are c bl es -> chain_from Fzero (map amount_bytes es) = Fzero ->
              bl = [] \/ exists ds, entries_are c bl ds /\ sha_event (chain_inputs Fzero (map amount_bytes ds))).
    { intros bl es He E. destruct (rev es) as [|e m] eqn:Er.
      - left. assert (es = []) by (rewrite <- (rev_involutive es), Er; reflexivity). subst es. inversion He. reflexivity.
      - right. exists es. split; [ exact He |]. right.
        assert (Ee : es = rev m ++ [e]) by (rewrite <- (rev_involutive es), Er; reflexivity). rewrite Ee, map_app in E |- *. cbn [map] in E |- *.
        rewrite chain_inputs_app. rewrite chain_from_app in E.
        eexists. split; [ apply in_or_app; right; left; reflexivity | exact E ]. }
    split; [ apply (X _ deps KD) | apply (X _ wds KW) ]; congruence.
  Qed.

  (** But it may hide them: whatever block the full circuit proves, the transfer-only circuit proves,
      from the same inputs, the block with its deposits and withdrawals taken out. *)
  Theorem C124_hides c b z bs pi :
    ivc contract false (z_list z) bs pi -> z_deposit z = Fzero -> z_withdrawal z = Fzero ->
    derive_public_inputs c b = Ok pi ->
    exists pi', derive_public_inputs c (hide b) = Ok pi' /\ ivc contract true (z_list z) bs pi'.
  Proof.
    intros H D W Hd. apply C106_aggregator_proof in H as (z' & -> & H).
    exists (z_list (with_chains z' Fzero Fzero)). split.
    - unfold derive_public_inputs in Hd |- *. cbn [hide b_signers b_deposits b_withdrawals utxo_tree_root tx_tree_root signer_tree_root].
      destruct (signer_acc c (b_signers b)) as [a| |]; cbn [rbind] in Hd |- *; try discriminate Hd.
      destruct (amount_acc c (b_deposits b)) as [d| |]; cbn [rbind] in Hd; try discriminate Hd.
      destruct (amount_acc c (b_withdrawals b)) as [w| |]; cbn [rbind] in Hd; try discriminate Hd.
      unfold amount_acc. cbn [rfold rbind]. unfold z_list in *. cbn [with_chains z_step z_utxo z_tx z_tx_final z_signer z_signer_acc z_deposit z_withdrawal]. congruence.
    - apply C106_aggregator_proof. eexists. split; [ reflexivity |].
      pose proof (relax_run _ _ _ Fzero Fzero H) as X. rewrite <- D in X at 1. rewrite <- W in X at 1. rewrite with_chains_same in X. exact X.
  Qed.
End props.

Print Assumptions C124_proofs.
Print Assumptions C124_same.
Print Assumptions C124_reports_none.
Print Assumptions C124_hides.

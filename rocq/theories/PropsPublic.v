(** Property C86: what the public inputs derived by the contract determine. *)
From Coq Require Import ZArith List Bool Lia.
Import ListNotations.
From Verif Require Import Base Env Circuit SparseMT SparseMTSpec Data DataSpec Schnorr HMap Contract ContractSpec
  AggCircuit AggCircuitSpec TruthSpec PropsTruth.
Open Scope Z_scope.

Section props.
  Context {hs : Hashes} {G : Curve}.

  (** the same block at another height *)
  Definition at_height (b : block) (h : u64) : block :=
    mkBlock (utxo_tree_root b) (tx_tree_root b) (signer_tree_root b) (b_signers b) h (b_deposits b) (b_withdrawals b).
  (** the same block with other signer, deposit and withdrawal lists *)
  Definition with_lists (b : block) (s : list (option Z)) (d w : list (Z * u64)) : block :=
    mkBlock (utxo_tree_root b) (tx_tree_root b) (signer_tree_root b) s (height b) d w.

  Lemma derive_some c b l : derive_public_inputs c b = Ok l -> exists z, l = z_list z.
  Proof.
    unfold derive_public_inputs.
    destruct (signer_acc c (b_signers b)) as [a1| |]; cbn [rbind]; try discriminate.
    destruct (amount_acc c (b_deposits b)) as [a2| |]; cbn [rbind]; try discriminate.
    destruct (amount_acc c (b_withdrawals b)) as [a3| |]; cbn [rbind]; try discriminate.
    intros E. exists (mkZ (Fof (Z.of_nat (length (b_signers b)))) (utxo_tree_root b) (tx_tree_root b) (tx_tree_root b)
                         (signer_tree_root b) a1 a2 a3).
    unfold z_list. cbn [z_step z_utxo z_tx z_tx_final z_signer z_signer_acc z_deposit z_withdrawal]. congruence.
  Qed.
  Lemma signers_unique c l keys keys' : signers_are c l keys -> signers_are c l keys' -> keys = keys'.
  Proof.
    intros H. revert keys'. induction H as [|o k l keys E _ IH]; intros keys' H'; inversion H' as [|o' k' l' ks' E' F']; subst; [ reflexivity |].
    f_equal; [| now apply IH ]. destruct o; congruence.
  Qed.
  Lemma entries_unique' c l es es' : entries_are c l es -> entries_are c l es' -> es = es'.
  Proof.
    intros H. revert es'. induction H as [|o k l es [E1 E2] _ IH]; intros es' H'; inversion H' as [|o' k' l' es1 [E1' E2'] F']; subst; [ reflexivity |].
    f_equal; [| now apply IH ]. destruct k, k'; cbn [fst snd] in *. congruence.
  Qed.
  Lemma Forall2_len {A B} (R : A -> B -> Prop) l l' : Forall2 R l l' -> length l = length l'.
  Proof. induction 1; cbn; congruence. Qed.

  (** Two blocks with the same public inputs, possibly derived at different times: the three roots
      agree, and so do the lists of keys and amounts that the signers, deposits and withdrawals
      stand for -- or a SHA-256 event occurs in one pair of chains. *)
  Theorem C86_public_inputs_bind c c' b b' l :
    derive_public_inputs c b = Ok l -> derive_public_inputs c' b' = Ok l ->
    utxo_tree_root b = utxo_tree_root b' /\ tx_tree_root b = tx_tree_root b' /\ signer_tree_root b = signer_tree_root b' /\
    exists keys keys' deps deps' wds wds',
      signers_are c (b_signers b) keys /\ signers_are c' (b_signers b') keys' /\
      entries_are c (b_deposits b) deps /\ entries_are c' (b_deposits b') deps' /\
      entries_are c (b_withdrawals b) wds /\ entries_are c' (b_withdrawals b') wds' /\
      (keys = keys' \/ sha_event (chain_inputs Fzero (map pt_bytes keys) ++ chain_inputs Fzero (map pt_bytes keys'))) /\
      (deps = deps' \/ sha_event (chain_inputs Fzero (map amount_bytes deps) ++ chain_inputs Fzero (map amount_bytes deps'))) /\
      (wds = wds' \/ sha_event (chain_inputs Fzero (map amount_bytes wds) ++ chain_inputs Fzero (map amount_bytes wds'))).
  Proof.
    intros H H'. destruct (derive_some _ _ _ H) as [z ->].
    apply derive_inv in H as (keys & deps & wds & S1 & D1 & W1 & _ & U1 & T1 & _ & R1 & A1 & A2 & A3).
    apply derive_inv in H' as (keys' & deps' & wds' & S1' & D1' & W1' & _ & U1' & T1' & _ & R1' & A1' & A2' & A3').
    split; [ congruence |]. split; [ congruence |]. split; [ congruence |].
    exists keys, keys', deps, deps', wds, wds'. repeat (split; [ assumption |]). split; [| split ].
    - rewrite A1 in A1'. destruct (chain_sound _ _ A1') as [E|E]; [ left | right; exact E ]. now apply map_pt_bytes_inj.
    - rewrite A2 in A2'. destruct (chain_sound _ _ A2') as [E|E]; [ left | right; exact E ].
      apply map_bytes_inj; [ exact (entries_range _ _ _ D1) | exact (entries_range _ _ _ D1') | exact E ].
    - rewrite A3 in A3'. destruct (chain_sound _ _ A3') as [E|E]; [ left | right; exact E ].
      apply map_bytes_inj; [ exact (entries_range _ _ _ W1) | exact (entries_range _ _ _ W1') | exact E ].
  Qed.

  (** Under one registry in which no key occurs twice and the identity does not occur, the lists of
      indices and amounts themselves agree. *)
  Definition clean_registry (c : contract) : Prop :=
    (forall i j k, key_of c i = Some k -> key_of c j = Some k -> i = j) /\ (forall i, key_of c i <> Some pzero).
  Definition indices_ok (b : block) : Prop :=
    (forall i, In (Some i) (b_signers b) -> 0 <= i) /\
    (forall i a, In (i, a) (b_deposits b) -> 0 <= i) /\ (forall i a, In (i, a) (b_withdrawals b) -> 0 <= i).
  Lemma signers_back c l l' keys : clean_registry c ->
    (forall i, In (Some i) l -> 0 <= i) -> (forall i, In (Some i) l' -> 0 <= i) ->
    signers_are c l keys -> signers_are c l' keys -> l = l'.
  Proof.
    intros [HC HZ] P P' H. revert l' P'. induction H as [|o k l keys E _ IH]; intros l' P' H'; inversion H' as [|o' k' l1 ks' E' F']; subst; [ reflexivity |].
    f_equal.
    - destruct o as [i|], o' as [j|]; [| exfalso; subst; now apply HZ in E | exfalso; subst; now apply HZ in E' | reflexivity ].
      pose proof (HC _ _ _ E E'). f_equal. apply Z2Nat.inj; auto using in_eq.
    - apply IH; auto using in_cons.
  Qed.
  Lemma entries_back c l l' es : clean_registry c ->
    (forall i a, In (i, a) l -> 0 <= i) -> (forall i a, In (i, a) l' -> 0 <= i) ->
    entries_are c l es -> entries_are c l' es -> l = l'.
  Proof.
    intros [HC HZ] P P' H. revert l' P'. induction H as [|[i a] k l es [E1 E2] _ IH]; intros l' P' H'; inversion H' as [|[j b] k' l1 es1 [E1' E2'] F']; subst; [ reflexivity |].
    cbn [fst snd] in *. f_equal; [| apply IH; eauto using in_cons ]. f_equal.
    - apply Z2Nat.inj; eauto using in_eq.
    - apply zval_inj. congruence.
  Qed.
  Theorem C86_indices_bound c b b' l keys keys' deps deps' wds wds' :
    derive_public_inputs c b = Ok l -> derive_public_inputs c b' = Ok l ->
    clean_registry c -> indices_ok b -> indices_ok b' ->
    signers_are c (b_signers b) keys -> signers_are c (b_signers b') keys' ->
    entries_are c (b_deposits b) deps -> entries_are c (b_deposits b') deps' ->
    entries_are c (b_withdrawals b) wds -> entries_are c (b_withdrawals b') wds' ->
    ~ sha_event (chain_inputs Fzero (map pt_bytes keys) ++ chain_inputs Fzero (map pt_bytes keys')) ->
    ~ sha_event (chain_inputs Fzero (map amount_bytes deps) ++ chain_inputs Fzero (map amount_bytes deps')) ->
    ~ sha_event (chain_inputs Fzero (map amount_bytes wds) ++ chain_inputs Fzero (map amount_bytes wds')) ->
    b' = at_height b (height b').
  Proof.
    intros H H' HC (I1 & I2 & I3) (I1' & I2' & I3') S S' D D' W W' N1 N2 N3.
    destruct (C86_public_inputs_bind _ _ _ _ _ H H') as (U & T & R & k1 & k1' & d1 & d1' & w1 & w1' & Q1 & Q2 & Q3 & Q4 & Q5 & Q6 & E1 & E2 & E3).
    rewrite (signers_unique _ _ _ _ Q1 S), (signers_unique _ _ _ _ Q2 S') in E1.
    rewrite (entries_unique' _ _ _ _ Q3 D), (entries_unique' _ _ _ _ Q4 D') in E2.
    rewrite (entries_unique' _ _ _ _ Q5 W), (entries_unique' _ _ _ _ Q6 W') in E3.
    destruct E1 as [E1|E1]; [| contradiction ]. destruct E2 as [E2|E2]; [| contradiction ]. destruct E3 as [E3|E3]; [| contradiction ].
    subst keys' deps' wds'.
    assert (L1 : b_signers b' = b_signers b) by exact (signers_back _ _ _ _ HC I1' I1 S' S).
    assert (L2 : b_deposits b' = b_deposits b) by exact (entries_back _ _ _ _ HC I2' I2 D' D).
    assert (L3 : b_withdrawals b' = b_withdrawals b) by exact (entries_back _ _ _ _ HC I3' I3 W' W).
    destruct b' as [f1 f2 f3 f4 f5 f6 f7]. unfold at_height. cbn [utxo_tree_root tx_tree_root signer_tree_root b_signers height b_deposits b_withdrawals] in *.
    congruence.
  Qed.

  (** The height is not among the public inputs. *)
  Theorem C86_height_not_bound c b h : derive_public_inputs c (at_height b h) = derive_public_inputs c b.
  Proof. reflexivity. Qed.

  (** Indices that stand for the same key are interchangeable: a key registered twice, and -- since
      registration does not check the key -- a registered identity and a missing signer. *)
  Definition same_signer (c : contract) (o o' : option Z) : Prop :=
    exists k, (match o with None => k = pzero | Some i => key_of c (Z.to_nat i) = Some k end) /\
              (match o' with None => k = pzero | Some i => key_of c (Z.to_nat i) = Some k end).
  Definition same_entry (c : contract) (e e' : Z * u64) : Prop :=
    (exists k, key_of c (Z.to_nat (fst e)) = Some k /\ key_of c (Z.to_nat (fst e')) = Some k) /\ snd e = snd e'.
  Lemma signer_acc_alias c l l' : Forall2 (same_signer c) l l' -> signer_acc c l = signer_acc c l'.
  Proof.
    unfold signer_acc. generalize Fzero. intros a H. revert a.
    induction H as [|o o' l l' (k & H1 & H2) _ IH]; intros a; [ reflexivity |]. cbn [rfold].
    assert (E1 : (match o with Some i => unwrap (nth_error (pks c) (Z.to_nat i)) | None => Ok pzero end : res no_error pt) = Ok k).
    { destruct o; [ unfold key_of in H1; now rewrite H1 | now rewrite H1 ]. }
    assert (E2 : (match o' with Some i => unwrap (nth_error (pks c) (Z.to_nat i)) | None => Ok pzero end : res no_error pt) = Ok k).
    { destruct o'; [ unfold key_of in H2; now rewrite H2 | now rewrite H2 ]. }
    rewrite E1, E2. cbn [rbind]. apply IH.
  Qed.
  Lemma amount_acc_alias c l l' : Forall2 (same_entry c) l l' -> amount_acc c l = amount_acc c l'.
  Proof.
    unfold amount_acc. generalize Fzero. intros a H. revert a.
    induction H as [|o o' l l' ((k & H1 & H2) & H3) _ IH]; intros a; [ reflexivity |]. cbn [rfold].
    unfold key_of in H1, H2. rewrite H1, H2, H3. cbn [rbind unwrap]. apply IH.
  Qed.
  Theorem C86_aliases c b s d w :
    Forall2 (same_signer c) (b_signers b) s -> Forall2 (same_entry c) (b_deposits b) d -> Forall2 (same_entry c) (b_withdrawals b) w ->
    derive_public_inputs c (with_lists b s d w) = derive_public_inputs c b.
  Proof.
    intros H1 H2 H3. unfold derive_public_inputs, with_lists.
    cbn [utxo_tree_root tx_tree_root signer_tree_root b_signers height b_deposits b_withdrawals].
    rewrite <- (signer_acc_alias _ _ _ H1), <- (amount_acc_alias _ _ _ H2), <- (amount_acc_alias _ _ _ H3),
      (Forall2_len _ _ _ H1). reflexivity.
  Qed.
End props.

Print Assumptions C86_public_inputs_bind.
Print Assumptions C86_indices_bound.
Print Assumptions C86_height_not_bound.
Print Assumptions C86_aliases.

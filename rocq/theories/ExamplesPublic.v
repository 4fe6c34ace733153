(** Instances of C86 and C87: the block and the transactions of ExamplesCircuit.v. *)
From Coq Require Import ZArith List Bool Lia.
Import ListNotations.
From Verif Require Import Base Env Toy Circuit SparseMT SparseMTSpec Data DataSpec Gadgets Schnorr HMap Contract ContractSpec
  Aggregator ExamplesAgg AggCircuit AggCircuitSpec ExamplesCircuit TruthSpec PropsTruth ExamplesTruth PropsPublic PropsSchnorr2.
Open Scope Z_scope.

Definition is_ok {E A} (r : res E A) : bool := match r with Ok _ => true | _ => false end.
Definition inputs_of {hs : Hashes} {G : Curve} (c : contract) (b : block) : list F := match derive_public_inputs c b with Ok l => l | _ => [] end.
Definition inputsP : list F := inputs_of l1P bP.
Lemma inputsP_ok : derive_public_inputs l1P bP = Ok inputsP.
Proof.
  unfold inputsP, inputs_of. assert (H : is_ok (derive_public_inputs l1P bP) = true) by (vm_compute; reflexivity).
  destruct (derive_public_inputs l1P bP); [ reflexivity | discriminate H | discriminate H ].
Qed.
Definition bP7 : block := at_height bP (u64of 7).
Lemma inputsP7_ok : derive_public_inputs l1P bP7 = Ok inputsP.
Proof. unfold bP7. rewrite C86_height_not_bound. exact inputsP_ok. Qed.
(** the registry of the example has no duplicates and no identity *)
Lemma clean_generic {hs : Hashes} {G : Curve} c : NoDup (pks c) -> ~ In pzero (pks c) -> clean_registry c.
Proof.
  intros N Z0. split.
  - intros i j k Hi Hj. unfold key_of in *. apply (proj1 (NoDup_nth_error (pks c)) N); [| congruence ].
    apply nth_error_Some. congruence.
  - intros i H. apply Z0. exact (nth_error_In _ _ H).
Qed.
Fixpoint nodup_b (l : list pt) : bool :=
  match l with [] => true | k :: r => negb (existsb (pt_eqb k) r) && nodup_b r end.
Lemma nodup_b_ok l : nodup_b l = true -> NoDup l.
Proof.
  induction l as [|k r IH]; cbn [nodup_b]; intros H; constructor.
  - apply andb_true_iff in H as [H _]. intros I. apply negb_true_iff in H. rewrite <- not_true_iff_false in H. apply H.
    apply existsb_exists. exists k. split; [ exact I | apply pt_eqb_refl ].
  - apply IH. now apply andb_true_iff in H as [_ H].
Qed.
Lemma cleanP : clean_registry l1P.
Proof.
  apply clean_generic.
  - apply nodup_b_ok. vm_compute. reflexivity.
  - assert (H : existsb (pt_eqb pzero) (pks l1P) = false) by (vm_compute; reflexivity). intros I.
    rewrite <- not_true_iff_false in H. apply H. apply existsb_exists. exists pzero. split; [ exact I | apply pt_eqb_refl ].
Qed.
Definition keys_of {G : Curve} (c : contract) (l : list (option Z)) : list pt :=
  map (fun o => match o with None => pzero | Some i => match key_of c (Z.to_nat i) with Some k => k | None => pzero end end) l.
Lemma signers_keys {G : Curve} c l keys : signers_are c l keys -> keys = keys_of c l.
Proof.
  unfold keys_of. induction 1 as [|o k l es E _ IH]; [ reflexivity |]. cbn [map]. rewrite <- IH. f_equal.
  destruct o as [i|]; [ now rewrite E | exact E ].
Qed.
Lemma indicesP_b : forallb (fun o => match o with None => true | Some i => 0 <=? i end) (b_signers bP) &&
  forallb (fun e => 0 <=? fst e) (b_deposits bP) && forallb (fun e => 0 <=? fst e) (b_withdrawals bP) = true.
Proof. vm_compute. reflexivity. Qed.
Lemma indicesP : indices_ok bP.
Proof.
  pose proof indicesP_b as H. apply andb_true_iff in H as [H H3]. apply andb_true_iff in H as [H1 H2].
  rewrite forallb_forall in H1, H2, H3. split; [| split ].
  - intros i I. apply Z.leb_le. exact (H1 _ I).
  - intros i a I. apply Z.leb_le. exact (H2 _ I).
  - intros i a I. apply Z.leb_le. exact (H3 _ I).
Qed.
Lemma quietP : sha_quiet (chain_inputs Fzero (map pt_bytes (keys_of l1P (b_signers bP))) ++ chain_inputs Fzero (map pt_bytes (keys_of l1P (b_signers bP)))) &&
  sha_quiet (chain_inputs Fzero (map amount_bytes (entries_of l1P (b_deposits bP))) ++ chain_inputs Fzero (map amount_bytes (entries_of l1P (b_deposits bP)))) &&
  sha_quiet (chain_inputs Fzero (map amount_bytes (entries_of l1P (b_withdrawals bP))) ++ chain_inputs Fzero (map amount_bytes (entries_of l1P (b_withdrawals bP)))) = true.
Proof. vm_compute. reflexivity. Qed.
(** the hypotheses of [C86_indices_bound] are met by a block with three signers, a deposit and a
    withdrawal, and by the same block at another height *)
Lemma indices_generic {hs : Hashes} {G : Curve} c b h l :
  derive_public_inputs c b = Ok l -> derive_public_inputs c (at_height b h) = Ok l -> clean_registry c -> indices_ok b ->
  sha_quiet (chain_inputs Fzero (map pt_bytes (keys_of c (b_signers b))) ++ chain_inputs Fzero (map pt_bytes (keys_of c (b_signers b)))) &&
  sha_quiet (chain_inputs Fzero (map amount_bytes (entries_of c (b_deposits b))) ++ chain_inputs Fzero (map amount_bytes (entries_of c (b_deposits b)))) &&
  sha_quiet (chain_inputs Fzero (map amount_bytes (entries_of c (b_withdrawals b))) ++ chain_inputs Fzero (map amount_bytes (entries_of c (b_withdrawals b)))) = true ->
  at_height b h = at_height b (height (at_height b h)).
Proof.
  intros H H' C I Q.
  destruct (C86_public_inputs_bind _ _ _ _ _ H H')
    as (_ & _ & _ & ks & ks' & ds & ds' & ws & ws' & S & S' & D & D' & W & W' & _).
  apply andb_true_iff in Q as [Q Q3]. apply andb_true_iff in Q as [Q1 Q2].
  refine (C86_indices_bound c b (at_height b h) l ks ks' ds ds' ws ws' H H' C I I S S' D D' W W' _ _ _).
  + rewrite (signers_keys _ _ _ S), (signers_keys _ _ _ S'). apply sha_quiet_ok. exact Q1.
  + rewrite (ExamplesTruth.entries_unique _ _ _ D), (ExamplesTruth.entries_unique _ _ _ D'). apply sha_quiet_ok. exact Q2.
  + rewrite (ExamplesTruth.entries_unique _ _ _ W), (ExamplesTruth.entries_unique _ _ _ W'). apply sha_quiet_ok. exact Q3.
Qed.
Example indices_instance : bP7 = at_height bP (height bP7) /\ bP7 <> bP.
Proof.
  split.
  - exact (indices_generic l1P bP (u64of 7) inputsP inputsP_ok inputsP7_ok cleanP indicesP quietP).
  - intros E. apply (f_equal (fun b => zval (height b) =? 7)) in E.
    assert (H : (zval (height bP) =? 7) = false) by (vm_compute; reflexivity).
    rewrite H in E. assert (H7 : (zval (height bP7) =? 7) = true) by (vm_compute; reflexivity). congruence.
Qed.
(** a user registers the identity: from then on its index and a missing signer are the same to the
    public inputs *)
Definition l1Z : contract := fst (join l1P (u64of 0) pzero).
Example alias_instance :
  derive_public_inputs l1Z (with_lists bP (map (fun o => match o with None => Some 3 | o => o end) (b_signers bP)) (b_deposits bP) (b_withdrawals bP))
  = derive_public_inputs l1Z bP.
Proof.
  assert (B : (forallb (fun o => match o with None => true | Some i => match key_of l1Z (Z.to_nat i) with Some _ => true | None => false end end) (b_signers bP)
     && forallb (fun e => match key_of l1Z (Z.to_nat (fst e)) with Some _ => true | None => false end) (b_deposits bP)
     && forallb (fun e => match key_of l1Z (Z.to_nat (fst e)) with Some _ => true | None => false end) (b_withdrawals bP)) = true)
    by (vm_compute; reflexivity).
  apply andb_true_iff in B as [B B3]. apply andb_true_iff in B as [B1 B2]. rewrite forallb_forall in B1, B2, B3.
  assert (K3 : key_of l1Z (Z.to_nat 3) = Some pzero).
  { assert (H : match key_of l1Z (Z.to_nat 3) with Some k => pt_eqb k pzero | None => false end = true) by (vm_compute; reflexivity).
    destruct (key_of l1Z (Z.to_nat 3)) as [k|]; [| discriminate H ]. apply pt_eqb_eq in H. now rewrite H. }
  apply C86_aliases.
  - revert B1. generalize (b_signers bP). induction l as [|o l IH]; intros H; constructor.
    + destruct o as [i|].
      * specialize (H _ (or_introl eq_refl)). cbv beta iota in H.
        destruct (key_of l1Z (Z.to_nat i)) as [k|] eqn:E; [| discriminate H ]. exists k. split; exact E.
      * exists pzero. split; [ reflexivity | exact K3 ].
    + apply IH. intros x Hx. exact (H x (or_intror Hx)).
  - revert B2. generalize (b_deposits bP). induction l as [|o l IH]; intros H; constructor.
    + split; [| reflexivity ]. specialize (H _ (or_introl eq_refl)). cbv beta in H.
      destruct (key_of l1Z (Z.to_nat (fst o))) as [k|] eqn:E; [| discriminate H ]. exists k. split; reflexivity.
    + apply IH. intros x Hx. exact (H x (or_intror Hx)).
  - revert B3. generalize (b_withdrawals bP). induction l as [|o l IH]; intros H; constructor.
    + split; [| reflexivity ]. specialize (H _ (or_introl eq_refl)). cbv beta in H.
      destruct (key_of l1Z (Z.to_nat (fst o))) as [k|] eqn:E; [| discriminate H ]. exists k. split; reflexivity.
    + apply IH. intros x Hx. exact (H x (or_intror Hx)).
Qed.
(** the example has a missing signer and the derivation succeeds *)
Example alias_instance_real :
  existsb (fun o => match o with None => true | _ => false end) (b_signers bP) && is_ok (derive_public_inputs l1Z bP) = true.
Proof. vm_compute. reflexivity. Qed.

(** C87: a transaction of the epoch that is signed *)
Example signed_instance : existsb (is_signed r0) xsP = true.
Proof. vm_compute. reflexivity. Qed.
Example replay_instance : exists x, In x xsP /\ is_signed r0 x = true /\
  forall final x', is_signed final x' = true -> x_sender x' = x_sender x -> given_signature x' = given_signature x ->
    (x_tx x = x_tx x' /\ r0 = final) \/
    crh_collision (challenge_input (x_sender x) (tx_encV (x_tx x) ++ [r0]) (given_signature x))
                  (challenge_input (x_sender x') (tx_encV (x_tx x') ++ [final]) (given_signature x')).
Proof.
  pose proof signed_instance as H. apply existsb_exists in H as (x & I & S). exists x. split; [ exact I | split; [ exact S |]].
  intros final x' S' E1 E2. apply C87_no_replay; [ exact S | exact S' | exact (eq_sym E1) | exact (eq_sym E2) ].
Qed.

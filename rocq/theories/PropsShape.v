(** C104: the circuits have one layout, whatever the values. *)
From Coq Require Import ZArith List Bool Lia.
Import ListNotations.
From Verif Require Import Base Env Circuit SparseMT SparseMTGadget Gadgets Data Schnorr HMap Contract
  Aggregator AggCircuit AggCircuitSpec AggCircuitFacts CircuitRun Client PropsWitness.
Open Scope Z_scope.

(** * Specification *)

(** What the code puts into the constraint system, in order: constraints and Boolean hints. *)
Inductive op := Constraint | Hint.
(** [laid_out c l]: building [c] never aborts and issues exactly [l], however the hints are chosen. *)
Inductive laid_out {A} : circ A -> list op -> Prop :=
| lo_ret a : laid_out (Ret a) []
| lo_enf b k l : laid_out k l -> laid_out (Enf b k) (Constraint :: l)
| lo_wit h k l : (forall b, laid_out (k b) l) -> laid_out (Wit h k) (Hint :: l).

(** * Proofs *)
(** A circuit has at most one layout, so the layouts below are the circuits' own. *)
Theorem C104_layout_unique {A} (c : circ A) : forall l l', laid_out c l -> laid_out c l' -> l = l'.
Proof.
  induction c as [a|b k IH|h k IH|]; intros l l' H1 H2; inversion H1; inversion H2; subst.
  - reflexivity.
  - f_equal. now apply IH.
  - f_equal. match goal with A : forall b, laid_out (k b) ?x, B : forall b, laid_out (k b) ?y |- ?x = ?y =>
      exact (IH true x y (A true) (B true)) end.
Qed.

(** with a property of the outcome *)
Inductive laid {A} (Q : A -> Prop) : circ A -> list op -> Prop :=
| la_ret a : Q a -> laid Q (Ret a) []
| la_enf b k l : laid Q k l -> laid Q (Enf b k) (Constraint :: l)
| la_wit h k l : (forall b, laid Q (k b) l) -> laid Q (Wit h k) (Hint :: l).
Lemma laid_weaken {A} (Q Q' : A -> Prop) c l : (forall a, Q a -> Q' a) -> laid Q c l -> laid Q' c l.
Proof. intros HQ. induction 1; constructor; auto. Qed.
Lemma laid_laid_out {A} (Q : A -> Prop) c l : laid Q c l -> laid_out c l.
Proof. induction 1; constructor; auto. Qed.
Lemma laid_bind {A B} (P : A -> Prop) (Q : B -> Prop) c (f : A -> circ B) l l' :
  laid P c l -> (forall a, P a -> laid Q (f a) l') -> laid Q (cbind c f) (l ++ l').
Proof.
  intros H Hf. induction H as [a Ha|b k l H IH|h k l H IH]; cbn [cbind app].
  - now apply Hf.
  - constructor. exact IH.
  - constructor. exact IH.
Qed.
Lemma laid_enforce b : laid (fun _ => True) (enforce b) [Constraint].
Proof. repeat constructor. Qed.
Lemma laid_cond b c : laid (fun _ => True) (cond_enforce b c) [Constraint].
Proof. repeat constructor. Qed.
Lemma laid_cassert b : b = true -> laid (fun _ => True) (cassert b) [].
Proof. intros ->. now constructor. Qed.
Lemma laid_ret {A} (Q : A -> Prop) a : Q a -> laid Q (Ret a) [].
Proof. now constructor. Qed.
Lemma laid_witness h : laid (fun _ => True) (witness h) [Hint].
Proof. constructor. intros b. now constructor. Qed.
Lemma laid_witnesses hs : laid (fun bs => length bs = length hs) (witnesses hs) (repeat Hint (length hs)).
Proof.
  induction hs as [|h hs IH]; cbn [witnesses length repeat]; [ now constructor |].
  change (Hint :: repeat Hint (length hs)) with ([Hint] ++ repeat Hint (length hs)).
  apply (laid_bind (fun _ => True)); [ apply laid_witness |]. intros b _.
  rewrite <- (app_nil_r (repeat Hint (length hs))).
  apply (laid_bind _ _ _ _ _ _ IH). intros bs Hbs. apply laid_ret. cbn. now rewrite Hbs.
Qed.
Lemma laid_cfold {A S} (I : S -> Prop) (R : A -> Prop) (f : S -> A -> circ S) (l : list op) xs :
  (forall s x, I s -> R x -> laid I (f s x) l) -> Forall R xs -> forall s, I s ->
  laid I (cfold f xs s) (concat (repeat l (length xs))).
Proof.
  intros Hf. induction 1 as [|x xs Hx Hxs IH]; intros s Hs; cbn [cfold length repeat concat]; [ now constructor |].
  apply (laid_bind I); [ now apply Hf |]. intros s' Hs'. now apply IH.
Qed.
Lemma laid_le_bits bits : laid (fun _ => True) (le_bits_to_fp bits) (if (254 <=? length bits)%nat then [Constraint] else []).
Proof.
  unfold le_bits_to_fp. destruct (254 <=? length bits)%nat.
  - change [Constraint] with ([Constraint] ++ []). apply (laid_bind (fun _ => True)); [ apply laid_enforce |].
    intros _ _. now apply laid_ret.
  - cbn [cbind]. now apply laid_ret.
Qed.
Lemma laid_cmap {A B} (f : A -> circ B) (g : A -> list op) xs :
  (forall x, In x xs -> laid (fun _ => True) (f x) (g x)) ->
  laid (fun ys => length ys = length xs) (cmap f xs) (flat_map g xs).
Proof.
  induction xs as [|x xs IH]; intros H; cbn [cmap flat_map]; [ now constructor |].
  apply (laid_bind (fun _ => True)); [ apply H; now left |]. intros y _.
  rewrite <- (app_nil_r (flat_map g xs)). apply (laid_bind _ _ _ _ _ _ (IH (fun x Hx => H x (or_intror Hx)))).
  intros ys Hys. apply laid_ret. cbn. now rewrite Hys.
Qed.

(** the chunks of lists of one length have the same lengths *)
Lemma chunks_fuel_lengths {A} fuel w : forall l l' : list A, length l = length l' ->
  map (@length A) (chunks_fuel fuel w l) = map (@length A) (chunks_fuel fuel w l').
Proof.
  induction fuel as [|fuel IH]; intros l l' H; [ reflexivity |]. cbn [chunks_fuel].
  destruct l as [|a l], l' as [|a' l']; try discriminate; [ reflexivity |].
  cbn [map]. f_equal.
  - rewrite !firstn_length, H. reflexivity.
  - apply IH. rewrite !skipn_length, H. reflexivity.
Qed.
Lemma chunks_lengths {A} w (l l' : list A) : length l = length l' ->
  map (@length A) (chunks w l) = map (@length A) (chunks w l').
Proof. intros H. unfold chunks. rewrite H. now apply chunks_fuel_lengths. Qed.

Definition small_chunk (n : nat) : list op := if (254 <=? n)%nat then [Constraint] else [].
Lemma flat_map_lengths (ls : list (list bool)) :
  flat_map (fun b => if (254 <=? length b)%nat then [Constraint] else []) ls = flat_map small_chunk (map (@length bool) ls).
Proof. induction ls as [|b ls IH]; cbn [flat_map map]; [ reflexivity |]. now rewrite IH. Qed.

Definition to_n_bits_layout (n : nat) : list op :=
  repeat Hint n ++ small_chunk n ++ [Constraint].
Lemma bigint_bits_length x : length (bigint_bits x) = 256%nat.
Proof. unfold bigint_bits. apply bits_le_length. Qed.
Lemma laid_to_n_bits x n : (n <= 256)%nat -> laid (fun bs => length bs = n) (to_n_bits x n) (to_n_bits_layout n).
Proof.
  intros Hn. unfold to_n_bits, to_n_bits_layout. change (repeat Hint n ++ small_chunk n ++ [Constraint])
    with ([] ++ repeat Hint n ++ small_chunk n ++ [Constraint]).
  apply (laid_bind (fun _ => True)); [ apply laid_cassert; now apply Nat.leb_le |]. intros _ _.
  assert (El : length (firstn n (bigint_bits x)) = n) by (rewrite firstn_length, bigint_bits_length; lia).
  pose proof (laid_witnesses (firstn n (bigint_bits x))) as HW. rewrite El in HW.
  apply (laid_bind _ _ _ _ _ _ HW). intros bs Hbs.
  pose proof (laid_le_bits bs) as HL. rewrite Hbs in HL.
  apply (laid_bind _ _ _ _ _ _ HL). intros v _. change [Constraint] with ([Constraint] ++ []).
  apply (laid_bind _ _ _ _ _ _ (laid_enforce _)). intros _ _. now apply laid_ret.
Qed.

Lemma first_gt_length l : length (first_gt l) = length l.
Proof.
  induction l as [|[x y] l IH]; cbn; [ reflexivity |]. destruct (zval x <? zval y); cbn; [ now rewrite repeat_length | now rewrite IH ].
Qed.
(** the layout of [enforce_lt], as a function of the two lengths *)
Definition lt_layout (W nx ny : nat) : list op :=
  let cx := map (@length bool) (chunks W (repeat false nx)) in
  let cy := map (@length bool) (chunks W (repeat false ny)) in
  let len := Nat.max (length cx) (length cy) in
  flat_map small_chunk cx ++ flat_map small_chunk cy ++ repeat Hint len
  ++ concat (repeat [Constraint] len) ++ to_n_bits_layout W ++ [Constraint].
Lemma laid_enforce_lt W xb yb : (0 < W <= 256)%nat ->
  laid (fun _ => True) (enforce_lt W xb yb) (lt_layout W (length xb) (length yb)).
Proof.
  intros HW. unfold enforce_lt, lt_layout. cbv zeta.
  assert (Cx : map (@length bool) (chunks W (repeat false (length xb))) = map (@length bool) (chunks W xb))
    by (apply chunks_lengths; apply repeat_length).
  assert (Cy : map (@length bool) (chunks W (repeat false (length yb))) = map (@length bool) (chunks W yb))
    by (apply chunks_lengths; apply repeat_length).
  rewrite Cx, Cy, !map_length.
  match goal with |- laid _ _ ?l => change l with ([] ++ l) end.
  apply (laid_bind (fun _ => True)).
  { apply laid_cassert. apply andb_true_iff. split; [ apply Nat.ltb_lt | apply Nat.leb_le ]; lia. }
  intros _ _. pose proof (laid_cmap le_bits_to_fp _ (chunks W xb) (fun x _ => laid_le_bits x)) as HX.
  rewrite flat_map_lengths in HX. apply (laid_bind _ _ _ _ _ _ HX). intros x Hx.
  pose proof (laid_cmap le_bits_to_fp _ (chunks W yb) (fun x _ => laid_le_bits x)) as HY.
  rewrite flat_map_lengths in HY. apply (laid_bind _ _ _ _ _ _ HY). intros y Hy.
  rewrite Hx, Hy. set (len := Nat.max (length (chunks W xb)) (length (chunks W yb))).
  set (pairs := map (fun i => (nth i x Fzero, nth i y Fzero)) (seq 0 len)).
  assert (Lp : length pairs = len) by (unfold pairs; now rewrite map_length, seq_length).
  assert (Lh : length (rev (first_gt (rev pairs))) = len) by (now rewrite rev_length, first_gt_length, rev_length).
  pose proof (laid_witnesses (rev (first_gt (rev pairs)))) as HH. rewrite Lh in HH.
  apply (laid_bind _ _ _ _ _ _ HH). intros helper Hh.
  assert (Lc : length (combine helper (map (fun xy => Fsub (snd xy) (fst xy)) pairs)) = len)
    by (rewrite combine_length, Hh, map_length, Lp; apply Nat.min_id).
  match goal with |- laid _ (cbind (cfold ?f ?xs ?s) ?g) _ =>
    pose proof (laid_cfold (fun _ => True) (fun _ => True) f [Constraint] xs) as HF end.
  rewrite Lc in HF.
  match type of HF with ?A -> _ => assert (HA : A) end.
  { intros [c r] [b d] _ _. change [Constraint] with ([Constraint] ++ []).
    apply (laid_bind _ _ _ _ _ _ (laid_enforce _)). intros _ _. now apply laid_ret. }
  specialize (HF HA). match type of HF with ?A -> _ => assert (HB : A) by (apply Forall_forall; auto) end.
  specialize (HF HB (Fzero, Fzero) Logic.I).
  apply (laid_bind _ _ _ _ _ _ HF). intros [c r] _.
  unfold to_n_bits_layout. rewrite <- !app_assoc.
  assert (El : length (firstn W (bigint_bits (Fsub c Fone))) = W) by (rewrite firstn_length, bigint_bits_length; lia).
  pose proof (laid_witnesses (firstn W (bigint_bits (Fsub c Fone)))) as HW2. rewrite El in HW2.
  apply (laid_bind _ _ _ _ _ _ HW2). intros bs Hbs.
  pose proof (laid_le_bits bs) as HL. rewrite Hbs in HL.
  apply (laid_bind _ _ _ _ _ _ HL). intros v _.
  apply (laid_bind _ _ _ _ _ _ (laid_enforce _)). intros _ _. apply laid_enforce.
Qed.

Section shape.
  Context {hs : Hashes} {G : Curve}.

  Lemma laid_update (Pg : GadgetConfig) path lo ln idx : length path = (GHEIGHT Pg - 1)%nat ->
    laid (fun _ => True) (update_root Pg path lo ln idx) [].
  Proof.
    intros H. unfold update_root. change (@nil op) with (@nil op ++ []).
    apply (laid_bind (fun _ => True)); [ apply laid_cassert; now apply Nat.eqb_eq |]. intros _ _. now apply laid_ret.
  Qed.
  Lemma to_bits_length x : length (to_bits_le x) = 254%nat.
  Proof. unfold to_bits_le. apply bits_le_length. Qed.

  Definition signature_layout (W : nat) : list op := lt_layout W 254 254.
  Lemma laid_is_valid W k m sg : (0 < W <= 256)%nat -> (254 <= length (v_e sg))%nat ->
    laid (fun _ => True) (is_valid_gadget W k m sg) (signature_layout W).
  Proof.
    intros HW He. unfold is_valid_gadget. cbv zeta.
    set (hb := firstn 254 (to_bits_le (gadget_hash k m sg))).
    assert (Lh : length hb = 254%nat) by (unfold hb; rewrite firstn_length, to_bits_length; reflexivity).
    pose proof (laid_enforce_lt W hb (firstn 254 (bits_le 256 q)) HW) as HL.
    rewrite Lh in HL.
    assert (Lq : length (firstn 254 (bits_le 256 q)) = 254%nat) by (rewrite firstn_length, bits_le_length; reflexivity).
    rewrite Lq in HL.
    unfold signature_layout. rewrite <- (app_nil_r (lt_layout W 254 254)). apply (laid_bind _ _ _ _ _ _ HL). intros _ _.
    change (@nil op) with (@nil op ++ []). apply (laid_bind (fun _ => True)); [ apply laid_cassert; now apply Nat.leb_le |]. intros _ _.
    assert (L1 : forall bs : list bool, (254 <=? length (firstn 253 bs))%nat = false).
    { intros bs. apply Nat.leb_gt. rewrite firstn_length. lia. }
    pose proof (laid_le_bits (firstn 253 hb)) as H1. rewrite L1 in H1.
    change (@nil op) with (@nil op ++ []). apply (laid_bind _ _ _ _ _ _ H1). intros a _.
    pose proof (laid_le_bits (firstn 253 (v_e sg))) as H2. rewrite L1 in H2.
    change (@nil op) with (@nil op ++ []). apply (laid_bind _ _ _ _ _ _ H2). intros b _. now apply laid_ret.
  Qed.
  Lemma laid_enforce_valid t k : laid (fun _ => True) (enforce_valid t k) (repeat Constraint 5).
  Proof.
    unfold enforce_valid. change (repeat Constraint 5) with (concat (repeat [Constraint] 4) ++ [Constraint]).
    apply (laid_bind (fun _ => True)); [| intros _ _; apply laid_enforce ].
    apply (laid_cfold (fun _ : unit => True) (fun _ : utxoV => True) _ [Constraint] (a4_list (v_inputs t))); auto.
    - intros s x _ _. apply laid_cond.
    - apply Forall_forall. auto.
  Qed.

  (** one transaction of an aggregator step *)
  Definition output_layout (to : bool) : list op := (if to then [] else to_n_bits_layout 64) ++ [Constraint].
  Definition transaction_layout (to : bool) : list op :=
    repeat Constraint 5 ++ [Constraint] ++ signature_layout 32 ++ repeat Constraint 4
    ++ concat (repeat (output_layout to) 4) ++ [Constraint] ++ (if to then [] else to_n_bits_layout 64).

  Lemma laid_delete sv root x : length (snd (fst x)) = 31%nat -> laid (fun _ => True) (c_delete sv root x) [Constraint].
  Proof.
    destruct x as [[u pf] pos]. cbn [fst snd]. intros H. unfold c_delete. cbv zeta.
    change [Constraint] with ([] ++ [Constraint]). apply (laid_bind (fun _ => True)); [ now apply laid_update |].
    intros [old new] _. change [Constraint] with ([Constraint] ++ []).
    apply (laid_bind _ _ _ _ _ _ (laid_cond _ _)). intros _ _. now apply laid_ret.
  Qed.
  Lemma laid_output contract to sc tv st x : length (snd (fst x)) = 31%nat ->
    laid (fun _ => True) (c_output contract to sc tv st x) (output_layout to).
  Proof.
    destruct x as [[u pf] pos], st as [[ur da] wa]. cbn [fst snd]. intros H. unfold c_output, output_layout. cbv zeta.
    apply (laid_bind (fun _ => True)).
    - destruct to; [ now apply laid_ret |]. rewrite <- (app_nil_r (to_n_bits_layout 64)).
      apply (laid_bind _ _ _ _ _ _ (laid_to_n_bits (v_amount u) 64 ltac:(lia))). intros bs _. now apply laid_ret.
    - intros da' _. change [Constraint] with ([] ++ [Constraint]). apply (laid_bind (fun _ => True)); [ now apply laid_update |].
      intros [old new] _. change [Constraint] with ([Constraint] ++ []).
      apply (laid_bind _ _ _ _ _ _ (laid_cond _ _)). intros _ _. now apply laid_ret.
  Qed.
  Lemma laid_step contract to z x : wf_input x -> well_shaped x ->
    laid (fun _ => True) (c_step contract to z x) (transaction_layout to).
  Proof.
    intros Hw (Ht & Hs & Hd & Hadd). unfold c_step, transaction_layout. cbv zeta.
    apply (laid_bind _ _ _ _ _ _ (laid_enforce_valid _ _)). intros _ _.
    match goal with |- laid _ _ ?l => change l with ([] ++ l) end.
    apply (laid_bind (fun _ => True)); [ now apply laid_update |]. intros [to1 tn1] _.
    apply (laid_bind _ _ _ _ _ _ (laid_enforce _)). intros _ _.
    apply (laid_bind (fun _ => True)).
    { apply laid_is_valid; [ lia |]. unfold wf_input in Hw. lia. }
    intros sv _. apply (laid_bind (fun _ => True)).
    { change (repeat Constraint 4) with (concat (repeat [Constraint] (length (dels x)))).
      apply (laid_cfold (fun _ => True) (fun y => length (snd (fst y)) = 31%nat) (c_delete sv) [Constraint] (dels x)); auto.
      intros s y _ Hy. now apply laid_delete. }
    intros ur _. apply (laid_bind (fun _ => True)).
    { change (repeat (output_layout to) 4) with (repeat (output_layout to) (length (adds x))).
      apply (laid_cfold (fun _ => True) (fun y => length (snd (fst y)) = 31%nat)); auto.
      intros s y _ Hy. now apply laid_output. }
    intros [[ur' da] wa] _. match goal with |- laid _ _ ?l => change l with ([] ++ l) end.
    apply (laid_bind (fun _ => True)); [ now apply laid_update |]. intros [so sn] _.
    apply (laid_bind _ _ _ _ _ _ (laid_cond _ _)). intros _ _.
    rewrite <- (app_nil_r (if to then [] else to_n_bits_layout 64)). apply (laid_bind (fun _ => True)).
    - destruct to; [ now apply laid_ret |]. rewrite <- (app_nil_r (to_n_bits_layout 64)).
      apply (laid_bind _ _ _ _ _ _ (laid_to_n_bits wa 64 ltac:(lia))). intros bs _. now apply laid_ret.
    - intros wd _. now apply laid_ret.
  Qed.

  (** ** C104 *)

  (** The aggregator's step: the layout depends on the mode and the number of inputs of the batch
      alone; each transaction contributes the same piece. *)
  Theorem C104_aggregator to : exists piece, forall contract z b,
    (8 <= length z)%nat -> Forall wf_input b -> Forall proof_lengths b ->
    laid_out (generate_step_constraints contract to z b) (concat (repeat piece (length b))).
  Proof.
    exists (transaction_layout to). intros contract z b Hz Hw Hp. apply list8 in Hz as (s & Es).
    unfold generate_step_constraints. rewrite Es. apply (laid_laid_out (fun _ => True)).
    rewrite <- (app_nil_r (concat _)). apply (laid_bind (fun _ => True)); [| intros z' _; now apply laid_ret ].
    apply (laid_cfold (fun _ => True) (fun x => wf_input x /\ well_shaped x)); auto.
    - intros s' x _ [H1 H2]. now apply laid_step.
    - apply Forall_forall. intros x Hx. rewrite Forall_forall in Hw, Hp. split; [ now apply Hw |].
      apply shaped_lengths. now apply Hp.
  Qed.

  (** one transaction of a client's step *)
  Lemma laid_is_lt a b : laid (fun _ => True) (is_lt a b) [Constraint; Constraint].
  Proof.
    unfold is_lt. change [Constraint; Constraint] with ([Constraint] ++ [Constraint] ++ []).
    apply (laid_bind _ _ _ _ _ _ (laid_enforce _)). intros _ _.
    apply (laid_bind _ _ _ _ _ _ (laid_enforce _)). intros _ _. now apply laid_ret.
  Qed.
  Lemma laid_index_loop path : forall bits prev se, (length path <= length bits)%nat ->
    laid (fun _ => True) (index_loop path bits prev se) (repeat Constraint (length path)).
  Proof.
    induction path as [|[l r] path IH]; intros bits prev se H; cbn [index_loop length repeat]; [ now constructor |].
    destruct bits as [|b bits]; cbn [length] in H; [ lia |].
    change (Constraint :: repeat Constraint (length path)) with ([Constraint] ++ repeat Constraint (length path)).
    apply (laid_bind _ _ _ _ _ _ (laid_cond _ _)). intros _ _. apply IH. lia.
  Qed.
  Lemma laid_membership_loop path : forall prev se,
    laid (fun _ => True) (membership_loop path prev se) (concat (repeat [Hint; Constraint] (length path))).
  Proof.
    induction path as [|[l r] path IH]; intros prev se; cbn [membership_loop length repeat concat]; [ now constructor |].
    change ([Hint; Constraint] ++ concat (repeat [Hint; Constraint] (length path)))
      with ([Hint] ++ [Constraint] ++ concat (repeat [Hint; Constraint] (length path))).
    apply (laid_bind _ _ _ _ _ _ (laid_witness _)). intros b _.
    apply (laid_bind _ _ _ _ _ _ (laid_cond _ _)). intros _ _. apply IH.
  Qed.
  Definition item_layout : list op :=
    [Constraint; Constraint] ++ [Constraint] ++ (repeat Constraint 12 ++ [Constraint])
    ++ ([Hint] ++ [Constraint] ++ concat (repeat [Hint; Constraint] 12) ++ [Constraint]).
  Lemma laid_u_step k blk st x : length (snd (fst x)) = 12%nat -> length (snd x) = 12%nat ->
    laid (fun _ => True) (u_step k blk st x) item_layout.
  Proof.
    destruct x as [[[t i] tp] sp], st as [[ba no] pi]. cbn [fst snd]. intros Htp Hsp. unfold u_step, item_layout. cbv zeta.
    apply (laid_bind _ _ _ _ _ _ (laid_is_lt _ _)). intros lower _.
    apply (laid_bind _ _ _ _ _ _ (laid_cond _ _)). intros _ _.
    apply (laid_bind (fun _ => True)).
    { unfold conditionally_check_membership_with_index.
      match goal with |- laid _ _ ?l => change l with ([] ++ l) end.
      apply (laid_bind (fun _ => True)); [ apply laid_cassert; apply Nat.eqb_eq; exact Htp |]. intros _ _.
      pose proof (laid_index_loop tp (to_bits_le i) (GLeafHash tx_gcfg t) (negb (Feqb (tx_hashV t) dummy_transaction_hash))) as HI.
      rewrite Htp, to_bits_length in HI. apply (laid_bind _ _ _ _ _ _ (HI ltac:(lia))). intros ph _. apply laid_cond. }
    intros _ _. rewrite <- (app_nil_r (_ ++ _)). apply (laid_bind (fun _ => True)); [| intros _ _; now apply laid_ret ].
    unfold conditionally_check_membership.
    match goal with |- laid _ _ ?l => change l with ([] ++ l) end.
    apply (laid_bind (fun _ => True)); [ apply laid_cassert; apply Nat.eqb_eq; exact Hsp |]. intros _ _.
    destruct sp as [|[l0 r0] sp]; [ discriminate |].
    apply (laid_bind _ _ _ _ _ _ (laid_witness _)). intros b _.
    apply (laid_bind _ _ _ _ _ _ (laid_cond _ _)). intros _ _.
    pose proof (laid_membership_loop ((l0, r0) :: sp) (GLeafHash signer_gcfg (get_signer t)) (negb (Feqb (tx_hashV t) dummy_transaction_hash))) as HM.
    rewrite Hsp in HM. apply (laid_bind _ _ _ _ _ _ HM). intros ph _. apply laid_cond.
  Qed.

  (** A client's step, with either accumulator: the layout depends on the number of transactions
      per step alone. *)
  Theorem C104_client : exists head piece, forall acc N z (a : user_auxV),
    (7 <= length z)%nat ->
    length (ux_txs a) = N -> length (ux_tx_proofs a) = N -> length (ux_signer_proofs a) = N ->
    Forall (fun pf => length pf = 12%nat) (ux_tx_proofs a) -> Forall (fun pf => length pf = 12%nat) (ux_signer_proofs a) ->
    laid_out (update_balance acc N z a) (head ++ concat (repeat piece N)).
  Proof.
    exists (repeat Constraint 4), item_layout. intros acc N z a Hz H1 H2 H3 F1 F2.
    apply (laid_laid_out (fun _ => True)). unfold update_balance.
    match goal with |- laid _ _ ?l => change l with ([] ++ [] ++ [] ++ l) end.
    apply (laid_bind (fun _ => True)); [ apply laid_cassert; now apply Nat.eqb_eq |]. intros _ _.
    apply (laid_bind (fun _ => True)); [ apply laid_cassert; now apply Nat.eqb_eq |]. intros _ _.
    apply (laid_bind (fun _ => True)); [ apply laid_cassert; now apply Nat.eqb_eq |]. intros _ _.
    assert (Hu : exists s, u_of_list z = Some s).
    { do 7 (destruct z as [|? z]; [ cbn in Hz; lia |]). eexists. reflexivity. }
    destruct Hu as (s & ->). cbv zeta.
    change (repeat Constraint 4 ++ concat (repeat item_layout N))
      with ([Constraint] ++ ([Constraint; Constraint] ++ [Constraint]) ++ concat (repeat item_layout N)).
    apply (laid_bind _ _ _ _ _ _ (laid_enforce _)). intros _ _.
    apply (laid_bind (fun _ => True)).
    { unfold enforce_le. apply (laid_bind _ _ _ _ _ _ (laid_is_lt _ _)). intros b _. apply laid_enforce. }
    intros _ _. rewrite <- (app_nil_r (concat _)).
    apply (laid_bind (fun _ => True)); [| intros [[ba no] ix] _; now apply laid_ret ].
    assert (Lc : length (combine (combine (ux_txs a) (ux_tx_proofs a)) (ux_signer_proofs a)) = N)
      by (rewrite !combine_length; lia).
    pose proof (laid_cfold (fun _ => True) (fun x : u_item => length (snd (fst x)) = 12%nat /\ length (snd x) = 12%nat)
                  (u_step (ux_pk a) (ux_block a)) item_layout
                  (combine (combine (ux_txs a) (ux_tx_proofs a)) (ux_signer_proofs a))) as HC.
    match goal with |- laid ?Q ?c (concat (repeat item_layout N)) =>
      refine (eq_ind _ (fun n => laid Q c (concat (repeat item_layout n))) _ _ Lc) end.
    apply HC; auto.
    - intros st x _ [Hx1 Hx2]. now apply laid_u_step.
    - apply Forall_forall. intros [[t p1] p2] Hx. pose proof (in_combine_r _ _ _ _ Hx) as Hr. apply in_combine_l in Hx.
      apply in_combine_r in Hx. rewrite Forall_forall in F1, F2. cbn [fst snd]. split; [ now apply F1 | now apply F2 ].
  Qed.

  Lemma laid_out_honest {A} (c : circ A) l : laid_out c l -> exists r, honest c = Some r.
  Proof.
    induction 1 as [a|b k l H [r E]|h k l H IH].
    - now eexists.
    - cbn. rewrite E. destruct r. eauto.
    - cbn. apply IH.
  Qed.
  (** So whenever two steps with as many inputs can be built at all, whatever their inputs, states
      and contract keys, they are the same circuit. *)
  Theorem C104_same_circuit to contract contract' z z' b b' :
    Forall wf_input b -> Forall wf_input b' -> length b = length b' ->
    forall r r', honest (generate_step_constraints contract to z b) = Some r ->
    honest (generate_step_constraints contract' to z' b') = Some r' ->
    exists l, laid_out (generate_step_constraints contract to z b) l /\
              laid_out (generate_step_constraints contract' to z' b') l.
  Proof.
    intros Hw Hw' Hb r r' H H'.
    apply (ex_intro (fun r => honest _ = Some r)) in H, H'.
    apply C101_synthesis in H as [Hz Hp]; [| exact Hw ]. apply C101_synthesis in H' as [Hz' Hp']; [| exact Hw' ].
    destruct (C104_aggregator to) as (piece & HL). exists (concat (repeat piece (length b))). split; [ now apply HL |].
    rewrite Hb. now apply HL.
  Qed.
  (** And every step of every run of a proof is the circuit that was preprocessed with default inputs. *)
  Lemma ivc_lengths contract to z bs z' : ivc contract to z bs z' ->
    forall b, In b bs -> Forall wf_input b /\ Forall proof_lengths b.
  Proof.
    induction 1 as [|z b z1 bs z' Hw Hs _ IH]; intros b' Hb; [ destruct Hb |]. destruct Hb as [<-|Hb]; [| now apply IH ].
    split; [ exact Hw |]. apply (C101_synthesis contract to z b Hw). eexists. apply C101_aggregator_witness; eassumption.
  Qed.
  Theorem C104_preprocessed to contract0 z0 B : length z0 = 8%nat ->
    exists l, laid_out (generate_step_constraints contract0 to z0 (repeat (inputs_alloc inputs_default) B)) l /\
      forall contract z bs z', ivc contract to z bs z' -> forall b, In b bs -> length b = B ->
      forall z1, length z1 = 8%nat -> laid_out (generate_step_constraints contract to z1 b) l.
  Proof.
    intros Hz0. destruct (C104_aggregator to) as (piece & HL). exists (concat (repeat piece B)). split.
    - rewrite <- (repeat_length (inputs_alloc inputs_default) B) at 2.
      assert (Hw : Forall wf_input (repeat (inputs_alloc inputs_default) B)).
      { apply Forall_forall. intros x Hx. apply repeat_spec in Hx as ->. unfold wf_input.
        cbn [inputs_alloc x_sig sig_alloc v_e]. rewrite firstn_length, bits_le_length. reflexivity. }
      apply HL; [ lia | exact Hw |].
      apply (C101_synthesis contract0 to z0 _ Hw). now apply C101_default.
    - intros contract z bs z' H b Hb <- z1 Hz1. destruct (ivc_lengths _ _ _ _ _ H b Hb) as [H1 H2]. apply HL; auto. lia.
  Qed.
End shape.

Print Assumptions C104_layout_unique.
Print Assumptions C104_aggregator.
Print Assumptions C104_client.
Print Assumptions C104_same_circuit.
Print Assumptions C104_preprocessed.

(** Proofs about signatures. *)
From Coq Require Import ZArith List Bool Lia.
Import ListNotations.
From Verif Require Import Base Env Circuit SparseMTGadget Data DataFacts Gadgets GadgetsProofs Schnorr.
Open Scope Z_scope.

Section schnorr.
  Context {hs : Hashes} {G : Curve}.

  Lemma q_254 : 2 ^ 253 < q < 2 ^ 254.
  Proof. exact q_bounds. Qed.
  Lemma scalar_range (x : scalar) : 0 <= zval x < q.
  Proof. apply zval_range. Qed.
  Lemma truncated_eq n h : (254 <= n <= 256)%nat -> truncated n h = zval h.
  Proof.
    intros H. unfold truncated, bigint_bits. rewrite bits_le_firstn by lia.
    rewrite bits_val_le, Z.mod_small; auto.
    pose proof (F_range h). pose proof p_254.
    assert (2 ^ 254 <= 2 ^ Z.of_nat n) by (apply Z.pow_le_mono_r; lia). lia.
  Qed.
  Lemma from_bigint_spec h e : 0 <= h -> from_bigint h = Some e <-> zval e = h.
  Proof.
    intros Hh. unfold from_bigint. destruct (h <? q) eqn:E.
    - apply Z.ltb_lt in E. unfold scalar_of. split.
      + intros [= <-]. cbn. apply Z.mod_small. unfold q in E; lia.
      + intros <-. f_equal. apply of_Z_zval.
    - apply Z.ltb_ge in E. split; [ discriminate |]. pose proof (scalar_range e). lia.
  Qed.
  Lemma from_bigint_none h : 0 <= h -> from_bigint h = None <-> q <= h.
  Proof.
    intros Hh. unfold from_bigint. destruct (h <? q) eqn:E.
    - apply Z.ltb_lt in E. split; [ discriminate | lia ].
    - apply Z.ltb_ge in E. tauto.
  Qed.

  (** Verification compares the hash, as an integer, with [e]. *)
  Lemma verify_spec k m sg :
    verify_signature k m sg = true <->
    zval (challenge_hash k m (zval (sig_s sg)) (zval (sig_e sg))) = zval (sig_e sg).
  Proof.
    unfold verify_signature. rewrite truncated_eq by lia.
    set (h := challenge_hash _ _ _ _). pose proof (F_range h) as Hh.
    destruct (from_bigint (zval h)) as [e|] eqn:E.
    - apply from_bigint_spec in E; [| lia ]. rewrite zeqb_eq, <- E. split; [ now intros -> |].
      apply zval_inj.
    - apply from_bigint_none in E; [| lia ]. split; [ discriminate |].
      pose proof (scalar_range (sig_e sg)). lia.
  Qed.

  Lemma xy_default_enc r : removelast (pt_encV r) = xy_or_default r.
  Proof. unfold pt_encV, xy_or_default. destruct (affine r) as [[x y]|]; reflexivity. Qed.
  Lemma gadget_hash_eq k m sg :
    gadget_hash k m sg = challenge_hash k m (bits_val (v_s sg)) (bits_val (v_e sg)).
  Proof. unfold gadget_hash, challenge_hash. now rewrite xy_default_enc. Qed.
  Lemma sig_alloc_bits (z : scalar) : bits_val (firstn 254 (bits_le 256 (zval z))) = zval z.
  Proof.
    rewrite bits_le_firstn, bits_val_le by lia. apply Z.mod_small.
    pose proof (scalar_range z). pose proof q_254. change (Z.of_nat 254) with 254. lia.
  Qed.
  Lemma sig_alloc_len (z : scalar) : length (firstn 254 (bits_le 256 (zval z))) = 254%nat.
  Proof. now rewrite bits_le_firstn, bits_le_length by lia. Qed.

  Lemma nth_bits_eq (a b : list bool) :
    length a = 254%nat -> length b = 254%nat ->
    Feqb (Fof (bits_val (firstn 253 a))) (Fof (bits_val (firstn 253 b))) &&
    Bool.eqb (nth 253 a false) (nth 253 b false) = (bits_val a =? bits_val b).
  Proof.
    intros La Lb.
    assert (S : forall l : list bool, length l = 254%nat -> l = firstn 253 l ++ [nth 253 l false]).
    { intros l Ll. rewrite <- (firstn_skipn 253 l) at 1. f_equal.
      assert (L1 : length (skipn 253 l) = 1%nat) by (rewrite skipn_length; lia).
      destruct (skipn 253 l) as [|x [|]] eqn:E; try discriminate.
      rewrite <- (firstn_skipn 253 l), app_nth2 by (rewrite firstn_length; lia).
      rewrite firstn_length, Ll, E. reflexivity. }
    assert (L : forall l : list bool, length l = 254%nat -> (length (firstn 253 l) < 254)%nat)
      by (intros; rewrite firstn_length; lia).
    pose proof (short_bits_lt _ (L a La)) as Ha. pose proof (short_bits_lt _ (L b Lb)) as Hb.
    destruct (bits_val a =? bits_val b) eqn:E.
    - apply Z.eqb_eq in E. apply bits_val_inj in E; [| lia ]. subst.
      now rewrite Feqb_refl, Bool.eqb_reflx.
    - apply Z.eqb_neq in E. apply not_true_is_false. rewrite andb_true_iff, Feqb_eq, Bool.eqb_true_iff.
      intros [H1 H2]. apply E. rewrite (S a La), (S b Lb), H2. f_equal. f_equal.
      apply bits_val_inj; [ rewrite !firstn_length; lia |].
      apply Fof_inj_small in H1; lia.
  Qed.

  (** Any signature bits of the right length: the hash must be below the scalar modulus, and
      the result is the comparison with [e]. *)
  Section gadget.
    Variables (W : nat) (k : pt) (m : list F) (sg : sigV).
    Hypothesis HW : (0 < W)%nat.
    Hypothesis HWp : 2 ^ (Z.of_nat W + 1) <= p.
    Hypothesis Hs : length (v_e sg) = 254%nat.
    Let h := zval (challenge_hash k m (bits_val (v_s sg)) (bits_val (v_e sg))).
    Let hb := firstn 254 (to_bits_le (gadget_hash k m sg)).

    Lemma hb_val : bits_val hb = h /\ length hb = 254%nat.
    Proof.
      unfold hb, h, to_bits_le. rewrite gadget_hash_eq, bits_le_firstn by lia.
      rewrite bits_val_le, bits_le_length. split; auto. apply Z.mod_small.
      pose proof (F_range (challenge_hash k m (bits_val (v_s sg)) (bits_val (v_e sg)))).
      pose proof p_254. change (Z.of_nat 254) with 254. lia.
    Qed.
    Lemma qb_val : bits_val (firstn 254 (bits_le 256 q)) = q.
    Proof.
      rewrite bits_le_firstn, bits_val_le by lia. apply Z.mod_small.
      pose proof q_254. change (Z.of_nat 254) with 254. lia.
    Qed.
    Lemma lens_ok :
      Z.of_nat (Nat.max (length hb) (length (firstn 254 (bits_le 256 q)))) + 1 < p.
    Proof.
      destruct hb_val as [_ L]. rewrite L, bits_le_firstn, bits_le_length by lia.
      pose proof p_254. cbn. lia.
    Qed.

    Definition gadget_result : bool := h =? bits_val (v_e sg).

    Lemma is_valid_gadget_eq :
      is_valid_gadget W k m sg =
      let! _ := enforce_lt W hb (firstn 254 (bits_le 256 q)) in Ret gadget_result.
    Proof.
      unfold is_valid_gadget. fold hb. rewrite Hs. cbn [Nat.leb cassert cbind].
      destruct hb_val as [V L].
      rewrite (le_bits_short (firstn 253 hb)) by (rewrite firstn_length; lia).
      rewrite (le_bits_short (firstn 253 (v_e sg))) by (rewrite firstn_length; lia).
      cbn [cbind]. rewrite nth_bits_eq by auto. rewrite V. reflexivity.
    Qed.
    Lemma verify_gadget_eq u :
      sat (verify_gadget W k m sg) u <->
      sat (let! _ := enforce_lt W hb (firstn 254 (bits_le 256 q)) in enforce gadget_result) u.
    Proof.
      unfold verify_gadget. fold hb. rewrite Hs. cbn [Nat.leb cassert cbind].
      destruct hb_val as [V L].
      rewrite (le_bits_short (firstn 253 hb)) by (rewrite firstn_length; lia).
      rewrite (le_bits_short (firstn 253 (v_e sg))) by (rewrite firstn_length; lia).
      unfold gadget_result. rewrite <- V, <- nth_bits_eq by auto.
      destruct u. split; intros H; apply sat_bind in H as ([] & H1 & H2); apply sat_bind; exists tt;
        split; auto; cbn [cbind enforce sat] in H2 |- *.
      - destruct H2 as (-> & -> & _). auto.
      - destruct H2 as [H2 _]. apply andb_prop in H2. tauto.
    Qed.

    Lemma is_valid_gadget_sat b :
      sat (is_valid_gadget W k m sg) b <-> h < q /\ b = gadget_result.
    Proof.
      rewrite is_valid_gadget_eq, sat_bind. destruct hb_val as [V _]. split.
      - intros ([] & H1 & H2). rewrite enforce_lt_sat in H1 by (auto; apply lens_ok).
        rewrite V, qb_val in H1. cbn in H2. auto.
      - intros [H1 ->]. exists tt. rewrite enforce_lt_sat by (auto; apply lens_ok).
        rewrite V, qb_val. cbn. auto.
    Qed.
    Lemma is_valid_gadget_honest :
      honest (is_valid_gadget W k m sg) = Some (h <? q, gadget_result).
    Proof.
      rewrite is_valid_gadget_eq, honest_bind. destruct hb_val as [V _].
      rewrite enforce_lt_honest by (auto; apply lens_ok). rewrite V, qb_val. cbn.
      now rewrite andb_true_r.
    Qed.
    Lemma verify_gadget_sat u :
      sat (verify_gadget W k m sg) u <-> h < q /\ gadget_result = true.
    Proof.
      rewrite verify_gadget_eq, sat_bind. destruct hb_val as [V _]. split.
      - intros ([] & H1 & H2). rewrite enforce_lt_sat in H1 by (auto; apply lens_ok).
        rewrite V, qb_val in H1. rewrite sat_enforce in H2. auto.
      - intros [H1 H2]. exists tt. rewrite enforce_lt_sat by (auto; apply lens_ok).
        rewrite V, qb_val, sat_enforce. auto.
    Qed.
  End gadget.

  Lemma gadget_result_alloc k m sg :
    gadget_result k m (sig_alloc sg) = verify_signature k m sg.
  Proof.
    unfold gadget_result. cbn [sig_alloc v_s v_e]. rewrite !sig_alloc_bits.
    destruct (verify_signature k m sg) eqn:E.
    - apply verify_spec in E. now apply Z.eqb_eq.
    - apply Z.eqb_neq. intros H. apply verify_spec in H. congruence.
  Qed.
End schnorr.

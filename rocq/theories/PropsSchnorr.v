(** Properties C30-C35: signatures and range checks. *)
From Coq Require Import ZArith List Bool Lia.
Import ListNotations.
From Verif Require Import Base Env Circuit SparseMTGadget Data DataFacts Gadgets GadgetsProofs Schnorr
  SchnorrProofs Toy.
Open Scope Z_scope.

Section props.
  Context {hs : Hashes} {G : Curve}.

  (** A draw that makes the loop continue: its nonce point has coordinates, and their hash is
      not below the scalar modulus. *)
  Definition rejected (m : list F) (k : scalar) : Prop :=
    exists x y, affine (pmul (zval k) pgen) = Some (x, y) /\ q <= zval (crh ([x; y] ++ m)).

  Theorem C30_sign_verify (sk : scalar) (m : list F) (draws : list scalar) :
    (forall sg, sign sk m draws = Ok (Some sg) ->
       verify_signature (public_key sk) m sg = true) /\
    (sign sk m draws = Panic <->
       exists pre k post, draws = pre ++ k :: post /\ Forall (rejected m) pre /\ zval k = 0) /\
    (sign sk m draws = Ok None <-> Forall (rejected m) draws).
  Proof.
    assert (P0 : forall k : scalar, affine (pmul (zval k) pgen) = None <-> zval k = 0).
    { intros k. rewrite affine_none. split.
      - intros H. apply pgen_order in H. pose proof (scalar_range k). unfold q in *.
        rewrite Z.mod_small in H; lia.
      - intros ->. apply pmul_0. }
    induction draws as [|k draws IH]; cbn [sign].
    - repeat split; try discriminate; auto.
      intros (pre & k & post & E & _). destruct pre; discriminate.
    - destruct (affine (pmul (zval k) pgen)) as [[x y]|] eqn:A.
      + assert (Hk : zval k <> 0) by (intros H; apply P0 in H; congruence).
        rewrite truncated_eq by lia. set (h := crh ([x; y] ++ m)).
        pose proof (F_range h) as Hh.
        destruct (from_bigint (zval h)) as [e|] eqn:E.
        * apply from_bigint_spec in E; [| lia ].
          assert (Hnr : ~ rejected m k).
          { intros (x' & y' & A' & H). rewrite A in A'. injection A' as <- <-.
            fold h in H. pose proof (scalar_range e). lia. }
          split; [| split; split ]; try discriminate.
          -- intros sg [= <-]. apply verify_spec. cbn [sig_s sig_e]. rewrite E. f_equal.
             unfold challenge_hash, public_key.
             assert (R : padd (pmul (zval (zsub k (zmul sk e))) pgen) (pmul (zval e) (pmul (zval sk) pgen))
                         = pmul (zval k) pgen).
             { assert (Z1 : zval (zsub k (zmul sk e)) = (zval k - zval sk * zval e) mod q).
               { rewrite <- (of_Z_zval k) at 1. rewrite <- (of_Z_zval sk) at 1.
                 rewrite <- (of_Z_zval e) at 1. rewrite <- of_Z_mul, <- of_Z_sub. reflexivity. }
               rewrite Z1, pmul_mod, <- pmul_mul, <- pmul_add. f_equal. lia. }
             rewrite <- E, R. unfold xy_or_default. now rewrite A.
          -- intros (pre & k' & post & E1 & F1 & Z1). destruct pre as [|k0 pre].
             ++ injection E1 as <- <-. contradiction.
             ++ injection E1 as <- ->. inversion F1; subst. contradiction.
          -- inversion 1; subst. contradiction.
        * apply from_bigint_none in E; [| lia ].
          assert (Hr : rejected m k) by (exists x, y; auto).
          destruct IH as (I1 & I2 & I3). split; [ exact I1 | split; split ].
          -- intros H. apply I2 in H as (pre & k' & post & -> & F1 & Z1).
             exists (k :: pre), k', post. auto.
          -- intros (pre & k' & post & E1 & F1 & Z1). destruct pre as [|k0 pre].
             ++ injection E1 as <- <-. contradiction.
             ++ injection E1 as <- ->. inversion F1; subst. apply I2. exists pre, k', post. auto.
          -- intros H. apply I3 in H. auto.
          -- inversion 1; subst. now apply I3.
      + apply P0 in A.
        assert (Hnr : ~ rejected m k).
        { intros (x & y & A' & _). apply P0 in A. congruence. }
        split; [| split; split ]; try discriminate.
        * intros _. exists [], k, draws. auto.
        * auto.
        * inversion 1; subst. contradiction.
  Qed.

  (** The integer that is compared with [e]. *)
  Definition hash_value (k : pt) (m : list F) (sg : signature) : Z :=
    zval (challenge_hash k m (zval (sig_s sg)) (zval (sig_e sg))).

  Theorem C31_gadget_agrees (W : nat) (k : pt) (m : list F) (sg : signature) :
    (0 < W)%nat -> 2 ^ (Z.of_nat W + 1) <= p ->
    (hash_value k m sg < q ->
       honest (is_valid_gadget W k m (sig_alloc sg)) = Some (true, verify_signature k m sg) /\
       (forall b, sat (is_valid_gadget W k m (sig_alloc sg)) b <-> b = verify_signature k m sg) /\
       (sat (verify_gadget W k m (sig_alloc sg)) tt <-> verify_signature k m sg = true)) /\
    (q <= hash_value k m sg ->
       (forall b, ~ sat (is_valid_gadget W k m (sig_alloc sg)) b) /\
       ~ sat (verify_gadget W k m (sig_alloc sg)) tt) /\
    (p <= q -> hash_value k m sg < q).
  Proof.
    intros HW HWp.
    assert (Hl : length (v_e (sig_alloc sg)) = 254%nat) by apply sig_alloc_len.
    assert (Hh : zval (challenge_hash k m (bits_val (v_s (sig_alloc sg)))
                         (bits_val (v_e (sig_alloc sg)))) = hash_value k m sg).
    { unfold hash_value. cbn [sig_alloc v_s v_e]. now rewrite !sig_alloc_bits. }
    split; [| split ].
    - intros Hq. rewrite is_valid_gadget_honest by auto. rewrite Hh, gadget_result_alloc.
      split; [ now rewrite (proj2 (Z.ltb_lt _ _) Hq) | split ].
      + intros b. rewrite is_valid_gadget_sat by auto. rewrite Hh, gadget_result_alloc. tauto.
      + rewrite verify_gadget_sat by auto. rewrite Hh, gadget_result_alloc. tauto.
    - intros Hq. split.
      + intros b. rewrite is_valid_gadget_sat by auto. rewrite Hh. lia.
      + rewrite verify_gadget_sat by auto. rewrite Hh. lia.
    - intros H. pose proof (F_range (challenge_hash k m (zval (sig_s sg)) (zval (sig_e sg)))).
      unfold hash_value. lia.
  Qed.

  (** The gadget on arbitrary witness bits (not only canonical allocations). *)
  Theorem C31_gadget_raw (W : nat) (k : pt) (m : list F) (sg : sigV) (b : bool) :
    (0 < W)%nat -> 2 ^ (Z.of_nat W + 1) <= p -> length (v_e sg) = 254%nat ->
    let h := zval (challenge_hash k m (bits_val (v_s sg)) (bits_val (v_e sg))) in
    sat (is_valid_gadget W k m sg) b <-> h < q /\ b = (h =? bits_val (v_e sg)).
  Proof. intros H1 H2 H3 h. now apply is_valid_gadget_sat. Qed.

  (** A prover gains nothing from non-canonical bits: accepted bits denote a canonical
      signature that verifies natively. *)
  Theorem C31_accepted_bits_are_a_signature (W : nat) (k : pt) (m : list F) (sg : sigV) :
    (0 < W)%nat -> 2 ^ (Z.of_nat W + 1) <= p -> length (v_e sg) = 254%nat ->
    sat (is_valid_gadget W k m sg) true ->
    verify_signature k m (mkSig (scalar_of (bits_val (v_s sg))) (scalar_of (bits_val (v_e sg)))) = true.
  Proof.
    intros H1 H2 H3. rewrite C31_gadget_raw by auto. intros [Hq E]. symmetry in E.
    apply Z.eqb_eq in E. apply verify_spec. cbn [sig_s sig_e].
    set (s := bits_val (v_s sg)) in *. set (e := bits_val (v_e sg)) in *.
    assert (Ze : zval (scalar_of e) = e).
    { cbn. apply Z.mod_small. pose proof (bits_val_bounds (v_e sg)). fold e in H. unfold q in Hq. lia. }
    assert (Zs : pmul (zval (scalar_of s)) pgen = pmul s pgen).
    { cbn. apply pmul_mod. }
    unfold challenge_hash in *. rewrite Zs, Ze. exact E.
  Qed.

  Theorem C32_enforce_lt (W : nat) (x y : list bool) :
    (0 < W)%nat -> 2 ^ (Z.of_nat W + 1) <= p ->
    Z.of_nat (Nat.max (length x) (length y)) + 1 < p ->
    (sat (enforce_lt W x y) tt <-> bits_val x < bits_val y) /\
    honest (enforce_lt W x y) = Some (bits_val x <? bits_val y, tt).
  Proof. intros H1 H2 H3. split; [ now apply enforce_lt_sat | now apply enforce_lt_honest ]. Qed.

  Theorem C33_to_n_bits (x : F) (n : nat) : (n <= 256)%nat ->
    (forall bits, sat (to_n_bits x n) bits <->
       zval x < 2 ^ Z.of_nat n /\ bits = bits_le n (zval x)) /\
    honest (to_n_bits x n) = Some (zval x <? 2 ^ Z.of_nat n, bits_le n (zval x)) /\
    (zval x < 2 ^ Z.of_nat n -> length (bits_le n (zval x)) = n /\ bits_val (bits_le n (zval x)) = zval x).
  Proof.
    intros Hn. split; [| split ].
    - intros bits. now apply to_n_bits_sat.
    - destruct (to_n_bits_honest x n Hn) as (bits & E & ->). exact E.
    - intros H. rewrite bits_le_length, bits_val_le, Z.mod_small; auto.
      pose proof (F_range x). lia.
  Qed.

  Theorem C34_signatures_not_bound_to_key :
    (forall (k : pt) (m : list F) (sg : signature) (d : scalar),
       verify_signature k m sg = true ->
       verify_signature (padd k (pmul (zval d) pgen)) m
         (mkSig (zsub (sig_s sg) (zmul d (sig_e sg))) (sig_e sg)) = true) /\
    (** under the identity key, every nonce whose hash is in range gives a valid signature *)
    (forall (m : list F) (r : scalar),
       zval (crh (xy_or_default (pmul (zval r) pgen) ++ m)) < q ->
       exists e, verify_signature pzero m (mkSig r e) = true).
  Proof.
    split.
    - intros k m sg d. rewrite !verify_spec. cbn [sig_s sig_e]. intros H0.
      etransitivity; [| exact H0 ]. unfold challenge_hash. do 4 f_equal.
      assert (Z1 : zval (zsub (sig_s sg) (zmul d (sig_e sg)))
                   = (zval (sig_s sg) - zval d * zval (sig_e sg)) mod q).
      { rewrite <- (of_Z_zval (sig_s sg)) at 1. rewrite <- (of_Z_zval d) at 1.
        rewrite <- (of_Z_zval (sig_e sg)) at 1. rewrite <- of_Z_mul, <- of_Z_sub. reflexivity. }
      rewrite Z1, pmul_mod, pmul_padd, <- pmul_mul, (padd_comm (pmul _ k)), padd_assoc, <- pmul_add.
      f_equal. f_equal. lia.
    - intros m r Hq. set (h := crh _) in Hq. exists (scalar_of (zval h)). apply verify_spec.
      cbn [sig_s sig_e]. unfold challenge_hash. rewrite pmul_zero, padd_0_r. fold h.
      cbn. symmetry. apply Z.mod_small. pose proof (F_range h). unfold q in Hq. lia.
  Qed.

  Theorem C35_missing_signature (k : pt) (m : list F) :
    verify_signature k m sig_default = true <-> zval (crh (Fzero :: Fzero :: m)) = 0.
  Proof.
    rewrite verify_spec. unfold sig_default. cbn [sig_s sig_e].
    assert (Z0 : zval (scalar_of 0) = 0) by reflexivity.
    rewrite !Z0. unfold challenge_hash. rewrite !pmul_0, padd_0_l.
    unfold xy_or_default. now rewrite (proj2 (affine_none pzero) eq_refl).
  Qed.
End props.

(** * Concrete cases *)
Definition ex_sk : scalar := scalar_of 12345.
Definition ex_msg : list F := [Fof 1; Fof 2; Fof 3].
Definition ex_sig : signature :=
  match sign ex_sk ex_msg [scalar_of 777] with Ok (Some s) => s | _ => sig_default end.
Definition is_some_sig (r : res no_error (option signature)) : bool :=
  match r with Ok (Some _) => true | _ => false end.
Example ex_sign : is_some_sig (sign ex_sk ex_msg [scalar_of 777]) = true.
Proof. vm_compute. reflexivity. Qed.
Example ex_verify : verify_signature (public_key ex_sk) ex_msg ex_sig = true.
Proof. vm_compute. reflexivity. Qed.
Example ex_verify_wrong_message : verify_signature (public_key ex_sk) [Fof 1] ex_sig = false.
Proof. vm_compute. reflexivity. Qed.
Example ex_verify_wrong_key : verify_signature pgen ex_msg ex_sig = false.
Proof. vm_compute. reflexivity. Qed.
Definition is_panic_sig (r : res no_error (option signature)) : bool :=
  match r with Panic => true | _ => false end.
Example ex_sign_panics : is_panic_sig (sign ex_sk ex_msg [scalar_of 0]) = true.
Proof. vm_compute. reflexivity. Qed.
(** window width 32, as used by the aggregator (aggregator/src/circuit.rs:35) *)
Example ex_gadget :
  honest (is_valid_gadget 32 (public_key ex_sk) ex_msg (sig_alloc ex_sig)) = Some (true, true).
Proof.
  assert (Hw : 2 ^ (Z.of_nat 32 + 1) <= p) by (vm_compute; discriminate).
  assert (Hq : (hash_value (public_key ex_sk) ex_msg ex_sig <? q) = true) by (vm_compute; reflexivity).
  apply Z.ltb_lt in Hq.
  destruct (C31_gadget_agrees 32 (public_key ex_sk) ex_msg ex_sig (Nat.lt_0_succ 31) Hw) as [H _].
  destruct (H Hq) as [E _]. rewrite E, ex_verify. reflexivity.
Qed.
Example ex_missing : verify_signature (public_key ex_sk) ex_msg sig_default = false.
Proof. vm_compute. reflexivity. Qed.
Example ex_lt : honest (enforce_lt 2 (bits_le 5 11) (bits_le 5 19)) = Some (true, tt) /\
                honest (enforce_lt 2 (bits_le 5 19) (bits_le 5 11)) = Some (false, tt) /\
                honest (enforce_lt 2 (bits_le 5 19) (bits_le 5 19)) = Some (false, tt).
Proof. vm_compute. auto. Qed.
Example ex_bits : honest (to_n_bits (Fof 6) 3) = Some (true, [false; true; true]) /\
                  honest (to_n_bits (Fof 8) 3) = Some (false, [false; false; false]).
Proof. vm_compute. auto. Qed.

Print Assumptions C30_sign_verify.
Print Assumptions C31_gadget_agrees.
Print Assumptions C31_accepted_bits_are_a_signature.
Print Assumptions C32_enforce_lt.
Print Assumptions C33_to_n_bits.
Print Assumptions C34_signatures_not_bound_to_key.
Print Assumptions C35_missing_signature.

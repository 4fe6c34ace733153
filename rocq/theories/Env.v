(** The dependencies of the code: hash functions and the curve, as arbitrary parameters. *)
From Coq Require Import ZArith List Bool Lia.
Import ListNotations.
From Verif Require Import Base.
Open Scope Z_scope.

(** The hash functions of arkworks used by the code, as arbitrary total functions:
    - [crh]: Poseidon [CRH::evaluate] on a slice of field elements
      (plasma-fold/src/primitives/crh/mod.rs:42,69,77,103,144,172; schnorr.rs:44,66);
    - [two]: Poseidon [TwoToOneCRH::evaluate] (plasma-fold/src/primitives/sparsemt/mod.rs:121);
    - [sha]: SHA-256 on bytes, returning its digest bytes (mock-contract/src/lib.rs:95).
    Simplification: evaluation never fails, parameters are fixed. *)
Class Hashes := mkHashes
  { crh : list F -> F;
    two : F -> F -> F;
    sha : list Z -> list Z }.

(** [Sha256::digest(..)[..31].to_field_elements().unwrap()[0]]
    (mock-contract/src/lib.rs:95-105, aggregator/src/circuit.rs:360,389-400,414,
    plasma-fold/src/primitives/accumulator/constraints.rs:40-48): the first 31 digest bytes,
    little endian, as one field element. *)
Definition sha_field {hs : Hashes} (l : list Z) : F := Fof (bytes_val (firstn 31 (sha l))).

(** A prime-order curve group in the sense the code uses [CurveGroup]: an abelian group with
    generator, an action of the integers of order [q] (the scalar field modulus, 254 bits as
    for Grumpkin and BN254; the generator has exactly that order), decidable equality, and affine coordinates that determine the
    point and are absent exactly at the identity ([into_affine().xy()]). *)
Class Curve := mkCurve
  { pt : Set;
    pt_eqb : pt -> pt -> bool;
    pzero : pt;
    pgen : pt;
    padd : pt -> pt -> pt;
    popp : pt -> pt;
    pmul : Z -> pt -> pt;
    q_pos : positive;
    affine : pt -> option (F * F);
    pt_eqb_eq : forall a b, pt_eqb a b = true <-> a = b;
    padd_comm : forall a b, padd a b = padd b a;
    padd_assoc : forall a b c, padd a (padd b c) = padd (padd a b) c;
    padd_0_l : forall a, padd pzero a = a;
    padd_opp : forall a, padd a (popp a) = pzero;
    pmul_1 : forall a, pmul 1 a = a;
    pmul_add : forall m n a, pmul (m + n) a = padd (pmul m a) (pmul n a);
    pmul_mul : forall m n a, pmul (m * n) a = pmul m (pmul n a);
    pmul_padd : forall n a b, pmul n (padd a b) = padd (pmul n a) (pmul n b);
    pmul_q : forall a, pmul (Zpos q_pos) a = pzero;
    pgen_order : forall n, pmul n pgen = pzero -> n mod Zpos q_pos = 0;
    q_bounds : 2 ^ 253 < Zpos q_pos < 2 ^ 254;
    affine_none : forall a, affine a = None <-> a = pzero;
    affine_inj : forall a b, affine a = affine b -> a = b }.

Section curve_facts.
  Context {G : Curve}.
  Definition q : Z := Zpos q_pos.

  Lemma pt_eqb_refl (a : pt) : pt_eqb a a = true.
  Proof. now apply pt_eqb_eq. Qed.
  Lemma pt_eqb_neq (a b : pt) : pt_eqb a b = false <-> a <> b.
  Proof. rewrite <- Bool.not_true_iff_false, pt_eqb_eq; tauto. Qed.
  Lemma pt_eqb_sym (a b : pt) : pt_eqb a b = pt_eqb b a.
  Proof.
    destruct (pt_eqb a b) eqn:E, (pt_eqb b a) eqn:E'; auto.
    - apply pt_eqb_eq in E; subst. now rewrite pt_eqb_refl in E'.
    - apply pt_eqb_eq in E'; subst. now rewrite pt_eqb_refl in E.
  Qed.
  Lemma pt_eq_dec (a b : pt) : {a = b} + {a <> b}.
  Proof.
    destruct (pt_eqb a b) eqn:E; [ left; now apply pt_eqb_eq | right; now apply pt_eqb_neq ].
  Defined.
  Lemma padd_0_r (a : pt) : padd a pzero = a.
  Proof. rewrite padd_comm; apply padd_0_l. Qed.
  Lemma padd_cancel_l (a b c : pt) : padd a b = padd a c -> b = c.
  Proof.
    intros H. apply (f_equal (padd (popp a))) in H.
    rewrite !padd_assoc, !(padd_comm (popp a) a), !padd_opp, !padd_0_l in H. exact H.
  Qed.
  Lemma pmul_0 (a : pt) : pmul 0 a = pzero.
  Proof.
    apply (padd_cancel_l (pmul 1 a)). rewrite <- pmul_add, padd_0_r. reflexivity.
  Qed.
  Lemma pmul_zero n : pmul n (pzero : pt) = pzero.
  Proof.
    apply (padd_cancel_l (pmul n pzero)). rewrite <- pmul_padd, padd_0_l.
    symmetry; apply padd_0_r.
  Qed.
  Lemma pmul_mod n (a : pt) : pmul (n mod q) a = pmul n a.
  Proof.
    rewrite (Z.div_mod n q) at 2 by (unfold q; lia).
    rewrite pmul_add, Z.mul_comm, pmul_mul.
    change (pmul q a) with (pmul (Zpos q_pos) a).
    rewrite pmul_q, pmul_zero, padd_0_l. reflexivity.
  Qed.
End curve_facts.

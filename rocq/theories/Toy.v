(** A concrete instance of the dependencies, used only to show that hypotheses of theorems are
    met by concrete cases. It is not a model of Poseidon, SHA-256 or Grumpkin. *)
From Coq Require Import ZArith List Bool Lia.
Import ListNotations.
From Verif Require Import Base Env.
Open Scope Z_scope.

(** A polynomial hash of the elements modulo 2^61, and a 32-byte digest derived from it. *)
Definition toy_mask (n : Z) : Z := Z.land n (2 ^ 61 - 1).
Definition toy_mix (l : list Z) : Z := fold_left (fun a x => toy_mask (a * 1000003 + x + 7)) l 1.
Definition toy_crh (l : list F) : F := Fof (toy_mix (map zval l)).
Definition toy_two (a b : F) : F := Fof (toy_mask (zval a * 3 + zval b * 1000033 + 11)).
Definition toy_sha (l : list Z) : list Z := bytes_le 32 (toy_mix l).
#[global] Instance toyH : Hashes := {| crh := toy_crh; two := toy_two; sha := toy_sha |}.

(** The additive group of integers modulo the order of Grumpkin, with made-up coordinates. *)
Definition toy_q : positive :=
  21888242871839275222246405745257275088696311157297823662689037894645226208583.
Definition toy_pt := zmod toy_q.
Definition toy_affine (x : toy_pt) : option (F * F) :=
  if zval x =? 0 then None
  else Some (Fof (zval x mod 2 ^ 128), Fof (zval x / 2 ^ 128)).

Lemma toy_affine_inj (a b : toy_pt) : toy_affine a = toy_affine b -> a = b.
Proof.
  unfold toy_affine. intros H.
  pose proof (zval_range a) as Ha. pose proof (zval_range b) as Hb.
  assert (Hq : Zpos toy_q < 2 ^ 128 * 2 ^ 128) by reflexivity.
  assert (Hp : 2 ^ 128 < p) by reflexivity.
  apply zval_inj.
  destruct (zval a =? 0) eqn:Ea, (zval b =? 0) eqn:Eb; try discriminate.
  - apply Z.eqb_eq in Ea, Eb. lia.
  - assert (H1 : Fof (zval a mod 2 ^ 128) = Fof (zval b mod 2 ^ 128)) by congruence.
    assert (H2 : Fof (zval a / 2 ^ 128) = Fof (zval b / 2 ^ 128)) by congruence.
    pose proof (Z.mod_pos_bound (zval a) (2 ^ 128) eq_refl).
    pose proof (Z.mod_pos_bound (zval b) (2 ^ 128) eq_refl).
    apply Fof_inj_small in H1; [| lia | lia ].
    assert (Hd : forall x, 0 <= x < Zpos toy_q -> 0 <= x / 2 ^ 128 < p).
    { intros x Hx. split; [ apply Z.div_pos; lia |].
      apply Z.div_lt_upper_bound; [ lia |]. lia. }
    apply Fof_inj_small in H2; auto.
    rewrite (Z.div_mod (zval a) (2 ^ 128)), (Z.div_mod (zval b) (2 ^ 128)) by lia. congruence.
Qed.

Local Ltac toZ := intros;
  repeat match goal with
         | x : toy_pt |- _ => rewrite <- (of_Z_zval x); generalize (zval x); clear x; intros x
         end;
  repeat (rewrite <- of_Z_add || rewrite <- of_Z_mul || rewrite <- of_Z_opp);
  f_equal; ring.

#[global] Instance toyG : Curve.
Proof.
  refine {| pt := toy_pt; pt_eqb := zeqb; pzero := of_Z toy_q 0; pgen := of_Z toy_q 1;
            padd := zadd; popp := zopp; pmul := fun n x => zmul (of_Z toy_q n) x;
            q_pos := toy_q; affine := toy_affine |}.
  - exact zeqb_eq.
  - toZ.
  - toZ.
  - toZ.
  - intros a. rewrite <- (of_Z_zval a), <- of_Z_opp, <- of_Z_add. f_equal. ring.
  - toZ.
  - intros m n a. rewrite <- (of_Z_zval a). rewrite <- !of_Z_mul, <- of_Z_add. f_equal. ring.
  - intros m n a. rewrite <- (of_Z_zval a). rewrite <- !of_Z_mul. f_equal. ring.
  - intros n a b. rewrite <- (of_Z_zval a), <- (of_Z_zval b), <- of_Z_add, <- !of_Z_mul, <- of_Z_add.
    f_equal. ring.
  - intros a. rewrite <- (of_Z_zval a), <- of_Z_mul. apply of_Z_eq.
    rewrite Z.mul_comm, Z.mod_mul by discriminate. reflexivity.
  - intros n H. rewrite <- of_Z_mul in H. apply (f_equal zval) in H. cbn in H.
    rewrite Z.mul_1_r in H. exact H.
  - split; reflexivity.
  - intros a. unfold toy_affine. destruct (zval a =? 0) eqn:E.
    + split; auto. intros _. apply Z.eqb_eq in E. now apply zval_inj.
    + split; [ discriminate |]. intros ->. discriminate E.
  - exact toy_affine_inj.
Defined.

(** Property C87, continued: two signatures around one nonce point. *)
From Coq Require Import ZArith List Bool Lia.
Import ListNotations.
From Verif Require Import Base Env Circuit SparseMT SparseMTGadget Data DataSpec Gadgets Schnorr PropsSchnorr PropsSchnorr2 Toy.
Open Scope Z_scope.

Section props.
  Context {hs : Hashes} {G : Curve}.
  (** Whoever holds two signatures of one key around the same nonce point with different challenges (differing by
      something invertible modulo [q]; always, as [q] is prime in the code) can compute the secret key: no one can
      make both without knowing it. Nothing is assumed about how the signatures came about. *)
  Theorem C87_extraction k m m' sg sg' inv :
    verify_signature k m sg = true -> verify_signature k m' sg' = true -> nonce_point k sg = nonce_point k sg' ->
    ((zval (sig_e sg) - zval (sig_e sg')) * inv) mod q = 1 ->
    k = public_key (scalar_of ((zval (sig_s sg') - zval (sig_s sg)) * inv)).
  Proof.
    intros _ _ Hn Hi. unfold nonce_point in Hn.
    set (s := zval (sig_s sg)) in *. set (e := zval (sig_e sg)) in *. set (s' := zval (sig_s sg')) in *. set (e' := zval (sig_e sg')) in *.
    assert (H1 : pmul (e - e') k = pmul (s' - s) pgen).
    { apply (padd_cancel_l (padd (pmul s pgen) (pmul e' k))).
      rewrite <- (padd_assoc (pmul s pgen) (pmul e' k)), <- pmul_add. replace (e' + (e - e')) with e by lia. rewrite Hn.
      rewrite (padd_comm (pmul s pgen) (pmul e' k)), <- padd_assoc, <- pmul_add. replace (s + (s' - s)) with s' by lia.
      apply padd_comm. }
    unfold public_key, scalar_of. rewrite zval_of_Z. change (Z.pos q_pos) with q. rewrite pmul_mod.
    rewrite Z.mul_comm, pmul_mul, <- H1, <- pmul_mul, Z.mul_comm, <- pmul_mod, Hi. symmetry. apply pmul_1.
  Qed.
End props.

(** the two signatures of PropsSchnorr2.v with one draw: seen from outside, they give the key *)
Example extraction_instance :
  public_key ex_sk = public_key (scalar_of ((zval (sig_s (sig_of reuse2)) - zval (sig_s (sig_of reuse1))) * reuse_inv)).
Proof.
  pose proof reuse_facts as H. apply andb_true_iff in H as [H H3]. apply andb_true_iff in H as [H1 H2]. apply Z.eqb_eq in H3.
  apply (C87_extraction (public_key ex_sk) ex_msg [Fof 9] (sig_of reuse1) (sig_of reuse2) reuse_inv).
  - exact (proj1 (C30_sign_verify ex_sk ex_msg [scalar_of 777]) _ (sig_of_some _ H1)).
  - exact (proj1 (C30_sign_verify ex_sk [Fof 9] [scalar_of 777]) _ (sig_of_some _ H2)).
  - apply pt_eqb_eq. vm_compute. reflexivity.
  - exact H3.
Qed.

Print Assumptions C87_extraction.

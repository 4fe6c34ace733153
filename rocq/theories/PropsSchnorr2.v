(** Property C87: what a signature is bound to. *)
From Coq Require Import ZArith List Bool Lia.
Import ListNotations.
From Verif Require Import Base Env Circuit SparseMT SparseMTGadget Data DataSpec DataFacts Gadgets GadgetsProofs Schnorr
  SchnorrProofs PropsSchnorr AggCircuit AggCircuitSpec CircuitRun Toy.
Open Scope Z_scope.

Section props.
  Context {hs : Hashes} {G : Curve}.

  (** the point whose coordinates are hashed with the message when a signature is checked *)
  Definition nonce_point (k : pt) (sg : signature) : pt :=
    padd (pmul (zval (sig_s sg)) pgen) (pmul (zval (sig_e sg)) k).
  (** what is hashed *)
  Definition challenge_input (k : pt) (m : list F) (sg : signature) : list F :=
    xy_or_default (nonce_point k sg) ++ m.

  Lemma xy_length r : length (xy_or_default r) = 2%nat.
  Proof. unfold xy_or_default. destruct (affine r) as [[x y]|]; reflexivity. Qed.
  Lemma verify_challenge k m sg :
    verify_signature k m sg = true <-> zval (crh (challenge_input k m sg)) = zval (sig_e sg).
  Proof. rewrite verify_spec. reflexivity. Qed.
  Lemma list_F_dec (a b : list F) : {a = b} + {a <> b}.
  Proof.
    apply list_eq_dec. intros x y. destruct (Feqb x y) eqn:E; [ left; now apply Feqb_eq | right ].
    intros H. apply Feqb_eq in H. congruence.
  Qed.

  (** One signature does not serve two messages, unless a hash collision is at hand. *)
  Theorem C87_one_message k m m' sg :
    verify_signature k m sg = true -> verify_signature k m' sg = true ->
    m = m' \/ crh_collision (challenge_input k m sg) (challenge_input k m' sg).
  Proof.
    intros H H'. apply verify_challenge in H, H'.
    destruct (list_F_dec m m') as [->|N]; [ now left | right ]. split.
    - unfold challenge_input. intros E. apply app_inv_head in E. contradiction.
    - apply zval_inj. congruence.
  Qed.

  (** In the aggregator's circuit: the same signature of the same sender counts for one
      transaction of one epoch only. *)
  Theorem C87_no_replay (final final' : F) (x x' : agg_inputsV) :
    is_signed final x = true -> is_signed final' x' = true ->
    x_sender x = x_sender x' -> given_signature x = given_signature x' ->
    (x_tx x = x_tx x' /\ final = final') \/
    crh_collision (challenge_input (x_sender x) (tx_encV (x_tx x) ++ [final]) (given_signature x))
                  (challenge_input (x_sender x') (tx_encV (x_tx x') ++ [final']) (given_signature x')).
  Proof.
    unfold is_signed. intros H H' Ek Es. apply andb_true_iff in H as [H _]. apply andb_true_iff in H' as [H' _].
    rewrite <- Ek, <- Es in H' |- *. destruct (C87_one_message _ _ _ _ H H') as [E|C]; [ left | right; exact C ].
    apply app_inj_tail in E as [E1 E2]. split; [ now apply tx_encV_inj | exact E2 ].
  Qed.

  (** With the challenge fixed the response is fixed too, unless a collision is at hand or one of
      the nonce points is the identity, whose coordinates are given as zeros. *)
  Theorem C87_response_unique k m sg sg' :
    verify_signature k m sg = true -> verify_signature k m sg' = true -> sig_e sg = sig_e sg' ->
    sig_s sg = sig_s sg' \/
    crh_collision (challenge_input k m sg) (challenge_input k m sg') \/
    (xy_or_default (nonce_point k sg) = [Fzero; Fzero] /\ xy_or_default (nonce_point k sg') = [Fzero; Fzero] /\
     (nonce_point k sg = pzero \/ nonce_point k sg' = pzero)).
  Proof.
    intros H H' Ee. apply verify_challenge in H, H'.
    destruct (list_F_dec (challenge_input k m sg) (challenge_input k m sg')) as [E|N].
    - assert (E1 : xy_or_default (nonce_point k sg) = xy_or_default (nonce_point k sg'))
        by exact (app_inv_tail _ _ _ E).
      destruct (affine (nonce_point k sg)) as [[a b]|] eqn:A, (affine (nonce_point k sg')) as [[a' b']|] eqn:A'.
      + left. assert (E2 : nonce_point k sg = nonce_point k sg').
        { apply affine_inj. unfold xy_or_default in E1. rewrite A, A' in *. congruence. }
        unfold nonce_point in E2. rewrite <- Ee, !(padd_comm _ (pmul (zval (sig_e sg)) k)) in E2.
        apply padd_cancel_l in E2.
        assert (E3 : pmul (zval (sig_s sg) - zval (sig_s sg')) pgen = pzero).
        { unfold Z.sub. rewrite pmul_add, E2, <- pmul_add, Z.add_opp_diag_r. apply pmul_0. }
        apply pgen_order in E3. pose proof (scalar_range (sig_s sg)). pose proof (scalar_range (sig_s sg')).
        unfold q in *. apply zval_inj.
        destruct (Z.mod_divide (zval (sig_s sg) - zval (sig_s sg')) (Zpos q_pos)) as [D _]; [ lia |].
        destruct (D E3) as [d Hd]. assert (d = 0) by nia. subst d. lia.
      + right. right. pose proof (proj1 (affine_none _) A') as P'.
        assert (X' : xy_or_default (nonce_point k sg') = [Fzero; Fzero]) by (unfold xy_or_default; now rewrite A').
        rewrite E1. auto.
      + right. right. pose proof (proj1 (affine_none _) A) as P'.
        assert (X' : xy_or_default (nonce_point k sg) = [Fzero; Fzero]) by (unfold xy_or_default; now rewrite A).
        rewrite <- E1. auto.
      + left. apply affine_none in A, A'. assert (E2 : nonce_point k sg = nonce_point k sg') by congruence.
        unfold nonce_point in E2. rewrite <- Ee, !(padd_comm _ (pmul (zval (sig_e sg)) k)) in E2.
        apply padd_cancel_l in E2.
        assert (E3 : pmul (zval (sig_s sg) - zval (sig_s sg')) pgen = pzero).
        { unfold Z.sub. rewrite pmul_add, E2, <- pmul_add, Z.add_opp_diag_r. apply pmul_0. }
        apply pgen_order in E3. pose proof (scalar_range (sig_s sg)). pose proof (scalar_range (sig_s sg')).
        unfold q in *. apply zval_inj.
        destruct (Z.mod_divide (zval (sig_s sg) - zval (sig_s sg')) (Zpos q_pos)) as [D _]; [ lia |].
        destruct (D E3) as [d Hd]. assert (d = 0) by nia. subst d. lia.
    - right. left. split; [ exact N |]. apply zval_inj. congruence.
  Qed.

  (** Two signatures made with one draw for different messages give the secret key away: it solves
      a linear equation in published numbers. *)
  Lemma sign_one sk m k sg : sign sk m [k] = Ok (Some sg) ->
    zval (sig_s sg) = (zval k - zval sk * zval (sig_e sg)) mod q.
  Proof.
    cbn [sign]. destruct (affine (pmul (zval k) pgen)) as [[x y]|]; [| discriminate ].
    destruct (from_bigint _) as [e|]; [| discriminate ]. intros E.
    assert (E' : sg = mkSig (zsub k (zmul sk e)) e) by congruence. rewrite E'. cbn [sig_s sig_e].
    rewrite <- (of_Z_zval k) at 1. rewrite <- (of_Z_zval sk) at 1.
    rewrite <- (of_Z_zval e) at 1. rewrite <- of_Z_mul, <- of_Z_sub. reflexivity.
  Qed.
  Theorem C87_nonce_reuse sk k m m' sg sg' inv :
    sign sk m [k] = Ok (Some sg) -> sign sk m' [k] = Ok (Some sg') ->
    ((zval (sig_e sg) - zval (sig_e sg')) * inv) mod q = 1 ->
    zval sk = ((zval (sig_s sg') - zval (sig_s sg)) * inv) mod q.
  Proof.
    intros H H' Hi. apply sign_one in H, H'. rewrite H, H'.
    set (e := zval (sig_e sg)) in *. set (e' := zval (sig_e sg')) in *.
    set (a := zval k) in *. pose proof (scalar_range sk) as Hs. set (x := zval sk) in *.
    rewrite <- Zmult_mod_idemp_l, <- Zminus_mod, Zmult_mod_idemp_l.
    replace ((a - x * e' - (a - x * e)) * inv) with (x * ((e - e') * inv)) by ring.
    rewrite <- Zmult_mod_idemp_r, Hi, Z.mul_1_r. symmetry. apply Z.mod_small. exact Hs.
  Qed.
End props.

(** * Concrete cases *)
Definition sig_of (r : res no_error (option signature)) : signature :=
  match r with Ok (Some s) => s | _ => sig_default end.
Lemma sig_of_some r : is_some_sig r = true -> r = Ok (Some (sig_of r)).
Proof. destruct r as [[s|]| |]; cbn; congruence. Qed.
Definition reuse1 := sign ex_sk ex_msg [scalar_of 777].
Definition reuse2 := sign ex_sk [Fof 9] [scalar_of 777].
(** inverse by Fermat, [toy_q] being prime *)
Definition pow_mod (a : Z) (e : positive) (m : Z) : Z :=
  Pos.iter_op (fun x y => (x * y) mod m) e (a mod m).
Definition reuse_inv : Z := pow_mod (zval (sig_e (sig_of reuse1)) - zval (sig_e (sig_of reuse2))) (toy_q - 2) (Zpos toy_q).
Lemma reuse_facts : is_some_sig reuse1 && is_some_sig reuse2 &&
  (((zval (sig_e (sig_of reuse1)) - zval (sig_e (sig_of reuse2))) * reuse_inv) mod q =? 1) = true.
Proof. vm_compute. reflexivity. Qed.
Example reuse_instance : ((zval (sig_s (sig_of reuse2)) - zval (sig_s (sig_of reuse1))) * reuse_inv) mod q = 12345.
Proof.
  pose proof reuse_facts as H. apply andb_true_iff in H as [H H3]. apply andb_true_iff in H as [H1 H2].
  apply Z.eqb_eq in H3. symmetry.
  exact (C87_nonce_reuse ex_sk (scalar_of 777) ex_msg [Fof 9] _ _ reuse_inv (sig_of_some _ H1) (sig_of_some _ H2) H3).
Qed.
(** [ex_sig] verifies for [ex_msg] only *)
Example one_message_instance m' : verify_signature (public_key ex_sk) m' ex_sig = true ->
  ex_msg = m' \/ crh_collision (challenge_input (public_key ex_sk) ex_msg ex_sig) (challenge_input (public_key ex_sk) m' ex_sig).
Proof. exact (C87_one_message _ _ _ _ ex_verify). Qed.

Print Assumptions C87_one_message.
Print Assumptions C87_no_replay.
Print Assumptions C87_response_unique.
Print Assumptions C87_nonce_reuse.

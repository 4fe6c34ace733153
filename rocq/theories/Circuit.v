(** A small language of circuit-building programs.

    Code in /repo builds R1CS constraints through arkworks gadgets. A value of [circ A] is such
    a program under a given assignment of the external inputs: it computes values, states
    constraints, and allocates Boolean hints of its own. [Enf b k] is a constraint that holds
    iff [b]; [Wit h k] allocates a fresh Boolean witness whose honest value, computed by the
    code, is [h]; [Abort] is a panic or [SynthesisError] during synthesis. All hints allocated
    by code of /repo are Booleans (sparsemt/constraints.rs:95,114; schnorr.rs:107,120;
    aggregator/src/circuit.rs:52). *)
From Coq Require Import List Bool.
Import ListNotations.

Inductive circ (A : Type) : Type :=
| Ret (a : A)
| Enf (b : bool) (k : circ A)
| Wit (h : bool) (k : bool -> circ A)
| Abort.
Arguments Ret {A} a.
Arguments Enf {A} b k.
Arguments Wit {A} h k.
Arguments Abort {A}.

Fixpoint cbind {A B} (c : circ A) (f : A -> circ B) : circ B :=
  match c with
  | Ret a => f a
  | Enf b k => Enf b (cbind k f)
  | Wit h k => Wit h (fun b => cbind (k b) f)
  | Abort => Abort
  end.
Notation "'let!' x := c 'in' k" := (cbind c (fun x => k))
  (at level 200, x pattern, c at level 100, k at level 200, right associativity).

(** [a.enforce_equal(b)] and friends, given whether the equality holds *)
Definition enforce (b : bool) : circ unit := Enf b (Ret tt).
(** [a.conditional_enforce_equal(b, cond)] *)
Definition cond_enforce (b cond : bool) : circ unit := Enf (negb cond || b) (Ret tt).
(** [assert!] during synthesis *)
Definition cassert (b : bool) : circ unit := if b then Ret tt else Abort.
(** [Boolean::new_witness(.., || h)] *)
Definition witness (h : bool) : circ bool := Wit h (fun b => Ret b).
(** [Vec::<Boolean>::new_variable(.., || hs)] in witness mode *)
Fixpoint witnesses (hs : list bool) : circ (list bool) :=
  match hs with
  | [] => Ret []
  | h :: hs' => let! b := witness h in let! bs := witnesses hs' in Ret (b :: bs)
  end.
Fixpoint cfold {A B} (f : B -> A -> circ B) (l : list A) (b : B) : circ B :=
  match l with
  | [] => Ret b
  | x :: l' => let! b' := f b x in cfold f l' b'
  end.

(** [sat c a]: some choice of the hints satisfies every constraint of [c], with output [a].
    This is the adversarial prover's view. *)
Fixpoint sat {A} (c : circ A) (a : A) : Prop :=
  match c with
  | Ret x => x = a
  | Enf b k => b = true /\ sat k a
  | Wit _ k => exists b, sat (k b) a
  | Abort => False
  end.

(** [honest c]: run the code's own hint computation; [None] if synthesis aborts, otherwise
    whether all constraints are satisfied ([cs.is_satisfied()]) and the output. *)
Fixpoint honest {A} (c : circ A) : option (bool * A) :=
  match c with
  | Ret a => Some (true, a)
  | Enf b k => match honest k with Some (ok, a) => Some (b && ok, a) | None => None end
  | Wit h k => honest (k h)
  | Abort => None
  end.

Lemma sat_bind {A B} (c : circ A) (f : A -> circ B) b :
  sat (cbind c f) b <-> exists a, sat c a /\ sat (f a) b.
Proof.
  induction c as [x|e k IH|h k IH|]; cbn.
  - split; [ intros H; now exists x | intros (a & -> & H); exact H ].
  - rewrite IH; split.
    + intros (He & a & H1 & H2); exists a; auto.
    + intros (a & (He & H1) & H2); split; auto; exists a; auto.
  - split.
    + intros (w & H); apply IH in H as (a & H1 & H2); exists a; split; auto; now exists w.
    + intros (a & (w & H1) & H2); exists w; apply IH; exists a; auto.
  - split; [ tauto | intros (a & H & _); exact H ].
Qed.

Lemma honest_bind {A B} (c : circ A) (f : A -> circ B) :
  honest (cbind c f) =
  match honest c with
  | Some (ok, a) =>
    match honest (f a) with Some (ok', b) => Some (ok && ok', b) | None => None end
  | None => None
  end.
Proof.
  induction c as [x|e k IH|h k IH|]; cbn; auto.
  - destruct (honest (f x)) as [[ok' b]|]; reflexivity.
  - rewrite IH. destruct (honest k) as [[ok a]|]; auto.
    destruct (honest (f a)) as [[ok' b]|]; auto. now rewrite andb_assoc.
Qed.

(** The honest prover is one of the provers. *)
Lemma honest_sat {A} (c : circ A) a : honest c = Some (true, a) -> sat c a.
Proof.
  induction c as [x|e k IH|h k IH|]; cbn.
  - now intros [= ->].
  - destruct (honest k) as [[ok b]|]; [| discriminate ].
    intros [= H ->]. apply andb_prop in H as [-> ->]. auto.
  - intros H; exists h; auto.
  - discriminate.
Qed.

Lemma sat_enforce b u : sat (enforce b) u <-> b = true.
Proof. destruct u; cbn; tauto. Qed.
Lemma sat_cond_enforce b c u : sat (cond_enforce b c) u <-> (c = true -> b = true).
Proof. destruct u, b, c; cbn; intuition congruence. Qed.
Lemma sat_cassert b u : sat (cassert b) u <-> b = true.
Proof. destruct u, b; cbn; intuition congruence. Qed.
Lemma sat_witness h b : sat (witness h) b.
Proof. cbn; eauto. Qed.
Lemma sat_witnesses hs bs : sat (witnesses hs) bs <-> length bs = length hs.
Proof.
  revert bs; induction hs as [|h hs IH]; intros bs; cbn.
  - destruct bs; cbn; split; auto; discriminate.
  - split.
    + intros (b & H); apply sat_bind in H as (bs' & H1 & H2); cbn in H2; subst; cbn.
      apply IH in H1; now rewrite H1.
    + destruct bs as [|b bs]; [ discriminate |]. intros [= H].
      exists b; apply sat_bind; exists bs; split; [ now apply IH | reflexivity ].
Qed.
Lemma honest_witnesses hs : honest (witnesses hs) = Some (true, hs).
Proof.
  induction hs as [|h hs IH]; cbn; auto. now rewrite honest_bind, IH.
Qed.
Lemma honest_cond_enforce b c : honest (cond_enforce b c) = Some (negb c || b, tt).
Proof. cbn; now rewrite andb_true_r. Qed.
Lemma honest_enforce b : honest (enforce b) = Some (b, tt).
Proof. cbn; now rewrite andb_true_r. Qed.

(** A program whose constraints hold for exactly one output and no hint choice matters. *)
Definition functional {A} (c : circ A) (ok : Prop) (a : A) : Prop :=
  forall a', sat c a' <-> ok /\ a' = a.

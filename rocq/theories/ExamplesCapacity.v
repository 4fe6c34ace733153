(** Non-vacuity for C103: a position that was handed out and vacated. *)
From Coq Require Import ZArith List Bool Lia.
Import ListNotations.
From Verif Require Import Base Env SparseMT SparseMTSpec Data HMap Contract Aggregator AggSpec Toy
  ExamplesAgg ExamplesCircuit PropsCapacity.
Open Scope Z_scope.

(** The deposited coin at position 0 was spent by the second transaction of the epoch. *)
Example position_0_vacated :
  reached true sP /\ 0 < a_index sP /\ vacant sP 0 /\ positions sP <> [] /\
  forall s', continues true sP s' -> vacant s' 0.
Proof.
  assert (Hr : reached true sP).
  { apply (reached_sign true s0 kC keysP sP s0_reached); [ apply s0_fits; cbn; lia |]. left. exists tt. exact signP_eq. }
  assert (Hi : 0 <? a_index sP = true) by (vm_compute; reflexivity). apply Z.ltb_lt in Hi.
  assert (Hv : vacant sP 0).
  { assert (H : existsb (fun iu => fst iu =? 0) (positions sP) = false) by (vm_compute; reflexivity).
    intros u Hu. assert (Hx : existsb (fun iu => fst iu =? 0) (positions sP) = true).
    { apply existsb_exists. exists (0, u). split; [ exact Hu | reflexivity ]. }
    congruence. }
  split; [ exact Hr |]. split; [ exact Hi |]. split; [ exact Hv |]. split.
  - assert (H : match positions sP with [] => false | _ => true end = true) by (vm_compute; reflexivity).
    destruct (positions sP); [ discriminate H | discriminate ].
  - intros s' Hs'. exact (C103_never_reused true sP s' 0 Hr Hs' Hi Hv).
Qed.
(** [C103_full]: [C103_limit_reachable] gives a state for every pair of keys. *)
Example two_keys : k2 <> kC.
Proof. assert (H : pt_eqb k2 kC = false) by (vm_compute; reflexivity). now apply pt_eqb_neq in H. Qed.

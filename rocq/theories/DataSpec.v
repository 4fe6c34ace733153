(** Specification vocabulary for transactions: integer totals and ownership. *)
From Coq Require Import ZArith List Bool Lia.
Import ListNotations.
From Verif Require Import Base Env Data.
Open Scope Z_scope.

Section spec.
  Context {hs : Hashes} {G : Curve}.

  (** The integer total of the amounts of the entries that are not dummies. *)
  Fixpoint total (l : list utxo) : Z :=
    match l with
    | [] => 0
    | u :: l' => (if is_dummy u then 0 else zval (amount u)) + total l'
    end.
  Definition total_in (t : tx) : Z := total (a4_list (inputs t)).
  Definition total_out (t : tx) : Z := total (a4_list (outputs t)).

  (** Every input that is not a dummy belongs to [s]. *)
  Definition owned_by (s : pt) (t : tx) : Prop :=
    forall u, In u (a4_list (inputs t)) -> is_dummy u = false -> pk u = s.

  (** The same for allocated transactions; amounts are the canonical representatives. *)
  Fixpoint vtotal (l : list utxoV) : Z :=
    match l with
    | [] => 0
    | u :: l' => (if v_dummy u then 0 else zval (v_amount u)) + vtotal l'
    end.
  Definition vtotal_in (t : txV) : Z := vtotal (a4_list (v_inputs t)).
  Definition vtotal_out (t : txV) : Z := vtotal (a4_list (v_outputs t)).
  Definition vowned_by (s : pt) (t : txV) : Prop :=
    forall u, In u (a4_list (v_inputs t)) -> v_dummy u = false -> v_pk u = s.

  (** Two different preimages of the field hash with the same value. *)
  Definition crh_collision (a b : list F) : Prop := a <> b /\ crh a = crh b.
End spec.

(** Specification vocabulary for the user's circuit: what a step credits, which tree positions it
    claims, and runs of steps. Nothing here mentions constraints or hints, except that a run is a
    sequence of satisfied steps. *)
From Coq Require Import ZArith List Bool Lia Sorted.
Import ListNotations.
From Verif Require Import Base Env Circuit SparseMT SparseMTSpec Data DataSpec AggCircuitSpec Client.
Open Scope Z_scope.

(** sum of integers *)
Fixpoint zsumm (l : list Z) : Z := match l with [] => 0 | x :: r => x + zsumm r end.

Section spec.
  Context {hs : Hashes} {G : Curve}.

  (** the integer total of the amounts of the entries held by [k], whether flagged as dummy or not *)
  Fixpoint held (k : pt) (l : list utxoV) : Z :=
    match l with
    | [] => 0
    | u :: r => (if pt_eqb (v_pk u) k then zval (v_amount u) else 0) + held k r
    end.
  (** what a transaction brings to [k] *)
  Definition gain (k : pt) (t : txV) : Z :=
    held k (a4_list (v_outputs t)) - held k (a4_list (v_inputs t)).
  (** the owner of the last input that is not a dummy, the identity if there is none *)
  Definition signer_of (t : txV) : pt :=
    last (map v_pk (filter (fun u => negb (v_dummy u)) (a4_list (v_inputs t)))) pzero.

  (** a transaction whose hash is not the one of the default transaction *)
  Definition regular (t : txV) : bool := negb (Feqb (tx_hashV t) (tx_hash tx_default)).

  (** * What a step claims *)
  Definition transactions (a : user_auxV) : list txV := map fst (ux_txs a).
  Definition regular_entries (a : user_auxV) : list (txV * F) := filter (fun ti => regular (fst ti)) (ux_txs a).
  (** the indices, as integers, of the regular transactions *)
  Definition indices (a : user_auxV) : list Z := map (fun ti => zval (snd ti)) (regular_entries a).
  Definition step_gain (a : user_auxV) : Z := zsumm (map (gain (ux_pk a)) (transactions a)).
  Definition step_signed (a : user_auxV) : Z :=
    Z.of_nat (length (filter (fun t => pt_eqb (signer_of t) (ux_pk a)) (transactions a))).
  Definition step_block (a : user_auxV) : F := block_hashV (ux_block a).
  Definition step_height (a : user_auxV) : Z := zval (vb_height (ux_block a)).

  (** a transaction with its index, its transaction path and its signer path *)
  Definition item_at (a : user_auxV) (n : nat) (t : txV) (i : F) (tp sp : list (F * F)) : Prop :=
    nth_error (ux_txs a) n = Some (t, i) /\ nth_error (ux_tx_proofs a) n = Some tp /\
    nth_error (ux_signer_proofs a) n = Some sp.

  (** the largest value the comparison gadgets accept *)
  Definition max_cmp : Z := (p - 1) / 2.

  (** * Runs *)
  Definition satisfied (acc : accumulator) (N : nat) (z : list F) (a : user_auxV) (z' : list F) : Prop :=
    sat (update_balance acc N z a) z'.
  Inductive urun (acc : accumulator) (N : nat) : list F -> list user_auxV -> list F -> Prop :=
  | urun_nil z : urun acc N z [] z
  | urun_cons z a z1 l z' :
      satisfied acc N z a z1 -> urun acc N z1 l z' -> urun acc N z (a :: l) z'.

  (** the indices claimed for the block with hash [b] *)
  Definition indices_for (b : F) (l : list user_auxV) : list Z :=
    flat_map indices (filter (fun a => Feqb (step_block a) b) l).
End spec.

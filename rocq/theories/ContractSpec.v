(** Specification vocabulary for the L1 contract: balances, pending deposits, call histories. *)
From Coq Require Import ZArith List Bool Lia.
Import ListNotations.
From Verif Require Import Base Env Data Schnorr HMap Contract.
Open Scope Z_scope.

Section spec.
  Context {hs : Hashes} {G : Curve}.

  (** balance of account [i], if registered *)
  Definition balance (c : contract) (i : nat) : option Z := option_map zval (nth_error (l1_accounts c) i).
  Definition key_of (c : contract) (i : nat) : option pt := nth_error (pks c) i.
  (** amount waiting to be credited on L2 *)
  Definition pending (c : contract) (k : pt) : Z :=
    match hget pt_eqb (c_deposits c) k with Some e => zval e | None => 0 end.
  Definition total_balance (c : contract) : Z := zsum (map zval (l1_accounts c)).
  Definition total_pending (c : contract) : Z := zsum (map zval (hvalues (c_deposits c))).

  (** * Histories *)
  Inductive call := Join (bal : u64) (k : pt) | Deposit (i : nat) (a : u64).
  Definition perform (dbg : bool) (c : contract) (x : call) : res no_error contract :=
    match x with
    | Join bal k => Ok (fst (join c bal k))
    | Deposit i a => deposit dbg c i a
    end.
  (** a history in which no call panicked *)
  Definition history (dbg : bool) (k0 : pt) (l : list call) (c : contract) : Prop :=
    rfold (perform dbg) l (contract_new k0) = Ok c.
  Definition joined (l : list call) : list pt :=
    flat_map (fun x => match x with Join _ k => [k] | Deposit _ _ => [] end) l.
  Definition supply (l : list call) : Z :=
    zsum (map (fun x => match x with Join bal _ => zval bal | Deposit _ _ => 0 end) l).
  (** the pending amounts that the history itself records for a key: the deposits made at
      indices that belong to it *)
  Definition deposited (c : contract) (l : list call) (k : pt) : Z :=
    zsum (map (fun x => match x with
                        | Join _ _ => 0
                        | Deposit i a => if match key_of c i with Some k' => pt_eqb k' k | None => false end
                                         then zval a else 0
                        end) l).
  (** last index at which a key occurs in a list *)
  Definition last_index (l : list pt) (k : pt) (i : nat) : Prop :=
    nth_error l i = Some k /\ forall j, nth_error l j = Some k -> (j <= i)%nat.

  (** a contract whose three per-user vectors have one length, as after every history *)
  Definition well_formed (c : contract) : Prop :=
    length (l1_accounts c) = length (pks c) /\ length (nonces c) = length (pks c).

  (** * Hash chains over byte strings *)
  Definition chain (l : list (list Z)) : F :=
    fold_left (fun acc b => sha_field (field_bytes acc ++ b)) l Fzero.
End spec.

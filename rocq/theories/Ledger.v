(** Specification for C125: the aggregator as a ledger machine. No trees, hash maps, proofs or 64-bit
    indices: an array of coin slots, an array of key slots, and lists. Roots are Merkle roots of these. *)
From Coq Require Import ZArith List Bool Lia.
Import ListNotations.
From Verif Require Import Base Env SparseMT SparseMTSpec Data DataSpec Schnorr Contract Aggregator AggSpec.
Open Scope Z_scope.

(** A caller's request. *)
Inductive request {hs : Hashes} {G : Curve} :=
| Take (l : list (pt * tx))
| Answer (contract : pt) (l : list (pt * option signature))
| NewEpoch.
(** What the caller observes of it. *)
Inductive verdict :=
| Done
| Rejected (e : tx_error)
| Refused (e : agg_error)
| Panicked.

Section ledger.
  Context {hs : Hashes} {G : Curve} (dbg : bool).

  Record ledger := mkLedger
    { slots : contents utxo_cfg;        (* the coin at each position, or the dummy coin *)
      next : nat;                       (* the number of positions handed out *)
      made : list utxo;                 (* every coin ever created *)
      keys : contents signer_cfg;       (* the keys of the signer tree; they outlive the epoch *)
      epoch : list tx;
      answers : list (option pt);
      entered : list (pt * u64);        (* deposits of the epoch *)
      left : list (pt * u64) }.         (* withdrawals of the epoch *)
  Definition start : ledger := mkLedger (fun _ => utxo_dummy) 0 [] (fun _ => pzero) [] [] [] [].

  (** ** Taking in transactions *)
  Definition owns (k : pt) (t : tx) : bool := forallb (fun u => is_dummy u || pt_eqb (pk u) k) (a4_list (inputs t)).
  (** With overflow checks (the debug profile) a total of 2^64 panics; without, totals are compared
      modulo 2^64. *)
  Definition take_one (L : ledger) (kt : pt * tx) : verdict * ledger :=
    let '(k, t) := kt in
    if negb (owns k t) then (Rejected InvalidPublicKey, L)
    else if dbg && ((two64 <=? total_in t) || (two64 <=? total_out t)) then (Panicked, L)
    else if total_in t mod two64 =? total_out t mod two64
    then (Done, mkLedger (slots L) (next L) (made L) (keys L) (epoch L ++ [t]) (answers L) (entered L) (left L))
    else (Rejected InvalidAmounts, L).

  (** ** Answers *)
  (** The last of the first [n] positions at which [u] stands. *)
  Fixpoint newest (c : contents utxo_cfg) (u : utxo) (n : nat) : option Z :=
    match n with
    | O => None
    | S n' => if utxo_eqb (c (Z.of_nat n')) u then Some (Z.of_nat n') else newest c u n'
    end.
  (** Coins are taken one after the other, up to the first that is missing. *)
  Fixpoint spend (c : contents utxo_cfg) (n : nat) (us : list utxo) : contents utxo_cfg * option utxo :=
    match us with
    | [] => (c, None)
    | u :: us => match newest c u n with
                 | Some i => spend (set_leaf c i utxo_dummy) n us
                 | None => (c, Some u)
                 end
    end.
  Fixpoint place (c : contents utxo_cfg) (n : nat) (us : list utxo) : contents utxo_cfg :=
    match us with [] => c | u :: us => place (set_leaf c (Z.of_nat n) u) (S n) us end.
  (** What the real outputs give to the contract. *)
  Definition leaving (contract : pt) (t : tx) : Z :=
    value (filter (fun u => negb (is_dummy u) && pt_eqb (pk u) contract) (a4_list (outputs t))).
  (** The deposits an applied transaction reports: all real outputs, if the contract signs. *)
  Definition entering (contract k : pt) (t : tx) : list (pt * u64) :=
    if pt_eqb k contract
    then map (fun u => (pk u, amount u)) (filter (fun u => negb (is_dummy u)) (a4_list (outputs t))) else [].
  (** (The panic of the second branch is idle when the epoch was taken in with the same [dbg].) *)
  Definition answer_one (contract : pt) (L : ledger) (x : nat * (pt * option signature)) : verdict * ledger :=
    let '(i, (k, sg)) := x in
    match nth_error (epoch L) i with
    | None => (Panicked, L)
    | Some t =>
      if authorised contract (merkle_root (tx_contents (epoch L))) t (k, sg) then
        let keys' := set_leaf (keys L) (Z.of_nat (length (answers L))) k in
        let answers' := answers L ++ [Some k] in
        match spend (slots L) (next L) (consumes contract t) with
        | (sl, Some u) =>
          (Refused (if existsb (utxo_eqb u) (made L) then UTXOError else UTXONonExisting),
           mkLedger sl (next L) (made L) keys' (epoch L) answers' (entered L) (left L))
        | (sl, None) =>
          let new := creates contract t in
          (if dbg && (two64 <=? leaving contract t) then Panicked else Done,
           mkLedger (place sl (next L) new) (next L + length new) (made L ++ new) keys' (epoch L) answers'
                    (entered L ++ entering contract k t)
                    (left L ++ (if 0 <? leaving contract t mod two64 then [(k, u64of (leaving contract t))] else [])))
        end
      else (Done, mkLedger (slots L) (next L) (made L) (keys L) (epoch L) (answers L ++ [None]) (entered L) (left L))
    end.

  (** ** Requests *)
  (** one element after the other, until one is not [Done] *)
  Fixpoint each {X} (f : ledger -> X -> verdict * ledger) (l : list X) (L : ledger) : verdict * ledger :=
    match l with
    | [] => (Done, L)
    | x :: l => match f L x with (Done, L') => each f l L' | r => r end
    end.
  Definition serve (L : ledger) (q : request) : verdict * ledger :=
    match q with
    | Take l => each take_one l L
    | Answer contract l => each (answer_one contract) (combine (seq 0 (length l)) l) L
    | NewEpoch => (Done, mkLedger (slots L) (next L) (made L) (keys L) [] [] [] [])
    end.
  (** A history of requests; it ends with the first panic. *)
  Fixpoint play (qs : list request) (L : ledger) : list verdict * ledger :=
    match qs with
    | [] => ([], L)
    | q :: qs => match serve L q with
                 | (Panicked, L') => ([Panicked], L')
                 | (v, L') => let '(vs, L2) := play qs L' in (v :: vs, L2)
                 end
    end.

  (** The trees have room: 2^31 coins ever, 4096 transactions and 4096 answers per epoch. *)
  Definition roomy (L : ledger) : Prop :=
    Z.of_nat (next L) <= 2 ^ 31 /\ Z.of_nat (length (epoch L)) <= 4096 /\ Z.of_nat (length (answers L)) <= 4096.
  Fixpoint always_roomy (qs : list request) (L : ledger) : Prop :=
    match qs with
    | [] => True
    | q :: qs => roomy (snd (serve L q)) /\ (fst (serve L q) <> Panicked -> always_roomy qs (snd (serve L q)))
    end.

  (** A sufficient condition that does not mention the machine: few requests. *)
  Definition asks (q : request) : nat * nat :=
    match q with Take l => (length l, O) | Answer _ l => (O, length l) | NewEpoch => (O, O) end.
  Definition few (qs : list request) : Prop :=
    Z.of_nat (list_sum (map (fun q => fst (asks q)) qs)) <= 4096 /\
    Z.of_nat (list_sum (map (fun q => snd (asks q)) qs)) <= 4096.

  (** ** Blocks *)
  (** The place at which a key registered last. *)
  Fixpoint last_place (k : pt) (l : list pt) : option nat :=
    match l with
    | [] => None
    | x :: l => match last_place k l with
                | Some i => Some (S i)
                | None => if pt_eqb x k then Some O else None
                end
    end.
  Fixpoint all_some {A B} (f : A -> option B) (l : list A) : option (list B) :=
    match l with
    | [] => Some []
    | a :: l => match f a, all_some f l with Some b, Some m => Some (b :: m) | _, _ => None end
    end.
  Definition named (ks : list pt) (e : pt * u64) : option (Z * u64) :=
    match last_place (fst e) ks with Some i => Some (Z.of_nat i, snd e) | None => None end.
  Definition named_slot (ks : list pt) (o : option pt) : option (option Z) :=
    match o with
    | None => Some None
    | Some k => match last_place k ks with Some i => Some (Some (Z.of_nat i)) | None => None end
    end.
  (** The block of the epoch, for the list of registered keys; none if a key is not registered. *)
  Definition report (L : ledger) (ks : list pt) : option block :=
    match all_some (named_slot ks) (answers L), all_some (named ks) (entered L), all_some (named ks) (left L) with
    | Some sg, Some de, Some wd =>
      Some {| utxo_tree_root := merkle_root (slots L); tx_tree_root := merkle_root (tx_contents (epoch L));
              signer_tree_root := merkle_root (keys L); b_signers := sg; height := u64of 0;
              b_deposits := de; b_withdrawals := wd |}
    | _, _, _ => None
    end.

  (** ** The code *)
  Definition obey (s : agg) (q : request) : verdict * option agg :=
    match q with
    | Take l => match process_transactions dbg s l with
                | MOk s' _ => (Done, Some s') | MErr s' e => (Rejected e, Some s') | MPanic => (Panicked, None)
                end
    | Answer contract l => match process_signatures dbg s contract l with
                | MOk s' _ => (Done, Some s') | MErr s' e => (Refused e, Some s') | MPanic => (Panicked, None)
                end
    | NewEpoch => (Done, Some (reset_for_new_epoch s))
    end.
  Fixpoint run (qs : list request) (s : agg) : list verdict * option agg :=
    match qs with
    | [] => ([], Some s)
    | q :: qs => match obey s q with
                 | (v, Some s') => let '(vs, o) := run qs s' in (v :: vs, o)
                 | (v, None) => ([v], None)
                 end
    end.
End ledger.

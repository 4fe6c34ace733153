(** Model of aggregator/src/lib.rs: the aggregator state and its API. Line numbers refer to that
    file unless another is named. *)
From Coq Require Import ZArith List Bool Lia.
Import ListNotations.
From Verif Require Import Base Env Circuit SparseMT Data Schnorr HMap Contract.
Open Scope Z_scope.

(** aggregator/src/errors.rs:4-15 *)
Inductive agg_error :=
| TransactionCRHError
| SignatureError
| UTXOError
| UTXOTreeUpdateError
| UTXONonExisting.

(** * Calls on [&mut self]: state, error or value *)
Definition mbind {S E A B} (c : mres S E A) (k : S -> A -> mres S E B) : mres S E B :=
  match c with
  | MOk s a => k s a
  | MErr s e => MErr s e
  | MPanic => MPanic
  end.
(** a result of a sub-call that does not touch the state, with [map_err(|_| e)?] *)
Definition mlift {S E E' A} (s : S) (e : E) (r : res E' A) : mres S E A :=
  match r with
  | Ok a => MOk s a
  | Err _ => MErr s e
  | Panic => MPanic
  end.
(** a loop over a list with local variables [a] *)
Fixpoint mfold {S E A B} (f : S -> A -> B -> mres S E A) (l : list B) (s : S) (a : A)
  : mres S E A :=
  match l with
  | [] => MOk s a
  | x :: l' => mbind (f s a x) (fun s' a' => mfold f l' s' a')
  end.

(** [v[j] = x] on [[T; 4]] for [j < 4] *)
Definition a4_set {A} (j : nat) (x : A) (v : arr4 A) : arr4 A :=
  match j with
  | 0%nat => A4 x (a4_1 v) (a4_2 v) (a4_3 v)
  | 1%nat => A4 (a4_0 v) x (a4_2 v) (a4_3 v)
  | 2%nat => A4 (a4_0 v) (a4_1 v) x (a4_3 v)
  | _ => A4 (a4_0 v) (a4_1 v) (a4_2 v) x
  end.
(** [array::from_fn(|_| x)] *)
Definition a4_const {A} (x : A) : arr4 A := A4 x x x x.
(** [iter().enumerate()] *)
Definition enum {A} (l : list A) : list (nat * A) := combine (seq 0 (length l)) l.

Section aggregator.
  Context {hs : Hashes} {G : Curve} (dbg : bool).

  (** aggregator/src/circuit.rs:69-80 *)
  Record agg_inputs := mkInputs
    { i_tx : tx;
      i_tx_proof : list F;
      i_del_proofs : arr4 (list F);
      i_del_pos : arr4 F;
      i_add_proofs : arr4 (list F);
      i_add_pos : arr4 F;
      i_signer_proof : list F;
      i_sender : pt;
      i_sig : signature }.

  (** lines 33-51; the hash parameters are part of [hs] *)
  Record agg := mkAgg
    { a_utxos : hmap utxo (list Z);
      a_utxo_tree : tree;
      a_index : Z;
      a_txs : list tx;
      a_tx_tree : tree;
      a_deposits : list (pt * u64);
      a_withdrawals : list (pt * u64);
      a_signer_tree : tree;
      a_signers : list (option pt);
      a_height : u64;
      a_acc_signer : F;
      a_acc_pk : F;
      a_tx_proofs : list (list F);
      a_ivc : list agg_inputs }.

  (** lines 54-72 *)
  Definition agg_new : agg :=
    {| a_utxos := []; a_utxo_tree := blank utxo_cfg; a_index := 0; a_txs := [];
       a_tx_tree := blank tx_cfg; a_deposits := []; a_withdrawals := [];
       a_signer_tree := blank signer_cfg; a_signers := []; a_height := u64of 0;
       a_acc_signer := Fzero; a_acc_pk := Fzero; a_tx_proofs := []; a_ivc := [] |}.

  (** lines 74-84 *)
  Definition reset_for_new_epoch (s : agg) : agg :=
    {| a_utxos := a_utxos s; a_utxo_tree := a_utxo_tree s; a_index := a_index s; a_txs := [];
       a_tx_tree := blank tx_cfg; a_deposits := []; a_withdrawals := [];
       a_signer_tree := a_signer_tree s; a_signers := []; a_height := a_height s;
       a_acc_signer := Fzero; a_acc_pk := Fzero; a_tx_proofs := []; a_ivc := [] |}.

  (** record updates *)
  Definition with_tx (s : agg) (t : tree) (pf : list F) (x : tx) : agg :=
    {| a_utxos := a_utxos s; a_utxo_tree := a_utxo_tree s; a_index := a_index s;
       a_txs := a_txs s ++ [x]; a_tx_tree := t; a_deposits := a_deposits s;
       a_withdrawals := a_withdrawals s; a_signer_tree := a_signer_tree s;
       a_signers := a_signers s; a_height := a_height s; a_acc_signer := a_acc_signer s;
       a_acc_pk := a_acc_pk s; a_tx_proofs := a_tx_proofs s ++ [pf]; a_ivc := a_ivc s |}.
  Definition with_coins (s : agg) (u : hmap utxo (list Z)) (t : tree) (i : Z) : agg :=
    {| a_utxos := u; a_utxo_tree := t; a_index := i;
       a_txs := a_txs s; a_tx_tree := a_tx_tree s; a_deposits := a_deposits s;
       a_withdrawals := a_withdrawals s; a_signer_tree := a_signer_tree s;
       a_signers := a_signers s; a_height := a_height s; a_acc_signer := a_acc_signer s;
       a_acc_pk := a_acc_pk s; a_tx_proofs := a_tx_proofs s; a_ivc := a_ivc s |}.
  Definition with_signer (s : agg) (t : tree) (k : option pt) : agg :=
    {| a_utxos := a_utxos s; a_utxo_tree := a_utxo_tree s; a_index := a_index s;
       a_txs := a_txs s; a_tx_tree := a_tx_tree s; a_deposits := a_deposits s;
       a_withdrawals := a_withdrawals s; a_signer_tree := t;
       a_signers := a_signers s ++ [k]; a_height := a_height s; a_acc_signer := a_acc_signer s;
       a_acc_pk := a_acc_pk s; a_tx_proofs := a_tx_proofs s; a_ivc := a_ivc s |}.
  Definition with_logs (s : agg) (d w : list (pt * u64)) : agg :=
    {| a_utxos := a_utxos s; a_utxo_tree := a_utxo_tree s; a_index := a_index s;
       a_txs := a_txs s; a_tx_tree := a_tx_tree s; a_deposits := d;
       a_withdrawals := w; a_signer_tree := a_signer_tree s;
       a_signers := a_signers s; a_height := a_height s; a_acc_signer := a_acc_signer s;
       a_acc_pk := a_acc_pk s; a_tx_proofs := a_tx_proofs s; a_ivc := a_ivc s |}.
  Definition with_ivc (s : agg) (x : agg_inputs) : agg :=
    {| a_utxos := a_utxos s; a_utxo_tree := a_utxo_tree s; a_index := a_index s;
       a_txs := a_txs s; a_tx_tree := a_tx_tree s; a_deposits := a_deposits s;
       a_withdrawals := a_withdrawals s; a_signer_tree := a_signer_tree s;
       a_signers := a_signers s; a_height := a_height s; a_acc_signer := a_acc_signer s;
       a_acc_pk := a_acc_pk s; a_tx_proofs := a_tx_proofs s; a_ivc := a_ivc s ++ [x] |}.

  (** * Intake *)

  (** lines 91-97: one iteration *)
  Definition intake_one (s : agg) (_ : unit) (st : pt * tx) : mres agg tx_error unit :=
    let '(sender, x) := st in
    match is_valid dbg x (Some sender) with
    | Panic => MPanic
    | Err e => MErr s e
    | Ok _ =>
      mbind (mlift s TransactionTreeFailure
                   (update_and_prove dbg tx_cfg (a_tx_tree s) (Z.of_nat (length (a_txs s))) x))
            (fun s tp => MOk (with_tx s (fst tp) (snd tp) x) tt)
    end.
  (** lines 86-101 *)
  Definition process_transactions (s : agg) (l : list (pt * tx)) : mres agg tx_error unit :=
    mfold intake_one l s tt.

  (** lines 103-111 *)
  Definition prove_transactions (s : agg) : R (list (list (F * F))) :=
    rmap (fun ix => generate_proof dbg tx_cfg (a_tx_tree s) (Z.of_nat (fst ix)) (snd ix))
         (enum (a_txs s)).

  (** * Signatures *)

  (** lines 144-170: one iteration of the input loop, with the local arrays of positions and
      proofs; [Vec::pop] takes the last element *)
  Definition delete_one (contract : pt) (s : agg) (a : arr4 F * arr4 (list F)) (ju : nat * utxo)
    : mres agg agg_error (arr4 F * arr4 (list F)) :=
    let '(j, u) := ju in
    if negb (pt_eqb (pk u) contract) then
      match hget utxo_eqb (a_utxos s) u with
      | None => MErr s UTXONonExisting
      | Some v =>
        match rev v with
        | [] => MErr s UTXOError
        | index :: v' =>
          let s1 := with_coins s (hset utxo_eqb (a_utxos s) u (rev v')) (a_utxo_tree s) (a_index s) in
          mbind (mlift s1 UTXOTreeUpdateError
                       (update_and_prove dbg utxo_cfg (a_utxo_tree s1) index utxo_dummy))
                (fun s1 tp =>
                   MOk (with_coins s1 (a_utxos s1) (fst tp) (a_index s1))
                       (a4_set j (Fof index) (fst a), a4_set j (snd tp) (snd a)))
        end
      end
    else MOk s a.

  (** lines 172-200: one iteration of the output loop; the local variables are the positions,
      the proofs and [withdrawal_amount] *)
  Definition add_one (contract sender : pt) (s : agg) (a : arr4 F * arr4 (list F) * u64)
    (ju : nat * utxo) : mres agg agg_error (arr4 F * arr4 (list F) * u64) :=
    let '(j, u) := ju in
    let '(pos, pf, w) := a in
    let s := if pt_eqb sender contract
             then with_logs s (a_deposits s ++ [(pk u, amount u)]) (a_withdrawals s) else s in
    if negb (pt_eqb (pk u) contract) then
      let v := match hget utxo_eqb (a_utxos s) u with Some v => v | None => [] end in
      let i := a_index s in
      let s1 := with_coins s (hset utxo_eqb (a_utxos s) u (v ++ [i])) (a_utxo_tree s) i in
      mbind (mlift s1 UTXOTreeUpdateError (update_and_prove dbg utxo_cfg (a_utxo_tree s1) i u))
            (fun s1 tp =>
               let s2 := with_coins s1 (a_utxos s1) (fst tp) i in
               match @uadd no_error dbg i 1 with
               | Ok i' => MOk (with_coins s2 (a_utxos s2) (a_utxo_tree s2) i')
                              (a4_set j (Fof i) pos, a4_set j (snd tp) pf, w)
               | _ => MPanic
               end)
    else
      match @add64 no_error dbg w (amount u) with
      | Ok w' => MOk s (pos, pf, w')
      | _ => MPanic
      end.

  (** [iter().enumerate().filter(|(_, utxo)| !utxo.is_dummy)] (lines 144-148, 172-176) *)
  Definition enum_real (v : arr4 utxo) : list (nat * utxo) :=
    filter (fun ju => negb (is_dummy (snd ju))) (enum (a4_list v)).

  (** lines 130-137: the condition under which a transaction is applied; [verify_signature]
      does not fail *)
  Definition accepts (contract : pt) (tx_root : F) (t : tx) (k : pt) (sg : signature) : bool :=
    verify_signature k (tx_enc t ++ [tx_root]) sg || pt_eqb k contract.

  (** lines 118-222: one iteration *)
  Definition sign_one (contract : pt) (s : agg) (_ : unit)
    (x : nat * (pt * option signature)) : mres agg agg_error unit :=
    let '(i, (k, osg)) := x in
    match nth_error (a_txs s) i, root (a_tx_tree s) with
    | Some t, Ok r =>
      let sg := match osg with Some sg => sg | None => sig_default end in
      mbind
        (if accepts contract r t k sg then
           mbind (mlift s UTXOTreeUpdateError
                        (update_and_prove dbg signer_cfg (a_signer_tree s)
                                          (Z.of_nat (length (a_signers s))) k))
                 (fun s tp =>
           let s := with_signer s (fst tp) (Some k) in
           mbind (mfold (delete_one contract) (enum_real (inputs t)) s
                        (a4_const Fzero, a4_const (default_two_paths utxo_cfg)))
                 (fun s del =>
           mbind (mfold (add_one contract k) (enum_real (outputs t)) s
                        (a4_const Fzero, a4_const (default_two_paths utxo_cfg), u64of 0))
                 (fun s addw =>
           let '(pos, pf, w) := addw in
           let s := if 0 <? zval w then with_logs s (a_deposits s) (a_withdrawals s ++ [(k, w)])
                    else s in
           MOk s (snd tp, del, (pos, pf)))))
         else
           MOk (with_signer s (a_signer_tree s) None)
               (default_two_paths signer_cfg,
                (a4_const Fzero, a4_const (default_two_paths utxo_cfg)),
                (a4_const Fzero, a4_const (default_two_paths utxo_cfg))))
        (fun s ds =>
           let '(signer_proof, (del_pos, del_pf), (add_pos, add_pf)) := ds in
           match nth_error (a_tx_proofs s) i with
           | None => MPanic
           | Some tpf =>
             MOk (with_ivc s {| i_tx := t; i_tx_proof := tpf; i_del_proofs := del_pf;
                                i_del_pos := del_pos; i_add_proofs := add_pf; i_add_pos := add_pos;
                                i_signer_proof := signer_proof; i_sender := k; i_sig := sg |}) tt
           end)
    | _, _ => MPanic
    end.

  (** lines 113-225 *)
  Definition process_signatures (s : agg) (contract : pt) (l : list (pt * option signature))
    : mres agg agg_error unit :=
    mfold (sign_one contract) (enum l) s tt.

  (** * Blocks *)

  (** [onchain_state.pk_indices[pk] as u32]: indexing a missing key panics *)
  Definition index_u32 (c : contract) (k : pt) : res no_error Z :=
    do i <- unwrap (hget pt_eqb (pk_indices c) k); Ok (Z.of_nat i mod 2 ^ 32).
  (** lines 227-249 *)
  Definition produce_block (s : agg) (c : contract) : res no_error block :=
    match root (a_utxo_tree s), root (a_tx_tree s), root (a_signer_tree s) with
    | Ok ur, Ok tr, Ok sr =>
      do signers <- rmap (fun o : option pt => match o with
                                   | Some k => do i <- index_u32 c k; Ok (Some i)
                                   | None => Ok None
                                   end) (a_signers s);
      do deposits <- rmap (fun ka : pt * u64 => do i <- index_u32 c (fst ka); Ok (i, snd ka)) (a_deposits s);
      do withdrawals <- rmap (fun ka : pt * u64 => do i <- index_u32 c (fst ka); Ok (i, snd ka)) (a_withdrawals s);
      Ok {| utxo_tree_root := ur; tx_tree_root := tr; signer_tree_root := sr;
            b_signers := signers; height := a_height s; b_deposits := deposits;
            b_withdrawals := withdrawals |}
    | _, _, _ => Panic
    end.

  (** lines 251-253 *)
  Definition ivc_inputs (s : agg) : list agg_inputs := a_ivc s.
End aggregator.

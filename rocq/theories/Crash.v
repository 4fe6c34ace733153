(** What is left in memory when a call panics. The models of mock-contract/src/lib.rs (Contract.v) and
    aggregator/src/lib.rs (Aggregator.v) say that a panicking call has no result; here the contents of
    [&mut self] are followed up to the point of the panic, for a caller who catches it. *)
From Coq Require Import ZArith List Bool.
Import ListNotations.
From Verif Require Import Base Env Circuit SparseMT Data Schnorr HMap Contract ContractSpec Aggregator.
Open Scope Z_scope.

(** a loop: the iterations before the panicking one are complete, [left] says what the panicking one
    leaves behind ([None] if the panic is inside a tree operation, whose steps are not followed) *)
Fixpoint mfold_left {S E A B} (f : S -> A -> B -> mres S E A) (left : S -> A -> B -> option S) (l : list B) (s : S) (a : A)
  : option S :=
  match l with
  | [] => Some s
  | x :: l' =>
    match f s a x with
    | MOk s' a' => mfold_left f left l' s' a'
    | MErr s' _ => Some s'
    | MPanic => left s a x
    end
  end.

Section crash.
  Context {hs : Hashes} {G : Curve} (dbg : bool).

  (** ** mock-contract/src/lib.rs *)
  (** lines 19-23: the assertion, then the subtraction, then the addition *)
  Definition transfer_left (self other a : u64) : u64 * u64 :=
    if zval a <=? zval self then
      match @sub64 no_error dbg self a with
      | Ok self' => match @add64 no_error dbg other a with Ok other' => (self', other') | _ => (self', other) end
      | _ => (self, other)
      end
    else (self, other).
  (** lines 63-71: [split_at_mut], the indexing of both parts, the transfer, then the entry of the
      pending deposits *)
  Definition deposit_left (c : contract) (index : nat) (a : u64) : contract :=
    if (index <=? length (l1_accounts c))%nat then
      let l := firstn index (l1_accounts c) in
      let r := skipn index (l1_accounts c) in
      match nth_error r 0, nth_error l 0 with
      | Some r0, Some l0 =>
        let '(r0', l0') := transfer_left r0 l0 a in
        let c1 := mkContract (pks c) (pk_indices c) (set_nth 0 l0' l ++ set_nth 0 r0' r) (nonces c)
                             (block_hashes c) (c_deposits c) in
        match transfer dbg r0 l0 a with
        | Ok _ =>
          match nth_error (pks c) index with
          | Some k =>
            match match hget pt_eqb (c_deposits c) k with
                  | Some e => @add64 no_error dbg e a
                  | None => Ok a
                  end with
            | Ok e => mkContract (pks c1) (pk_indices c1) (l1_accounts c1) (nonces c1) (block_hashes c1)
                                 (hset pt_eqb (c_deposits c1) k e)
            | _ => c1
            end
          | None => c1
          end
        | _ => c1
        end
      | _, _ => c
      end
    else c.

  (** the contract after a call, whether it returned or panicked *)
  Definition survive (c : contract) (x : call) : contract :=
    match x with
    | Join bal k => fst (join c bal k)
    | Deposit i a => deposit_left c i a
    end.
  (** a history of calls all of whose panics were caught *)
  Definition caught (k0 : pt) (l : list call) : contract := fold_left survive l (contract_new k0).

  (** ** aggregator/src/lib.rs *)
  (** lines 91-97: [is_valid] comes before any write *)
  Definition intake_one_left (s : agg) (_ : unit) (st : pt * tx) : option agg :=
    match is_valid dbg (snd st) (Some (fst st)) with
    | Panic => Some s
    | _ => None
    end.
  (** lines 86-101 *)
  Definition intake_left (s : agg) (l : list (pt * tx)) : option agg :=
    mfold_left (intake_one dbg) intake_one_left l s tt.

  (** lines 172-200: the deposit is pushed first; the coin and its leaf are written before the index is
      advanced; the withdrawn amount is a local variable *)
  Definition add_one_left (contract sender : pt) (s : agg) (a : arr4 F * arr4 (list F) * u64) (ju : nat * utxo)
    : option agg :=
    let u := snd ju in
    let s := if pt_eqb sender contract
             then with_logs s (a_deposits s ++ [(pk u, amount u)]) (a_withdrawals s) else s in
    if negb (pt_eqb (pk u) contract) then
      let v := match hget utxo_eqb (a_utxos s) u with Some v => v | None => [] end in
      let i := a_index s in
      match update_and_prove dbg utxo_cfg (a_utxo_tree s) i u with
      | Ok tp => Some (with_coins s (hset utxo_eqb (a_utxos s) u (v ++ [i])) (fst tp) i)
      | _ => None
      end
    else Some s.
  (** lines 118-222: indexing [transactions] comes first; then the signature, the signer tree, the
      inputs (whose only panics would be in the tree), the outputs, and the indexing of
      [tx_tree_update_proofs] *)
  Definition sign_one_left (contract : pt) (s : agg) (_ : unit) (x : nat * (pt * option signature)) : option agg :=
    let '(i, (k, osg)) := x in
    match nth_error (a_txs s) i, root (a_tx_tree s) with
    | Some t, Ok r =>
      let sg := match osg with Some sg => sg | None => sig_default end in
      if accepts contract r t k sg then
        match update_and_prove dbg signer_cfg (a_signer_tree s) (Z.of_nat (length (a_signers s))) k with
        | Ok tp =>
          let s1 := with_signer s (fst tp) (Some k) in
          match mfold (delete_one dbg contract) (enum_real (inputs t)) s1
                      (a4_const Fzero, a4_const (default_two_paths utxo_cfg)) with
          | MOk s2 _ =>
            let a0 := (a4_const Fzero, a4_const (default_two_paths utxo_cfg), u64of 0) in
            match mfold (add_one dbg contract k) (enum_real (outputs t)) s2 a0 with
            | MOk s3 (_, _, w) =>
              Some (if 0 <? zval w then with_logs s3 (a_deposits s3) (a_withdrawals s3 ++ [(k, w)]) else s3)
            | _ => mfold_left (add_one dbg contract k) (add_one_left contract k) (enum_real (outputs t)) s2 a0
            end
          | MErr s2 _ => Some s2
          | MPanic => None
          end
        | _ => None
        end
      else Some (with_signer s (a_signer_tree s) None)
    | _, _ => Some s
    end.
  (** lines 113-225 *)
  Definition sign_left (s : agg) (contract : pt) (l : list (pt * option signature)) : option agg :=
    mfold_left (sign_one dbg contract) (sign_one_left contract) (enum l) s tt.
End crash.

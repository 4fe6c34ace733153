(** Model of plasma-fold/src/datastructures and plasma-fold/src/primitives/crh: UTXOs,
    transactions, blocks, their encodings and hashes, natively and in the circuit. Paths are
    relative to plasma-fold/src. *)
From Coq Require Import ZArith List Bool Lia.
Import ListNotations.
From Verif Require Import Base Env Circuit SparseMT SparseMTGadget.
Open Scope Z_scope.

(** [[T; TX_IO_SIZE]] with [TX_IO_SIZE = 4] (datastructures/mod.rs:14) *)
Record arr4 (A : Type) := A4 { a4_0 : A; a4_1 : A; a4_2 : A; a4_3 : A }.
Arguments A4 {A} _ _ _ _.
Arguments a4_0 {A} _. Arguments a4_1 {A} _. Arguments a4_2 {A} _. Arguments a4_3 {A} _.
Definition a4_list {A} (v : arr4 A) : list A := [a4_0 v; a4_1 v; a4_2 v; a4_3 v].
Definition a4_map {A B} (f : A -> B) (v : arr4 A) : arr4 B :=
  A4 (f (a4_0 v)) (f (a4_1 v)) (f (a4_2 v)) (f (a4_3 v)).

(** errors.rs:4-13 *)
Inductive tx_error :=
| InvalidNonce (expected got : Z)
| InvalidAmounts
| InvalidPublicKey
| TransactionTreeFailure.

Section data.
  Context {hs : Hashes} {G : Curve}.

  (** * Values *)

  (** datastructures/utxo/mod.rs:24-28. A [PublicKey] (keypair/mod.rs:36-38) is its point. *)
  Record utxo := mkUtxo { amount : u64; pk : pt; is_dummy : bool }.
  (** datastructures/utxo/mod.rs:41-47 *)
  Definition utxo_new (k : pt) (a : u64) : utxo := mkUtxo a k false.
  (** datastructures/utxo/mod.rs:49-62; [PublicKey::default()] is the identity *)
  Definition utxo_dummy : utxo := mkUtxo (u64of 0) pzero true.
  (** derived [PartialEq] (datastructures/utxo/mod.rs:23) *)
  Definition utxo_eqb (a b : utxo) : bool :=
    (zeqb (amount a) (amount b)) && pt_eqb (pk a) (pk b) && Bool.eqb (is_dummy a) (is_dummy b).

  (** datastructures/transaction/mod.rs:24-27 *)
  Record tx := mkTx { inputs : arr4 utxo; outputs : arr4 utxo }.
  (** datastructures/transaction/mod.rs:29-36 *)
  Definition tx_default : tx :=
    mkTx (A4 utxo_dummy utxo_dummy utxo_dummy utxo_dummy)
         (A4 utxo_dummy utxo_dummy utxo_dummy utxo_dummy).

  (** datastructures/block/mod.rs:5-14; [usize] is 64 bits *)
  Record block := mkBlock
    { utxo_tree_root : F;
      tx_tree_root : F;
      signer_tree_root : F;
      b_signers : list (option Z);
      height : u64;
      b_deposits : list (Z * u64);
      b_withdrawals : list (Z * u64) }.

  (** * Native encodings and hashes *)

  (** [x, y, iszero] of a point (datastructures/transaction/mod.rs:50-55,
      primitives/crh/mod.rs:67-77,127-136) *)
  Definition pt_enc (k : pt) : list F :=
    match affine k with
    | None => [Fzero; Fzero; Fone]
    | Some (x, y) => [x; y; Fzero]
    end.
  (** primitives/crh/mod.rs:137-143, datastructures/transaction/mod.rs:48-58 *)
  Definition utxo_enc (u : utxo) : list F := [Fu64 (amount u); Fbool (is_dummy u)] ++ pt_enc (pk u).
  (** datastructures/transaction/mod.rs:44-62: [Vec::<F>::from(&tx)] *)
  Definition tx_enc (t : tx) : list F :=
    flat_map utxo_enc (a4_list (inputs t) ++ a4_list (outputs t)).
  (** datastructures/transaction/mod.rs:64-74: [Vec::<F>::from(tx)] by value *)
  Definition tx_enc_by_value (t : tx) : list F :=
    flat_map (fun u => [Fu64 (amount u); Fbool (is_dummy u)])
             (a4_list (inputs t) ++ a4_list (outputs t)).

  (** primitives/crh/mod.rs:36-44 and datastructures/transaction/mod.rs:39-41 *)
  Definition tx_hash (t : tx) : F := crh (tx_enc t).
  (** primitives/crh/mod.rs:62-79 *)
  Definition pk_hash (k : pt) : F := crh (pt_enc k).
  (** primitives/crh/mod.rs:97-104 *)
  Definition nonce_hash (n : u64) : F := crh [Fu64 n].
  (** primitives/crh/mod.rs:122-145 *)
  Definition utxo_hash (u : utxo) : F := crh (utxo_enc u).
  (** primitives/crh/mod.rs:166-171 *)
  Definition block_enc (b : block) : list F :=
    [utxo_tree_root b; tx_tree_root b; signer_tree_root b; Fu64 (height b)].
  (** primitives/crh/mod.rs:161-173 *)
  Definition block_hash (b : block) : F := crh (block_enc b).

  (** * Transaction validity *)

  (** [iter.filter(|utxo| !utxo.is_dummy)] *)
  Definition real (l : list utxo) : list utxo := filter (fun u => negb (is_dummy u)) l.
  (** [.sum::<u64>()] *)
  Definition sum_u64 (dbg : bool) (l : list utxo) : res tx_error Z :=
    rfold (fun a u => uadd dbg a (zval (amount u))) l 0.
  (** datastructures/transaction/mod.rs:83-110 *)
  Definition is_valid (dbg : bool) (t : tx) (sender : option pt) : res tx_error unit :=
    let sender := match sender with Some s => s | None => pk (a4_0 (inputs t)) end in
    if existsb (fun u => negb (pt_eqb (pk u) sender)) (real (a4_list (inputs t)))
    then Err InvalidPublicKey
    else
      do i <- sum_u64 dbg (real (a4_list (inputs t)));
      do o <- sum_u64 dbg (real (a4_list (outputs t)));
      if negb (i =? o) then Err InvalidAmounts else Ok tt.

  (** * Tree configurations *)

  (** datastructures/utxo/mod.rs:71-82 *)
  Definition utxo_cfg : SparseConfig := mkConfig utxo utxo_hash utxo_dummy 32.
  (** datastructures/transaction/mod.rs:120-133, lib.rs:7 *)
  Definition tx_cfg : SparseConfig := mkConfig tx tx_hash tx_default 13.
  (** datastructures/signerlist/mod.rs:29-40, lib.rs:8 *)
  Definition signer_cfg : SparseConfig := mkConfig pt pk_hash pzero 13.
  (** datastructures/noncemap/mod.rs:33-44 *)
  Definition nonce_cfg : SparseConfig := mkConfig u64 nonce_hash (u64of 0) 32.

  (** * Circuit values *)

  (** datastructures/utxo/constraints.rs:26-30. [PublicKeyVar] (keypair/constraints.rs:18-24)
      is its point: arkworks enforces curve membership when it allocates one. *)
  Record utxoV := mkUtxoV { v_amount : F; v_pk : pt; v_dummy : bool }.
  (** datastructures/utxo/constraints.rs:35-53 *)
  Definition utxo_alloc (u : utxo) : utxoV := mkUtxoV (Fu64 (amount u)) (pk u) (is_dummy u).
  (** datastructures/transaction/constraints.rs:50-57 *)
  Record txV := mkTxV { v_inputs : arr4 utxoV; v_outputs : arr4 utxoV }.
  (** datastructures/transaction/constraints.rs:62-78 *)
  Definition tx_alloc (t : tx) : txV :=
    mkTxV (a4_map utxo_alloc (inputs t)) (a4_map utxo_alloc (outputs t)).
  (** datastructures/block/constraints.rs:7-12 *)
  Record blockV := mkBlockV
    { vb_utxo_root : F; vb_tx_root : F; vb_signer_root : F; vb_height : F }.
  (** datastructures/block/constraints.rs:14-35 *)
  Definition block_alloc (b : block) : blockV :=
    mkBlockV (utxo_tree_root b) (tx_tree_root b) (signer_tree_root b) (Fu64 (height b)).

  (** [CVar::to_constraint_field]: arkworks returns the affine coordinates and the infinity
      flag; at infinity both coordinates are zero. *)
  Definition pt_encV (k : pt) : list F :=
    match affine k with
    | None => [Fzero; Fzero; Fone]
    | Some (x, y) => [x; y; Fzero]
    end.
  (** primitives/crh/constraints.rs:118-123, datastructures/transaction/constraints.rs:38-43 *)
  Definition utxo_encV (u : utxoV) : list F := [v_amount u; Fbool (v_dummy u)] ++ pt_encV (v_pk u).
  (** datastructures/transaction/constraints.rs:31-47 *)
  Definition tx_encV (t : txV) : list F :=
    flat_map utxo_encV (a4_list (v_inputs t) ++ a4_list (v_outputs t)).
  (** primitives/crh/constraints.rs:55-61 *)
  Definition tx_hashV (t : txV) : F := crh (tx_encV t).
  (** primitives/crh/constraints.rs:69-74; [UInt64::to_fp] sums the 64 bits with their weights *)
  Definition nonce_hashV (bits : list bool) : F := crh [Fof (bits_val bits)].
  (** [UInt64] allocation: the 64 bits of the value *)
  Definition nonce_alloc (n : u64) : list bool := bits_le 64 (zval n).
  (** primitives/crh/constraints.rs:92-98 *)
  Definition pk_hashV (k : pt) : F := crh (pt_encV k).
  (** primitives/crh/constraints.rs:114-125 *)
  Definition utxo_hashV (u : utxoV) : F := crh (utxo_encV u).
  (** primitives/crh/constraints.rs:137-150 *)
  Definition block_hashV (b : blockV) : F :=
    crh [vb_utxo_root b; vb_tx_root b; vb_signer_root b; vb_height b].

  (** datastructures/utxo/constraints.rs:62-77 *)
  Definition utxo_gcfg : GadgetConfig := mkGadgetConfig utxoV utxo_hashV 32.
  (** datastructures/transaction/constraints.rs:88-103 *)
  Definition tx_gcfg : GadgetConfig := mkGadgetConfig txV tx_hashV 13.
  (** datastructures/signerlist/constraints.rs:26-43 *)
  Definition signer_gcfg : GadgetConfig := mkGadgetConfig pt pk_hashV 13.
  (** datastructures/noncemap/constraints.rs:20-33 *)
  Definition nonce_gcfg : GadgetConfig := mkGadgetConfig (list bool) nonce_hashV 32.

  (** datastructures/transaction/constraints.rs:113-119: the running [sum] *)
  Definition amount_diff (t : txV) : F :=
    let s := fold_left (fun s i => Fadd s (sel (v_dummy i) Fzero (v_amount i)))
                       (a4_list (v_inputs t)) Fzero in
    fold_left (fun s o => Fsub s (sel (v_dummy o) Fzero (v_amount o))) (a4_list (v_outputs t)) s.
  (** datastructures/transaction/constraints.rs:108-122 *)
  Definition enforce_valid (t : txV) (sender : pt) : circ unit :=
    let! _ := cfold (fun _ i => cond_enforce (pt_eqb (v_pk i) sender) (negb (v_dummy i)))
                    (a4_list (v_inputs t)) tt in
    enforce (Feqb (amount_diff t) Fzero).
  (** datastructures/transaction/constraints.rs:124-131 *)
  Definition get_signer (t : txV) : pt :=
    fold_left (fun k i => sel (v_dummy i) k (v_pk i)) (a4_list (v_inputs t)) pzero.
End data.

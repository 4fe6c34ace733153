(** Model of client/src/circuits/mod.rs and client/src/lib.rs: the step circuit of a user, and of
    plasma-fold/src/primitives/accumulator/constraints.rs. Line numbers refer to
    client/src/circuits/mod.rs unless another file is named. *)
From Coq Require Import ZArith List Bool Lia.
Import ListNotations.
From Verif Require Import Base Env Circuit SparseMT SparseMTGadget Data Gadgets AggCircuit.
Open Scope Z_scope.

Section client.
  Context {hs : Hashes} {G : Curve}.

  (** lines 78-90 *)
  Record user_aux := mkAux
    { u_tx_proofs : list (list (F * F));
      u_signer_proofs : list (list (F * F));
      u_block : block;
      u_txs : list (tx * u64);
      u_pk : pt }.
  (** plasma-fold/src/datastructures/block/mod.rs:4, derived [Default] *)
  Definition block_default : block := mkBlock Fzero Fzero Fzero [] (u64of 0) [] [].
  (** lines 92-118, for [N_TX_PER_FOLD_STEP = N] *)
  Definition aux_default (N : nat) : user_aux :=
    {| u_tx_proofs := map (fun _ => default_path tx_cfg) (seq 0 N);
       u_signer_proofs := map (fun _ => default_path signer_cfg) (seq 0 N);
       u_block := block_default;
       u_txs := map (fun _ => (tx_default, u64of 0)) (seq 0 N);
       u_pk := pzero |}.

  (** lines 120-135 *)
  Record user_auxV := mkAuxV
    { ux_tx_proofs : list (list (F * F));
      ux_signer_proofs : list (list (F * F));
      ux_block : blockV;
      ux_txs : list (txV * F);
      ux_pk : pt }.
  (** lines 137-184 *)
  Definition aux_alloc (a : user_aux) : user_auxV :=
    {| ux_tx_proofs := u_tx_proofs a;
       ux_signer_proofs := u_signer_proofs a;
       ux_block := block_alloc (u_block a);
       ux_txs := map (fun ti => (tx_alloc (fst ti), Fu64 (snd ti))) (u_txs a);
       ux_pk := u_pk a |}.

  (** The block accumulator, an instance of the trait [Accumulator]
      (plasma-fold/src/primitives/accumulator/constraints.rs:21-27). *)
  Definition accumulator := F -> F -> F.
  (** plasma-fold/src/primitives/accumulator/constraints.rs:33-50; the SHA-256 two-to-one hash
      digests the concatenation of its inputs *)
  Definition sha_acc : accumulator := fun prev value => sha_field (field_bytesV prev ++ field_bytesV value).
  (** plasma-fold/src/primitives/accumulator/constraints.rs:56-66 *)
  Definition poseidon_acc : accumulator := fun prev value => two prev value.

  (** lines 213-229: indexing [z_i]; lines 327-336 *)
  Record ustate := mkU
    { us_balance : F; us_nonce : F; us_pk : F; us_acc : F; us_block : F; us_height : F; us_index : F }.
  Definition u_of_list (l : list F) : option ustate :=
    match l with
    | z0 :: z1 :: z2 :: z3 :: z4 :: z5 :: z6 :: _ => Some (mkU z0 z1 z2 z3 z4 z5 z6)
    | _ => None
    end.
  Definition u_list (s : ustate) : list F :=
    [us_balance s; us_nonce s; us_pk s; us_acc s; us_block s; us_height s; us_index s].

  (** lines 206-210; [Transaction::dummy(())] is the default value ([Dummy<()>] of the
      folding library) *)
  Definition dummy_transaction_hash : F := tx_hash tx_default.

  (** lines 302-305 *)
  Definition u_spend (pk : pt) (balance : F) (u : utxoV) : F :=
    Fsub balance (Fmul (v_amount u) (Fbool (pt_eqb (v_pk u) pk))).
  (** lines 309-312 *)
  Definition u_receive (pk : pt) (balance : F) (u : utxoV) : F :=
    Fadd balance (Fmul (v_amount u) (Fbool (pt_eqb (v_pk u) pk))).

  (** one element of the zipped lists of lines 251-259 *)
  Definition u_item : Type := ((txV * F) * list (F * F)) * list (F * F).
  (** lines 251-320: one iteration; the variables are the balance, the nonce and the last index *)
  Definition u_step (pk : pt) (blk : blockV) (st : F * F * F) (x : u_item) : circ (F * F * F) :=
    let '(balance, nonce, prev_index) := st in
    let '(((transaction, index), tx_path), signer_path) := x in
    let is_regular := negb (Feqb (tx_hashV transaction) dummy_transaction_hash) in
    let! lower := is_lt prev_index index in
    let! _ := cond_enforce lower is_regular in
    let! _ := conditionally_check_membership_with_index tx_gcfg tx_path (vb_tx_root blk) transaction index is_regular in
    let signer := get_signer transaction in
    let! _ := conditionally_check_membership signer_gcfg signer_path (vb_signer_root blk) signer is_regular in
    let nonce := Fadd nonce (Fbool (pt_eqb pk signer)) in
    let balance := fold_left (u_spend pk) (a4_list (v_inputs transaction)) balance in
    let balance := fold_left (u_receive pk) (a4_list (v_outputs transaction)) balance in
    Ret (balance, nonce,
         Fadd (Fmul (Fsub Fone (Fbool is_regular)) prev_index) (Fmul (Fbool is_regular) index)).

  (** lines 196-337, for [N_TX_PER_FOLD_STEP = N] *)
  Definition update_balance (acc : accumulator) (N : nat) (z_i : list F) (aux : user_auxV) : circ (list F) :=
    let! _ := cassert (length (ux_tx_proofs aux) =? N)%nat in
    let! _ := cassert (length (ux_txs aux) =? N)%nat in
    let! _ := cassert (length (ux_signer_proofs aux) =? N)%nat in
    match u_of_list z_i with
    | None => Abort
    | Some z =>
      let! _ := enforce (Feqb (pk_hashV (ux_pk aux)) (us_pk z)) in
      let block_hash := block_hashV (ux_block aux) in
      let acc' := acc (us_acc z) block_hash in
      let! _ := enforce_le (us_height z) (vb_height (ux_block aux)) in
      let same := Feqb block_hash (us_block z) in
      let! (balance, nonce, index) :=
        cfold (u_step (ux_pk aux) (ux_block aux))
              (combine (combine (ux_txs aux) (ux_tx_proofs aux)) (ux_signer_proofs aux))
              (us_balance z, us_nonce z, sel same (us_index z) Fzero) in
      Ret (u_list {| us_balance := balance; us_nonce := nonce; us_pk := us_pk z; us_acc := acc';
                     us_block := block_hash; us_height := vb_height (ux_block aux); us_index := index |})
    end.

  (** client/src/lib.rs:64-84 ([ClientCircuitPoseidon]) and 123-142 ([ClientCircuitSha]); the
      state has seven elements (lines 60-62, 119-121) *)
  Definition client_poseidon (N : nat) : list F -> user_auxV -> circ (list F) := update_balance poseidon_acc N.
  Definition client_sha (N : nat) : list F -> user_auxV -> circ (list F) := update_balance sha_acc N.
End client.

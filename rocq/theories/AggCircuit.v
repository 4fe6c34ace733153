(** Model of aggregator/src/circuit.rs: the aggregator's step circuit. Line numbers refer to that
    file. *)
From Coq Require Import ZArith List Bool Lia.
Import ListNotations.
From Verif Require Import Base Env Circuit SparseMT SparseMTGadget Data Gadgets Schnorr Contract Aggregator.
Open Scope Z_scope.

Section circuit.
  Context {hs : Hashes} {G : Curve}.

  (** lines 97-124: the allocated inputs of one transaction *)
  Record agg_inputsV := mkInputsV
    { x_tx : txV;
      x_tx_proof : list F;
      x_del_proofs : arr4 (list F);
      x_del_pos : arr4 F;
      x_add_proofs : arr4 (list F);
      x_add_pos : arr4 F;
      x_signer_proof : list F;
      x_sender : pt;
      x_sig : sigV }.

  (** lines 133-196 *)
  Definition inputs_alloc (i : agg_inputs) : agg_inputsV :=
    {| x_tx := tx_alloc (i_tx i); x_tx_proof := i_tx_proof i;
       x_del_proofs := i_del_proofs i; x_del_pos := i_del_pos i;
       x_add_proofs := i_add_proofs i; x_add_pos := i_add_pos i;
       x_signer_proof := i_signer_proof i; x_sender := i_sender i; x_sig := sig_alloc (i_sig i) |}.

  (** lines 69-70, derived [Default]; the default proofs have the configured lengths
      (plasma-fold/src/primitives/sparsemt/mod.rs) *)
  Definition inputs_default : agg_inputs :=
    {| i_tx := tx_default; i_tx_proof := default_two_paths tx_cfg;
       i_del_proofs := a4_const (default_two_paths utxo_cfg); i_del_pos := a4_const Fzero;
       i_add_proofs := a4_const (default_two_paths utxo_cfg); i_add_pos := a4_const Fzero;
       i_signer_proof := default_two_paths signer_cfg; i_sender := pzero; i_sig := sig_default |}.

  (** the variables of the loop (lines 285-292) *)
  Record zstate := mkZ
    { z_step : F; z_utxo : F; z_tx : F; z_tx_final : F; z_signer : F;
      z_signer_acc : F; z_deposit : F; z_withdrawal : F }.
  (** lines 285-292: indexing [z_i] *)
  Definition z_of_list (l : list F) : option zstate :=
    match l with
    | z0 :: z1 :: z2 :: z3 :: z4 :: z5 :: z6 :: z7 :: _ => Some (mkZ z0 z1 z2 z3 z4 z5 z6 z7)
    | _ => None
    end.
  (** lines 419-428 *)
  Definition z_list (z : zstate) : list F :=
    [z_step z; z_utxo z; z_tx z; z_tx_final z; z_signer z; z_signer_acc z; z_deposit z; z_withdrawal z].

  (** lines 230-242 *)
  Definition tx_is_deposit (t : txV) (contract : pt) : bool :=
    forallb (fun u => v_dummy u || pt_eqb (v_pk u) contract) (a4_list (v_inputs t)).

  (** [FpVar::to_bytes_le]: the 32 bytes of the canonical representative *)
  Definition field_bytesV (x : F) : list Z := bytes_le 32 (zval x).
  (** [CVar::to_bytes_le]: the bytes of the affine coordinates and one byte for the infinity
      flag; at infinity both coordinates are zero *)
  Definition pt_bytesV (k : pt) : list Z :=
    match affine k with
    | Some (x, y) => field_bytesV x ++ field_bytesV y ++ [0]
    | None => field_bytesV Fzero ++ field_bytesV Fzero ++ [1]
    end.
  (** [bits.chunks(8).map(UInt8::from_bits_le)] (lines 353-357, 409-411) *)
  Definition bits_bytes (bits : list bool) : list Z := map bits_val (chunks 8 bits).

  (** four inputs (outputs) with their proofs and positions: [for i in 0..TX_IO_SIZE] *)
  Definition a4_zip3 {A B C} (a : arr4 A) (b : arr4 B) (c : arr4 C) : list (A * B * C) :=
    [(a4_0 a, a4_0 b, a4_0 c); (a4_1 a, a4_1 b, a4_1 c); (a4_2 a, a4_2 b, a4_2 c); (a4_3 a, a4_3 b, a4_3 c)].

  (** lines 328-341: one iteration of the input loop *)
  Definition c_delete (signature_validity : bool) (utxo_root : F) (x : utxoV * list F * F) : circ F :=
    let '(u, proof, position) := x in
    let should_delete := signature_validity && negb (v_dummy u) in
    let! (old, new) := update_root utxo_gcfg proof u (utxo_alloc utxo_dummy) position in
    let! _ := cond_enforce (Feqb utxo_root old) should_delete in
    Ret (sel should_delete new utxo_root).

  (** lines 344-378: one iteration of the output loop; variables: the UTXO root, the deposit
      accumulator, the withdrawn amount *)
  Definition c_output (contract : pt) (transfer_only sender_is_contract tx_validity : bool)
    (st : F * F * F) (x : utxoV * list F * F) : circ (F * F * F) :=
    let '(utxo_root, deposit_acc, withdrawal_amount) := st in
    let '(u, proof, position) := x in
    let receiver_is_contract := pt_eqb (v_pk u) contract in
    let! deposit_acc :=
      (if transfer_only then Ret deposit_acc
       else let! amount_bits := to_n_bits (v_amount u) 64 in
            let preimage := field_bytesV deposit_acc ++ pt_bytesV (v_pk u) ++ bits_bytes amount_bits in
            Ret (sel (sender_is_contract && negb (v_dummy u)) (sha_field preimage) deposit_acc)) in
    let withdrawal_amount :=
      Fadd withdrawal_amount (sel (receiver_is_contract && negb (v_dummy u)) (v_amount u) Fzero) in
    let should_add := tx_validity && negb receiver_is_contract && negb (v_dummy u) in
    let! (old, new) := update_root utxo_gcfg proof (utxo_alloc utxo_dummy) u position in
    let! _ := cond_enforce (Feqb utxo_root old) should_add in
    Ret (sel should_add new utxo_root, deposit_acc, withdrawal_amount).

  (** lines 294-416: one transaction *)
  Definition c_step (contract : pt) (transfer_only : bool) (z : zstate) (x : agg_inputsV) : circ zstate :=
    let! _ := enforce_valid (x_tx x) (x_sender x) in
    let! (tx_old, tx_new) :=
      update_root tx_gcfg (x_tx_proof x) (tx_alloc tx_default) (x_tx x) (z_step z) in
    let! _ := enforce (Feqb tx_old (z_tx z)) in
    let! signature_validity :=
      is_valid_gadget 32 (x_sender x) (tx_encV (x_tx x) ++ [z_tx_final z]) (x_sig x) in
    let sender_is_contract := pt_eqb (x_sender x) contract in
    let tx_validity := signature_validity || sender_is_contract in
    let! utxo_root := cfold (c_delete signature_validity)
                            (a4_zip3 (v_inputs (x_tx x)) (x_del_proofs x) (x_del_pos x)) (z_utxo z) in
    let! (utxo_root, deposit_acc, withdrawal_amount) :=
      cfold (c_output contract transfer_only sender_is_contract tx_validity)
            (a4_zip3 (v_outputs (x_tx x)) (x_add_proofs x) (x_add_pos x))
            (utxo_root, z_deposit z, Fzero) in
    let! (signer_old, signer_new) :=
      update_root signer_gcfg (x_signer_proof x) pzero (x_sender x) (z_step z) in
    let! _ := cond_enforce (Feqb signer_old (z_signer z)) tx_validity in
    let signer_root := sel tx_validity signer_new (z_signer z) in
    let signer_acc :=
      sha_field (field_bytesV (z_signer_acc z) ++ pt_bytesV (sel tx_validity (x_sender x) pzero)) in
    let! withdrawal_acc :=
      (if transfer_only then Ret (z_withdrawal z)
       else let! amount_bits := to_n_bits withdrawal_amount 64 in
            let preimage := field_bytesV (z_withdrawal z) ++ pt_bytesV (x_sender x) ++ bits_bytes amount_bits in
            Ret (sel (Feqb withdrawal_amount Fzero) (z_withdrawal z) (sha_field preimage))) in
    Ret {| z_step := Fadd (z_step z) Fone; z_utxo := utxo_root; z_tx := tx_new;
           z_tx_final := z_tx_final z; z_signer := signer_root; z_signer_acc := signer_acc;
           z_deposit := deposit_acc; z_withdrawal := withdrawal_acc |}.

  (** lines 271-429, for a batch of [B] inputs; [state_len] is 8 (lines 267-269) *)
  Definition generate_step_constraints (contract : pt) (transfer_only : bool) (z_i : list F)
    (batch : list agg_inputsV) : circ (list F) :=
    match z_of_list z_i with
    | None => Abort
    | Some z => let! z' := cfold (c_step contract transfer_only) batch z in Ret (z_list z')
    end.
End circuit.

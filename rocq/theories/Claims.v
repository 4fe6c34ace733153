(** Specification for C129: which sequences of claims (transactions with their senders, signatures
    and coin positions, but without Merkle paths) can be proved from given trees, and with what
    result. *)
From Coq Require Import ZArith List Bool.
Import ListNotations.
From Verif Require Import Base Env SparseMT SparseMTSpec Data DataSpec Schnorr Contract Aggregator AggCircuit AggCircuitSpec.
Open Scope Z_scope.

Section spec.
  Context {hs : Hashes} {G : Curve}.
  Variables (contract : pt) (transfer_only : bool).

  (** The claims are consistent with the coins [cu], the transaction tree [ct] and the signer tree
      [ck] from which the state [z] starts. *)
  Record consistent (z : zstate) (cu : contents utxoV_cfg) (ct : contents txV_cfg) (ck : contents keyV_cfg)
    (xs : list agg_inputsV) : Prop :=
    { cs_bits : Forall wf_input xs;
      (** every real input belongs to the sender, and the sums agree in the field *)
      cs_owner : forall x u, In x xs -> In u (a4_list (v_inputs (x_tx x))) -> v_dummy u = false -> v_pk u = x_sender x;
      cs_balance : forall x, In x xs -> vtotal_in (x_tx x) mod p = vtotal_out (x_tx x) mod p;
      (** in order: every coin spent is where it is said to be, every coin created and every
          transaction and signer entered goes to a free place *)
      cs_coins : genuine utxoV_cfg cu (flat_map (coin_writes contract (z_tx_final z)) xs);
      cs_txs : genuine txV_cfg ct (tx_writes (z_step z) xs);
      cs_keys : genuine keyV_cfg ck (all_key_writes contract (z_tx_final z) (z_step z) xs);
      (** the full circuit's ranges *)
      cs_range : transfer_only = false -> forall x, In x xs ->
        (forall u, In u (a4_list (v_outputs (x_tx x))) -> zval (v_amount u) < 2 ^ 64) /\ withdrawn contract x < 2 ^ 64 }.

  (** the state after them *)
  Definition outcome (z : zstate) (cu : contents utxoV_cfg) (ct : contents txV_cfg) (ck : contents keyV_cfg)
    (xs : list agg_inputsV) : zstate :=
    mkZ (Fof (zval (z_step z) + Z.of_nat (length xs)))
        (merkle_root (written utxoV_cfg cu (flat_map (coin_writes contract (z_tx_final z)) xs)))
        (merkle_root (written txV_cfg ct (tx_writes (z_step z) xs)))
        (z_tx_final z)
        (merkle_root (written keyV_cfg ck (all_key_writes contract (z_tx_final z) (z_step z) xs)))
        (chain_from (z_signer_acc z) (map (signer_entry contract (z_tx_final z)) xs))
        (if transfer_only then z_deposit z else chain_from (z_deposit z) (flat_map (deposit_entries contract) xs))
        (if transfer_only then z_withdrawal z else chain_from (z_withdrawal z) (flat_map (withdrawal_entries contract) xs)).

  (** ** Signatures withheld (C130) *)
  (** the same claim with a signature that no key and message has: its challenge is 2^254 - 1 *)
  Definition mute (x : agg_inputsV) : agg_inputsV :=
    mkInputsV (x_tx x) (x_tx_proof x) (x_del_proofs x) (x_del_pos x) (x_add_proofs x) (x_add_pos x) (x_signer_proof x)
      (x_sender x) (mkSigV (v_s (x_sig x)) (repeat true 254)).
  (** the claims with some of the signatures withheld *)
  Definition withhold (ms : list bool) (xs : list agg_inputsV) : list agg_inputsV :=
    map (fun mx : bool * agg_inputsV => if fst mx then mute (snd mx) else snd mx) (combine ms xs).
End spec.

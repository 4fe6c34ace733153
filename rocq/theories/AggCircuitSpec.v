(** Specification vocabulary for the aggregator circuit: leaf writes, the trees as contents, the
    hash chains, and runs of the circuit. Nothing here mentions constraints or hints. *)
From Coq Require Import ZArith List Bool Lia.
Import ListNotations.
From Verif Require Import Base Env Circuit SparseMT SparseMTSpec Data DataSpec Gadgets Schnorr Contract
  Aggregator AggCircuit.
Open Scope Z_scope.

Section spec.
  Context {hs : Hashes} {G : Curve}.

  (** * Trees over allocated values: leaves are whatever the prover allocates *)
  Definition utxoV_cfg : SparseConfig := mkConfig utxoV utxo_hashV (utxo_alloc utxo_dummy) 32.
  Definition txV_cfg : SparseConfig := mkConfig txV tx_hashV (tx_alloc tx_default) 13.
  Definition keyV_cfg : SparseConfig := mkConfig pt pk_hashV pzero 13.

  (** all leaves of a tree, by position *)
  Definition leaves_of {P} (c : contents P) : list (Leaf P) :=
    map (fun n => c (Z.of_nat n)) (seq 0 (Z.to_nat (capacity P))).
  (** the live coins *)
  Definition live (c : contents utxoV_cfg) : list utxoV :=
    filter (fun u => negb (v_dummy u)) (leaves_of c).

  (** * Writes: at [w_pos], replace [w_old] by [w_new], justified by [w_path] *)
  Record write (L : Type) := mkWrite { w_pos : Z; w_old : L; w_new : L; w_path : list F }.
  Arguments mkWrite {L} _ _ _ _. Arguments w_pos {L} _. Arguments w_old {L} _. Arguments w_new {L} _. Arguments w_path {L} _.

  Section writes.
    Variable P : SparseConfig.
    (** the preimage of the leaf hash *)
    Variable enc : Leaf P -> list F.
    Fixpoint written (c : contents P) (ws : list (write (Leaf P))) : contents P :=
      match ws with
      | [] => c
      | w :: r => written (set_leaf c (w_pos w) (w_new w)) r
      end.
    (** every write finds the leaf it claims to replace *)
    Fixpoint genuine (c : contents P) (ws : list (write (Leaf P))) : Prop :=
      match ws with
      | [] => True
      | w :: r => c (w_pos w) = w_old w /\ genuine (set_leaf c (w_pos w) (w_new w)) r
      end.
    (** two different preimages with one hash, among the values that occur: on the path given
        with some write and the genuine path, or the replaced leaf and the actual leaf *)
    Fixpoint collides (c : contents P) (ws : list (write (Leaf P))) : Prop :=
      match ws with
      | [] => False
      | w :: r =>
        collision2 (climb_pairs (w_path w) (w_pos w) (LeafHash P (w_old w)) ++ genuine_path c (w_pos w))
        \/ crh_collision (enc (w_old w)) (enc (c (w_pos w)))
        \/ collides (set_leaf c (w_pos w) (w_new w)) r
      end.
  End writes.

  (** * What one transaction does *)

  (** the signature: the numbers given by the allocated bits *)
  Definition given_signature (x : agg_inputsV) : signature :=
    mkSig (scalar_of (bits_val (v_s (x_sig x)))) (scalar_of (bits_val (v_e (x_sig x)))).
  (** It verifies for the transaction and the epoch's final transaction root (and its challenge
      is given in canonical form). *)
  Definition is_signed (final : F) (x : agg_inputsV) : bool :=
    verify_signature (x_sender x) (tx_encV (x_tx x) ++ [final]) (given_signature x)
    && (bits_val (v_e (x_sig x)) <? q).
  Definition by_contract (contract : pt) (x : agg_inputsV) : bool := pt_eqb (x_sender x) contract.
  Definition is_applied (contract : pt) (final : F) (x : agg_inputsV) : bool :=
    is_signed final x || by_contract contract x.

  Definition realV (v : arr4 utxoV) : list utxoV := filter (fun u => negb (v_dummy u)) (a4_list v).
  (** coins consumed: the real inputs of a signed transaction *)
  Definition consumed (final : F) (x : agg_inputsV) : list utxoV :=
    if is_signed final x then realV (v_inputs (x_tx x)) else [].
  (** coins created: the real outputs of an applied transaction that the contract does not own *)
  Definition created (contract : pt) (final : F) (x : agg_inputsV) : list utxoV :=
    if is_applied contract final x
    then filter (fun u => negb (pt_eqb (v_pk u) contract)) (realV (v_outputs (x_tx x))) else [].

  (** positions are taken modulo the capacity of the tree *)
  Definition slot_of (P : SparseConfig) (position : F) : Z := zval position mod capacity P.
  Definition coin_writes (contract : pt) (final : F) (x : agg_inputsV) : list (write utxoV) :=
    flat_map (fun upp => let '(u, path, pos) := upp in
                if is_signed final x && negb (v_dummy u)
                then [mkWrite (slot_of utxoV_cfg pos) u (utxo_alloc utxo_dummy) path] else [])
             (a4_zip3 (v_inputs (x_tx x)) (x_del_proofs x) (x_del_pos x))
    ++ flat_map (fun upp => let '(u, path, pos) := upp in
                if is_applied contract final x && negb (pt_eqb (v_pk u) contract) && negb (v_dummy u)
                then [mkWrite (slot_of utxoV_cfg pos) (utxo_alloc utxo_dummy) u path] else [])
             (a4_zip3 (v_outputs (x_tx x)) (x_add_proofs x) (x_add_pos x)).
  (** the transaction goes to the slot of the step counter *)
  Definition tx_write (step : F) (x : agg_inputsV) : write txV :=
    mkWrite (slot_of txV_cfg step) (tx_alloc tx_default) (x_tx x) (x_tx_proof x).
  Definition key_writes (contract : pt) (final : F) (step : F) (x : agg_inputsV) : list (write pt) :=
    if is_applied contract final x
    then [mkWrite (slot_of keyV_cfg step) pzero (x_sender x) (x_signer_proof x)] else [].
  (** the same along a sequence of transactions *)
  Fixpoint tx_writes (step : F) (xs : list agg_inputsV) : list (write txV) :=
    match xs with
    | [] => []
    | x :: r => tx_write step x :: tx_writes (Fadd step Fone) r
    end.
  Fixpoint all_key_writes (contract : pt) (final step : F) (xs : list agg_inputsV) : list (write pt) :=
    match xs with
    | [] => []
    | x :: r => key_writes contract final step x ++ all_key_writes contract final (Fadd step Fone) r
    end.

  (** * Hash chains *)
  Definition chain_from (acc : F) (l : list (list Z)) : F :=
    fold_left (fun acc b => sha_field (field_bytes acc ++ b)) l acc.
  (** the bytes of a (key, amount) entry with an amount below 2^64 *)
  Definition amount_entry (k : pt) (a : Z) : list Z := pt_bytes k ++ bytes_le 8 a.
  Definition signer_entry (contract : pt) (final : F) (x : agg_inputsV) : list Z :=
    pt_bytes (if is_applied contract final x then x_sender x else pzero).
  Definition deposit_entries (contract : pt) (x : agg_inputsV) : list (list Z) :=
    if by_contract contract x
    then map (fun u => amount_entry (v_pk u) (zval (v_amount u))) (realV (v_outputs (x_tx x))) else [].
  (** the integer total of the real outputs to the contract *)
  Definition withdrawn (contract : pt) (x : agg_inputsV) : Z :=
    vtotal (filter (fun u => pt_eqb (v_pk u) contract) (a4_list (v_outputs (x_tx x)))).
  Definition withdrawal_entries (contract : pt) (x : agg_inputsV) : list (list Z) :=
    if withdrawn contract x =? 0 then [] else [amount_entry (x_sender x) (withdrawn contract x)].

  (** value leaving the pool: an applied transaction's outputs to the contract; value entering
      it: the outputs of a contract transaction that does not consume its inputs *)
  Definition burnt (contract : pt) (final : F) (x : agg_inputsV) : Z :=
    if is_applied contract final x then withdrawn contract x else 0.
  Definition minted (contract : pt) (final : F) (x : agg_inputsV) : Z :=
    if by_contract contract x && negb (is_signed final x) then vtotal_out (x_tx x) else 0.
  (** the transaction tree holding the given transactions in order *)
  Definition txs_of (xs : list agg_inputsV) : contents txV_cfg :=
    fun i => if i <? 0 then tx_alloc tx_default else nth (Z.to_nat i) (map x_tx xs) (tx_alloc tx_default).

  (** * Runs *)

  (** an external input with the number of signature bits the circuit allocates *)
  Definition wf_input (x : agg_inputsV) : Prop := length (v_e (x_sig x)) = 254%nat.
  (** a sequence of proof steps, each on a batch of transactions; [false] for the full circuit,
      [true] for the transfer-only one *)
  Inductive ivc (contract : pt) (transfer_only : bool) : list F -> list (list agg_inputsV) -> list F -> Prop :=
  | ivc_nil z : ivc contract transfer_only z [] z
  | ivc_cons z b z1 bs z' :
      Forall wf_input b ->
      sat (generate_step_constraints contract transfer_only z b) z1 ->
      ivc contract transfer_only z1 bs z' -> ivc contract transfer_only z (b :: bs) z'.
End spec.
Arguments mkWrite {L} _ _ _ _. Arguments w_pos {L} _. Arguments w_old {L} _. Arguments w_new {L} _. Arguments w_path {L} _.

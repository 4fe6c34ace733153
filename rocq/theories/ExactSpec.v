(** Specification for C106: what exactly one step of either circuit accepts, as a relation between
    the public state before, the private inputs and the public state after. No constraint, gadget or
    witness is mentioned. *)
From Coq Require Import ZArith List Bool Sorted.
Import ListNotations.
From Verif Require Import Base Env Circuit SparseMT SparseMTSpec SparseMTRep Data DataSpec Gadgets Schnorr SchnorrProofs
  Contract Aggregator AggCircuit AggCircuitSpec Client ClientSpec.
Open Scope Z_scope.

Section spec.
  Context {hs : Hashes} {G : Curve}.

  (** ** The aggregator *)
  (** A root followed through a sequence of writes: each write's path leads from the old leaf to
      the current root, and from the new leaf to the next one. *)
  Fixpoint linked {L} (leaf_hash : L -> F) (root : F) (ws : list (write L)) (root' : F) : Prop :=
    match ws with
    | [] => root' = root
    | w :: r =>
      root = fold_sibs (w_path w) (w_pos w) (leaf_hash (w_old w)) /\
      linked leaf_hash (fold_sibs (w_path w) (w_pos w) (leaf_hash (w_new w))) r root'
    end.

  Record accepted (contract : pt) (transfer_only : bool) (z : zstate) (x : agg_inputsV) (z' : zstate) : Prop :=
    { ac_bits : length (v_e (x_sig x)) = 254%nat;
      (** the number of siblings of each path *)
      ac_tx_path : length (x_tx_proof x) = 12%nat;
      ac_signer_path : length (x_signer_proof x) = 12%nat;
      ac_del_paths : Forall (fun path => length path = 31%nat) (a4_list (x_del_proofs x));
      ac_add_paths : Forall (fun path => length path = 31%nat) (a4_list (x_add_proofs x));
      (** the transaction: real inputs belong to the sender, sums agree in the field *)
      ac_owner : forall u, In u (a4_list (v_inputs (x_tx x))) -> v_dummy u = false -> v_pk u = x_sender x;
      ac_balance : vtotal_in (x_tx x) mod p = vtotal_out (x_tx x) mod p;
      (** the challenge recomputed for the signature fits the scalar field *)
      ac_challenge : zval (challenge_hash (x_sender x) (tx_encV (x_tx x) ++ [z_tx_final z])
                             (bits_val (v_s (x_sig x))) (bits_val (v_e (x_sig x)))) < q;
      (** the roots *)
      ac_tx : linked tx_hashV (z_tx z) [tx_write (z_step z) x] (z_tx z');
      ac_coins : linked utxo_hashV (z_utxo z) (coin_writes contract (z_tx_final z) x) (z_utxo z');
      ac_keys : linked pk_hashV (z_signer z) (key_writes contract (z_tx_final z) (z_step z) x) (z_signer z');
      (** the rest of the state *)
      ac_step : zval (z_step z') = (zval (z_step z) + 1) mod p;
      ac_final : z_tx_final z' = z_tx_final z;
      ac_signers : z_signer_acc z' = chain_from (z_signer_acc z) [signer_entry contract (z_tx_final z) x];
      (** deposits and withdrawals, in the full circuit only *)
      ac_chains :
        if transfer_only then z_deposit z' = z_deposit z /\ z_withdrawal z' = z_withdrawal z
        else (forall u, In u (a4_list (v_outputs (x_tx x))) -> zval (v_amount u) < 2 ^ 64) /\
             withdrawn contract x < 2 ^ 64 /\
             z_deposit z' = chain_from (z_deposit z) (deposit_entries contract x) /\
             z_withdrawal z' = chain_from (z_withdrawal z) (withdrawal_entries contract x) }.
  Inductive all_accepted (contract : pt) (transfer_only : bool) : zstate -> list agg_inputsV -> zstate -> Prop :=
  | aa_nil z : all_accepted contract transfer_only z [] z
  | aa_cons z x z1 xs z' : accepted contract transfer_only z x z1 ->
      all_accepted contract transfer_only z1 xs z' -> all_accepted contract transfer_only z (x :: xs) z'.

  (** ** The client *)
  (** following a path of sibling pairs from hash [h] at position [i] upwards ends in [root] *)
  Fixpoint leads_to (path : list (F * F)) (i : Z) (h root : F) : Prop :=
    match path with
    | [] => root = h
    | (l, r) :: rest => h = (if Z.even i then l else r) /\ leads_to rest (i / 2) (two l r) root
    end.
  (** the index from which a step continues *)
  Definition continues_at (s : ustate) (a : user_auxV) : Z :=
    if F_eq_dec (block_hashV (ux_block a)) (us_block s) then zval (us_index s) else 0.

  Record client_accepts (acc : accumulator) (N : nat) (s : ustate) (a : user_auxV) (s' : ustate) : Prop :=
    { ca_txs : length (ux_txs a) = N;
      ca_tx_paths : length (ux_tx_proofs a) = N;
      ca_signer_paths : length (ux_signer_proofs a) = N;
      (** the key is the one the proof was started for *)
      ca_key : pk_hashV (ux_pk a) = us_pk s;
      (** blocks do not go back *)
      ca_height : zval (us_height s) <= zval (vb_height (ux_block a)) < (p - 1) / 2;
      (** the indices of the regular transactions increase, beyond the last one processed *)
      ca_start : N <> 0%nat -> continues_at s a <= (p - 1) / 2;
      ca_sorted : Sorted Z.lt (continues_at s a :: indices a);
      (** every path has twelve levels, every index is small; a regular transaction is in the block's
          transaction tree at its index, its signer somewhere in the block's signer tree *)
      ca_items : forall n t i tp sp, item_at a n t i tp sp ->
        length tp = 12%nat /\ length sp = 12%nat /\ zval i <= (p - 1) / 2 /\
        (tx_hashV t <> tx_hash tx_default ->
           leads_to tp (zval i) (tx_hashV t) (vb_tx_root (ux_block a)) /\
           exists j, 0 <= j < 4096 /\ leads_to sp j (pk_hashV (signer_of t)) (vb_signer_root (ux_block a)));
      (** the new state *)
      ca_balance : zval (us_balance s') = (zval (us_balance s) + step_gain a) mod p;
      ca_nonce : zval (us_nonce s') = (zval (us_nonce s) + step_signed a) mod p;
      ca_pk : us_pk s' = us_pk s;
      ca_acc : us_acc s' = acc (us_acc s) (block_hashV (ux_block a));
      ca_block : us_block s' = block_hashV (ux_block a);
      ca_new_height : us_height s' = vb_height (ux_block a);
      ca_index : zval (us_index s') = last (indices a) (continues_at s a) }.
  Inductive client_accepts_all (acc : accumulator) (N : nat) : ustate -> list user_auxV -> ustate -> Prop :=
  | ca_nil s : client_accepts_all acc N s [] s
  | ca_cons s a s1 l s' : client_accepts acc N s a s1 ->
      client_accepts_all acc N s1 l s' -> client_accepts_all acc N s (a :: l) s'.
End spec.

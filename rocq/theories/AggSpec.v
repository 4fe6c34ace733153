(** Specification vocabulary for the aggregator: coins, their positions, the ledger rule of the
    rollup, and call histories. Nothing here mentions loops, maps of the code or proofs. *)
From Coq Require Import ZArith List Bool Lia Permutation.
Import ListNotations.
From Verif Require Import Base Env SparseMT SparseMTSpec Data DataSpec Schnorr HMap Contract Aggregator.
Open Scope Z_scope.

Section spec.
  Context {hs : Hashes} {G : Curve}.

  (** * Coins *)

  (** The recorded coins with their tree positions: the contents of [utxos]. *)
  Definition positions (s : agg) : list (Z * utxo) :=
    flat_map (fun e => map (fun i => (i, fst e)) (snd e)) (a_utxos s).
  (** The multiset of live coins. *)
  Definition coins (s : agg) : list utxo := map snd (positions s).
  (** Their total value. *)
  Definition value (l : list utxo) : Z := zsum (map (fun u => zval (amount u)) l).
  Definition live_value (s : agg) : Z := value (coins s).
  Definition log_total (l : list (pt * u64)) : Z := zsum (map (fun e => zval (snd e)) l).

  (** * The ledger rule *)

  (** The coins a transaction consumes and creates: its entries that are neither dummies nor
      held by the rollup contract. *)
  Definition consumes (contract : pt) (t : tx) : list utxo :=
    filter (fun u => negb (is_dummy u) && negb (pt_eqb (pk u) contract)) (a4_list (inputs t)).
  Definition creates (contract : pt) (t : tx) : list utxo :=
    filter (fun u => negb (is_dummy u) && negb (pt_eqb (pk u) contract)) (a4_list (outputs t)).
  (** Consuming coins that are present (with multiplicity), then creating the outputs. *)
  Definition apply_tx (contract : pt) (t : tx) (c c' : list utxo) : Prop :=
    exists rest, Permutation c (consumes contract t ++ rest) /\
                 Permutation c' (rest ++ creates contract t).
  Inductive ledger (contract : pt) : list tx -> list utxo -> list utxo -> Prop :=
  | ledger_nil c c' : Permutation c c' -> ledger contract [] c c'
  | ledger_cons t ts c c1 c' :
      apply_tx contract t c c1 -> ledger contract ts c1 c' -> ledger contract (t :: ts) c c'.

  (** * Which transactions are applied *)

  (** The key is the contract's, or the signature verifies for the transaction and the
      transaction root; a missing signature counts as the all-zero one. *)
  Definition authorised (contract : pt) (tx_root : F) (t : tx) (ks : pt * option signature) : bool :=
    verify_signature (fst ks) (tx_enc t ++ [tx_root])
                     (match snd ks with Some sg => sg | None => sig_default end)
    || pt_eqb (fst ks) contract.
  Definition applied (contract : pt) (tx_root : F) (txs : list tx)
    (l : list (pt * option signature)) : list tx :=
    flat_map (fun tk => if authorised contract tx_root (fst tk) (snd tk) then [fst tk] else [])
             (combine txs l).

  (** * Histories *)

  (** The state a call leaves behind, whether it succeeded or returned an error. *)
  Definition leaves {S E A} (r : mres S E A) (s : S) : Prop :=
    (exists a, r = MOk s a) \/ (exists e, r = MErr s e).
  (** The batch fits into the UTXO tree. *)
  Definition fits (contract : pt) (s : agg) (l : list (pt * option signature)) : Prop :=
    forall r, root (a_tx_tree s) = Ok r ->
      a_index s + Z.of_nat (length (flat_map (creates contract) (applied contract r (a_txs s) l)))
      <= capacity utxo_cfg.
  Inductive reached (dbg : bool) : agg -> Prop :=
  | reached_new : reached dbg agg_new
  | reached_intake s l s' :
      reached dbg s -> leaves (process_transactions dbg s l) s' -> reached dbg s'
  | reached_sign s contract l s' :
      reached dbg s -> fits contract s l -> leaves (process_signatures dbg s contract l) s' ->
      reached dbg s'
  | reached_reset s : reached dbg s -> reached dbg (reset_for_new_epoch s).

  (** * Agreement of the coin index with the UTXO tree *)
  Definition coins_match_tree (dbg : bool) (s : agg) : Prop :=
    exists (c : contents utxo_cfg) w,
      built dbg utxo_cfg (a_utxo_tree s) c w /\
      root (a_utxo_tree s) = Ok (merkle_root c) /\
      NoDup (map fst (positions s)) /\
      (forall i u, In (i, u) (positions s) -> 0 <= i < a_index s /\ c i = u) /\
      (forall i, in_range utxo_cfg i -> ~ In i (map fst (positions s)) -> c i = utxo_dummy) /\
      0 <= a_index s <= capacity utxo_cfg.

  (** * Trees and their contents *)

  (** The tree was built by in-range API calls and holds [c]. *)
  Definition tree_holds (dbg : bool) (P : SparseConfig) (t : tree) (c : contents P) : Prop :=
    exists c' w, built dbg P t c' w /\ forall i, in_range P i -> c' i = c i.
  (** A list of transactions, in order from position 0, the rest default. *)
  Definition tx_contents (l : list tx) : contents tx_cfg :=
    fun i => if i <? 0 then tx_default else nth (Z.to_nat i) l tx_default.
  (** A call that touched only the epoch's transactions, their tree and its update proofs. *)
  Definition same_but_intake (s s' : agg) : Prop :=
    a_utxos s' = a_utxos s /\ a_utxo_tree s' = a_utxo_tree s /\ a_index s' = a_index s /\
    a_deposits s' = a_deposits s /\ a_withdrawals s' = a_withdrawals s /\
    a_signer_tree s' = a_signer_tree s /\ a_signers s' = a_signers s /\ a_height s' = a_height s /\
    a_acc_signer s' = a_acc_signer s /\ a_acc_pk s' = a_acc_pk s /\ a_ivc s' = a_ivc s.
End spec.

(** Specification for C126: somebody who has the transactions and reads the blocks, but has no
    signatures and asks the aggregator nothing, follows the state. *)
From Coq Require Import ZArith List Bool Lia.
Import ListNotations.
From Verif Require Import Base Env SparseMT SparseMTSpec Data DataSpec Schnorr Contract ContractSpec Aggregator AggSpec Ledger.
Open Scope Z_scope.

Section follow.
  Context {hs : Hashes} {G : Curve} (dbg : bool).

  (** what the follower keeps: the coin at each position, the number of positions handed out, the key at
      each position of the signer tree, and the deposits and withdrawals of the last epoch *)
  Record view := mkView
    { w_slots : contents utxo_cfg; w_next : nat; w_keys : contents signer_cfg;
      w_in : list (pt * u64); w_out : list (pt * u64) }.
  Definition view_start : view := mkView (fun _ => utxo_dummy) 0 (fun _ => pzero) [] [].

  (** The [i]-th transaction and the [i]-th signer of the block. *)
  Definition follow_one (contract : pt) (V : view) (x : nat * (tx * option pt)) : view :=
    let '(i, (t, o)) := x in
    match o with
    | None => V
    | Some k =>
      let keys' := set_leaf (w_keys V) (Z.of_nat i) k in
      match spend (w_slots V) (w_next V) (consumes contract t) with
      | (sl, Some _) => mkView sl (w_next V) keys' (w_in V) (w_out V)
      | (sl, None) =>
        let new := creates contract t in
        mkView (place sl (w_next V) new) (w_next V + length new) keys' (w_in V ++ entering contract k t)
               (w_out V ++ (if 0 <? leaving contract t mod two64 then [(k, u64of (leaving contract t))] else []))
      end
    end.
  (** the key at an index of the registry *)
  Definition read_key (reg : list pt) (i : Z) : option pt := nth_error reg (Z.to_nat i).
  Definition read_signers (reg : list pt) (b : block) : list (option pt) :=
    map (fun o => match o with Some i => read_key reg i | None => None end) (b_signers b).
  Definition read_entries (reg : list pt) (l : list (Z * u64)) : list (option pt * u64) :=
    map (fun ia => (read_key reg (fst ia), snd ia)) l.
  Definition follow_block (contract : pt) (reg : list pt) (V : view) (tb : list tx * block) : view :=
    let sg := read_signers reg (snd tb) in
    fold_left (follow_one contract) (combine (seq 0 (length sg)) (combine (fst tb) sg))
              (mkView (w_slots V) (w_next V) (w_keys V) [] []).
  Definition follow (contract : pt) (reg : list pt) (l : list (list tx * block)) : view :=
    fold_left (follow_block contract reg) l view_start.

  (** Epochs as they run: any calls that take in transactions (some of which may be rejected), one call
      with answers (which may be refused), the block, and the reset; meanwhile the contract's
      history goes on. [l] are the transactions and blocks, epoch by epoch, and [qs] all requests. *)
  Inductive published (contract k0 : pt) : list request -> agg -> list call -> list (list tx * block) -> Prop :=
  | published_none : published contract k0 [] agg_new [] []
  | published_more qs s cs l takes al vs s2 more c b :
      published contract k0 qs s cs l ->
      run dbg (map Take takes ++ [Answer contract al]) s = (vs, Some s2) ->
      history dbg k0 (cs ++ more) c -> produce_block s2 c = Ok b ->
      published contract k0 (qs ++ map Take takes ++ [Answer contract al; NewEpoch]) (reset_for_new_epoch s2)
                (cs ++ more) (l ++ [(a_txs s2, b)]).
  (** a block says what the follower has *)
  Definition confirms (reg : list pt) (txs : list tx) (b : block) (V : view) : Prop :=
    utxo_tree_root b = merkle_root (w_slots V) /\
    tx_tree_root b = merkle_root (tx_contents txs) /\
    signer_tree_root b = merkle_root (w_keys V) /\
    read_entries reg (b_deposits b) = map (fun ka => (Some (fst ka), snd ka)) (w_in V) /\
    read_entries reg (b_withdrawals b) = map (fun ka => (Some (fst ka), snd ka)) (w_out V).
End follow.

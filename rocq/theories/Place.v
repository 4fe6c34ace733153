(** Specification for C127: the published data of a block do not say where the coins are. *)
From Coq Require Import ZArith List Bool.
Import ListNotations.
From Verif Require Import Base Env SparseMT SparseMTSpec Data DataSpec Schnorr Contract Aggregator AggCircuit AggCircuitSpec.
Open Scope Z_scope.

Section spec.
  Context {hs : Hashes} {G : Curve}.

  (** [f] rearranges the positions of the coin tree, [g] undoes it *)
  Definition rearranges (f g : Z -> Z) : Prop :=
    forall k, in_range utxoV_cfg k ->
      in_range utxoV_cfg (f k) /\ in_range utxoV_cfg (g k) /\ g (f k) = k /\ f (g k) = k.
  (** two positions exchanged *)
  Definition exchange (i j k : Z) : Z := if k =? i then j else if k =? j then i else k.

  (** what a transaction of an epoch makes public: the transaction, its sender and the signature *)
  Definition public_part (x : agg_inputsV) : txV * pt * sigV := (x_tx x, x_sender x, x_sig x).
  (** the positions at which it spends and creates coins *)
  Definition places (x : agg_inputsV) : list Z :=
    map (slot_of utxoV_cfg) (a4_list (x_del_pos x) ++ a4_list (x_add_pos x)).
  (** [y] is the same transaction with its coins at the rearranged positions *)
  Definition relocated (f : Z -> Z) (x y : agg_inputsV) : Prop :=
    public_part y = public_part x /\ places y = map f (places x).

  (** the same state, and the same block, but for the root of the coin tree *)
  Definition with_coins (z : zstate) (r : F) : zstate :=
    mkZ (z_step z) r (z_tx z) (z_tx_final z) (z_signer z) (z_signer_acc z) (z_deposit z) (z_withdrawal z).
  Definition block_with_coins (b : block) (r : F) : block :=
    mkBlock r (tx_tree_root b) (signer_tree_root b) (b_signers b) (height b) (b_deposits b) (b_withdrawals b).
End spec.

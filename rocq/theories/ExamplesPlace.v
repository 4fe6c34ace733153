(** A concrete instance of C127: the coin of 60 that the epoch of ExamplesCircuit.v leaves at
    position 1 could as well be at position 5. *)
From Coq Require Import ZArith List Bool Lia.
Import ListNotations.
From Verif Require Import Base Env Toy Circuit SparseMT SparseMTSpec SparseMTRep Data DataSpec Gadgets Schnorr HMap Contract
  Aggregator ExamplesAgg AggCircuit AggCircuitSpec CircuitRun ExamplesCircuit Place PropsPlace.
Open Scope Z_scope.

Definition endP : contents utxoV_cfg := written utxoV_cfg (empty_contents utxoV_cfg) coin_wsP.
(** what [endP] holds *)
Lemma endP_leaves :
  zval (v_amount (endP 1)) = 60 /\ v_dummy (endP 1) = false /\ v_dummy (endP 0) = true /\ v_dummy (endP 5) = true.
Proof. vm_compute. repeat split. Qed.
Local Opaque merkle_root node.

Lemma general {hs : Hashes} {G : Curve} (k : pt) z bs z' ws l1 b (c1 : contents utxoV_cfg) :
  ivc k false (z_list z) bs (z_list z') -> z_utxo z = merkle_root (empty_contents utxoV_cfg) ->
  flat_map (coin_writes k (z_tx_final z)) (concat bs) = ws ->
  ~ collides utxoV_cfg utxo_encV (empty_contents utxoV_cfg) ws ->
  derive_public_inputs l1 b = Ok (z_list z') ->
  written utxoV_cfg (empty_contents utxoV_cfg) ws = c1 ->
  v_dummy (c1 1) = false -> v_dummy (c1 5) = true ->
  utxo_tree_root b = merkle_root c1 /\
  exists (c2 : contents utxoV_cfg) ys z2,
    c2 5 = c1 1 /\ v_dummy (c2 1) = true /\
    map public_part ys = map public_part (concat bs) /\
    ivc k false (z_list z) [ys] (z_list z2) /\
    derive_public_inputs l1 (block_with_coins b (merkle_root c2)) = Ok (z_list z2) /\
    (merkle_root c2 <> utxo_tree_root b \/ crh_collision (utxo_encV (c1 5)) (utxo_encV (c1 1))
      \/ collision2 (genuine_path c2 5 ++ genuine_path c1 5)).
Proof.
  intros H Hr Hw Hcol Hb Hc1 D1 D5. subst c1 ws.
  destruct (C127_interchangeable k false z bs z' (empty_contents utxoV_cfg) 1 5 l1 b H Hr
              ltac:(split; [ discriminate | reflexivity ]) ltac:(split; [ discriminate | reflexivity ]) eq_refl Hcol Hb)
    as (E & c2 & E1 & E2 & _ & (ys & z2 & E3 & E4 & E5) & E6).
  split; [ exact E |]. exists c2, ys, z2. split; [ exact E2 |]. split; [ now rewrite E1 |].
  split; [ exact E3 |]. split; [ apply E4; cbn [concat]; apply app_nil_r |]. split; [ exact E5 |].
  apply E6. congruence.
Qed.

Example place_instance : exists b z',
  produce_block sP l1P = Ok b /\ derive_public_inputs l1P b = Ok (z_list z') /\
  ivc kC false (z_list zP) bsP (z_list z') /\ utxo_tree_root b = merkle_root endP /\
  exists (c2 : contents utxoV_cfg) ys z2,
    c2 5 = endP 1 /\ v_dummy (c2 1) = true /\
    map public_part ys = map public_part (concat bsP) /\
    ivc kC false (z_list zP) [ys] (z_list z2) /\
    derive_public_inputs l1P (block_with_coins b (merkle_root c2)) = Ok (z_list z2) /\
    (merkle_root c2 <> utxo_tree_root b \/ crh_collision (utxo_encV (endP 5)) (utxo_encV (endP 1))
      \/ collision2 (genuine_path c2 5 ++ genuine_path endP 5)).
Proof.
  destruct epoch_provable as (_ & b & z' & E1 & E2 & E3). exists b, z'.
  split; [ exact E1 |]. split; [ exact E2 |]. split; [ exact E3 |]. clear E1.
  destruct endP_leaves as (_ & D1 & _ & D5).
  refine (general kC zP bsP z' coin_wsP l1P b endP E3 zP_utxo _ no_coin_collision E2 eq_refl D1 D5).
  rewrite bsP_xs, zP_final, coin_wsP_eq. reflexivity.
Qed.
(** The preimages in the last clause but one do not collide. *)
Lemma hash_differ {hs : Hashes} (a b : list F) : Feqb (crh a) (crh b) = false -> ~ crh_collision a b.
Proof. intros H [_ E]. rewrite E, Feqb_refl in H. discriminate. Qed.
Example no_leaf_collision : ~ crh_collision (utxo_encV (endP 5)) (utxo_encV (endP 1)).
Proof. apply hash_differ. vm_compute. reflexivity. Qed.

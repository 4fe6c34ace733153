(** A concrete instance of C128: with the epoch of ExamplesCircuit.v (deposits of 100 in all) goes
    a proof that starts and ends with a further coin of a million for a third party. *)
From Coq Require Import ZArith List Bool Lia Permutation.
Import ListNotations.
From Verif Require Import Base Env Toy Circuit SparseMT SparseMTSpec Data DataSpec Schnorr HMap Contract
  Aggregator ExamplesAgg AggCircuit AggCircuitSpec CircuitRun PropsCircuit3 ExamplesCircuit Place PropsPlace ExamplesPlace PropsUnlinked.
Open Scope Z_scope.
Local Opaque merkle_root node.

Definition bogus : utxoV := utxo_alloc (coin 1000000 k3).
Lemma bogus_ok : v_dummy bogus = false /\ zval (v_amount bogus) = 1000000.
Proof. vm_compute. split; reflexivity. Qed.
Lemma untouched_b {hs : Hashes} {G : Curve} k (ws : list (write utxoV)) :
  forallb (fun w => negb (w_pos w =? k)) ws = true -> Forall (fun w => w_pos w <> k) ws.
Proof.
  intros H. apply Forall_forall. intros w Hw. rewrite forallb_forall in H. specialize (H w Hw).
  apply negb_true_iff in H. now apply Z.eqb_neq in H.
Qed.
Lemma untouchedP : Forall (fun w : write utxoV => w_pos w <> 100) coin_wsP.
Proof. apply untouched_b. vm_compute. reflexivity. Qed.
Lemma general_slip {hs : Hashes} {G : Curve} (k : pt) z bs z' ws l1 b (c1 : contents utxoV_cfg) (u : utxoV) :
  ivc k false (z_list z) bs (z_list z') -> derive_public_inputs l1 b = Ok (z_list z') ->
  z_utxo z = merkle_root (empty_contents utxoV_cfg) ->
  flat_map (coin_writes k (z_tx_final z)) (concat bs) = ws ->
  ~ collides utxoV_cfg utxo_encV (empty_contents utxoV_cfg) ws ->
  written utxoV_cfg (empty_contents utxoV_cfg) ws = c1 ->
  v_dummy u = false -> Forall (fun w => w_pos w <> 100) ws ->
  exists (c2 : contents utxoV_cfg) ys z2,
    ivc k false (z_list (with_coins z (merkle_root (set_leaf (empty_contents utxoV_cfg) 100 u)))) [ys] (z_list z2) /\
    derive_public_inputs l1 (block_with_coins b (merkle_root c2)) = Ok (z_list z2) /\
    Permutation (live c2) (u :: live c1).
Proof.
  intros H Hb Hr Hw Hcol Hc1 Hu Ht. subst c1 ws.
  destruct (C128_slipped_in k false z bs z' (empty_contents utxoV_cfg) l1 b 100 u H Hb Hr Hcol
              ltac:(split; [ discriminate | reflexivity ]) eq_refl Hu Ht)
    as (_ & c2 & ys & z2 & _ & E1 & E2 & _ & _ & E3).
  exists c2, ys, z2. split; [ apply E1; cbn [concat]; apply app_nil_r |]. split; [ exact E2 | exact E3 ].
Qed.
Example slipped_instance : exists b,
  produce_block sP l1P = Ok b /\
  exists (c2 : contents utxoV_cfg) ys z2,
    ivc kC false (z_list (with_coins zP (merkle_root (set_leaf (empty_contents utxoV_cfg) 100 bogus)))) [ys] (z_list z2) /\
    derive_public_inputs l1P (block_with_coins b (merkle_root c2)) = Ok (z_list z2) /\
    Permutation (live c2) (bogus :: live endP).
Proof.
  destruct epoch_provable as (_ & b & z' & E1 & E2 & E3). exists b. split; [ exact E1 |]. clear E1.
  refine (general_slip kC zP bsP z' coin_wsP l1P b endP bogus E3 E2 zP_utxo _ no_coin_collision eq_refl (proj1 bogus_ok) untouchedP).
  rewrite bsP_xs, zP_final, coin_wsP_eq. reflexivity.
Qed.

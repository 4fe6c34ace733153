(** Instance of C90: the receiver's proof step over the block of ExamplesCircuit.v. *)
From Coq Require Import ZArith List Bool Lia.
Import ListNotations.
From Verif Require Import Base Env Toy Circuit SparseMT SparseMTSpec Data DataSpec Gadgets Schnorr HMap Contract ContractSpec
  Aggregator ExamplesAgg AggCircuit AggCircuitSpec CircuitRun PropsCircuit PropsCircuit2 ExamplesCircuit TruthSpec PropsTruth ExamplesTruth
  Client ClientSpec ClientFacts PropsClient PropsCredit ExamplesClient.
Open Scope Z_scope.

Lemma items_exist {hs : Hashes} {G : Curve} acc s a zu t i : satisfied acc 1 (u_list s) a zu -> ux_txs a = [(t, i)] ->
  exists tp sp, item_at a 0 t i tp sp.
Proof.
  intros H E. apply satisfied_state in H as [(L & _) _]. destruct L as (L1 & L2 & L3).
  destruct (ux_tx_proofs a) as [|tp ?] eqn:E1; [ discriminate L1 |].
  destruct (ux_signer_proofs a) as [|sp ?] eqn:E2; [ discriminate L3 |].
  exists tp, sp. unfold item_at. rewrite E, E1, E2. repeat split.
Qed.
Lemma credit_generic {hs : Hashes} {G : Curve} acc k c b z bs xs z' (cs : contents keyV_cfg) s a zu t i : concat bs = xs ->
  ivc k false (z_list z) bs (z_list z') -> begins z -> derive_public_inputs c b = Ok (z_list z') ->
  Z.of_nat (length xs) <= 4096 -> z_signer z = merkle_root cs ->
  satisfied acc 1 (u_list s) a zu -> ux_block a = block_alloc b -> ux_txs a = [(t, i)] -> regular t = true ->
  exists tp sp, item_at a 0 t i tp sp /\
    ((exists x, proved_tx xs (Z.to_nat (zval i mod 4096)) x /\ x_tx x = t) \/
     collides txV_cfg tx_encV (empty_contents txV_cfg) (tx_writes Fzero xs) \/
     collision2 (tp ++ genuine_path (txs_of xs) (zval i mod 4096)) \/ crh_collision (tx_encV t) (tx_encV (txs_of xs (zval i mod 4096)))).
Proof.
  intros E H1 H2 H3 H4 H5 H6 H7 H8 H9. destruct (items_exist acc s a zu t i H6 H8) as (tp & sp & Hi).
  exists tp, sp. split; [ exact Hi |]. rewrite <- E in *.
  exact (proj1 (C90_credited_transactions acc 1 k c b z bs z' cs s a zu 0 t i tp sp H1 H2 H3 H4 H5 H6
    (f_equal vb_tx_root H7) (f_equal vb_signer_root H7) Hi H9)).
Qed.
Lemma zP_signer : z_signer zP = merkle_root (empty_contents keyV_cfg).
Proof. exact (@key_root_empty toyH toyG). Qed.
Example credit_instance : exists a us' tp sp,
  satisfied poseidon_acc 1 (u_list (newcomer k3 0)) a (u_list us') /\ zval (us_balance us') = 60 /\
  item_at a 0 (tx_alloc tx1) (Fu64 (u64of 1)) tp sp /\
    ((exists x, proved_tx xsP (Z.to_nat (zval (Fu64 (u64of 1)) mod 4096)) x /\ x_tx x = tx_alloc tx1) \/
     collides txV_cfg tx_encV (empty_contents txV_cfg) (tx_writes Fzero xsP) \/
     collision2 (tp ++ genuine_path (txs_of xsP) (zval (Fu64 (u64of 1)) mod 4096)) \/
     crh_collision (tx_encV (tx_alloc tx1)) (tx_encV (txs_of xsP (zval (Fu64 (u64of 1)) mod 4096)))).
Proof.
  destruct (credited k3 0) as (a & us' & H & Hpk & Hblk & Htx & E).
  destruct epoch_provable as (Hl & b & z' & Eb & Ed & Hrun).
  assert (b = ExamplesClient.bP) by (pose proof ExamplesClient.bP_eq; congruence). subst b.
  destruct (credit_generic poseidon_acc kC l1P ExamplesClient.bP zP bsP xsP z' (empty_contents keyV_cfg) (newcomer k3 0) a (u_list us')
    (tx_alloc tx1) (Fu64 (u64of 1)) bsP_concat Hrun begins_zP Ed ltac:(rewrite Hl; discriminate) zP_signer H Hblk Htx regular1)
    as (tp & sp & Hi & HD).
  exists a, us', tp, sp. split; [ exact H |]. split; [ rewrite E, (proj1 gains); reflexivity |]. split; [ exact Hi | exact HD ].
Qed.

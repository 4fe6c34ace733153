(** Instance of C105: the epoch of ExamplesCircuit.v followed by one without transactions. *)
From Coq Require Import ZArith List Bool Lia Permutation.
Import ListNotations.
From Verif Require Import Base Env Toy Circuit SparseMT SparseMTSpec Data DataSpec Gadgets Schnorr HMap Contract ContractSpec
  Aggregator ExamplesAgg AggCircuit AggCircuitSpec CircuitRun PropsCircuit PropsCircuit2 ExamplesCircuit TruthSpec PropsTruth PropsTruth2
  ExamplesTruth Client ClientSpec ClientFacts PropsClient PropsClient6 PropsUsers PropsDiligent ExamplesClient.
Open Scope Z_scope.

(** an epoch without transactions *)
Definition idle_block {hs : Hashes} {G : Curve} (cu : contents utxoV_cfg) : block :=
  mkBlock (merkle_root cu) (merkle_root (empty_contents txV_cfg)) Fzero [] (u64of 0) [] [].
Lemma idle_inputs {hs : Hashes} {G : Curve} c u t :
  derive_public_inputs c (mkBlock u t Fzero [] (u64of 0) [] []) = Ok (z_list (mkZ Fzero u t t Fzero Fzero Fzero Fzero)).
Proof. reflexivity. Qed.
Lemma idle_begins {hs : Hashes} {G : Curve} u t : t = merkle_root (empty_contents txV_cfg) ->
  begins (mkZ Fzero u t t Fzero Fzero Fzero Fzero).
Proof. intros E. unfold begins. cbn [z_step z_tx z_signer_acc z_deposit z_withdrawal]. repeat split; exact E. Qed.
Lemma idle_epoch {hs : Hashes} {G : Curve} k c cu : epoch_proved k c cu (idle_block cu) [] cu.
Proof.
  exists (mkZ Fzero (merkle_root cu) (merkle_root (empty_contents txV_cfg)) (merkle_root (empty_contents txV_cfg)) Fzero Fzero Fzero Fzero), [],
         (mkZ Fzero (merkle_root cu) (merkle_root (empty_contents txV_cfg)) (merkle_root (empty_contents txV_cfg)) Fzero Fzero Fzero Fzero).
  split; [ constructor |]. split; [ apply idle_begins; reflexivity |]. split; [ apply idle_inputs |].
  split; [ reflexivity |]. split; [ reflexivity |].
  cbn [flat_map]. split; [ split; [ intros H; cbn in H; tauto | reflexivity ] |].
  split; intros l H; inversion H; subst; cbn [map app chain_inputs];
    intros [(a & b & Ha & _)|(a & Ha & _)]; destruct Ha.
Qed.
Lemma diligent_one {hs : Hashes} {G : Curve} acc kc k c b xs cu' r ap a s s' t :
  epoch_proved kc c (empty_contents utxoV_cfg) b xs cu' -> tx_tree_root b = r -> ap = filter (is_applied kc r) xs ->
  paid_in b < p -> k <> kc ->
  (forall x, In x ap -> no_flagged k (a4_list (v_inputs (x_tx x))) /\ no_flagged k (a4_list (v_outputs (x_tx x)))) ->
  satisfied acc 1 (u_list s) a (u_list s') -> ux_pk a = k -> transactions a = [t] -> concerns k t = true ->
  filter (concerns k) (map x_tx ap) = [t] -> zval (us_balance s) = 0 ->
  let l := [(b, xs); (idle_block cu', [])] in
  let u := mkRun k [a] s s' in
  epochs kc (empty_contents utxoV_cfg) l cu' /\ deposits l < p /\ unflagged_for k (history_of kc l) /\
  processes acc 1 (history_of kc l) u /\
  zval (us_balance s') = held k (live cu').
Proof.
  intros H <- -> Hp Hk Hf Hs Hpk Ht Hc Hfil H0 l u.
  assert (Hl : epochs kc (empty_contents utxoV_cfg) l cu').
  { eapply epochs_cons; [ exact H |]. apply (epochs_cons kc c _ _ _ cu'); [ apply idle_epoch | constructor ]. }
  assert (Eh : history_of kc l = map x_tx (filter (is_applied kc (tx_tree_root b)) xs)).
  { unfold history_of, l. cbn [flat_map fst snd filter map app]. now rewrite app_nil_r. }
  assert (Hd : deposits l < p).
  { unfold deposits, l. cbn [map fst]. unfold zsum. cbn [fold_right].
    change (paid_in (idle_block cu')) with 0. now rewrite !Z.add_0_r. }
  assert (Hu : unflagged_for k (history_of kc l)).
  { rewrite Eh. intros t0 v Ht0 Hv Hdm Hkv. apply in_map_iff in Ht0 as (x & <- & Hx). destruct (Hf x Hx) as [F1 F2].
    apply in_app_or in Hv as [Hv|Hv]; [ exact (F1 v Hv Hdm Hkv) | exact (F2 v Hv Hdm Hkv) ]. }
  assert (Hpr : processes acc 1 (history_of kc l) u).
  { split; [ econstructor; [ exact Hs | constructor ] |]. split; [ intros a0 [<-|[]]; exact Hpk |].
    unfold u. cbn [r_key r_steps flat_map]. rewrite Eh, Hfil, Ht. cbn [app filter]. rewrite Hc. apply Permutation_refl. }
  split; [ exact Hl |]. split; [ exact Hd |]. split; [ exact Hu |]. split; [ exact Hpr |].
  exact (proj1 (C105_balance_is_coins kc acc 1 l cu' u Hl Hd Hk Hu Hpr H0)).
Qed.
(** k3, who received 60, has coins of 60 after both epochs *)
Example diligent_instance : exists cu' a s',
  let l := [(ExamplesTruth.bP, xsP); (idle_block cu', [])] in
  epochs kC (empty_contents utxoV_cfg) l cu' /\ deposits l < p /\
  processes poseidon_acc 1 (history_of kC l) (mkRun k3 [a] (newcomer k3 0) s') /\
  zval (us_balance s') = 60 /\ held k3 (live cu') = 60.
Proof.
  pose proof epoch_instance as H. revert H. generalize (written utxoV_cfg (empty_contents utxoV_cfg) coin_wsP). intros cu' H.
  destruct (credited k3 0) as (a & us' & Hs & Hpk & Hblk & Htx & E).
  destruct (one_entry a _ _ Htx regular1) as (Ei & Et & Eg).
  destruct (diligent_one poseidon_acc kC k3 l1P ExamplesTruth.bP xsP cu' r0 appliedP a (newcomer k3 0) us' (tx_alloc tx1)
              H bP_final) as (H1 & H2 & _ & H3 & H4).
  - reflexivity.
  - rewrite (proj1 bP_values). reflexivity.
  - intros E0. assert (H0 : pt_eqb k3 kC = false) by (vm_compute; reflexivity). apply pt_eqb_neq in H0. contradiction.
  - intros x Hx. pose proof (proj1 (forallb_forall _ _) applied_unflagged x Hx) as Hu. cbv beta in Hu.
    apply andb_true_iff in Hu as [Hu1 Hu2]. split; apply unflagged_ok; assumption.
  - exact Hs.
  - exact Hpk.
  - exact Et.
  - vm_compute. reflexivity.
  - exact applied_concerns.
  - exact bal0.
  - assert (Eb : zval (us_balance us') = 60) by (rewrite E, (proj1 gains); reflexivity).
    exists cu', a, us'. split; [ exact H1 |]. split; [ exact H2 |]. split; [ exact H3 |]. split; [ exact Eb |].
    rewrite <- H4. exact Eb.
Qed.

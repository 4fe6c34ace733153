(** A concrete epoch proved in the aggregator circuit: the hypotheses of C53-C63 and C76-C78 are
    met. The instance of the dependencies is the one of Toy.v. *)
From Coq Require Import ZArith List Bool Lia Permutation.
Import ListNotations.
From Verif Require Import Base Env Toy Circuit SparseMT SparseMTSpec Data DataSpec Gadgets Schnorr HMap Contract ContractSpec
  Aggregator AggSpec AggFacts AggSign AggIntake PropsContract PropsBlock PropsIntake PropsSign PropsValue ExamplesAgg
  AggCircuit AggCircuitFacts AggCircuitSpec CircuitRun PropsCircuit PropsCircuit2 PropsCircuit3 Honest PropsHonest PropsLimits Clean.
Open Scope Z_scope.

(** a deposit, a signed transfer with a withdrawal, an unsigned transfer *)
Definition keysP : list (pt * option signature) := [(kC, None); (k2, Some sig1); (k3, None)].
Definition sP : agg := state_of s0 (process_signatures true s0 kC keysP).
Lemma signP_eq : process_signatures true s0 kC keysP = MOk sP tt.
Proof.
  assert (H : is_mok (process_signatures true s0 kC keysP) = true) by (vm_compute; reflexivity).
  unfold sP. destruct (process_signatures true s0 kC keysP) as [s []|s e|]; [ reflexivity | discriminate | discriminate ].
Qed.
Definition l1P : contract :=
  match rfold (perform true) [Join (u64of 500) k2; Join (u64of 0) k3] (contract_new kC) with
  | Ok c => c | _ => contract_new kC end.
Lemma l1P_history : history true kC [Join (u64of 500) k2; Join (u64of 0) k3] l1P.
Proof.
  unfold history, l1P.
  assert (H : is_rok (rfold (perform true) [Join (u64of 500) k2; Join (u64of 0) k3] (contract_new kC)) = true)
    by (vm_compute; reflexivity).
  destruct (rfold (perform true) _ (contract_new kC)) as [c| |]; [ reflexivity | discriminate | discriminate ].
Qed.
Lemma registeredP k : In k (mentioned sP) -> In k (pks l1P).
Proof.
  assert (H : forallb (fun k => existsb (pt_eqb k) (pks l1P)) (mentioned sP) = true) by (vm_compute; reflexivity).
  rewrite forallb_forall in H. intros Hk. specialize (H k Hk). apply existsb_exists in H as (k' & Hk' & E).
  apply pt_eqb_eq in E. rewrite E. exact Hk'.
Qed.
Lemma combineP : combine (map snd batch) keysP = [(tx0, (kC, None)); (tx1, (k2, Some sig1)); (tx2, (k3, None))].
Proof. reflexivity. Qed.
Lemma conditionsP final t ks : root (a_tx_tree s0) = Ok final -> In (t, ks) (combine (map snd batch) keysP) ->
  (authorised kC final t ks = false ->
     forall u, In u (a4_list (outputs t)) -> is_dummy u = false -> pk u = kC -> zval (amount u) = 0) /\
  (fst ks = kC -> verify_signature (fst ks) (tx_enc t ++ [final]) (osig (snd ks)) = true ->
     forall u, In u (a4_list (inputs t)) -> is_dummy u = true).
Proof.
  intros Hr. rewrite combineP.
  assert (Ef : final = r0) by (pose proof r0_root; congruence). subst final.
  intros [H|[H|[H|[]]]]; apply pair_equal_spec in H as [<- <-]; cbn [fst snd].
  - assert (H1 : authorised kC r0 tx0 (kC, None) = true) by (vm_compute; reflexivity).
    assert (H2 : verify_signature kC (tx_enc tx0 ++ [r0]) (osig None) = false) by (vm_compute; reflexivity).
    split; congruence.
  - assert (H1 : authorised kC r0 tx1 (k2, Some sig1) = true) by (vm_compute; reflexivity).
    assert (H2 : pt_eqb k2 kC = false) by (vm_compute; reflexivity). apply pt_eqb_neq in H2.
    split; [ congruence | tauto ].
  - assert (H2 : pt_eqb k3 kC = false) by (vm_compute; reflexivity). apply pt_eqb_neq in H2.
    assert (H3 : forallb (fun u => is_dummy u || negb (pt_eqb (pk u) kC)) (a4_list (outputs tx2)) = true) by (vm_compute; reflexivity).
    rewrite forallb_forall in H3. split; [| tauto ].
    intros _ u Hu Hd Hk. specialize (H3 u Hu). rewrite Hd in H3. cbn [orb] in H3. apply negb_true_iff in H3.
    apply pt_eqb_neq in H3. contradiction.
Qed.
Lemma toy_pq : p <= q. Proof. discriminate. Qed.

(** C53: the epoch's inputs satisfy the circuit, in two proof steps here, and the final state is
    what the contract derives from the block *)
Definition xsP : list agg_inputsV := map inputs_alloc (a_ivc sP).
Definition bsP : list (list agg_inputsV) := [firstn 1 xsP; skipn 1 xsP].
Definition start (ur er tr sr : F) : zstate := mkZ Fzero ur er tr sr Fzero Fzero Fzero.
Lemma start_list ur tr sr : epoch_start ur tr sr = z_list (start ur (merkle_root (empty_contents tx_cfg)) tr sr).
Proof. unfold epoch_start. generalize (merkle_root (empty_contents tx_cfg)). reflexivity. Qed.
Definition zP : zstate :=
  start (merkle_root (empty_contents utxo_cfg)) (merkle_root (empty_contents tx_cfg)) r0 (merkle_root (empty_contents signer_cfg)).
Lemma bsP_concat : concat bsP = map inputs_alloc (a_ivc sP).
Proof.
  unfold bsP, xsP. generalize (map inputs_alloc (a_ivc sP)) as l. intros l.
  cbn [concat]. rewrite app_nil_r. apply firstn_skipn.
Qed.
Example epoch_provable : length xsP = 3%nat /\
  exists b z', produce_block sP l1P = Ok b /\ derive_public_inputs l1P b = Ok (z_list z') /\
    ivc kC false (z_list zP) bsP (z_list z').
Proof.
  split; [ vm_compute; reflexivity |].
  destruct (C53_first_epoch kC s0 sP batch keysP kC _ l1P toy_pq intake_eq ltac:(discriminate) signP_eq eq_refl
              conditionsP l1P_history ltac:(vm_compute; discriminate) registeredP)
    as (b & pi & tr & Etr & Eb & Epi & _ & Hrun).
  assert (tr = r0) by (pose proof r0_root; congruence). subst tr.
  pose proof (Hrun bsP bsP_concat) as Hrun1. clear Hrun.
  assert (Hz : exists z', pi = z_list z').
  { clear -Epi. unfold derive_public_inputs in Epi.
    destruct (signer_acc l1P (b_signers b)) as [a1| |]; cbn [rbind] in Epi; try discriminate.
    destruct (amount_acc l1P (b_deposits b)) as [a2| |]; cbn [rbind] in Epi; try discriminate.
    destruct (amount_acc l1P (b_withdrawals b)) as [a3| |]; cbn [rbind] in Epi; try discriminate.
    match type of Epi with Ok [?a; ?b; ?c; ?d; ?e; ?f; ?g; ?h] = _ => exists (mkZ a b c d e f g h) end.
    unfold z_list. cbn [z_step z_utxo z_tx z_tx_final z_signer z_signer_acc z_deposit z_withdrawal]. congruence. }
  destruct Hz as (z' & ->). exists b, z'. split; [ exact Eb |]. split; [ exact Epi |].
  rewrite start_list in Hrun1. exact Hrun1.
Qed.

(** C54-C60: no collision occurs in this run, so that the theorems give the coins, the
    transactions and the signers *)
Lemma coin_root_empty {hs : Hashes} {G : Curve} :
  merkle_root (empty_contents utxo_cfg) = merkle_root (empty_contents utxoV_cfg).
Proof. symmetry. exact (root_as_allocated (empty_contents utxo_cfg)). Qed.
Lemma key_root_empty {hs : Hashes} {G : Curve} :
  merkle_root (empty_contents signer_cfg) = merkle_root (empty_contents keyV_cfg).
Proof. symmetry. exact (root_keys (empty_contents signer_cfg)). Qed.
Lemma tx_root_empty {hs : Hashes} {G : Curve} :
  merkle_root (empty_contents tx_cfg) = merkle_root (empty_contents txV_cfg).
Proof.
  unfold merkle_root. change (HEIGHT txV_cfg - 1)%nat with (HEIGHT tx_cfg - 1)%nat.
  apply node_same. intros i. reflexivity.
Qed.
Lemma blank_empty (P : SparseConfig) : tree_holds true P (blank P) (lookup P []).
Proof. exists (empty_contents P), (fun _ => false). split; [ apply built_blank | reflexivity ]. Qed.
Lemma utxo_enc_eqb (a b : Leaf utxoV_cfg) : flist_eqb (utxo_encV a) (utxo_encV b) = true -> a = b.
Proof. intros H. apply flist_eqb_eq in H. now apply utxo_encV_inj. Qed.
Lemma tx_enc_eqb (a b : Leaf txV_cfg) : flist_eqb (tx_encV a) (tx_encV b) = true -> a = b.
Proof. intros H. apply flist_eqb_eq in H. now apply tx_encV_inj. Qed.
Lemma key_enc_eqb (a b : Leaf keyV_cfg) : flist_eqb (pt_encV a) (pt_encV b) = true -> a = b.
Proof. intros H. apply flist_eqb_eq in H. now apply pt_encV_inj. Qed.

Definition coin_wsP := flat_map (coin_writes kC r0) xsP.
Lemma coins_clean : clean utxoV_cfg (fun a b => flist_eqb (utxo_encV a) (utxo_encV b)) (blank utxoV_cfg) [] coin_wsP = true.
Proof. vm_compute. reflexivity. Qed.
Lemma txs_clean : clean txV_cfg (fun a b => flist_eqb (tx_encV a) (tx_encV b)) (blank txV_cfg) [] (tx_writes Fzero xsP) = true.
Proof. vm_compute. reflexivity. Qed.
Lemma keys_clean : clean keyV_cfg (fun a b => flist_eqb (pt_encV a) (pt_encV b)) (blank keyV_cfg) []
  (all_key_writes kC r0 Fzero xsP) = true.
Proof. vm_compute. reflexivity. Qed.
Lemma no_coin_collision : ~ collides utxoV_cfg utxo_encV (empty_contents utxoV_cfg) coin_wsP.
Proof. exact (clean_ok utxoV_cfg utxoV_ok _ utxo_enc_eqb utxo_encV coin_wsP _ [] (blank_empty _) coins_clean). Qed.
Lemma no_tx_collision : ~ collides txV_cfg tx_encV (empty_contents txV_cfg) (tx_writes Fzero xsP).
Proof. exact (clean_ok txV_cfg txV_ok _ tx_enc_eqb tx_encV (tx_writes Fzero xsP) _ [] (blank_empty _) txs_clean). Qed.
Lemma no_key_collision : ~ collides keyV_cfg pt_encV (empty_contents keyV_cfg) (all_key_writes kC r0 Fzero xsP).
Proof. exact (clean_ok keyV_cfg keyV_ok _ key_enc_eqb pt_encV _ _ [] (blank_empty _) keys_clean). Qed.
Lemma zP_utxo : z_utxo zP = merkle_root (empty_contents utxoV_cfg).
Proof. exact coin_root_empty. Qed.
Lemma zP_tx : z_tx zP = merkle_root (empty_contents txV_cfg).
Proof. exact tx_root_empty. Qed.
Lemma zP_signer : z_signer zP = merkle_root (empty_contents keyV_cfg).
Proof. exact key_root_empty. Qed.
(** the signatures the circuit sees, and the values it moves *)
Example valuesP :
  map (is_signed r0) xsP = [false; true; false] /\ map (is_applied kC r0) xsP = [true; true; false] /\
  zsum (map (burnt kC r0) xsP) = 40 /\ zsum (map (minted kC r0) xsP) = 100 /\
  map (fun x => length (consumed r0 x)) xsP = [0%nat; 1%nat; 0%nat] /\
  map (fun x => length (created kC r0 x)) xsP = [1%nat; 1%nat; 0%nat].
Proof. vm_compute. repeat split. Qed.

Lemma empty_live {hs : Hashes} {G : Curve} u : In u (live (empty_contents utxoV_cfg)) -> False.
Proof. intros H. destruct (in_live _ _ H) as (Hd & i & _ & E). clear H. rewrite E in Hd. discriminate Hd. Qed.

(** what the theorems say of a run without collisions *)
Lemma run_summary {hs : Hashes} {G : Curve} (k : pt) z bs z' r xs cw b m :
  ivc k false (z_list z) bs (z_list z') -> concat bs = xs -> z_tx_final z = r -> z_step z = Fzero ->
  z_utxo z = merkle_root (empty_contents utxoV_cfg) -> z_tx z = merkle_root (empty_contents txV_cfg) ->
  z_signer z = merkle_root (empty_contents keyV_cfg) ->
  cw = flat_map (coin_writes k r) xs ->
  ~ collides utxoV_cfg utxo_encV (empty_contents utxoV_cfg) cw ->
  ~ collides txV_cfg tx_encV (empty_contents txV_cfg) (tx_writes Fzero xs) ->
  ~ collides keyV_cfg pt_encV (empty_contents keyV_cfg) (all_key_writes k r Fzero xs) ->
  zsum (map (burnt k r) xs) = b -> zsum (map (minted k r) xs) = m -> length xs = 3%nat ->
  exists c' : contents utxoV_cfg,
    (* C54, C55, C57 *)
    genuine utxoV_cfg (empty_contents utxoV_cfg) cw /\
    z_utxo z' = merkle_root c' /\ vtotal (live c') + b = vtotal (live (empty_contents utxoV_cfg)) + m /\
    (* C59 *)
    z_step z' = Fof 3 /\ z_tx z' = merkle_root (txs_of xs) /\
    (* C60 *)
    genuine keyV_cfg (empty_contents keyV_cfg) (all_key_writes k r Fzero xs).
Proof.
  intros Hrun Eb Er Es Hu Ht Hk Ecw N1 N2 N3 Hb Hm Hlen.
  pose proof (C54_coin_writes k false z bs z' _ Hrun Hu) as H54.
  pose proof (C57_conservation k z bs z' _ Hrun Hu) as H57.
  pose proof (C59_tx_root_chain k false z bs z' Hrun Es Ht) as H59.
  pose proof (C60_signers k false z bs z' _ Hrun Hk) as H60.
  rewrite Er, Eb in H54, H57, H59, H60. rewrite Es in H60. cbv zeta in H54, H59, H60. rewrite <- Ecw in H54, H57.
  destruct H57 as (c' & E' & _ & Hv).
  { intros u Hi. destruct (empty_live u Hi). }
  { exact N1. }
  exists c'. split. { destruct H54 as [[H54 _]|H54]; [ exact H54 |]. destruct (N1 H54). }
  split; [ exact E' |]. split; [ rewrite Hb, Hm in Hv; exact Hv |].
  destruct H59 as (_ & Hs & H59). rewrite Hlen in Hs, H59. split; [ exact Hs |]. split.
  { destruct H59 as [H59|[H59 _]]; [ reflexivity | destruct (N2 H59) | apply H59; discriminate ]. }
  destruct H60 as (_ & [[H60 _]|H60]); [ exact H60 | destruct (N3 H60) ].
Qed.
Lemma start_final a b c d : z_tx_final (start a b c d) = c. Proof. reflexivity. Qed.
Lemma start_step a b c d : z_step (start a b c d) = Fzero. Proof. reflexivity. Qed.
Lemma start_wd a b c d : z_withdrawal (start a b c d) = Fzero. Proof. reflexivity. Qed.
Lemma zP_final : z_tx_final zP = r0. Proof. unfold zP. apply start_final. Qed.
Lemma zP_step : z_step zP = Fzero. Proof. unfold zP. apply start_step. Qed.
Lemma bsP_xs : concat bsP = xsP. Proof. unfold xsP. apply bsP_concat. Qed.
Lemma coin_wsP_eq : coin_wsP = flat_map (coin_writes kC r0) xsP. Proof. unfold coin_wsP. reflexivity. Qed.
Example circuit_instance : exists z' (c' : contents utxoV_cfg),
  ivc kC false (z_list zP) bsP (z_list z') /\
  genuine utxoV_cfg (empty_contents utxoV_cfg) coin_wsP /\
  z_utxo z' = merkle_root c' /\ vtotal (live c') + 40 = vtotal (live (empty_contents utxoV_cfg)) + 100 /\
  z_step z' = Fof 3 /\ z_tx z' = merkle_root (txs_of xsP) /\
  genuine keyV_cfg (empty_contents keyV_cfg) (all_key_writes kC r0 Fzero xsP).
Proof.
  destruct epoch_provable as (Hlen & b & z' & _ & _ & Hrun). destruct valuesP as (_ & _ & E1 & E2 & _).
  destruct (run_summary kC zP bsP z' r0 xsP coin_wsP 40 100 Hrun bsP_xs zP_final zP_step zP_utxo zP_tx zP_signer coin_wsP_eq
              no_coin_collision no_tx_collision no_key_collision E1 E2 Hlen) as (c' & H).
  exists z', c'. split; [ exact Hrun | exact H ].
Qed.

(** C58: a coin of 100 becomes coins worth 100 + p in the transfer-only circuit *)
Definition cuW : contents utxoV_cfg := set_leaf (empty_contents utxoV_cfg) 0 (utxo_alloc (coin 100 k2)).
Definition zW (ur tr sr : F) : zstate := start ur tr r0 sr.
Example wraparound_instance :
  exists x z', wf_input x /\
    ivc kC true (z_list (zW (merkle_root cuW) (merkle_root (empty_contents txV_cfg)) (merkle_root (empty_contents keyV_cfg)))) [[x]] (z_list z') /\
    consumed r0 x = [utxo_alloc (coin 100 k2)] /\ vtotal (created kC r0 x) = 100 + p.
Proof.
  destruct (C58_wraparound kC (zW (merkle_root cuW) (merkle_root (empty_contents txV_cfg)) (merkle_root (empty_contents keyV_cfg)))
              cuW (empty_contents txV_cfg) (empty_contents keyV_cfg) sk2 (scalar_of 7) 0 1) as (x & z' & H1 & H2 & H3 & H4).
  - exact toy_pq.
  - vm_compute. discriminate.
  - intros E. assert (H : pt_eqb (public_key sk2) kC = false) by (vm_compute; reflexivity).
    apply pt_eqb_neq in H. contradiction.
  - reflexivity.
  - reflexivity.
  - reflexivity.
  - reflexivity.
  - reflexivity.
  - split; [ discriminate | reflexivity ].
  - split; [ discriminate | reflexivity ].
  - discriminate.
  - assert (H : pt_eqb (v_pk (cuW 0)) (public_key sk2) = true) by (vm_compute; reflexivity). now apply pt_eqb_eq in H.
  - reflexivity.
  - vm_compute. reflexivity.
  - reflexivity.
  - exists x, z'. split; [ exact H1 |]. split; [ exact H2 |].
    unfold zW in H3, H4. rewrite start_final in H3, H4. assert (E0 : cuW 0 = utxo_alloc (coin 100 k2)) by reflexivity.
    rewrite E0 in H3, H4. split; [ exact H3 |]. rewrite H4. f_equal; vm_compute; reflexivity.
Qed.
(** C61: a withdrawal entry of 7 for k3 without a signature *)
Example unsigned_withdrawal_instance :
  exists x z', x_sender x = k3 /\ is_signed r0 x = false /\ ivc kC false (z_list zP) [[x]] (z_list z') /\
    z_withdrawal z' = chain_from Fzero [amount_entry k3 7].
Proof.
  destruct (C61_unsigned_withdrawal kC zP (empty_contents txV_cfg) k3 7 toy_pq) as (x & z' & _ & H1 & H2 & H3 & H4 & _).
  - intros E. assert (H : pt_eqb k3 kC = false) by (vm_compute; reflexivity). apply pt_eqb_neq in H. contradiction.
  - split; reflexivity.
  - exists (empty_contents utxoV_cfg). exact zP_utxo.
  - exists (empty_contents keyV_cfg). exact zP_signer.
  - exact zP_tx.
  - reflexivity.
  - rewrite zP_final in H2. exists x, z'. split; [ exact H1 |]. split; [ exact H2 |]. split; [ exact H3 |].
    unfold zP in H4. rewrite start_wd in H4. exact H4.
Qed.
(** C63: the contract signs its own deposit *)
Definition sigC : signature :=
  match sign (scalar_of 1) (tx_enc tx0 ++ [r0]) [scalar_of 33] with Ok (Some s) => s | _ => sig_default end.
Definition sC : agg := state_of s0 (process_signatures true s0 kC [(kC, Some sigC)]).
Lemma signC_eq : process_signatures true s0 kC [(kC, Some sigC)] = MOk sC tt.
Proof.
  assert (H : is_mok (process_signatures true s0 kC [(kC, Some sigC)]) = true) by (vm_compute; reflexivity).
  unfold sC. destruct (process_signatures true s0 kC [(kC, Some sigC)]) as [s []|s e|]; [ reflexivity | discriminate | discriminate ].
Qed.
Lemma s0_reached_for : reached_for true kC s0.
Proof. eapply rf_intake; [ apply rf_new |]. left. exists tt. apply intake_eq. Qed.
Lemma s0_same : a_txs s0 = [tx0; tx1; tx2] /\ same_but_intake agg_new s0.
Proof.
  destruct (C40_intake true agg_new batch s0) as (H & _ & H' & _); auto using reached_new, intake_eq.
Qed.
Example contract_signature_instance : exists ur c, tree_holds true utxo_cfg (a_utxo_tree s0) c /\
  forall to z bs z', z_utxo z = ur -> z_tx_final z = r0 ->
    concat bs = map inputs_alloc (a_ivc sC) -> ivc kC to (z_list z) bs (z_list z') ->
    collides utxoV_cfg utxo_encV (as_allocated c) (flat_map (coin_writes kC r0) (map inputs_alloc (a_ivc sC))).
Proof.
  destruct (C43_coins_match_tree true s0 s0_reached) as (c & w & _ & Hur & _).
  destruct s0_same as (Ht & Hsame).
  exists (merkle_root c).
  destruct (C63_contract_signature true kC s0 [(kC, Some sigC)] sC r0 (merkle_root c) 0 tx0 (Some sigC)) as [_ H].
  - exact s0_reached_for.
  - destruct Hsame as (_ & _ & _ & _ & _ & _ & _ & _ & _ & _ & ->). reflexivity.
  - apply s0_fits. cbn. lia.
  - exact r0_root.
  - exact Hur.
  - exact signC_eq.
  - rewrite Ht. reflexivity.
  - reflexivity.
  - vm_compute. reflexivity.
  - exists (coin 100 kC). split; [ left; reflexivity | reflexivity ].
  - exact H.
Qed.
(** C78: after this epoch, slots 0 and 1 are taken *)
Example second_epoch_instance :
  exists ck, tree_holds true signer_cfg (a_signer_tree (reset_for_new_epoch sP)) ck /\ ck 1 = k2.
Proof.
  destruct s0_same as (Ht & Hsame). destruct Hsame as (_ & _ & _ & _ & _ & E6 & E7 & _ & _ & _ & E11).
  destruct (C78_second_epoch true kC s0 keysP sP r0 (empty_contents signer_cfg) 1 tx1 k2 (Some sig1)) as (ck & H1 & H2 & _).
  - exact s0_reached.
  - apply s0_fits. cbn. lia.
  - exact r0_root.
  - rewrite E7. reflexivity.
  - rewrite E11. reflexivity.
  - discriminate.
  - rewrite E6. exact (blank_empty signer_cfg).
  - exact signP_eq.
  - rewrite Ht. reflexivity.
  - reflexivity.
  - vm_compute. reflexivity.
  - intros E. assert (H : pt_eqb k2 pzero = false) by (vm_compute; reflexivity). apply pt_eqb_neq in H. contradiction.
  - exists ck. split; [ exact H1 | exact H2 ].
Qed.

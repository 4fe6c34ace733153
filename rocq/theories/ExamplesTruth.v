(** Instances of C82 and C83: the epoch of ExamplesCircuit.v. *)
From Coq Require Import ZArith List Bool Lia Permutation.
Import ListNotations.
From Verif Require Import Base Env Toy Circuit SparseMT SparseMTSpec Data DataSpec Gadgets Schnorr HMap Contract ContractSpec
  Aggregator ExamplesAgg AggCircuit AggCircuitSpec ExamplesCircuit TruthSpec PropsTruth PropsTruth2.
Open Scope Z_scope.

(** decide that no hash event occurs *)
Definition zlist_eqb (a b : list Z) : bool := if list_eq_dec Z.eq_dec a b then true else false.
Definition sha_quiet {hs : Hashes} (l : list (list Z)) : bool :=
  forallb (fun a => negb (Feqb (sha_field a) Fzero)) l &&
  forallb (fun a => forallb (fun b => zlist_eqb a b || negb (Feqb (sha_field a) (sha_field b))) l) l.
Lemma sha_quiet_ok {hs : Hashes} l : sha_quiet l = true -> ~ sha_event l.
Proof.
  unfold sha_quiet. intros H. apply andb_true_iff in H as [H0 H]. rewrite forallb_forall in H0, H.
  intros [(a & b & Ha & Hb & Hn & E)|(a & Ha & E)].
  - specialize (H a Ha). rewrite forallb_forall in H. specialize (H b Hb). apply orb_true_iff in H as [H|H].
    + unfold zlist_eqb in H. destruct (list_eq_dec Z.eq_dec a b); [ contradiction | discriminate H ].
    + rewrite E in H. apply negb_true_iff in H. rewrite (proj2 (Feqb_eq _ _) eq_refl) in H. discriminate H.
  - specialize (H0 a Ha). rewrite E in H0. apply negb_true_iff in H0. rewrite (proj2 (Feqb_eq _ _) eq_refl) in H0. discriminate H0.
Qed.
Definition entries_of {G : Curve} (c : contract) (l : list (Z * u64)) : list (pt * Z) :=
  map (fun ia => (match key_of c (Z.to_nat (fst ia)) with Some k => k | None => pzero end, zval (snd ia))) l.
Lemma entries_unique {G : Curve} c l es : entries_are c l es -> es = entries_of c l.
Proof.
  unfold entries_of. induction 1 as [|[i a] [k v] l es [E1 E2] _ IH]; [ reflexivity |]. cbn [map]. rewrite <- IH.
  cbn [fst snd] in *. rewrite E1, E2. reflexivity.
Qed.
Lemma quiet_entries {hs : Hashes} {G : Curve} c l es' :
  sha_quiet (chain_inputs Fzero (map amount_bytes (entries_of c l)) ++ chain_inputs Fzero (map amount_bytes es')) = true ->
  forall es, entries_are c l es ->
  ~ sha_event (chain_inputs Fzero (map amount_bytes es) ++ chain_inputs Fzero (map amount_bytes es')).
Proof. intros H es He. rewrite (entries_unique _ _ _ He). apply sha_quiet_ok. exact H. Qed.

Definition no_block : block := mkBlock Fzero Fzero Fzero [] (u64of 0) [] [].
Definition bP : block := match produce_block sP l1P with Ok b => b | _ => no_block end.
Lemma bP_of b : produce_block sP l1P = Ok b -> b = bP.
Proof. unfold bP. intros ->. reflexivity. Qed.

Lemma begins_start {hs : Hashes} {G : Curve} a b c d : b = merkle_root (empty_contents txV_cfg) -> begins (start a b c d).
Proof. intros E. unfold begins, start. cbn [z_step z_tx z_signer_acc z_deposit z_withdrawal]. repeat split; exact E. Qed.
Lemma begins_zP : begins zP.
Proof. unfold zP. apply begins_start. exact tx_root_empty. Qed.
Lemma depP_quiet : sha_quiet (chain_inputs Fzero (map amount_bytes (entries_of l1P (b_deposits bP)))
    ++ chain_inputs Fzero (map amount_bytes (run_deposits kC xsP))) = true.
Proof. vm_compute. reflexivity. Qed.
Lemma wdP_quiet : sha_quiet (chain_inputs Fzero (map amount_bytes (entries_of l1P (b_withdrawals bP)))
    ++ chain_inputs Fzero (map amount_bytes (run_withdrawals kC xsP))) = true.
Proof. vm_compute. reflexivity. Qed.
(** what the block says: 100 paid in, 40 paid out *)
Example bP_values : paid_in bP = 100 /\ paid_out bP = 40 /\ length (b_signers bP) = 3%nat /\
  length (run_deposits kC xsP) = 1%nat /\ length (run_withdrawals kC xsP) = 1%nat.
Proof. vm_compute. repeat split. Qed.
Lemma bP_final : tx_tree_root bP = r0.
Proof. vm_compute. reflexivity. Qed.

Lemma make_epoch {hs : Hashes} {G : Curve} (k : pt) c cu b xs z bs z' r cw :
  ivc k false (z_list z) bs (z_list z') -> begins z -> derive_public_inputs c b = Ok (z_list z') ->
  concat bs = xs -> z_utxo z = merkle_root cu -> tx_tree_root b = r -> cw = flat_map (coin_writes k r) xs ->
  ~ collides utxoV_cfg utxo_encV cu cw ->
  (forall deps, entries_are c (b_deposits b) deps ->
     ~ sha_event (chain_inputs Fzero (map amount_bytes deps) ++ chain_inputs Fzero (map amount_bytes (run_deposits k xs)))) ->
  (forall wds, entries_are c (b_withdrawals b) wds ->
     ~ sha_event (chain_inputs Fzero (map amount_bytes wds) ++ chain_inputs Fzero (map amount_bytes (run_withdrawals k xs)))) ->
  epoch_proved k c cu b xs (written utxoV_cfg cu cw).
Proof.
  intros H1 H2 H3 H4 H5 H6 H7 H8 H9 H10. exists z, bs, z'. rewrite H6. cbv zeta. rewrite <- H7.
  split; [ exact H1 |]. split; [ exact H2 |]. split; [ exact H3 |]. split; [ symmetry; exact H4 |]. split; [ exact H5 |].
  split; [ split; [ exact H8 | reflexivity ] |]. split; [ exact H9 | exact H10 ].
Qed.
Example epoch_instance : epoch_proved kC l1P (empty_contents utxoV_cfg) bP xsP (written utxoV_cfg (empty_contents utxoV_cfg) coin_wsP).
Proof.
  destruct epoch_provable as (_ & b & z' & Eb & Ed & Hrun). apply bP_of in Eb. subst b.
  exact (make_epoch kC l1P (empty_contents utxoV_cfg) bP xsP zP bsP z' r0 coin_wsP Hrun begins_zP Ed bsP_xs zP_utxo bP_final coin_wsP_eq
           no_coin_collision (quiet_entries _ _ _ depP_quiet) (quiet_entries _ _ _ wdP_quiet)).
Qed.
Lemma payersP : forallb (fun x => (withdrawn kC x =? 0) || is_applied kC r0 x) xsP = true.
Proof. vm_compute. reflexivity. Qed.
Lemma payers_ok {hs : Hashes} {G : Curve} k r xs : forallb (fun x => (withdrawn k x =? 0) || is_applied k r x) xs = true ->
  all_payers_signed k r xs.
Proof.
  intros H x Hx Hn. rewrite forallb_forall in H. specialize (H x Hx). apply orb_true_iff in H as [H|H]; [| exact H ].
  apply Z.eqb_eq in H. contradiction.
Qed.
Lemma solvency_one {hs : Hashes} {G : Curve} k c b xs cu' i o :
  epoch_proved k c (empty_contents utxoV_cfg) b xs cu' -> all_payers_signed k (tx_tree_root b) xs ->
  paid_in b = i -> paid_out b = o -> vtotal (live cu') = i - o.
Proof.
  intros H Ha Ei Eo. destruct (C83_solvency k [(b, xs)] cu') as [E _].
  - eapply epochs_cons; [ exact H | constructor ].
  - intros b' xs' [E|[]]. apply pair_equal_spec in E as [<- <-]. exact Ha.
  - rewrite <- E. cbn [map fst]. unfold zsum. cbn [fold_right]. rewrite Ei, Eo, !Z.add_0_r. reflexivity.
Qed.
(** 60 are left *)
Example solvency_instance : exists cu', epoch_proved kC l1P (empty_contents utxoV_cfg) bP xsP cu' /\ vtotal (live cu') = 60.
Proof.
  pose proof epoch_instance as H. revert H. generalize (written utxoV_cfg (empty_contents utxoV_cfg) coin_wsP). intros cu' H.
  exists cu'. split; [ exact H |]. destruct bP_values as (Ei & Eo & _).
  refine (solvency_one kC l1P bP xsP cu' 100 40 H _ Ei Eo). rewrite bP_final. exact (payers_ok _ _ _ payersP).
Qed.

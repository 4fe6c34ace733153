(** Concrete epochs that meet the hypotheses of C96, C97. The instance of the dependencies is the
    one of Toy.v. *)
From Coq Require Import ZArith List Bool Lia Permutation Sorted.
Import ListNotations.
From Verif Require Import Base Env Toy Circuit SparseMT SparseMTSpec Data DataSpec Gadgets Schnorr HMap Contract ContractSpec
  Aggregator AggSpec AggFacts AggSign AggIntake PropsContract PropsBlock PropsIntake PropsSign PropsValue ExamplesAgg
  AggCircuit AggCircuitFacts AggCircuitSpec CircuitRun PropsCircuit PropsCircuit2 PropsCircuit3 Honest PropsHonest PropsLimits Clean
  ExamplesCircuit Client ClientSpec PropsClient PropsClient4 PropsLive.
Open Scope Z_scope.

(** C96: in the next epoch [k3] passes on the coin of 60 it got *)
Definition sQ : agg := reset_for_new_epoch sP.
Lemma filter4 {A} (f : A -> bool) (v : arr4 A) b0 b1 b2 b3 :
  f (a4_0 v) = b0 -> f (a4_1 v) = b1 -> f (a4_2 v) = b2 -> f (a4_3 v) = b3 ->
  filter f (a4_list v) = (if b0 then [a4_0 v] else []) ++ (if b1 then [a4_1 v] else []) ++ (if b2 then [a4_2 v] else []) ++ (if b3 then [a4_3 v] else []).
Proof. intros <- <- <- <-. destruct v as [v0 v1 v2 v3]. cbn. now destruct (f v0), (f v1), (f v2), (f v3). Qed.
Lemma ws_ledger : ledger kC ([tx0; tx1]) [] [coin 60 k3].
Proof.
  assert (A1 : consumes kC tx0 = [])
    by (refine (filter4 _ (inputs tx0) false false false false _ _ _ _); vm_compute; reflexivity).
  assert (A2 : creates kC tx0 = [coin 100 k2])
    by (refine (filter4 _ (outputs tx0) true false false false _ _ _ _); vm_compute; reflexivity).
  assert (A3 : consumes kC tx1 = [coin 100 k2])
    by (refine (filter4 _ (inputs tx1) false true false false _ _ _ _); vm_compute; reflexivity).
  assert (A4 : creates kC tx1 = [coin 60 k3])
    by (refine (filter4 _ (outputs tx1) false false true false _ _ _ _); vm_compute; reflexivity).
  apply (ledger_cons kC tx0 [tx1] [] [coin 100 k2]); [ exists []; rewrite A1, A2; split; reflexivity |].
  apply (ledger_cons kC tx1 [] [coin 100 k2] [coin 60 k3]); [ exists []; rewrite A3, A4; split; reflexivity |].
  constructor. reflexivity.
Qed.
Lemma coins_reset {hs : Hashes} {G : Curve} (s : agg) : coins (reset_for_new_epoch s) = coins s.
Proof. reflexivity. Qed.
Lemma applied_two (f : tx -> pt * option signature -> bool) a b c x y z :
  f a x = true -> f b y = true -> f c z = false ->
  flat_map (fun tk : tx * (pt * option signature) => if f (fst tk) (snd tk) then [fst tk] else []) [(a, x); (b, y); (c, z)] = [a; b].
Proof. intros H1 H2 H3. cbn [flat_map fst snd]. now rewrite H1, H2, H3. Qed.
Lemma sQ_coin : Permutation (coins sQ) [coin 60 k3].
Proof.
  unfold sQ. rewrite (coins_reset sP).
  pose proof (C44_ledger true kC s0 keysP sP r0 s0_reached (s0_fits keysP ltac:(cbn; lia)) r0_root signP_eq) as HL.
  destruct (C40_intake true agg_new batch s0 (reached_new true) eq_refl intake_eq) as (Ht & _ & Hsame & _ & _).
  assert (E0 : coins s0 = []) by (unfold coins, positions; rewrite (proj1 Hsame); reflexivity).
  assert (Ea : applied kC r0 (a_txs s0) keysP = [tx0; tx1]).
  { assert (H1 : authorised kC r0 tx0 (kC, None) = true) by (vm_compute; reflexivity).
    assert (H2 : authorised kC r0 tx1 (k2, Some sig1) = true) by (vm_compute; reflexivity).
    assert (H3 : authorised kC r0 tx2 (k3, None) = false) by (vm_compute; reflexivity).
    rewrite Ht. unfold applied. rewrite combineP.
    exact (applied_two (authorised kC r0) tx0 tx1 tx2 (kC, None) (k2, Some sig1) (k3, None) H1 H2 H3). }
  rewrite Ea, E0 in HL. exact (ledger_det kC _ _ _ _ HL ws_ledger).
Qed.
Definition pay : tx := mkTx (A4 (coin 60 k3) utxo_dummy utxo_dummy utxo_dummy) (A4 (utxo_new k2 (u64of 60)) utxo_dummy utxo_dummy utxo_dummy).
Definition sQ1 : agg := state_of sQ (process_transactions true sQ [(k3, pay)]).
Definition rQ : F := match root (a_tx_tree sQ1) with Ok r => r | _ => Fzero end.
Definition sigQ : signature := match sign (scalar_of 3) (tx_enc pay ++ [rQ]) [scalar_of 77] with Ok (Some s) => s | _ => sig_default end.
Lemma sigQ_eq : sign (scalar_of 3) (tx_enc pay ++ [rQ]) [scalar_of 77] = Ok (Some sigQ).
Proof.
  assert (H : match sign (scalar_of 3) (tx_enc pay ++ [rQ]) [scalar_of 77] with Ok (Some _) => true | _ => false end = true)
    by (vm_compute; reflexivity).
  unfold sigQ. destruct (sign (scalar_of 3) (tx_enc pay ++ [rQ]) [scalar_of 77]) as [[sg|]| |]; try discriminate H. reflexivity.
Qed.
Lemma rQ_of r : root (a_tx_tree sQ1) = Ok r -> rQ = r.
Proof. unfold rQ. now intros ->. Qed.
Example coin_passed_on :
  process_transactions true sQ [(k3, pay)] = MOk sQ1 tt /\
  exists s2, process_signatures true sQ1 kC [(k3, Some sigQ)] = MOk s2 tt /\ Permutation (coins s2) [utxo_new k2 (u64of 60)].
Proof.
  destruct (C96_coin_spendable true kC sQ (scalar_of 3) (coin 60 k3) k2 []) as (s1 & r & E1 & E2 & H).
  - apply reached_reset. refine (reached_sign true s0 kC keysP sP s0_reached (s0_fits keysP ltac:(cbn; lia)) _). left. exists tt. exact signP_eq.
  - reflexivity.
  - reflexivity.
  - reflexivity.
  - apply pt_eqb_neq. vm_compute. reflexivity.
  - apply pt_eqb_neq. vm_compute. reflexivity.
  - exact sQ_coin.
  - apply Z.ltb_lt. vm_compute. reflexivity.
  - reflexivity.
  - assert (X : sQ1 = s1) by (unfold sQ1; exact (f_equal (state_of sQ) E1)).
    rewrite X in *. split; [ exact E1 |]. rewrite <- X in E2. rewrite <- (rQ_of r E2) in H.
    exact (H _ sigQ sigQ_eq).
Qed.

(** C97: in the first epoch, a deposit and a transfer out of it with a withdrawal *)
Definition ws : list (pt * tx) := [(kC, tx0); (k2, tx1)].
Definition sW : agg := state_of agg_new (process_transactions true agg_new ws).
Definition rW : F := match root (a_tx_tree sW) with Ok r => r | _ => Fzero end.
Definition sigW : signature := match sign sk2 (tx_enc tx1 ++ [rW]) [scalar_of 99] with Ok (Some s) => s | _ => sig_default end.
Definition keysW : list (pt * option signature) := [(kC, None); (k2, Some sigW)].
Lemma sigW_eq : sign sk2 (tx_enc tx1 ++ [rW]) [scalar_of 99] = Ok (Some sigW).
Proof.
  assert (H : match sign sk2 (tx_enc tx1 ++ [rW]) [scalar_of 99] with Ok (Some _) => true | _ => false end = true)
    by (vm_compute; reflexivity).
  unfold sigW. destruct (sign sk2 (tx_enc tx1 ++ [rW]) [scalar_of 99]) as [[sg|]| |]; try discriminate H. reflexivity.
Qed.
Lemma rW_of r : root (a_tx_tree sW) = Ok r -> rW = r.
Proof. unfold rW. now intros ->. Qed.
Definition fairb (w : pt * tx) : bool :=
  forallb (fun u => is_dummy u || pt_eqb (pk u) (fst w)) (a4_list (inputs (snd w))) &&
  (total_in (snd w) =? total_out (snd w)) && (total_out (snd w) <? two64).
Lemma fairb_ok w : fairb w = true -> fair w.
Proof.
  unfold fairb, fair. rewrite !andb_true_iff, Z.eqb_eq, Z.ltb_lt, forallb_forall. intros [[H1 H2] H3].
  split; [| auto ]. intros u Hu Hd. specialize (H1 u Hu). rewrite Hd in H1. now apply pt_eqb_eq in H1.
Qed.
Lemma ws_fair : Forall fair ws.
Proof. repeat constructor; apply fairb_ok; vm_compute; reflexivity. Qed.
Lemma ws_registered k t : In (k, t) ws -> In k (pks l1P) /\
  forall u, In u (a4_list (outputs t)) -> is_dummy u = false -> In (pk u) (pks l1P).
Proof.
  assert (H : forallb (fun w => existsb (pt_eqb (fst w)) (pks l1P) &&
      forallb (fun u => is_dummy u || existsb (pt_eqb (pk u)) (pks l1P)) (a4_list (outputs (snd w)))) ws = true)
    by (vm_compute; reflexivity).
  rewrite forallb_forall in H. intros Hin. specialize (H _ Hin). cbn [fst snd] in H. apply andb_true_iff in H as [H1 H2].
  assert (X : forall k, existsb (pt_eqb k) (pks l1P) = true -> In k (pks l1P)).
  { intros k' Hk. apply existsb_exists in Hk as (k'' & Hk & E). apply pt_eqb_eq in E. rewrite E. exact Hk. }
  split; [ exact (X k H1) |]. rewrite forallb_forall in H2. intros u Hu Hd. specialize (H2 u Hu). rewrite Hd in H2. exact (X _ H2).
Qed.
Example deposit_and_payment : process_transactions true agg_new ws = MOk sW tt /\
  exists s2 b pi ur sr,
    process_signatures true sW kC keysW = MOk s2 tt /\ Permutation (coins s2) [coin 60 k3] /\
    produce_block s2 l1P = Ok b /\ derive_public_inputs l1P b = Ok pi /\
    ivc kC false (epoch_start ur rW sr) [map inputs_alloc (ivc_inputs s2)] pi /\
    forall k bal, Fzero <> block_hash b -> exists a us',
      satisfied poseidon_acc 1 (u_list (mkU (Fof bal) Fzero (pk_hash k) Fzero Fzero Fzero Fzero)) (aux_alloc a) (u_list us') /\
      ux_pk (aux_alloc a) = k /\
      zval (us_balance us') = (zval (Fof bal) + (gain k (tx_alloc tx1) + 0)) mod p.
Proof.
  destruct (C97_payments_arrive true kC poseidon_acc agg_new ws [coin 60 k3] (empty_contents signer_cfg) kC _ l1P toy_pq
              (reached_new true) eq_refl eq_refl eq_refl eq_refl eq_refl (blank_empty signer_cfg) ltac:(reflexivity)
              ws_fair ltac:(discriminate) ws_ledger ltac:(vm_compute; discriminate) l1P_history ltac:(vm_compute; discriminate)
              ws_registered) as (s1 & r & E1 & E2 & H).
  assert (X : sW = s1) by (unfold sW; exact (f_equal (state_of agg_new) E1)).
  rewrite <- X in E1, E2, H. rewrite <- (rW_of r E2) in H. clear X. split; [ exact E1 |].
  destruct (H keysW) as (s2 & b & pi & ur & sr & F1 & F2 & F3 & F4 & F5 & F6 & F7 & F8).
  - constructor; [ split; [ reflexivity | left; reflexivity ] |]. constructor; [| constructor ].
    split; [ reflexivity |]. right. exists sk2, sigW, [scalar_of 99]. split; [ reflexivity |]. split; [ reflexivity | exact sigW_eq ].
  - assert (V : verify_signature kC (tx_enc tx0 ++ [rW]) (osig None) = false) by (vm_compute; reflexivity).
    assert (N : pt_eqb k2 kC = false) by (vm_compute; reflexivity). apply pt_eqb_neq in N.
    intros t o u [I|[I|[]]] Hv; apply pair_equal_spec in I as [I1 I2]; apply pair_equal_spec in I2 as [I2 I3].
    + rewrite <- I1, <- I3 in Hv. pose proof (eq_trans (eq_sym Hv) V) as C. discriminate C.
    + destruct (N I2).
  - exists s2, b, pi, ur, sr. repeat (split; [ assumption |]). split.
    + apply F7. cbn [concat]. apply app_nil_r.
    + intros k bal Hb.
      destruct (F8 k [1] (mkU (Fof bal) Fzero (pk_hash k) Fzero Fzero Fzero Fzero)) as (a & us' & P1 & _ & P2 & P3).
      * intros i [<-|[]]. exists (k2, tx1), (coin 100 k2). split; [ reflexivity |]. split; [ right; left; reflexivity | reflexivity ].
      * repeat constructor.
      * reflexivity.
      * discriminate.
      * exact Hb.
      * exists a, us'. split; [ exact P1 |]. split; [ exact P2 | exact P3 ].
Qed.

(** A concrete client: the hypotheses of C64-C75 and C79-C81 are met. The epoch is the one of
    ExamplesCircuit.v; the instance of the dependencies is the one of Toy.v. *)
From Coq Require Import ZArith List Bool Lia Permutation Sorted.
Import ListNotations.
From Verif Require Import Base Env Toy Circuit SparseMT SparseMTSpec Data DataSpec Gadgets Schnorr HMap Contract ContractSpec
  Aggregator AggSpec AggFacts AggSign AggIntake PropsContract PropsBlock PropsIntake PropsSign PropsValue ExamplesAgg
  AggCircuit AggCircuitFacts AggCircuitSpec CircuitRun PropsCircuit PropsCircuit2 PropsCircuit3 Honest PropsHonest PropsLimits Clean
  ExamplesCircuit User Client ClientSpec ClientFacts PropsClient PropsClient2 PropsClient3 PropsClient4 PropsClient5 PropsClient6 PropsClient7 PropsUser.
Open Scope Z_scope.

(** the state of a new user with key [k] and balance [b] *)
Definition newcomer (k : pt) (b : Z) : ustate := mkU (Fof b) Fzero (pk_hash k) Fzero Fzero Fzero Fzero.
Definition bP : block := match produce_block sP l1P with Ok b => b | _ => block_default end.
Lemma bP_eq : produce_block sP l1P = Ok bP.
Proof.
  destruct epoch_provable as (_ & b & z' & E & _). unfold bP. rewrite E. reflexivity.
Qed.
Lemma bP_hash : Fzero <> block_hash bP.
Proof.
  assert (H : Feqb Fzero (block_hash bP) = false) by (vm_compute; reflexivity). now apply Feqb_neq in H.
Qed.
Lemma bP_hash_eq : zval (height bP) = 0.
Proof. vm_compute. reflexivity. Qed.

(** C79: the native epoch; the receiver [k3] of the applied transaction 1 is credited *)
Lemma credited k bal : exists a us',
  satisfied poseidon_acc 1 (u_list (newcomer k bal)) a (u_list us') /\
  ux_pk a = k /\ ux_block a = block_alloc bP /\ ux_txs a = [(tx_alloc tx1, Fu64 (u64of 1))] /\
  zval (us_balance us') = (zval (Fof bal) + gain k (tx_alloc tx1)) mod p.
Proof.
  destruct (C79_epoch poseidon_acc true kC agg_new s0 sP batch keysP (empty_contents signer_cfg) r0 l1P bP k [1] (newcomer k bal))
    as (a & us' & Ha & Hs & _ & Hb).
  - apply reached_new.
  - reflexivity.
  - reflexivity.
  - reflexivity.
  - exact (blank_empty signer_cfg).
  - exact intake_eq.
  - discriminate.
  - exact r0_root.
  - exact signP_eq.
  - apply s0_fits. cbn. lia.
  - reflexivity.
  - exact bP_eq.
  - intros i [<-|[]]. exists tx1, k2, (Some sig1). split; [ reflexivity |]. split; [ reflexivity |]. split; [ vm_compute; reflexivity |].
    exists (coin 100 k2). split; [ right; left; reflexivity | reflexivity ].
  - repeat constructor.
  - reflexivity.
  - discriminate.
  - exact bP_hash.
  - exists (aux_alloc a), us'. split; [ exact Hs |]. destruct Ha as [A1 A2 A3 _ _].
    split; [ exact A2 |]. split; [ unfold aux_alloc; cbn [ux_block]; now rewrite A1 |]. split.
    + unfold aux_alloc. cbn [ux_txs]. rewrite A3. reflexivity.
    + rewrite Hb. cbn [map zsumm]. rewrite Z.add_0_r. reflexivity.
Qed.
Lemma gains : gain k3 (tx_alloc tx1) = 60 /\ gain k2 (tx_alloc tx1) = - 100 /\ gain k2 (tx_alloc tx2) = 61.
Proof. vm_compute. auto. Qed.
Lemma zval_Fof_mod x : zval (Fof x) = x mod p. Proof. reflexivity. Qed.
Example receiver_is_credited : exists a us',
  satisfied poseidon_acc 1 (u_list (newcomer k3 0)) a (u_list us') /\ zval (us_balance us') = 60.
Proof.
  destruct (credited k3 0) as (a & us' & H & _ & _ & _ & E). exists a, us'. split; [ exact H |].
  rewrite E, (proj1 gains). reflexivity.
Qed.
(** C73: a sender with a balance of 50 spends 100 *)
Example overdraft_instance : exists a us',
  satisfied poseidon_acc 1 (u_list (newcomer k2 50)) a (u_list us') /\ zval (us_balance us') = p - 50.
Proof.
  destruct (credited k2 50) as (a & us' & H & _ & _ & _ & E). exists a, us'. split; [ exact H |].
  rewrite E, (proj1 (proj2 gains)). reflexivity.
Qed.
(** The facts of a single-transaction step needed below. *)
Lemma regular1 : regular (tx_alloc tx1) = true. Proof. vm_compute. reflexivity. Qed.
Lemma one_entry a t i : ux_txs a = [(t, i)] -> regular t = true ->
  indices a = [zval i] /\ transactions a = [t] /\ step_gain a = gain (ux_pk a) t.
Proof.
  intros E R. unfold indices, regular_entries, step_gain, transactions. rewrite E. cbn [filter fst map snd]. rewrite R.
  cbn [map snd zsumm]. rewrite Z.add_0_r. auto.
Qed.
Lemma max_cmp_8192 : 8192 <= max_cmp. Proof. discriminate. Qed.
(** C68: the same coin of 60 is credited twice, at indices 1 and 4097 of one block *)
Example replay_instance : exists a us' us'',
  urun poseidon_acc 1 (u_list (newcomer k3 0)) [a; shifted a] (u_list us'') /\
  satisfied poseidon_acc 1 (u_list (newcomer k3 0)) a (u_list us') /\
  flat_map indices [a; shifted a] = [1; 4097] /\ step_block (shifted a) = step_block a /\
  zval (us_balance us'') = 120.
Proof.
  destruct (credited k3 0) as (a & us' & H & Hpk & _ & Htx & E).
  destruct (one_entry a _ _ Htx regular1) as (Ei & Et & Eg).
  assert (E1 : zval (Fu64 (u64of 1)) = 1) by reflexivity. rewrite E1 in Ei.
  assert (Hr : forall t i, In (t, i) (ux_txs a) -> zval i + 4096 <= max_cmp).
  { intros t i Hi. rewrite Htx in Hi. destruct Hi as [Hi|[]]. apply pair_equal_spec in Hi as [_ <-]. rewrite E1.
    pose proof max_cmp_8192. lia. }
  destruct (C68_replay poseidon_acc 1 (newcomer k3 0) a us' H) as (us'' & H2 & B & T & Eb).
  - intros i Hi. rewrite Ei in Hi. destruct Hi as [<-|[]]. reflexivity.
  - exact Hr.
  - exists a, us', us''. split; [ econstructor; [ exact H |]; econstructor; [ exact H2 | constructor ] |].
    split; [ exact H |]. split; [| split; [ exact B |] ].
    + cbn [flat_map]. rewrite shifted_indices by exact Hr. rewrite Ei. reflexivity.
    + rewrite Eb, Eg, Hpk, E, (proj1 gains). reflexivity.
Qed.
(** C69: the same transaction is credited again after a step on another block of the same height *)
Definition otherP : blockV := mkBlockV (vb_utxo_root (block_alloc bP)) Fzero Fzero (vb_height (block_alloc bP)).
Lemma otherP_hash : block_hashV otherP <> block_hashV (block_alloc bP).
Proof. assert (H : Feqb (block_hashV otherP) (block_hashV (block_alloc bP)) = false) by (vm_compute; reflexivity). now apply Feqb_neq in H. Qed.
Example alternation_instance : exists a us',
  urun poseidon_acc 1 (u_list (newcomer k3 0)) [a; idle_on 1 otherP k3; a] (u_list us') /\
  zval (us_balance us') = 120.
Proof.
  destruct (credited k3 0) as (a & us' & H & Hpk & Hblk & Htx & E).
  destruct (one_entry a _ _ Htx regular1) as (Ei & Et & Eg).
  destruct (C69_replay poseidon_acc 1 (newcomer k3 0) a (u_list us') otherP H) as (t1 & t2 & t3 & E1 & H2 & H3 & Eb).
  - rewrite Hblk. reflexivity.
  - unfold step_block. rewrite Hblk. exact otherP_hash.
  - apply u_list_inj in E1. rewrite <- E1 in *. rewrite Hpk in H2. exists a, t3. split.
    + econstructor; [ exact H |]. econstructor; [ exact H2 |]. econstructor; [ exact H3 | constructor ].
    + rewrite Eb, Eg, Hpk, E, (proj1 gains). reflexivity.
Qed.
(** C84: two blocks the same aggregator produces, at the end of the epoch and before it *)
Definition b0P : block := match produce_block agg_new l1P with Ok b => b | _ => block_default end.
Lemma b0P_eq : produce_block agg_new l1P = Ok b0P.
Proof.
  assert (H : match produce_block agg_new l1P with Ok _ => true | _ => false end = true) by (vm_compute; reflexivity).
  unfold b0P. destruct (produce_block agg_new l1P); [ reflexivity | discriminate H | discriminate H ].
Qed.
Lemma b0P_hash : block_hash bP <> block_hash b0P.
Proof. assert (H : Feqb (block_hash bP) (block_hash b0P) = false) by (vm_compute; reflexivity). now apply Feqb_neq in H. Qed.
Lemma sP_reached : reached true sP.
Proof.
  apply (reached_sign true s0 kC keysP sP).
  - eapply reached_intake; [ apply reached_new | left; exists tt; exact intake_eq ].
  - apply s0_fits. cbn. lia.
  - left. exists tt. exact signP_eq.
Qed.
Example unbounded_instance : exists a us',
  urun poseidon_acc 1 (u_list (newcomer k3 0)) (alternate 9 a (idle_on 1 (block_alloc b0P) k3)) (u_list us') /\
  zval (us_balance us') = 600.
Proof.
  destruct (credited k3 0) as (a & us' & H & Hpk & Hblk & Htx & _).
  destruct (one_entry a _ _ Htx regular1) as (_ & _ & Eg).
  destruct (C84_unbounded_replay true poseidon_acc 1 sP agg_new l1P l1P bP b0P (newcomer k3 0) a (u_list us') sP_reached bP_eq
              (reached_new true) b0P_eq b0P_hash Hblk H 9) as (t & Hr & Eb).
  rewrite Hpk in Hr. exists a, t. split; [ exact Hr |]. rewrite Eb, Eg, Hpk, (proj1 gains). reflexivity.
Qed.
(** C65: a step of two transactions, the second of which is padding *)
Example padding_instance : exists a us', ux_txs a = [(tx_alloc tx1, Fu64 (u64of 1)); (tx_alloc tx_default, Fof 77)] /\
  satisfied poseidon_acc 2 (u_list (newcomer k3 0)) a (u_list us') /\ zval (us_balance us') = 60.
Proof.
  destruct (credited k3 0) as (a & us' & H & Hpk & Hblk & Htx & E).
  destruct (proj1 (satisfied_iff poseidon_acc 1 _ _ _) H) as (s & Es & (Hl & _) & _). destruct Hl as (L1 & L2 & L3).
  exists (with_padding 1 (Fof 77) (default_path tx_cfg) (default_path signer_cfg) a), us'.
  split; [ unfold with_padding, insert; cbn [ux_txs]; rewrite Htx; reflexivity |].
  split; [| rewrite E, (proj1 gains); reflexivity ].
  apply (C65_padding poseidon_acc 1); [ exact L1 | exact L2 | exact L3 | |].
  - rewrite Hpk. intros E0. assert (H0 : pt_eqb k3 pzero = false) by (vm_compute; reflexivity). apply pt_eqb_neq in H0. contradiction.
  - split; [ exact H |]. split; [ reflexivity |]. split; [ reflexivity |]. pose proof max_cmp_8192 as Hm. split.
    + assert (E7 : zval (Fof 77) = 77) by reflexivity. rewrite E7. lia.
    + assert (E7 : zval (us_index (newcomer k3 0)) = 0) by reflexivity. rewrite E7.
      destruct (Feqb (step_block a) (us_block (newcomer k3 0))); lia.
Qed.

(** C70: position 1 of the signer tree is blank, that is, transaction 1 (tx2, signed by [k3], who
    does not own such coins) was not applied; but [k3] occurs at position 2 *)
Definition ctQ : contents txV_cfg := set_leaf (empty_contents txV_cfg) 1 (tx_alloc tx2).
Definition ckQ : contents keyV_cfg := set_leaf (empty_contents keyV_cfg) 2 k3.
Definition blkQ : blockV := mkBlockV Fzero (merkle_root ctQ) (merkle_root ckQ) Fone.
Definition userQ (k : pt) (b : Z) (blk : blockV) : ustate :=
  mkU (Fof b) Fzero (pk_hash k) Fzero (Fadd (block_hashV blk) Fone) Fzero Fzero.
Lemma Fadd_one_neq x : x <> Fadd x Fone.
Proof.
  intros E. apply (f_equal zval) in E. rewrite zval_Fadd in E.
  replace (zval Fone) with 1 in E by reflexivity. pose proof (F_range x). pose proof p_bounds.
  destruct (Z.eq_dec (zval x + 1) p) as [E1|E1].
  - rewrite E1, Z.mod_same in E by lia. lia.
  - rewrite Z.mod_small in E by lia. lia.
Qed.
Example unapplied_instance : exists a s', ux_txs a = (tx_alloc tx2, Fof 1) :: nil /\
  satisfied poseidon_acc 1 (u_list (userQ k2 5 blkQ)) a (u_list s') /\ zval (us_balance s') = 66.
Proof.
  destruct (C70_unapplied poseidon_acc k2 blkQ ctQ ckQ 1 2 (userQ k2 5 blkQ)) as (a & s' & _ & _ & H1 & H2 & H3).
  - reflexivity.
  - reflexivity.
  - reflexivity.
  - split; [ discriminate | reflexivity ].
  - split; reflexivity.
  - split; [ discriminate | reflexivity ].
  - exact (Fadd_one_neq _).
  - reflexivity.
  - intros E. assert (H0 : pt_eqb (signer_of (tx_alloc tx2)) pzero = false) by (vm_compute; reflexivity).
    apply pt_eqb_neq in H0. apply H0. exact E.
  - assert (H0 : pt_eqb k3 (signer_of (tx_alloc tx2)) = true) by (vm_compute; reflexivity). exact (proj1 (pt_eqb_eq _ _) H0).
  - exists a, s'. split; [ exact H1 |]. split; [ exact H2 |]. rewrite H3.
    change (ctQ 1) with (tx_alloc tx2). rewrite (proj2 (proj2 gains)). reflexivity.
Qed.
(** C71: a gift of 1000 *)
Definition ctG : contents txV_cfg := set_leaf (empty_contents txV_cfg) 3 (tx_alloc (gift k2 (u64of 1000))).
Definition blkG : blockV := mkBlockV Fzero (merkle_root ctG) (merkle_root ckQ) Fone.
Example gift_instance : exists a s',
  satisfied sha_acc 1 (u_list (userQ k2 5 blkG)) a (u_list s') /\ zval (us_balance s') = 1005.
Proof.
  destruct (C71_credited sha_acc k2 (u64of 1000) blkG ctG ckQ 3 1 (userQ k2 5 blkG)) as (a & s' & _ & _ & _ & H2 & H3).
  - reflexivity.
  - reflexivity.
  - reflexivity.
  - split; [ discriminate | reflexivity ].
  - exact (Fadd_one_neq _).
  - split; reflexivity.
  - reflexivity.
  - split; [ discriminate | reflexivity ].
  - reflexivity.
  - exists a, s'. split; [ exact H2 |]. rewrite H3. reflexivity.
Qed.
(** C74: the default input for the user without a key *)
Example default_instance : exists s', satisfied poseidon_acc 5 (u_list (newcomer pzero 9)) (aux_alloc (aux_default 5)) (u_list s').
Proof.
  eexists (mkU _ _ _ _ _ _ _). apply C74_default. split; [ reflexivity |]. split; [ reflexivity |]. split; [ intros _ _; discriminate |].
  eexists. split; [ reflexivity |]. cbn [us_balance us_nonce us_pk us_acc us_block us_height us_index].
  split; [ reflexivity |]. split; [ exact (zval_Fof_mod _) |]. repeat split; reflexivity.
Qed.
(** C75 *)
Definition userE (b : Z) : user := mkUser sk2 k2 (u64of b) (u64of 7) (scalar_of 0) 1.
Example bookkeeping_instance :
  (match spend_transaction true (userE 150) tx1 with Ok u => (zval (balance u), zval (nonce u)) | _ => (0, 0) end,
   match spend_transaction true (userE 50) tx1 with Panic => true | _ => false end,
   match spend_transaction false (userE 50) tx1 with Ok u => zval (balance u) | _ => 0 end,
   match receive_transaction true (userE 150) tx1 with Ok u => (zval (balance u), zval (nonce u)) | _ => (0, 0) end)
  = ((50, 8), true, 2 ^ 64 - 50, (250, 7)).
Proof. vm_compute. reflexivity. Qed.
(** C81 *)
Example identifier_instance :
  honest (compute_id_from_path_and_check (path_var_of 10 725) (Fof 725)) = Some (true, tt) /\
  honest (compute_id_from_path_and_check (path_var_of 10 725) (Fof 724)) = Some (false, tt).
Proof. vm_compute. auto. Qed.
(** C80: after the epoch [k3] holds coins worth 60, which is also the balance of the user who
    processed transaction 1 *)
Definition appliedP : list agg_inputsV := filter (is_applied kC r0) xsP.
Definition unflagged (k : pt) (l : list utxoV) : bool :=
  forallb (fun u => negb (v_dummy u) || negb (pt_eqb (v_pk u) k) || (zval (v_amount u) =? 0)) l.
Lemma unflagged_ok k l : unflagged k l = true -> no_flagged k l.
Proof.
  unfold unflagged, no_flagged. rewrite forallb_forall. intros H u Hu Hd Hk. specialize (H u Hu).
  rewrite Hd, Hk, pt_eqb_refl in H. cbn [negb orb] in H. now apply Z.eqb_eq.
Qed.
Lemma applied_unflagged : forallb (fun x => unflagged k3 (a4_list (v_inputs (x_tx x))) && unflagged k3 (a4_list (v_outputs (x_tx x)))) appliedP = true.
Proof. vm_compute. reflexivity. Qed.
Lemma applied_concerns : filter (concerns k3) (map x_tx appliedP) = [tx_alloc tx1].
Proof.
  assert (H : match filter (concerns k3) (map x_tx appliedP) with [t] => flist_eqb (tx_encV t) (tx_encV (tx_alloc tx1)) | _ => false end = true)
    by (vm_compute; reflexivity).
  destruct (filter (concerns k3) (map x_tx appliedP)) as [|t [|? ?]]; [ discriminate H | | discriminate H ].
  apply tx_enc_eqb in H. now rewrite H.
Qed.
Lemma coins_summary {hs : Hashes} {G : Curve} (kc k : pt) acc N to z bs z' r xs cw (c : contents utxoV_cfg) ap a s s' t :
  ivc kc to (z_list z) bs (z_list z') -> concat bs = xs -> z_tx_final z = r -> z_utxo z = merkle_root c ->
  cw = flat_map (coin_writes kc r) xs -> ~ collides utxoV_cfg utxo_encV c cw -> k <> kc ->
  ap = filter (is_applied kc r) xs ->
  (forall x, In x ap -> no_flagged k (a4_list (v_inputs (x_tx x))) /\ no_flagged k (a4_list (v_outputs (x_tx x)))) ->
  satisfied acc N (u_list s) a (u_list s') -> ux_pk a = k -> transactions a = [t] -> concerns k t = true ->
  filter (concerns k) (map x_tx ap) = [t] ->
  zval (us_balance s) = held k (live c) ->
  exists c' : contents utxoV_cfg, z_utxo z' = merkle_root c' /\
    (held k (live c') < p -> zval (us_balance s') = held k (live c')).
Proof.
  intros H E1 E2 E3 -> Hc Hk -> Hf Hs Hpk Ht Hct Hfil Hb. rewrite <- E1, <- E2 in *.
  destruct (C80_balance_is_coins kc k acc N to z bs z' c [a] s s' H E3 Hc Hk Hf) as (c' & H1 & _ & H2).
  - econstructor; [ exact Hs | constructor ].
  - intros a0 [<-|[]]. exact Hpk.
  - rewrite Hfil. cbn [flat_map]. rewrite Ht. cbn [app filter]. rewrite Hct. apply Permutation_refl.
  - exists c'. split; [ exact H1 |]. intros Hl. exact (H2 Hb Hl).
Qed.
Lemma held_none {hs : Hashes} {G : Curve} k l : (forall u, In u l -> False) -> held k l = 0.
Proof. destruct l as [|u l]; [ reflexivity |]. intros H. destruct (H u ltac:(now left)). Qed.
Lemma held_blank {hs : Hashes} {G : Curve} k : held k (live (empty_contents utxoV_cfg)) = 0.
Proof. apply held_none. exact empty_live. Qed.
Lemma bal0 : zval (us_balance (newcomer k3 0)) = 0. Proof. reflexivity. Qed.
Example balance_is_coins_instance : exists z' (c' : contents utxoV_cfg) a s',
  ivc kC false (z_list zP) bsP (z_list z') /\ z_utxo z' = merkle_root c' /\
  satisfied poseidon_acc 1 (u_list (newcomer k3 0)) a (u_list s') /\
  (held k3 (live c') < p -> zval (us_balance s') = held k3 (live c')).
Proof.
  destruct epoch_provable as (_ & b & z' & _ & _ & Hrun).
  destruct (credited k3 0) as (a & us' & H & Hpk & Hblk & Htx & E).
  destruct (one_entry a _ _ Htx regular1) as (Ei & Et & Eg).
  destruct (coins_summary kC k3 poseidon_acc 1 false zP bsP z' r0 xsP coin_wsP (empty_contents utxoV_cfg) appliedP a
              (newcomer k3 0) us' (tx_alloc tx1) Hrun bsP_xs zP_final zP_utxo coin_wsP_eq no_coin_collision) as (c' & H1 & H2).
  - intros E0. assert (H0 : pt_eqb k3 kC = false) by (vm_compute; reflexivity). apply pt_eqb_neq in H0. contradiction.
  - reflexivity.
  - intros x Hx. pose proof (proj1 (forallb_forall _ _) applied_unflagged x Hx) as Hu. cbv beta in Hu.
    apply andb_true_iff in Hu as [Hu1 Hu2]. split; apply unflagged_ok; assumption.
  - exact H.
  - exact Hpk.
  - exact Et.
  - vm_compute. reflexivity.
  - exact applied_concerns.
  - exact (eq_trans bal0 (eq_sym (held_blank k3))).
  - exists z', c', a, us'. split; [ exact Hrun |]. split; [ exact H1 |]. split; [ exact H | exact H2 ].
Qed.

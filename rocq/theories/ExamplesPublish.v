(** C131: the epoch of ExamplesCircuit.v can be published at any height; an epoch whose signer is
    not registered cannot. The instance of the dependencies is the one of Toy.v. *)
From Coq Require Import ZArith List Bool Lia Permutation.
Import ListNotations.
From Verif Require Import Base Env Toy Circuit SparseMT SparseMTSpec Data DataSpec Gadgets Schnorr HMap Contract ContractSpec
  Aggregator ExamplesAgg AggCircuit AggCircuitFacts AggCircuitSpec ExamplesCircuit TruthSpec PropsTruth PropsTruth2 ExamplesTruth
  PropsCircuit3 Claims PropsClaims PropsMute ExamplesClaims PropsPublish.
Open Scope Z_scope.

Definition named_list {hs : Hashes} {G : Curve} (k : pt) (final : F) (xs : list agg_inputsV) : list pt :=
  filter (fun x => negb (pt_eqb x pzero)) (run_signers k final xs) ++ map fst (run_deposits k xs) ++ map fst (run_withdrawals k xs).
Lemma named_in {hs : Hashes} {G : Curve} k0 final xs k : named k0 false final xs k -> In k (named_list k0 final xs).
Proof.
  unfold named_list. rewrite !in_app_iff. intros [[H N]|[_ [H|H]]]; auto. left. apply filter_In. split; [ exact H |].
  apply negb_true_iff, pt_eqb_neq. exact N.
Qed.
Lemma named_registered {hs : Hashes} {G : Curve} k0 final xs (c : contract) :
  forallb (fun k => existsb (pt_eqb k) (pks c)) (named_list k0 final xs) = true ->
  forall k, named k0 false final xs k -> In k (pks c).
Proof.
  intros H k Hk. apply named_in in Hk. rewrite forallb_forall in H. specialize (H k Hk).
  apply existsb_exists in H as (k' & Hk' & E). apply pt_eqb_eq in E. rewrite E. exact Hk'.
Qed.
Lemma namedP : forallb (fun k => existsb (pt_eqb k) (pks l1P)) (named_list kC r0 xsP) = true.
Proof. vm_compute. reflexivity. Qed.
(** two keys of signers, one deposited to and one withdrawing *)
Example named_counts : length (named_list kC r0 xsP) = 4%nat /\
  length (filter (fun x => negb (pt_eqb x pzero)) (run_signers kC r0 xsP)) = 2%nat.
Proof. vm_compute. split; reflexivity. Qed.

Lemma publish_general {hs : Hashes} {G : Curve} k0 c z bs z' b r xs (h : u64) :
  ivc k0 false (z_list z) bs (z_list z') -> begins z -> derive_public_inputs c b = Ok (z_list z') ->
  z_tx_final z = r -> concat bs = xs ->
  forallb (fun k => existsb (pt_eqb k) (pks c)) (named_list k0 r xs) = true ->
  exists b', derive_public_inputs c b' = Ok (z_list z') /\ height b' = h /\ length (b_signers b') = length xs /\
    entries_are c (b_deposits b') (run_deposits k0 xs) /\ entries_are c (b_withdrawals b') (run_withdrawals k0 xs).
Proof.
  intros H B Hd Hr Hx Hn.
  destruct (C82_truthful_block k0 c b z bs z' H B Hd) as (Ef & _).
  destruct (derive_inv c b z' Hd) as (_ & _ & _ & _ & _ & _ & _ & _ & Et & _).
  destruct (C131_publishable k0 false c z bs z' h H B ltac:(congruence)) as (b' & E1 & E2 & E3 & _ & E5 & E6).
  { rewrite Hr, Hx. exact (named_registered k0 r xs c Hn). }
  rewrite Hx in *. exists b'. repeat split; assumption.
Qed.
Example publish_instance (h : u64) : exists z' b', ivc kC false (z_list zP) bsP (z_list z') /\
  derive_public_inputs l1P b' = Ok (z_list z') /\ height b' = h /\ length (b_signers b') = 3%nat /\
  entries_are l1P (b_deposits b') (run_deposits kC xsP) /\ entries_are l1P (b_withdrawals b') (run_withdrawals kC xsP).
Proof.
  destruct epoch_provable as (Hlen & b & z' & _ & Ed & Hrun).
  destruct (publish_general kC l1P zP bsP z' b r0 xsP h Hrun begins_zP Ed zP_final bsP_xs namedP) as (b' & H1 & H2 & H3 & H4 & H5).
  rewrite Hlen in H3. exists z', b'. repeat split; assumption.
Qed.
(** a contract on which nobody registered: some named key is missing *)
Example unregistered : forallb (fun k => existsb (pt_eqb k) (pks (contract_new kC))) (named_list kC r0 xsP) = false.
Proof. vm_compute. reflexivity. Qed.

(** the transfer of the epoch pays 40 out of the pool. With its signature withheld, the contract
    still sees the withdrawal of 40, and the coin of 100 is still there. *)
Lemma root_general {hs : Hashes} {G : Curve} k0 c b z bs z' cu ct ck xs cw r :
  ivc k0 false (z_list z) bs (z_list z') -> derive_public_inputs c b = Ok (z_list z') -> begins z ->
  z_utxo z = merkle_root cu -> z_tx z = merkle_root ct -> z_signer z = merkle_root ck ->
  z_tx_final z = r -> concat bs = xs -> cw = flat_map (coin_writes k0 r) xs ->
  ~ collides utxoV_cfg utxo_encV cu cw -> ~ collides txV_cfg tx_encV ct (tx_writes Fzero xs) ->
  ~ collides keyV_cfg pt_encV ck (all_key_writes k0 r Fzero xs) ->
  r = merkle_root (written txV_cfg ct (tx_writes Fzero xs)).
Proof.
  intros H Hd (B1 & _) Hu Ht Hk Er Eb Ew N1 N2 N3.
  destruct (C129_provable_is_consistent k0 false z bs (z_list z') _ _ _ H Hu Ht Hk) as [[_ E]|[K|[K|K]]].
  - rewrite Eb in E. rewrite E in Hd.
    destruct (derive_inv c b _ Hd) as (_ & _ & _ & _ & _ & _ & _ & _ & Et & Ef & _).
    unfold outcome in Et, Ef. cbn [z_tx z_tx_final] in Et, Ef. rewrite B1 in Et. congruence.
  - rewrite Eb, Er, <- Ew in K. contradiction.
  - rewrite Eb, B1 in K. contradiction.
  - rewrite Eb, Er, B1 in K. contradiction.
Qed.
Lemma xsP_root : r0 = merkle_root (written txV_cfg (empty_contents txV_cfg) (tx_writes Fzero xsP)).
Proof.
  destruct epoch_provable as (_ & b & z' & _ & Ed & Hrun).
  exact (root_general kC l1P b zP bsP z' _ _ _ xsP coin_wsP r0 Hrun Ed begins_zP zP_utxo zP_tx zP_signer zP_final bsP_xs
           coin_wsP_eq no_coin_collision no_tx_collision no_key_collision).
Qed.
Lemma withheld_general {hs : Hashes} {G : Curve} k0 c z cu ct ck all xs last r (h : u64) :
  p <= q -> z_utxo z = merkle_root cu -> z_tx z = merkle_root ct -> z_signer z = merkle_root ck ->
  begins z -> consistent k0 false z cu ct ck all -> all = xs ++ last -> (forall x, In x last -> x_sender x <> k0) ->
  z_tx_final z = r -> r = merkle_root (written txV_cfg ct (tx_writes Fzero all)) ->
  forallb (fun k => existsb (pt_eqb k) (pks c)) (named_list k0 r all) = true ->
  exists ys zl' b, ivc k0 false (z_list z) [ys] zl' /\ derive_public_inputs c b = Ok zl' /\ height b = h /\
    tx_tree_root b = r /\ signers_are c (b_signers b) (run_signers k0 r xs ++ repeat pzero (length last)) /\
    entries_are c (b_withdrawals b) (run_withdrawals k0 all) /\
    utxo_tree_root b = merkle_root (written utxoV_cfg cu (flat_map (coin_writes k0 r) xs)).
Proof.
  intros Hpq Hu Ht Hk HB HC Ha Hl Er Hfin Hn.
  rewrite Ha in HC.
  destruct (C131_withheld_and_published k0 c z cu ct ck xs last h Hpq Hu Ht Hk HB HC Hl) as (ys & zl' & b & H).
  { rewrite Er, <- Ha. exact Hfin. }
  { rewrite Er, <- Ha. exact (named_registered k0 r all c Hn). }
  rewrite Er, <- Ha in H. exists ys, zl', b. destruct H as (_ & H1 & H2 & H3 & H4 & H5 & _ & H6 & H7). repeat split; assumption.
Qed.
Example withheld_instance (h : u64) : map snd (run_withdrawals kC xsP) = [40] /\ exists ys zl' b,
  ivc kC false (z_list zP) [ys] zl' /\ derive_public_inputs l1P b = Ok zl' /\ height b = h /\
  tx_tree_root b = r0 /\ signers_are l1P (b_signers b) (run_signers kC r0 depositP ++ repeat pzero (length lastP)) /\
  entries_are l1P (b_withdrawals b) (run_withdrawals kC xsP) /\
  utxo_tree_root b = merkle_root (written utxoV_cfg (empty_contents utxoV_cfg) (flat_map (coin_writes kC r0) depositP)).
Proof.
  split; [ vm_compute; reflexivity |].
  exact (withheld_general kC l1P zP _ _ _ xsP depositP lastP r0 h toy_pq zP_utxo zP_tx zP_signer begins_zP consistentP xsP_split
           (senders_b kC lastP (proj2 lastP_senders)) zP_final xsP_root namedP).
Qed.

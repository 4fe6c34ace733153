(** C121: a transaction answered for with a key that does not own its inputs. *)
From Coq Require Import ZArith List Bool Lia Permutation Sorted.
Import ListNotations.
From Verif Require Import Base Env Circuit SparseMT SparseMTSpec SparseMTProofs Data DataSpec DataFacts PropsData Schnorr HMap Contract ContractSpec
  PropsContract PropsBlock Aggregator AggSpec AggFacts AggSign AggIntake PropsIntake PropsSign PropsPad PropsRecord PropsLife PropsReport
  AggCircuit AggCircuitFacts AggCircuitSpec CircuitRun PropsCircuit PropsCircuit2 PropsLimits TruthSpec PropsTruth Honest PropsHonest Clean PropsSpoil
  ExactSpec PropsExact.
Open Scope Z_scope.

Section props.
  Context {hs : Hashes} {G : Curve} (dbg : bool) (contract : pt).

  (** ** Specification. The answer [k] for the transaction [t] is a stranger's: some real input of
      [t] belongs to another key. *)
  Definition stranger (t : tx) (k : pt) : Prop :=
    exists u, In u (a4_list (inputs t)) /\ is_dummy u = false /\ pk u <> k.

  Lemma stranger_not_owner t k : stranger t k -> ~ owned_by k t.
  Proof. intros (u & H1 & H2 & H3) H. exact (H3 (H u H1 H2)). Qed.

  Lemma accepted_owned to z xs z' : all_accepted contract to z xs z' ->
    forall x, In x xs -> vowned_by (x_sender x) (x_tx x).
  Proof.
    induction 1 as [z|z x z1 xs z' A H IH]; intros y Hy; [ destruct Hy |].
    destruct Hy as [<-|Hy]; [ exact (ac_owner _ _ _ _ _ A) | exact (IH y Hy) ].
  Qed.
  (** Whatever is proved, no transaction in it was sent by a stranger. *)
  Lemma proof_owned to z bs zl : ivc contract to (z_list z) bs zl ->
    forall x, In x (concat bs) -> vowned_by (x_sender x) (x_tx x).
  Proof.
    intros H x Hx. apply C106_aggregator_proof in H as (z' & _ & H). exact (accepted_owned to z (concat bs) z' H x Hx).
  Qed.

  Lemma forall2_nth {A B} (R : A -> B -> Prop) l m j a : Forall2 R l m -> nth_error l j = Some a ->
    exists b, nth_error m j = Some b /\ R a b.
  Proof.
    intros H. revert j. induction H as [|x y l m Hxy H IH]; intros [|j] Hj; try discriminate Hj.
    - assert (x = a) by (cbn [nth_error] in Hj; congruence). subst x. exists y. split; [ reflexivity | exact Hxy ].
    - cbn [nth_error] in Hj |- *. exact (IH j Hj).
  Qed.
  Lemma combine_nth {A B} (l : list A) (m : list B) j a b :
    nth_error l j = Some a -> nth_error m j = Some b -> nth_error (combine l m) j = Some (a, b).
  Proof.
    revert m j. induction l as [|x l IH]; intros [|y m] [|j] H1 H2; try discriminate H1; try discriminate H2; cbn [nth_error combine] in *.
    - congruence.
    - exact (IH m j H1 H2).
  Qed.

  (** C121. If the signing call of an epoch succeeds with a stranger's key for one of the
      transactions (which only takes a signature by that key, and not even that if it is the
      contract's), the inputs that the aggregator recorded are not provable, whether or not the
      transaction was applied: no proof of either kind, from any state to any state, cut into steps
      in any way, consists of them. *)
  Theorem C121_recorded s l s' j t k osg to z bs zl :
    reached dbg s -> a_index s + 4 * Z.of_nat (length l) < two64 ->
    process_signatures dbg s contract l = MOk s' tt ->
    nth_error (a_txs s) j = Some t -> nth_error l j = Some (k, osg) -> stranger t k ->
    concat bs = map inputs_alloc (ivc_inputs s') ->
    ~ ivc contract to (z_list z) bs zl.
  Proof.
    intros Hr Hi Hs Ht Hl Hst Hbs Hrun.
    destruct (reach_root dbg s (reached_inv dbg s Hr)) as (r & Hroot).
    destruct (C111_records dbg contract s l s' r Hr Hroot Hi Hs) as (new & E1 & E2 & E3 & _).
    assert (Hp : exists pf, nth_error (a_tx_proofs s) j = Some pf).
    { destruct (nth_error (a_tx_proofs s) j) as [pf|] eqn:E; [ exists pf; reflexivity | exfalso ].
      apply nth_error_None in E.
      assert (X : length (combine (combine (a_txs s) (a_tx_proofs s)) l) = length new) by (clear -E3; induction E3; [ reflexivity | cbn [length]; lia ]).
      rewrite !combine_length, E2 in X. assert (Y : (j < length l)%nat) by (apply nth_error_Some; rewrite Hl; discriminate). lia. }
    destruct Hp as (pf & Hp).
    pose proof (combine_nth _ _ j _ _ (combine_nth _ _ j _ _ Ht Hp) Hl) as Hn.
    destruct (forall2_nth _ _ _ _ _ E3 Hn) as (inp & Hin & R).
    unfold record_of in R. destruct R as (R1 & _ & R3 & _).
    assert (Hx : In (inputs_alloc inp) (concat bs)).
    { rewrite Hbs, E1. apply in_map. apply in_or_app. right. exact (nth_error_In _ _ Hin). }
    pose proof (proof_owned to z bs zl Hrun _ Hx) as Ho. cbn [inputs_alloc x_sender x_tx] in Ho.
    rewrite R1, R3 in Ho. apply vowned_alloc in Ho. exact (stranger_not_owner t k Hst Ho).
  Qed.

  (** Nor does any other choice of inputs help: a proof for the block of an epoch in which a
      stranger's transaction was applied exhibits a hash collision. *)
  Theorem C121_block s l s' r kc calls c b pi j t k osg z bs :
    reached dbg s -> fits contract s l -> root (a_tx_tree s) = Ok r -> Z.of_nat (length (a_txs s)) <= 4096 ->
    a_signers s = [] -> a_deposits s = [] -> a_withdrawals s = [] ->
    process_signatures dbg s contract l = MOk s' tt ->
    history dbg kc calls c -> Z.of_nat (length (pks c)) <= 2 ^ 32 ->
    produce_block s' c = Ok b -> derive_public_inputs c b = Ok pi ->
    nth_error (a_txs s) j = Some t -> nth_error l j = Some (k, osg) ->
    authorised contract r t (k, osg) = true -> k <> pzero -> stranger t k ->
    begins z -> ivc contract false (z_list z) bs pi ->
    let xs := concat bs in
    let pos := Z.of_nat j in
    collides txV_cfg tx_encV (empty_contents txV_cfg) (tx_writes Fzero xs) \/
    collision2 (genuine_path (txs_of xs) pos ++ genuine_path (epoch_txs (a_txs s)) pos) \/
    crh_collision (tx_encV (txs_of xs pos)) (tx_enc t) \/
    exists keys, signers_are c (b_signers b) keys /\
      sha_event (chain_inputs Fzero (map pt_bytes keys) ++ chain_inputs Fzero (map pt_bytes (run_signers contract r xs))).
  Proof.
    intros Hr Hf Hroot Hlen Z1 Z2 Z3 Hs Hh Hsm Hb Hpi Ht Hl Ha Hk Hst Hz Hrun xs pos.
    assert (Hr' : reached dbg s').
    { apply (reached_sign dbg s contract l s' Hr Hf). left. exists tt. exact Hs. }
    pose proof (run_ok dbg contract s l s' Hr Hf Hs) as HS.
    pose proof (steps_txs dbg contract 0 l s s' HS) as Etx.
    destruct (C99_block_reports dbg contract s l s' r kc calls c b Hr Hf Hroot Z1 Z2 Z3 Hs Hh Hsm Hb) as (L1 & L2 & _ & _ & L5 & _).
    assert (Hz' : exists z', pi = z_list z').
    { apply C106_aggregator_proof in Hrun as (z' & E & _). exists z'. exact E. }
    destruct Hz' as (z' & Epi). subst pi.
    destruct (C82_truthful_block contract c b z bs z' Hrun Hz Hpi) as (_ & _ & keys & deps & wds & K1 & _ & _ & K4 & _).
    fold xs in K4. rewrite L5 in K4. destruct K4 as [K4|K4]; [| right; right; right; exists keys; split; [ exact K1 | exact K4 ] ].
    assert (LA : length (b_signers b) = length l).
    { rewrite <- L1. clear -L2. induction L2; [ reflexivity | cbn [length]; lia ]. }
    assert (LB : length keys = length (b_signers b)).
    { clear -K1. unfold signers_are in K1. induction K1; [ reflexivity | cbn [length]; lia ]. }
    assert (LC : length xs = length l).
    { rewrite <- LA, <- LB, K4. unfold run_signers. rewrite map_length. reflexivity. }
    assert (LD : (length l <= length (a_txs s))%nat) by (rewrite <- L1, combine_length; lia).
    assert (Hj : (j < length l)%nat) by (apply nth_error_Some; rewrite Hl; discriminate).
    (* the sender proved at [j] *)
    destruct (forall2_nth _ _ _ _ _ L2 (combine_nth _ _ j _ _ Ht Hl)) as (o & Ho & No).
    unfold names_signer in No. cbn [fst snd] in No. rewrite Ha in No. destruct No as (i & -> & Hi).
    destruct (forall2_nth _ _ _ _ _ K1 Ho) as (kj & Hkj & Ek). cbn in Ek.
    assert (Ekj : kj = k).
    { destruct Hi as [_ Hi]. destruct Hi as [Hi _]. unfold key_of in Ek. rewrite Hi in Ek. congruence. }
    subst kj. rewrite K4 in Hkj. unfold run_signers in Hkj. rewrite nth_error_map in Hkj.
    destruct (nth_error xs j) as [x|] eqn:Hx; [| discriminate Hkj ]. cbn [option_map] in Hkj.
    assert (Hsend : x_sender x = k).
    { destruct (is_applied contract r x); [ congruence | exfalso; apply Hk; congruence ]. }
    (* the transaction proved at [j] *)
    assert (Hpos : 0 <= pos < 4096) by (unfold pos; lia).
    destruct Hz as (Hz1 & Hz2 & _).
    assert (HL' : Z.of_nat (length (a_txs s')) <= 4096) by (rewrite Etx; exact Hlen).
    assert (HX : Z.of_nat (length (concat bs)) <= 4096) by (fold xs; lia).
    pose proof (C95_same_transactions dbg s' c b (z_list z') contract false z bs pos Hr' HL' Hb Hpi Hz1 Hz2 Hrun HX Hpos) as C95.
    cbv zeta in C95. fold xs in C95. rewrite Etx in C95.
    assert (Et : tx_contents (a_txs s) pos = t).
    { unfold tx_contents. destruct (pos <? 0) eqn:E; [ apply Z.ltb_lt in E; lia |]. unfold pos. rewrite Nat2Z.id. exact (nth_error_nth _ _ tx_default Ht). }
    rewrite Et in C95. destruct C95 as [C95|[C95|[C95|C95]]];
      [ exfalso | left; exact C95 | right; left; exact C95 | right; right; left; exact C95 ].
    assert (Ex : txs_of xs pos = x_tx x).
    { unfold txs_of. destruct (pos <? 0) eqn:E; [ apply Z.ltb_lt in E; lia |]. unfold pos. rewrite Nat2Z.id.
      apply nth_error_nth. rewrite nth_error_map, Hx. reflexivity. }
    pose proof (proof_owned false z bs (z_list z') Hrun x (nth_error_In _ _ Hx)) as Hown.
    rewrite <- Ex, C95, Hsend in Hown. apply vowned_alloc in Hown. exact (stranger_not_owner t k Hst Hown).
  Qed.
End props.

Print Assumptions C121_recorded.
Print Assumptions C121_block.

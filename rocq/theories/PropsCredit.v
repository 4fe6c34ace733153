(** Property C90: what a user's proof step over a proved block credits. *)
From Coq Require Import ZArith List Bool Lia.
Import ListNotations.
From Verif Require Import Base Env Circuit SparseMT SparseMTSpec Data DataSpec DataFacts Gadgets Schnorr HMap Contract ContractSpec Aggregator
  AggCircuit AggCircuitFacts AggCircuitSpec CircuitRun PropsCircuit PropsCircuit2 TruthSpec PropsTruth
  Client ClientSpec ClientFacts PropsClient.
Open Scope Z_scope.

Section props.
  Context {hs : Hashes} {G : Curve}.
  Variables (acc : accumulator) (N : nat) (contract : pt).

  (** [x] is transaction number [j] of the epoch and passed the circuit's checks: the inputs belong
      to the sender, the totals agree, every output is a 64-bit amount *)
  Definition proved_tx (xs : list agg_inputsV) (j : nat) (x : agg_inputsV) : Prop :=
    nth_error xs j = Some x /\ vowned_by (x_sender x) (x_tx x) /\
    vtotal_in (x_tx x) mod p = vtotal_out (x_tx x) mod p /\
    forall u, In u (a4_list (v_outputs (x_tx x))) -> zval (v_amount u) < 2 ^ 64.

  Lemma regular_not_default : regular (tx_alloc tx_default) = false.
  Proof.
    unfold regular. assert (E : tx_hashV (tx_alloc tx_default) = tx_hash tx_default) by (unfold tx_hashV, tx_hash; now rewrite tx_encV_alloc).
    rewrite E. now rewrite Feqb_refl.
  Qed.
  Lemma txs_of_regular xs pos t : 0 <= pos -> t = txs_of xs pos -> regular t = true ->
    exists x, nth_error xs (Z.to_nat pos) = Some x /\ x_tx x = t.
  Proof.
    intros Hp E Hr. unfold txs_of in E. replace (pos <? 0) with false in E by (symmetry; apply Z.ltb_ge; lia).
    destruct (nth_error (map x_tx xs) (Z.to_nat pos)) as [t'|] eqn:En.
    - rewrite (nth_error_nth _ _ _ En) in E. subst t'. rewrite nth_error_map in En.
      destruct (nth_error xs (Z.to_nat pos)) as [x|] eqn:Ex; cbn [option_map] in En; [| discriminate En ].
      exists x. split; [ reflexivity | congruence ].
    - rewrite nth_overflow in E by (apply nth_error_None; exact En). rewrite E, regular_not_default in Hr. discriminate Hr.
  Qed.
  Lemma crun_all xs z z' : crun contract false z xs z' -> forall j x, nth_error xs j = Some x -> proved_tx xs j x.
  Proof.
    intros H j x Hj. pose proof (crun_steps contract false xs z z' H) as HS. rewrite Forall_forall in HS.
    destruct (HS x (nth_error_In _ _ Hj)) as (za & zb & _ & Hw & Hs).
    pose proof (step_facts_of contract false za x zb Hw Hs) as S. destruct (sf_valid _ _ _ _ _ S) as [Ho Hm].
    split; [ exact Hj |]. split; [ exact Ho |]. split; [ exact Hm |]. exact (sf_range _ _ _ _ _ S eq_refl).
  Qed.
  Lemma key_writes_new final step xs w : In w (all_key_writes contract final step xs) ->
    exists x, In x xs /\ is_applied contract final x = true /\ w_new w = x_sender x.
  Proof.
    revert step. induction xs as [|x xs IH]; intros step H; cbn [all_key_writes] in H; [ destruct H |].
    apply in_app_or in H as [H|H].
    - unfold key_writes in H. destruct (is_applied contract final x) eqn:E; [| destruct H ].
      destruct H as [<-|[]]. exists x. split; [ now left |]. auto.
    - destruct (IH _ H) as (y & Hy & H1 & H2). exists y. split; [ now right |]. auto.
  Qed.
  Lemma written_from (P : SparseConfig) ws : forall (c : contents P) i,
    written P c ws i = c i \/ exists w, In w ws /\ written P c ws i = w_new w.
  Proof.
    induction ws as [|w ws IH]; intros c i; cbn [written]; [ now left |].
    destruct (IH (set_leaf c (w_pos w) (w_new w)) i) as [E|(v & Hv & E)].
    - rewrite E. unfold set_leaf. destruct (i =? w_pos w); [ right; exists w; split; [ now left | reflexivity ] | now left ].
    - right. exists v. split; [ now right | exact E ].
  Qed.

  Theorem C90_credited_transactions c b z bs z' (cs : contents keyV_cfg) s a zu n t i tp sp :
    (* the block is proved *)
    ivc contract false (z_list z) bs (z_list z') -> begins z -> derive_public_inputs c b = Ok (z_list z') ->
    Z.of_nat (length (concat bs)) <= 4096 -> z_signer z = merkle_root cs ->
    (* a user's step over the roots of that block *)
    satisfied acc N (u_list s) a zu ->
    vb_tx_root (ux_block a) = tx_tree_root b -> vb_signer_root (ux_block a) = signer_tree_root b ->
    item_at a n t i tp sp -> regular t = true ->
    let xs := concat bs in
    let pos := zval i mod 4096 in
    (* the transaction is the one at that index of the epoch *)
    ((exists x, proved_tx xs (Z.to_nat pos) x /\ x_tx x = t) \/
     collides txV_cfg tx_encV (empty_contents txV_cfg) (tx_writes Fzero xs) \/
     collision2 (tp ++ genuine_path (txs_of xs) pos) \/ crh_collision (tx_encV t) (tx_encV (txs_of xs pos))) /\
    (* its signer signed something in this epoch, or was in the signer tree before, or the tree has
       the identity, the signer of transactions without inputs, at an unused place *)
    (let ws := all_key_writes contract (tx_tree_root b) Fzero xs in
     let ck := written keyV_cfg cs ws in
     (exists x, In x xs /\ is_applied contract (tx_tree_root b) x = true /\ x_sender x = signer_of t) \/
     (exists j, 0 <= j < 4096 /\ cs j = signer_of t) \/
     collides keyV_cfg pt_encV cs ws \/
     (exists j, 0 <= j < 4096 /\ (collision2 (sp ++ genuine_path ck j) \/ crh_collision (pt_encV (signer_of t)) (pt_encV (ck j))))).
  Proof.
    intros H Hb Hd Hn Hsg Hu Et Es Hi Hr xs pos.
    destruct (C82_truthful_block contract c b z bs z' H Hb Hd) as (Ef & Htx & _).
    specialize (Htx Hn). fold xs in Htx.
    destruct (C67_inclusion acc N s a zu n t i tp sp Hu Hi Hr) as [I1 I2].
    pose proof H as Hrun. apply ivc_crun in Hrun as (z1 & E1 & Hrun). apply z_list_inj in E1. subst z1. fold xs in Hrun.
    assert (Hpos : 0 <= pos) by (unfold pos; apply Z.mod_pos_bound; lia).
    split.
    - destruct Htx as [Htx|Htx]; [| right; left; exact Htx ].
      destruct (I1 (txs_of xs) (eq_trans Et Htx)) as [I|[I|I]].
      + left. fold pos in I. destruct (txs_of_regular xs pos t Hpos I Hr) as (x & Hx & E). exists x. split; [| exact E ].
        exact (crun_all xs z z' Hrun _ _ Hx).
      + right. right. left. exact I.
      + right. right. right. exact I.
    - intros ws ck. destruct Hb as (B1 & _).
      destruct (C60_signers contract false z bs z' cs H Hsg) as [_ K]. cbv zeta in K. fold xs in K. rewrite Ef, B1 in K. fold ws in K.
      destruct K as [[_ K]|K]; [| right; right; left; exact K ].
      destruct (derive_inv c b z' Hd) as (_ & _ & _ & _ & _ & _ & _ & _ & _ & _ & Esr & _).
      assert (Esk : vb_signer_root (ux_block a) = merkle_root ck) by (rewrite Es, <- Esr; exact K).
      destruct (I2 ck Esk) as (j & Hj & [J|J]); [| right; right; right; exists j; split; [ exact Hj | exact J ] ].
      destruct (written_from keyV_cfg ws cs j) as [W|(w & Hw & W)].
      + right. left. exists j. split; [ exact Hj |]. exact (eq_trans (eq_sym W) (eq_sym J)).
      + left. destruct (key_writes_new _ _ _ _ Hw) as (x & Hx & Ha & Ex). exists x. split; [ exact Hx |]. split; [ exact Ha |].
        exact (eq_trans (eq_sym Ex) (eq_trans (eq_sym W) (eq_sym J))).
  Qed.

  (** such a transaction brings nobody more than four 64-bit amounts *)
  Theorem C90_gain_bound xs j x k : proved_tx xs j x -> gain k (x_tx x) <= 4 * (2 ^ 64 - 1).
  Proof.
    intros (_ & _ & _ & H). unfold gain.
    assert (A : forall l, 0 <= held k l).
    { induction l as [|u l IH]; cbn [held]; [ lia |]. pose proof (F_range (v_amount u)). destruct (pt_eqb (v_pk u) k); lia. }
    assert (B : forall l, (forall u, In u l -> zval (v_amount u) < 2 ^ 64) -> held k l <= Z.of_nat (length l) * (2 ^ 64 - 1)).
    { induction l as [|u l IH]; intros Hl; [ cbn; lia |]. cbn [held length].
      pose proof (F_range (v_amount u)). pose proof (Hl u (or_introl eq_refl)) as Hu.
      specialize (IH (fun v I => Hl v (or_intror I))). rewrite Nat2Z.inj_succ. destruct (pt_eqb (v_pk u) k); lia. }
    specialize (B _ H). pose proof (A (a4_list (v_inputs (x_tx x)))).
    replace (Z.of_nat (length (a4_list (v_outputs (x_tx x))))) with 4 in B by (destruct (v_outputs (x_tx x)); reflexivity). lia.
  Qed.
End props.

Print Assumptions C90_credited_transactions.
Print Assumptions C90_gain_bound.

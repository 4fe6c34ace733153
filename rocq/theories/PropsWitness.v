(** C01 for the trees of the protocol. C101: the witness the code computes proves whatever can be proved. C102: the predicate
    [tx_is_deposit] against what the step does. *)
From Coq Require Import ZArith List Bool Lia.
Import ListNotations.
From Verif Require Import Base Env Circuit SparseMT SparseMTSpec SparseMTHeap SparseMTRep SparseMTProofs
  SparseMTGadget SparseMTGadgetProofs Data Gadgets GadgetsProofs Schnorr SchnorrProofs Contract Aggregator
  AggCircuit AggCircuitSpec AggCircuitFacts Client ClientSpec ClientFacts PropsClient2
  DataSpec DataFacts CircuitRun PropsCircuit PropsCircuit2 PropsCircuit3 PropsTree.
Open Scope Z_scope.

Section witness.
  Context {hs : Hashes} {G : Curve}.

  (** ** C01: the trees of the protocol *)
  (** the blank tree of [P] has [2^n] positions and holds [leaf] at each of them *)
  Definition blank_holds (P : SparseConfig) (n : nat) (leaf : Leaf P) : Prop :=
    capacity P = 2 ^ Z.of_nat n /\
    exists r, root (blank P) = Ok r /\
      forall dbg i, 0 <= i < 2 ^ Z.of_nat n ->
        exists path, generate_proof dbg P (blank P) i leaf = Ok path /\ verify_with_index dbg P path r leaf i = Ok true.
  Lemma blank_holds_default (P : SparseConfig) n (leaf : Leaf P) :
    cfg_ok P -> HEIGHT P = S n -> LeafDefault P = leaf -> blank_holds P n leaf.
  Proof.
    intros Hok Hh <-.
    assert (Ec : capacity P = 2 ^ Z.of_nat n).
    { unfold capacity. rewrite Hh. f_equal. lia. }
    split; [ exact Ec |].
    destruct (C01_blank_root P Hok) as [E H]. exists (merkle_root (empty_contents P)). split; [ exact E |].
    intros dbg i Hi. destruct (H dbg i) as (path & H1 & H2 & _).
    - unfold in_range. rewrite Ec. exact Hi.
    - exists path. split; assumption.
  Qed.
  (** The coin tree starts with 2^31 empty coins, the transaction tree with 2^12 empty
      transactions, the signer tree with 2^12 identity keys, the nonce tree with 2^31 zeros. *)
  Theorem C01_trees :
    let no_coin := mkUtxo (u64of 0) pzero true in
    let no_coins := A4 no_coin no_coin no_coin no_coin in
    blank_holds utxo_cfg 31 no_coin /\ blank_holds tx_cfg 12 (mkTx no_coins no_coins) /\
    blank_holds signer_cfg 12 pzero /\ blank_holds nonce_cfg 31 (u64of 0).
  Proof.
    split; [ apply blank_holds_default; [ apply utxo_cfg_ok | reflexivity | reflexivity ] |].
    split; [ apply blank_holds_default; [ apply tx_cfg_ok | reflexivity | reflexivity ] |].
    split; [ apply blank_holds_default; [ apply signer_cfg_ok | reflexivity | reflexivity ] |].
    apply blank_holds_default; [ unfold cfg_ok; cbn; lia | reflexivity | reflexivity ].
  Qed.

  (** ** When synthesis does not abort *)
  Definition synthesises {A} (c : circ A) : Prop := exists r, honest c = Some r.
  Lemma synth_bind {A B} (c : circ A) (f : A -> circ B) :
    synthesises (cbind c f) -> exists ok a, honest c = Some (ok, a) /\ synthesises (f a).
  Proof.
    intros (r & H). rewrite honest_bind in H. destruct (honest c) as [[ok a]|]; [| discriminate H ].
    exists ok, a. split; [ reflexivity |]. unfold synthesises. destruct (honest (f a)); [ eauto | discriminate H ].
  Qed.
  Lemma synth_update (P : SparseConfig) (Pg : GadgetConfig) path lo ln idx r :
    cfg_ok P -> GHEIGHT Pg = HEIGHT P -> honest (update_root Pg path lo ln idx) = Some r ->
    length path = (HEIGHT P - 1)%nat.
  Proof.
    intros Hok HH H. rewrite (update_root_honest P Pg Hok HH) in H.
    destruct (length path =? HEIGHT P - 1)%nat eqn:E; [ now apply Nat.eqb_eq | discriminate H ].
  Qed.
  Lemma synth_cfold {A S} (f : S -> A -> circ S) (Q : A -> Prop) l : forall s,
    (forall s x, synthesises (f s x) -> Q x) -> synthesises (cfold f l s) -> Forall Q l.
  Proof.
    induction l as [|x l IH]; intros s H Hs; [ constructor |].
    cbn [cfold] in Hs. apply synth_bind in Hs as (ok & a & Hh & Hs). constructor; [| eapply IH; eauto ].
    apply (H s). now exists (ok, a).
  Qed.
  Lemma synth_delete sv root x : synthesises (c_delete sv root x) -> length (snd (fst x)) = 31%nat.
  Proof.
    destruct x as [[u pf] pos]. cbn [fst snd]. unfold c_delete. intros H.
    apply synth_bind in H as (ok & a & Hh & _). exact (synth_update utxo_cfg utxo_gcfg _ _ _ _ _ utxo_cfg_ok eq_refl Hh).
  Qed.
  Lemma synth_output contract to sc tv st x : synthesises (c_output contract to sc tv st x) -> length (snd (fst x)) = 31%nat.
  Proof.
    destruct st as [[ur da] wa], x as [[u pf] pos]. cbn [fst snd]. unfold c_output. intros H.
    apply synth_bind in H as (? & ? & _ & H).
    apply synth_bind in H as (ok & a & Hh & _). exact (synth_update utxo_cfg utxo_gcfg _ _ _ _ _ utxo_cfg_ok eq_refl Hh).
  Qed.
  Lemma synth_step contract to z x : synthesises (c_step contract to z x) -> well_shaped x.
  Proof.
    unfold c_step. intros H.
    apply synth_bind in H as (? & ? & _ & H).
    apply synth_bind in H as (? & [? ?] & Ht & H).
    apply (synth_update tx_cfg tx_gcfg _ _ _ _ _ tx_cfg_ok eq_refl) in Ht.
    apply synth_bind in H as (? & ? & _ & H).
    apply synth_bind in H as (? & sv & _ & H).
    apply synth_bind in H as (? & ? & Hd & H).
    apply synth_bind in H as (? & [[? ?] ?] & Ha & H).
    apply synth_bind in H as (? & [? ?] & Hs & _).
    apply (synth_update signer_cfg signer_gcfg _ _ _ _ _ signer_cfg_ok eq_refl) in Hs.
    split; [ exact Ht | split; [ exact Hs | split ] ].
    - eapply synth_cfold; [| eexists; exact Hd ]. intros s y Hy. exact (synth_delete _ _ _ Hy).
    - eapply synth_cfold; [| eexists; exact Ha ]. intros s y Hy. exact (synth_output _ _ _ _ _ _ Hy).
  Qed.

  (** ** C101 *)
  Lemma batch_computes contract to b : Forall wf_input b -> Forall well_shaped b -> forall z,
    computes (cfold (c_step contract to) b z)
      (ok_fold (step_ok contract to) (step_next contract to) b z) (fold_left (step_next contract to) b z).
  Proof.
    intros Hw Hs z. apply computes_cfold. intros s x Hx. rewrite Forall_forall in Hw, Hs.
    apply step_computes; [ exact (Hw x Hx) | exact (Hs x Hx) ].
  Qed.
  Lemma list8 (z : list F) : (8 <= length z)%nat <-> exists s, z_of_list z = Some s.
  Proof.
    do 8 (destruct z as [|? z]; [ cbn; split; [ lia | intros (? & E); discriminate E ] |]).
    cbn [length z_of_list]. split; [ eauto | lia ].
  Qed.
  (** the lengths of the Merkle proofs of one transaction's inputs *)
  Definition proof_lengths (x : agg_inputsV) : Prop :=
    length (x_tx_proof x) = 12%nat /\ length (x_signer_proof x) = 12%nat /\
    (forall pf, In pf (a4_list (x_del_proofs x)) -> length pf = 31%nat) /\
    (forall pf, In pf (a4_list (x_add_proofs x)) -> length pf = 31%nat).
  Lemma shaped_lengths x : well_shaped x <-> proof_lengths x.
  Proof.
    unfold well_shaped, proof_lengths, dels, adds, a4_zip3, a4_list.
    assert (E : forall {A B} (u0 u1 u2 u3 : A) (p0 p1 p2 p3 : list F) (c0 c1 c2 c3 : B),
      Forall (fun y : A * list F * B => length (snd (fst y)) = 31%nat) [(u0, p0, c0); (u1, p1, c1); (u2, p2, c2); (u3, p3, c3)] <->
      (forall pf, In pf [p0; p1; p2; p3] -> length pf = 31%nat)).
    { intros. rewrite <- Forall_forall. rewrite !Forall_cons_iff, !Forall_nil_iff. cbn [fst snd]. reflexivity. }
    rewrite !E. reflexivity.
  Qed.
  (** The step synthesises for exactly the states of at least eight elements and the batches all
      of whose Merkle proofs have the configured lengths; nothing else of the inputs matters. *)
  Theorem C101_synthesis contract to z b : Forall wf_input b ->
    ((exists r, honest (generate_step_constraints contract to z b) = Some r) <->
     (8 <= length z)%nat /\ Forall proof_lengths b).
  Proof.
    intros Hw. rewrite list8. unfold generate_step_constraints. split.
    - intros (r & H). destruct (z_of_list z) as [s|]; [| discriminate H ]. split; [ eauto |].
      destruct (synth_bind _ _ (ex_intro _ r H)) as (ok & a & Hh & _).
      assert (Hs : Forall well_shaped b).
      { eapply synth_cfold; [| eexists; exact Hh ]. intros s' y Hy. exact (synth_step _ _ _ _ Hy). }
      eapply Forall_impl; [| exact Hs ]. intros x. apply shaped_lengths.
    - intros ((s & ->) & Hl).
      assert (Hs : Forall well_shaped b) by (eapply Forall_impl; [| exact Hl ]; intros x; apply shaped_lengths).
      rewrite honest_bind, (proj1 (batch_computes contract to b Hw Hs s)). cbn [honest]. eauto.
  Qed.
  (** A step of the aggregator's proof that any prover can make, the code's own witness
      computation makes, with the same result. *)
  Theorem C101_aggregator_witness contract to z b z' : Forall wf_input b ->
    (sat (generate_step_constraints contract to z b) z' <->
     honest (generate_step_constraints contract to z b) = Some (true, z')).
  Proof.
    intros Hw. split; [| apply honest_sat ].
    unfold generate_step_constraints. destruct (z_of_list z) as [s|]; [| intros [] ].
    intros H. pose proof H as H0. rewrite sat_bind in H0. destruct H0 as (a & Ha & _).
    assert (Hs : Forall well_shaped b).
    { eapply cfold_sat_all; [| exact Ha ]. intros s' x r Hr. exact (step_shaped _ _ _ _ _ Hr). }
    pose proof (computes_bind _ (fun z' => Ret (z_list z')) _ _ _ _ (batch_computes contract to b Hw Hs s)
                  (computes_ret (z_list (fold_left (step_next contract to) b s)))) as [C1 C2].
    apply C2 in H as [H1 ->]. rewrite H1 in C1. exact C1.
  Qed.
  (** Likewise for a step of a client's proof. *)
  Theorem C101_client_witness acc N z a z' :
    satisfied acc N z a z' <-> honest (update_balance acc N z a) = Some (true, z').
  Proof.
    split; [| apply honest_sat ]. intros H.
    destruct (ustep_shape _ _ _ _ _ H) as (s & Es & L & I).
    pose proof (ustep_computes acc N z s a Es L I) as [C1 C2].
    pose proof (proj1 (C2 z') H) as [E1 E2]. rewrite E1 in C1. rewrite E2. exact C1.
  Qed.
  (** A whole run that any sequence of provers can make, the code's own witness computation makes. *)
  Definition code_step contract to (z : option (list F)) (b : list agg_inputsV) : option (list F) :=
    match z with
    | None => None
    | Some z => match honest (generate_step_constraints contract to z b) with
                | Some (true, z1) => Some z1 | _ => None end
    end.
  Theorem C101_run contract to bs : forall z z',
    ivc contract to z bs z' <->
    Forall (Forall wf_input) bs /\ fold_left (code_step contract to) bs (Some z) = Some z'.
  Proof.
    assert (N : forall l, fold_left (code_step contract to) l None = None) by (induction l; auto).
    induction bs as [|b bs IH]; intros z z'; cbn [fold_left].
    - split; [ intros H; inversion H; subst; split; [ constructor | reflexivity ] |].
      intros [_ E]. assert (z = z') as -> by congruence. constructor.
    - split.
      + intros H. inversion H as [|? ? z1 ? ? Hw Hs Hr]; subst. apply IH in Hr as [Hf Hr].
        split; [ constructor; assumption |]. cbn [code_step].
        apply C101_aggregator_witness in Hs; [| exact Hw ]. now rewrite Hs.
      + intros [Hf H]. cbn [code_step] in H. pose proof (Forall_inv Hf) as Hw. apply Forall_inv_tail in Hf.
        destruct (honest (generate_step_constraints contract to z b)) as [[[] z1]|] eqn:E; try (rewrite N in H; discriminate H).
        apply (ivc_cons _ _ _ _ z1); [ exact Hw | now apply C101_aggregator_witness | apply IH; now split ].
  Qed.
  (** The default inputs, used to preprocess the circuit: what they are, and that a batch of any
      number of them synthesises. *)
  Theorem C101_default :
    (forall c, In c (a4_list (inputs (i_tx inputs_default)) ++ a4_list (outputs (i_tx inputs_default))) ->
       c = utxo_dummy) /\
    (forall f, In f (a4_list (i_del_pos inputs_default) ++ a4_list (i_add_pos inputs_default)) -> f = Fzero) /\
    (forall pf, In pf (a4_list (i_del_proofs inputs_default) ++ a4_list (i_add_proofs inputs_default)) ->
       pf = repeat Fzero 31) /\
    i_tx_proof inputs_default = repeat Fzero 12 /\ i_signer_proof inputs_default = repeat Fzero 12 /\
    i_sender inputs_default = pzero /\ i_sig inputs_default = mkSig (scalar_of 0) (scalar_of 0) /\
    (forall contract to z B, length z = 8%nat ->
       exists r, honest (generate_step_constraints contract to z (repeat (inputs_alloc inputs_default) B)) = Some r).
  Proof.
    split; [ cbn; intros c H; repeat (destruct H as [<-|H]; [ reflexivity |]); destruct H |].
    split; [ cbn; intros c H; repeat (destruct H as [<-|H]; [ reflexivity |]); destruct H |].
    split; [ cbn [a4_list inputs_default i_del_proofs i_add_proofs a4_const a4_0 a4_1 a4_2 a4_3 app];
             intros c H; repeat (destruct H as [<-|H]; [ reflexivity |]); destruct H |].
    do 4 (split; [ reflexivity |]).
    intros contract to z B Hz. apply C101_synthesis.
    - apply Forall_forall. intros x Hx. apply repeat_spec in Hx as ->. unfold wf_input.
      cbn [inputs_alloc x_sig sig_alloc v_e].
      rewrite firstn_length, bits_le_length. reflexivity.
    - split; [ lia |]. apply Forall_forall. intros x Hx. apply repeat_spec in Hx as ->.
      apply shaped_lengths. unfold well_shaped. repeat split; repeat constructor.
  Qed.
  (** the batch of a step really is a sequence: the one output of a step on a batch is the output
      of stepping through its transactions one by one *)
  Theorem C101_one_by_one contract to z x b z' :
    sat (generate_step_constraints contract to z (x :: b)) z' <->
    exists z1, sat (generate_step_constraints contract to z [x]) z1 /\
               sat (generate_step_constraints contract to z1 b) z'.
  Proof.
    unfold generate_step_constraints. destruct (z_of_list z) as [s|]; [| split; [ intros [] | intros (? & [] & _) ] ].
    cbn [cfold]. split.
    - intros H. rewrite sat_bind in H. destruct H as (a & Ha & H). rewrite sat_bind in Ha. destruct Ha as (s1 & H1 & H2).
      exists (z_list s1). split.
      + rewrite sat_bind. exists s1. split; [ rewrite sat_bind; exists s1; now split | reflexivity ].
      + cbn [z_of_list z_list]. destruct s1 as [a0 a1 a2 a3 a4 a5 a6 a7]. cbn [z_step z_utxo z_tx z_tx_final z_signer z_signer_acc z_deposit z_withdrawal].
        rewrite sat_bind. eauto.
    - intros (z1 & H1 & H2). rewrite sat_bind in H1. destruct H1 as (s1 & H1 & E). cbn [sat] in E. subst z1.
      rewrite sat_bind in H1. destruct H1 as (s1' & H1 & E). cbn [sat] in E. subst s1'.
      destruct s1 as [a0 a1 a2 a3 a4 a5 a6 a7]. cbn [z_of_list z_list z_step z_utxo z_tx z_tx_final z_signer z_signer_acc z_deposit z_withdrawal] in H2.
      rewrite sat_bind in H2. destruct H2 as (s2 & H2 & E).
      rewrite sat_bind. exists s2. split; [| exact E ]. rewrite sat_bind. eauto.
  Qed.

  (** ** C102: [tx_is_deposit] *)
  Theorem C102_is_deposit t contract :
    tx_is_deposit t contract = true <->
    forall c, In c (a4_list (v_inputs t)) -> v_dummy c = false -> v_pk c = contract.
  Proof.
    unfold tx_is_deposit. rewrite forallb_forall. split; intros H c Hc.
    - intros Hd. specialize (H c Hc). rewrite Hd in H. cbn in H. now apply pt_eqb_eq.
    - destruct (v_dummy c) eqn:Hd; [ reflexivity |]. cbn. apply pt_eqb_eq. auto.
  Qed.
  (** For a transaction that passes a step with sender [s], it says: the contract sent it, or it
      has no input at all. The step itself goes by the sender, so the two differ exactly on
      transactions of others that consume nothing. *)
  Theorem C102_against_step contract to z x z' : wf_input x ->
    sat (generate_step_constraints contract to z [x]) z' ->
    (tx_is_deposit (x_tx x) contract = true <->
     x_sender x = contract \/ forall c, In c (a4_list (v_inputs (x_tx x))) -> v_dummy c = true).
  Proof.
    intros Hw H. unfold generate_step_constraints in H. destruct (z_of_list z) as [s|]; [| destruct H ].
    rewrite sat_bind in H. destruct H as (a & H & _). cbn [cfold] in H. rewrite sat_bind in H. destruct H as (s1 & H & _).
    unfold c_step in H. rewrite sat_bind in H. destruct H as ([] & H & _).
    apply (proj2 (enforce_valid_computes x) tt) in H as [H _]. unfold valid_ok in H.
    apply andb_true_iff in H as [H _]. rewrite forallb_forall in H.
    assert (Ho : forall c, In c (a4_list (v_inputs (x_tx x))) -> v_dummy c = false -> v_pk c = x_sender x).
    { intros c Hc Hd. specialize (H c Hc). rewrite Hd in H. cbn in H. now apply pt_eqb_eq. }
    rewrite C102_is_deposit. split.
    - intros Hc. destruct (pt_eqb (x_sender x) contract) eqn:E; [ left; now apply pt_eqb_eq | right ].
      apply pt_eqb_neq in E. intros c Hin. destruct (v_dummy c) eqn:Hd; [ reflexivity |]. exfalso. apply E.
      rewrite <- (Ho c Hin Hd). auto.
    - intros [<-|Hc] c Hin Hd; [ exact (Ho c Hin Hd) |]. rewrite (Hc c Hin) in Hd. discriminate Hd.
  Qed.
  (** Such a transaction exists whatever the state and the key: it counts as a deposit for the
      predicate, but the step records none. *)
  Theorem C102_differs contract z (ct : contents txV_cfg) (k : pt) :
    p <= q -> k <> contract ->
    (exists cu : contents utxoV_cfg, z_utxo z = merkle_root cu) ->
    (exists ck : contents keyV_cfg, z_signer z = merkle_root ck) ->
    z_tx z = merkle_root ct -> ct (slot_of txV_cfg (z_step z)) = tx_alloc tx_default ->
    exists x z', wf_input x /\ x_sender x = k /\ tx_is_deposit (x_tx x) contract = true /\
      ivc contract false (z_list z) [[x]] (z_list z') /\ z_deposit z' = z_deposit z.
  Proof.
    intros Hpq Hkc (cu & Hu) (ck & Hk) Ht Hct.
    set (x := mkInputsV (tx_alloc tx_default) [] (A4 [] [] [] []) (A4 Fzero Fzero Fzero Fzero) (A4 [] [] [] [])
                (A4 Fzero Fzero Fzero Fzero) [] k (mkSigV (repeat false 254) (repeat true 254))).
    apply pt_eqb_neq in Hkc.
    assert (Hns : is_signed (z_tx_final z) x = false).
    { unfold is_signed. cbn [x x_sig v_e].
      assert (Eb : bits_val (repeat true 254) = 2 ^ 254 - 1) by (vm_compute; reflexivity). rewrite Eb.
      replace (2 ^ 254 - 1 <? q) with false; [ apply andb_false_r |]. symmetry. apply Z.ltb_ge.
      pose proof (proj2 q_bounds). unfold q. lia. }
    assert (Hna : is_applied contract (z_tx_final z) x = false).
    { unfold is_applied, by_contract. rewrite Hns. exact Hkc. }
    assert (Hd : forall u, In u (a4_list (v_inputs (x_tx x)) ++ a4_list (v_outputs (x_tx x))) -> v_dummy u = true /\ zval (v_amount u) = 0).
    { cbn. intros u Hin. repeat (destruct Hin as [<-|Hin]; [ split; reflexivity |]). destruct Hin. }
    assert (Hw0 : withdrawn contract x = 0).
    { unfold withdrawn, x, a4_list, tx_alloc, tx_default, a4_map. cbn [x_tx v_outputs a4_0 a4_1 a4_2 a4_3 outputs filter].
      destruct (pt_eqb (v_pk (utxo_alloc utxo_dummy)) contract); reflexivity. }
    destruct (C77_complete contract false z x cu ct ck) as (x' & z' & (E1 & E2 & E3 & E4 & E5) & Hw' & Hivc); auto.
    - apply repeat_length.
    - intros v Hv Hv'. destruct (Hd v) as [Hv0 _]; [ apply in_or_app; now left | congruence ].
    - assert (Ecw : coin_writes contract (z_tx_final z) x = []).
      { unfold coin_writes. rewrite Hns, Hna. reflexivity. }
      rewrite Ecw. exact Logic.I.
    - rewrite Hna. discriminate.
    - intros _. rewrite Hw0. split; [ reflexivity |]. intros v Hv. destruct (Hd v) as [_ ->]; [ apply in_or_app; now right | reflexivity ].
    - exists x', z'. split; [ exact Hw' |]. split; [ exact E2 |]. split.
      + apply C102_is_deposit. intros c Hc Hc'. rewrite E1 in Hc. destruct (Hd c) as [Hc0 _]; [ apply in_or_app; now left | congruence ].
      + split; [ exact Hivc |].
        pose proof (C62_deposit_chain contract false z [[x']] z' Hivc) as D. cbn [concat app flat_map] in D. rewrite app_nil_r in D.
        assert (Ede : deposit_entries contract x' = []).
        { unfold deposit_entries, by_contract. rewrite E2. change (x_sender x) with k. now rewrite Hkc. }
        rewrite Ede in D. exact D.
  Qed.
End witness.

Print Assumptions C01_trees.
Print Assumptions C101_synthesis.
Print Assumptions C101_aggregator_witness.
Print Assumptions C101_client_witness.
Print Assumptions C101_run.
Print Assumptions C101_default.
Print Assumptions C101_one_by_one.
Print Assumptions C102_is_deposit.
Print Assumptions C102_against_step.
Print Assumptions C102_differs.

(** C123: exactly which epochs can be proved from what the aggregator recorded. *)
From Coq Require Import ZArith List Bool Lia Permutation Sorted.
Import ListNotations.
From Verif Require Import Base Env Circuit SparseMT SparseMTSpec SparseMTHeap SparseMTRep SparseMTNew SparseMTProofs Data DataSpec DataFacts PropsData Schnorr HMap Contract ContractSpec
  PropsContract PropsBlock Aggregator AggSpec AggFacts AggSign AggIntake PropsIntake PropsSign PropsReport
  AggCircuit AggCircuitFacts AggCircuitSpec CircuitRun PropsCircuit PropsCircuit2 PropsLimits TruthSpec PropsTruth Honest PropsHonest Clean PropsSpoil
  ExactSpec PropsExact PropsStranger.
Open Scope Z_scope.

Section props.
  Context {hs : Hashes} {G : Curve} (dbg : bool) (contract : pt).

  (** ** Specification. When the circuit goes along with the answer (key and signature) that the
      aggregator was given for a transaction: *)
  Record settles (r : F) (t : tx) (ks : pt * option signature) : Prop :=
    { st_owned : owned_by (fst ks) t;
      st_balance : total_in t = total_out t;
      (** what goes back to the contract is a u64, and nothing if the transaction was not applied *)
      st_range : given_back contract t < 2 ^ 64;
      st_unapplied : authorised contract r t ks = false -> given_back contract t = 0;
      (** the contract gave no valid signature under a transaction with inputs *)
      st_contract : fst ks = contract -> verify_signature contract (tx_enc t ++ [r]) (osig (snd ks)) = true ->
        real (a4_list (inputs t)) = [] }.

  Lemma back_zero t : given_back contract t = 0 ->
    forall u, In u (a4_list (outputs t)) -> is_dummy u = false -> pk u = contract -> zval (amount u) = 0.
  Proof.
    unfold given_back, real. induction (a4_list (outputs t)) as [|v l IH]; intros H u Hu Hd Hk; [ destruct Hu |].
    assert (Hn : forall m : list utxo, 0 <= zsum (map (fun u => zval (amount u)) m)).
    { induction m as [|w m IHm]; [ cbn; lia |]. change (0 <= zval (amount w) + zsum (map (fun u => zval (amount u)) m)).
      pose proof (u64_range (amount w)). lia. }
    cbn [filter] in H. destruct Hu as [->|Hu].
    - rewrite Hd in H. cbn [negb filter] in H. rewrite Hk, pt_eqb_refl in H.
      change (zval (amount u) + zsum (map (fun u => zval (amount u)) (filter (fun u => pt_eqb (pk u) contract) (filter (fun u => negb (is_dummy u)) l))) = 0) in H.
      pose proof (u64_range (amount u)). pose proof (Hn (filter (fun u => pt_eqb (pk u) contract) (filter (fun u => negb (is_dummy u)) l))). lia.
    - refine (IH _ u Hu Hd Hk). destruct (is_dummy v); cbn [negb filter] in H; [ exact H |].
      destruct (pt_eqb (pk v) contract); [| exact H ].
      change (zval (amount v) + zsum (map (fun u => zval (amount u)) (filter (fun u => pt_eqb (pk u) contract) (filter (fun u => negb (is_dummy u)) l))) = 0) in H.
      pose proof (u64_range (amount v)). pose proof (Hn (filter (fun u => pt_eqb (pk u) contract) (filter (fun u => negb (is_dummy u)) l))). lia.
  Qed.
  Lemma real_none (l : list utxo) : real l = [] <-> forall u, In u l -> is_dummy u = true.
  Proof.
    unfold real. split.
    - intros H u Hu. destruct (is_dummy u) eqn:E; [ reflexivity | exfalso ].
      assert (X : In u (filter (fun u => negb (is_dummy u)) l)) by (apply filter_In; rewrite E; auto). rewrite H in X. destruct X.
    - intros H. induction l as [|u l IH]; [ reflexivity |]. cbn [filter]. rewrite (H u (or_introl eq_refl)). cbn [negb].
      apply IH. intros v Hv. apply H. right. exact Hv.
  Qed.
  Lemma settles_provable r t ks : settles r t ks -> provable contract r t ks.
  Proof.
    intros [S1 S2 S3 S4 S5]. constructor.
    - exact S1.
    - exact S2.
    - exact S3.
    - intros Ha. exact (back_zero t (S4 Ha)).
    - intros Hk Hv. apply real_none. apply S5; [ exact Hk | rewrite <- Hk; exact Hv ].
  Qed.

  Lemma steps_answers n l s s' : steps dbg contract n l s s' ->
    map (fun i => (i_tx i, i_sender i)) (a_ivc s') = map (fun i => (i_tx i, i_sender i)) (a_ivc s) ++ combine (skipn n (a_txs s)) (map fst l).
  Proof.
    induction 1 as [|n k osg l s s1 s' t r H1 H2 IH].
    - cbn [map]. rewrite combine_nil, app_nil_r. reflexivity.
    - destruct (so_ivc _ _ _ _ _ _ _ _ _ H1) as (inp & E2 & E3 & E4 & _).
      rewrite IH, E2, (so_txs _ _ _ _ _ _ _ _ _ H1), (nth_skipn n (a_txs s) t (so_tx _ _ _ _ _ _ _ _ _ H1)), map_app, <- app_assoc.
      cbn [map app combine fst]. rewrite E3, E4. reflexivity.
  Qed.

  (** what the full circuit checks of each transaction *)
  Lemma accepted_each z xs z' : all_accepted contract false z xs z' -> forall x, In x xs ->
    vowned_by (x_sender x) (x_tx x) /\ vtotal_in (x_tx x) mod p = vtotal_out (x_tx x) mod p /\ AggCircuitSpec.withdrawn contract x < 2 ^ 64.
  Proof.
    induction 1 as [z|z x z1 xs z' A H IH]; intros y Hy; [ destruct Hy |].
    destruct Hy as [<-|Hy]; [| exact (IH y Hy) ].
    split; [ exact (ac_owner _ _ _ _ _ A) |]. split; [ exact (ac_balance _ _ _ _ _ A) |].
    exact (proj1 (proj2 (ac_chains _ _ _ _ _ A))).
  Qed.

  Lemma total_few l : 0 <= total l <= Z.of_nat (length l) * 2 ^ 64.
  Proof.
    induction l as [|u l IH]; [ cbn; lia |]. cbn [total length]. rewrite Nat2Z.inj_succ.
    pose proof (u64_range (amount u)) as H. unfold two64 in H. destruct (is_dummy u); lia.
  Qed.
  Lemma totals_mod t : total_in t mod p = total_out t mod p -> total_in t = total_out t.
  Proof.
    pose proof (total_few (a4_list (inputs t))) as H1. pose proof (total_few (a4_list (outputs t))) as H2.
    change (length (a4_list (inputs t))) with 4%nat in H1. change (length (a4_list (outputs t))) with 4%nat in H2.
    fold (total_in t) in H1. fold (total_out t) in H2.
    assert (X : Z.of_nat 4 * 2 ^ 64 < p) by reflexivity.
    rewrite !Z.mod_small by (split; [ lia | eapply Z.le_lt_trans; [| exact X ]; lia ]). exact (fun E => E).
  Qed.

  (** As many withdrawals in the block as in the proof: none was skipped. *)
  Lemma same_count r (w : list (tx * (pt * option signature))) (m : list agg_inputsV) :
    Forall2 (fun x y => x_tx y = tx_alloc (fst x) /\ x_sender y = fst (snd x) /\
                        AggCircuitSpec.withdrawn contract y = given_back contract (fst x) /\ given_back contract (fst x) < 2 ^ 64) w m ->
    (length (flat_map (withdrawals_of contract r) w) <= length (run_withdrawals contract m))%nat /\
    (length (flat_map (withdrawals_of contract r) w) = length (run_withdrawals contract m) ->
     forall x, In x w -> authorised contract r (fst x) (snd x) = false -> given_back contract (fst x) = 0).
  Proof.
    induction 1 as [|[t [k o]] y w m (H1 & H2 & H3 & H4) H [I1 I2]].
    - split; [ apply le_n |]. intros _ x [].
    - unfold run_withdrawals in *. cbn [flat_map]. rewrite !app_length. cbn [fst snd] in *. rewrite H3.
      assert (Hn : 0 <= given_back contract t) by (exact (AggSign.withdrawn_nonneg contract t)).
      unfold withdrawals_of at 1 3. rewrite Z.mod_small by (unfold two64; lia).
      destruct (authorised contract r t (k, o)) eqn:Ea; destruct (given_back contract t =? 0) eqn:E0; cbn [andb negb length].
      + split; [ lia |]. intros E x [<-|Hx] Hf; [ cbn [fst snd] in Hf; rewrite Ea in Hf; discriminate Hf |]. apply I2; [ lia | exact Hx | exact Hf ].
      + split; [ lia |]. intros E x [<-|Hx] Hf; [ cbn [fst snd] in Hf; rewrite Ea in Hf; discriminate Hf |]. apply I2; [ lia | exact Hx | exact Hf ].
      + split; [ lia |]. intros E x [<-|Hx] Hf; [ apply Z.eqb_eq; exact E0 |]. apply I2; [ lia | exact Hx | exact Hf ].
      + split; [ lia |]. intros E. exfalso. lia.
  Qed.

  Lemma blank_roots : merkle_root (empty_contents tx_cfg) = merkle_root (empty_contents txV_cfg).
  Proof.
    transitivity (merkle_root (tx_contents [])).
    - apply (root_ext tx_cfg). intros i _. unfold tx_contents, empty_contents. destruct (i <? 0); [ reflexivity |]. now destruct (Z.to_nat i).
    - rewrite <- epoch_txs_root. apply (root_ext txV_cfg).
      intros i _. unfold epoch_txs, tx_contents, empty_contents. destruct (i <? 0); [ reflexivity |]. now destruct (Z.to_nat i).
  Qed.
  Lemma start_list ur tr sr :
    epoch_start ur tr sr = z_list (mkZ Fzero ur (merkle_root (empty_contents tx_cfg)) tr sr Fzero Fzero Fzero).
  Proof. unfold epoch_start. generalize (merkle_root (empty_contents tx_cfg)) as e. reflexivity. Qed.

  (** the transactions taken in, the answers and the records, side by side *)
  Lemma aligned (ts : list tx) (l : list (pt * option signature)) (ivc0 : list agg_inputs) (P : agg_inputsV -> Prop) :
    map (fun i => (i_tx i, i_sender i)) ivc0 = combine ts (map fst l) ->
    (forall x, In x (map inputs_alloc ivc0) -> P x) ->
    Forall2 (fun x y => x_tx y = tx_alloc (fst x) /\ x_sender y = fst (snd x) /\
                        AggCircuitSpec.withdrawn contract y = given_back contract (fst x) /\ P y)
            (combine ts l) (map inputs_alloc ivc0).
  Proof.
    revert l ivc0. induction ts as [|t ts IH]; intros [|[k o] l] [|i m] E H; cbn [combine map fst] in E; try discriminate E; cbn [combine map]; try constructor.
    - injection E as E1 E2 E3. cbn [inputs_alloc x_tx x_sender fst snd]. rewrite E1, E2. split; [ reflexivity |]. split; [ reflexivity |].
      split; [| apply H; left; reflexivity ]. rewrite <- E1. exact (withdrawn_alloc contract i).
    - injection E as E1 E2 E3. apply IH; [ exact E3 |]. intros x Hx. apply H. right. exact Hx.
  Qed.

  (** C123. An epoch is taken in on top of any honestly used aggregator and signed, one answer per
      transaction, and every key that the block mentions is registered. Then what the aggregator
      recorded, in any cut into steps, proves the block from the epoch's start if all answers settle
      their transactions, and otherwise only if two hash inputs collide. *)
  Theorem C123_exactly s s1 s2 pairs l ck kc calls c0 :
    p <= q ->
    (* an epoch starts: nothing taken in, nothing signed, the signer slots blank *)
    reached_for dbg contract s -> a_txs s = [] -> a_signers s = [] -> a_deposits s = [] -> a_withdrawals s = [] -> a_ivc s = [] ->
    tree_holds dbg signer_cfg (a_signer_tree s) ck ->
    (forall i, 0 <= i < Z.of_nat (length pairs) -> ck i = pzero) ->
    (* a batch is taken in, then answered for *)
    process_transactions dbg s pairs = MOk s1 tt -> Z.of_nat (length pairs) <= 4096 ->
    process_signatures dbg s1 contract l = MOk s2 tt -> fits contract s1 l ->
    length l = length pairs ->
    (* the keys that occur are registered *)
    history dbg kc calls c0 -> Z.of_nat (length (pks c0)) <= 2 ^ 32 -> (forall k, In k (mentioned s2) -> In k (pks c0)) ->
    exists b pi ur tr sr cu,
      root (a_utxo_tree s) = Ok ur /\ root (a_tx_tree s1) = Ok tr /\ root (a_signer_tree s) = Ok sr /\
      tree_holds dbg utxo_cfg (a_utxo_tree s) cu /\
      produce_block s2 c0 = Ok b /\ derive_public_inputs c0 b = Ok pi /\
      let settled := forall t ks, In (t, ks) (combine (map snd pairs) l) -> settles tr t ks in
      forall bs, concat bs = map inputs_alloc (ivc_inputs s2) ->
        (settled -> ivc contract false (epoch_start ur tr sr) bs pi) /\
        (ivc contract false (epoch_start ur tr sr) bs pi ->
           settled \/
           collides utxoV_cfg utxo_encV (as_allocated cu) (flat_map (coin_writes contract tr) (concat bs)) \/
           exists wds, entries_are c0 (b_withdrawals b) wds /\
             sha_event (chain_inputs Fzero (map amount_bytes wds) ++
                        chain_inputs Fzero (map amount_bytes (run_withdrawals contract (concat bs))))).
  Proof.
    intros Hpq Hfor T0 G0 D0 W0 I0 HK Hck Hpt Hlen Hps Hfit Hll Hhist Hpks Hment.
    pose proof (rf_reached dbg contract s Hfor) as Hreach.
    destruct (PropsIntake.C40_intake dbg s pairs s1 Hreach T0 Hpt) as (Etx & _ & Hsame & _ & Hroot).
    destruct (Hroot Hlen) as (Hholds & _ & _).
    destruct Hsame as (U1 & U2 & U3 & U4 & U5 & U6 & U7 & U8 & U9 & U10 & U11).
    assert (Hf1 : reached_for dbg contract s1). { apply (rf_intake dbg contract s pairs s1 Hfor). left. exists tt. exact Hpt. }
    pose proof (rf_reached dbg contract s1 Hf1) as Hr1.
    assert (Hr2 : reached dbg s2). { apply (reached_sign dbg s1 contract l s2 Hr1 Hfit). left. exists tt. exact Hps. }
    pose proof (reached_inv dbg s1 Hr1) as HI1.
    destruct (ri_coins _ _ HI1) as (c & w & HC1).
    set (final := merkle_root (tx_contents (map snd pairs))) in *.
    pose proof (tree_holds_root dbg tx_cfg AggFacts.tx_cfg_ok _ _ Hholds) as Htr. fold final in Htr.
    pose proof (tree_holds_root dbg signer_cfg AggFacts.signer_cfg_ok _ _ HK) as Hsr.
    assert (Hur : root (a_utxo_tree s1) = Ok (merkle_root c)).
    { unfold root. now rewrite (rep_root _ _ _ _ (built_rep dbg utxo_cfg AggFacts.utxo_cfg_ok _ _ _ (ci_built _ _ _ _ HC1))). }
    assert (HcuT : tree_holds dbg utxo_cfg (a_utxo_tree s1) c) by (exists c, w; split; [ exact (ci_built _ _ _ _ HC1) | reflexivity ]).
    pose proof (run_ok dbg contract s1 l s2 Hr1 Hfit Hps) as HS.
    pose proof (steps_answers 0 l s1 s2 HS) as Hans. rewrite U11, I0, Etx in Hans. cbn [map app skipn] in Hans.
    destruct (C39_block_public_inputs dbg s2 kc calls c0 Hr2 Hhist Hpks Hment)
      as (b & ur & tr & sr & Eb & Eur & Etr & Esr & _ & _ & _ & _ & _ & _ & _ & Epi).
    assert (E1' : a_signers s1 = []) by congruence. assert (E2' : a_deposits s1 = []) by congruence. assert (E3' : a_withdrawals s1 = []) by congruence.
    destruct (C99_block_reports dbg contract s1 l s2 final kc calls c0 b Hr1 Hfit Htr E1' E2' E3' Hps Hhist Hpks Eb) as (_ & _ & _ & R4 & _).
    rewrite Etx in R4.
    match type of Epi with _ = Ok ?e => set (pi := e) in * end.
    assert (Hgood : (forall t ks, In (t, ks) (combine (map snd pairs) l) -> settles final t ks) ->
              forall bs, concat bs = map inputs_alloc (a_ivc s2) -> ivc contract false (epoch_start (merkle_root c) final (merkle_root ck)) bs pi).
    { intros Hset.
      set (z0 := mkZ Fzero (merkle_root c) (merkle_root (empty_contents tx_cfg)) final (merkle_root ck) Fzero Fzero Fzero).
      assert (HS0 : Sim dbg final 0 s1 z0).
      { constructor.
        - exact (ri_epoch _ _ HI1).
        - rewrite Etx, map_length. exact Hlen.
        - exact Htr.
        - exists c, w. split; [ exact HC1 | reflexivity ].
        - exists ck. rewrite U6. split; [ exact HK |]. split; [ reflexivity |]. rewrite Etx, map_length. exact Hck.
        - unfold z0. cbn [z_tx firstn]. apply root_ext. intros i _. unfold tx_contents, empty_contents.
          destruct (i <? 0); [ reflexivity |]. now destruct (Z.to_nat i).
        - reflexivity.
        - reflexivity.
        - rewrite E1'. reflexivity.
        - rewrite E1'. reflexivity.
        - rewrite E2'. reflexivity.
        - rewrite E3'. reflexivity. }
      destruct (sim_run dbg contract final l Hpq 0 s1 z0 s2 HS0) as (new & z' & Ei & Ln & Hrun & HS2).
      - rewrite Etx, map_length. cbn. exact Hll.
      - cbn [skipn]. rewrite Etx. intros t ks Hin. apply settles_provable. exact (Hset t ks Hin).
      - cbn [skipn]. exact (Hfit final Htr).
      - exact Hps.
      - rewrite U11, I0 in Ei. cbn [app] in Ei.
        pose proof HS2 as [HE2 Hlen2 Hr Hc2 Hk2 Hzt Hzf Hzs Hsg Hacc Hdep Hwd].
        destruct Hc2 as (c2 & w2 & HC2 & Hzu). destruct Hk2 as (ck2 & HK2 & Hzk & _).
        assert (Etxs2 : a_txs s2 = a_txs s1) by (apply steps_same in HS as (E & _); exact E).
        intros bs Hbs. apply start_ivc. exists z'. split; [| rewrite Hbs, Ei; exact Hrun ].
        unfold pi, z_list. rewrite Hzs, Hsg, Hzu, Hzt, Hzf, Hzk, Hacc, Hdep, Hwd.
        assert (E1 : ur = merkle_root c2).
        { pose proof (rep_root _ _ _ _ (built_rep dbg utxo_cfg AggFacts.utxo_cfg_ok _ _ _ (ci_built _ _ _ _ HC2))) as X.
          assert (Y : root (a_utxo_tree s2) = Ok (merkle_root c2)) by (unfold root; now rewrite X). congruence. }
        assert (E2 : tr = final) by congruence.
        assert (E3 : sr = merkle_root ck2).
        { pose proof (tree_holds_root dbg signer_cfg AggFacts.signer_cfg_ok _ _ HK2). congruence. }
        assert (E4 : merkle_root (tx_contents (firstn (0 + length l) (a_txs s2))) = final).
        { unfold final. f_equal. f_equal. rewrite Etxs2, Etx. apply firstn_all2. rewrite map_length. cbn. lia. }
        rewrite E1, E2, E3, E4. reflexivity. }
    set (settled := forall t ks, In (t, ks) (combine (map snd pairs) l) -> settles final t ks) in *.
    (* the contract's signatures *)
    set (bad := fun x : tx * (pt * option signature) => pt_eqb (fst (snd x)) contract &&
                  verify_signature contract (tx_enc (fst x) ++ [final]) (osig (snd (snd x))) &&
                  negb (match real (a4_list (inputs (fst x))) with [] => true | _ => false end)).
    assert (Hcu : exists cu, tree_holds dbg utxo_cfg (a_utxo_tree s1) cu /\
              forall bs, concat bs = map inputs_alloc (a_ivc s2) ->
                ivc contract false (epoch_start (merkle_root c) final (merkle_root ck)) bs pi ->
                existsb bad (combine (map snd pairs) l) = true ->
                collides utxoV_cfg utxo_encV (as_allocated cu) (flat_map (coin_writes contract final) (concat bs))).
    { destruct (existsb bad (combine (map snd pairs) l)) eqn:Ebad; [| exists c; split; [ exact HcuT | intros bs _ _ X; discriminate X ] ].
      apply existsb_exists in Ebad as ([t [k o]] & Hin & Hb). unfold bad in Hb. cbn [fst snd] in Hb.
      apply andb_true_iff in Hb as [Hb Hb3]. apply andb_true_iff in Hb as [Hb1 Hb2]. apply pt_eqb_eq in Hb1. subst k.
      destruct (In_nth_error _ _ Hin) as (j & Hj).
      assert (Hjt : nth_error (a_txs s1) j = Some t /\ nth_error l j = Some (contract, o)).
      { rewrite Etx. clear -Hj. revert l j Hj. induction (map snd pairs) as [|a m IH]; intros [|b l] [|j] Hj; try discriminate Hj; cbn [combine nth_error] in *.
        - injection Hj as -> ->. split; reflexivity.
        - exact (IH l j Hj). }
      assert (Hre : exists u, In u (a4_list (inputs t)) /\ is_dummy u = false).
      { destruct (real (a4_list (inputs t))) as [|u m] eqn:Er; [ discriminate Hb3 |]. exists u.
        assert (X : In u (real (a4_list (inputs t)))) by (rewrite Er; left; reflexivity).
        unfold real in X. apply filter_In in X as [X1 X2]. split; [ exact X1 | apply negb_true_iff; exact X2 ]. }
      assert (Ii : a_ivc s1 = []) by congruence.
      destruct (C63_contract_signature dbg contract s1 l s2 final (merkle_root c) j t o Hf1 Ii Hfit Htr Hur Hps (proj1 Hjt) (proj2 Hjt) Hb2 Hre)
        as (_ & cu & Hcu & HC).
      exists cu. split; [ exact Hcu |]. intros bs Hbs Hrun _. rewrite start_list in Hrun.
      pose proof (proj1 (C106_aggregator_proof contract false _ bs pi) Hrun) as (z' & Ez & _). rewrite Ez in Hrun. rewrite Hbs.
      refine (HC false _ bs z' _ _ Hbs Hrun); reflexivity. }
    destruct Hcu as (cu & Hcu & Hcol).
    exists b, pi, (merkle_root c), final, (merkle_root ck), cu.
    split; [ rewrite <- U2; exact Hur |]. split; [ exact Htr |]. split; [ exact Hsr |].
    split; [ rewrite <- U2; exact Hcu |]. split; [ exact Eb |]. split; [ exact Epi |].
    intros settled' bs Hbs. unfold ivc_inputs in Hbs. split; [ intros Hse; exact (Hgood Hse bs Hbs) |]. intros Hrun.
    destruct (existsb bad (combine (map snd pairs) l)) eqn:Ebad; [ right; left; exact (Hcol bs Hbs Hrun eq_refl) |].
    pose proof Hrun as Hrun0. rewrite start_list in Hrun0.
    pose proof (proj1 (C106_aggregator_proof contract false _ bs pi) Hrun0) as (z' & Ez & Hacc).
    pose proof (accepted_each _ _ _ Hacc) as Heach. rewrite Hbs in Heach.
    pose proof (aligned _ _ _ _ Hans Heach) as Hal.
    assert (Hz : begins (mkZ Fzero (merkle_root c) (merkle_root (empty_contents tx_cfg)) final (merkle_root ck) Fzero Fzero Fzero)).
    { unfold begins. cbn [z_step z_tx z_signer_acc z_deposit z_withdrawal]. rewrite blank_roots. repeat split. }
    rewrite Ez in Hrun0, Epi.
    destruct (C82_truthful_block contract c0 b _ bs z' Hrun0 Hz Epi) as (_ & _ & keys & deps & wds & _ & _ & K3 & _ & _ & K6).
    destruct K6 as [K6|K6]; [| right; right; exists wds; split; [ exact K3 | exact K6 ] ].
    left.
    assert (Hw : Forall2 (fun x y => x_tx y = tx_alloc (fst x) /\ x_sender y = fst (snd x) /\
                   AggCircuitSpec.withdrawn contract y = given_back contract (fst x) /\ given_back contract (fst x) < 2 ^ 64)
                   (combine (map snd pairs) l) (map inputs_alloc (a_ivc s2))).
    { clear -Hal. induction Hal as [|x y m m' (A1 & A2 & A3 & (_ & _ & A4)) H IH]; constructor; [| exact IH ].
      split; [ exact A1 |]. split; [ exact A2 |]. split; [ exact A3 | rewrite <- A3; exact A4 ]. }
    assert (Hcount : length (flat_map (withdrawals_of contract final) (combine (map snd pairs) l)) = length (run_withdrawals contract (map inputs_alloc (a_ivc s2)))).
    { rewrite <- Hbs, <- K6.
      assert (X1 : length (flat_map (withdrawals_of contract final) (combine (map snd pairs) l)) = length (b_withdrawals b)).
      { clear -R4. induction R4; [ reflexivity | cbn [length]; lia ]. }
      assert (X2 : length (b_withdrawals b) = length wds).
      { clear -K3. unfold entries_are in K3. induction K3; [ reflexivity | cbn [length]; lia ]. }
      congruence. }
    pose proof (proj2 (same_count final _ _ Hw) Hcount) as Hun.
    unfold settled. intros t ks Hin.
    assert (Hy : exists y, x_tx y = tx_alloc t /\ x_sender y = fst ks /\ AggCircuitSpec.withdrawn contract y = given_back contract t /\
                   vowned_by (x_sender y) (x_tx y) /\ vtotal_in (x_tx y) mod p = vtotal_out (x_tx y) mod p /\ AggCircuitSpec.withdrawn contract y < 2 ^ 64).
    { clear -Hal Hin. induction Hal as [|x y m m' A H IH]; [ destruct Hin |]. destruct Hin as [->|Hin]; [| exact (IH Hin) ].
      exists y. exact A. }
    destruct Hy as (y & Y1 & Y2 & Y3 & Y4 & Y5 & Y6). constructor.
    - rewrite Y1, Y2 in Y4. apply vowned_alloc in Y4. exact Y4.
    - rewrite Y1, vtotal_in_alloc, vtotal_out_alloc in Y5. exact (totals_mod t Y5).
    - rewrite <- Y3. exact Y6.
    - intros Ha. exact (Hun (t, ks) Hin Ha).
    - intros Hk Hv. destruct (real (a4_list (inputs t))) as [|u m] eqn:Er; [ reflexivity | exfalso ].
      assert (X : existsb bad (combine (map snd pairs) l) = true).
      { apply existsb_exists. exists (t, ks). split; [ exact Hin |]. unfold bad. cbn [fst snd]. rewrite Hk, pt_eqb_refl, Hv, Er. reflexivity. }
      congruence.
  Qed.
End props.

Print Assumptions C123_exactly.

(** C126: a follower who has the transactions rebuilds every block. *)
From Coq Require Import ZArith List Bool Lia Permutation.
Import ListNotations.
From Verif Require Import Base Env Circuit SparseMT SparseMTSpec Data DataSpec DataFacts PropsData Schnorr SparseMTRep
  HMap Contract ContractSpec PropsContract Aggregator AggSpec AggFacts AggSign AggIntake Ledger PropsLedger Follow.
Open Scope Z_scope.

Section props.
  Context {hs : Hashes} {G : Curve} (dbg : bool).

  (** ** The ledger side *)
  Definition view_of (L : ledger) : view := mkView (slots L) (next L) (keys L) (entered L) (left L).
  Definition same_view (L L' : ledger) : Prop := view_of L' = view_of L /\ answers L' = answers L.

  Lemma take_one_view L x : same_view L (snd (take_one dbg L x)).
  Proof.
    destruct x as [k t]. unfold take_one. destruct (negb _); [ split; reflexivity |].
    destruct (dbg && _); [ split; reflexivity |]. destruct (_ =? _); split; reflexivity.
  Qed.
  Lemma takes_view l : forall L, same_view L (snd (each (take_one dbg) l L)).
  Proof.
    induction l as [|x l IH]; intros L; cbn [each]; [ split; reflexivity |].
    pose proof (take_one_view L x) as H. destruct (take_one dbg L x) as [v L']. cbn [snd] in H.
    destruct v; cbn [snd]; auto. destruct (IH L') as [H1 H2]. destruct H as [H3 H4]. split; congruence.
  Qed.

  Lemma play_cons q qs L : fst (serve dbg L q) <> Panicked ->
    play dbg (q :: qs) L = (fst (serve dbg L q) :: fst (play dbg qs (snd (serve dbg L q))), snd (play dbg qs (snd (serve dbg L q)))).
  Proof.
    cbn [play]. destruct (serve dbg L q) as [v L']. cbn [fst snd]. intros H.
    destruct (play dbg qs L') as [vs L2]. cbn [fst snd]. destruct v; congruence.
  Qed.
  Lemma play_panic q qs L : fst (serve dbg L q) = Panicked -> In Panicked (fst (play dbg (q :: qs) L)).
  Proof. cbn [play]. destruct (serve dbg L q) as [v L']. cbn [fst]. intros ->. now left. Qed.
  Lemma play_head q qs L : ~ In Panicked (fst (play dbg (q :: qs) L)) -> fst (serve dbg L q) <> Panicked.
  Proof. intros H E. apply H. now apply play_panic. Qed.

  Lemma play_takes q takes : forall L, ~ In Panicked (fst (play dbg (map Take takes ++ [q]) L)) ->
    exists L1, same_view L L1 /\ snd (play dbg (map Take takes ++ [q]) L) = snd (serve dbg L1 q) /\
      fst (serve dbg L1 q) <> Panicked.
  Proof.
    induction takes as [|t takes IH]; intros L H; cbn [map app] in *.
    - exists L. pose proof (play_head _ _ _ H) as Hn. rewrite play_cons by exact Hn. split; [ split; reflexivity |]. split; [ reflexivity | exact Hn ].
    - pose proof (play_head _ _ _ H) as Hn. rewrite play_cons in * by exact Hn. cbn [fst snd] in *.
      destruct (IH (snd (serve dbg L (Take t)))) as (L1 & [A1 A2] & B & C); [ intros X; apply H; now right |].
      destruct (takes_view t L) as [D1 D2]. cbn [serve] in *. exists L1. split; [ split; congruence |]. split; [ exact B | exact C ].
  Qed.

  Lemma each_follow contract l : forall L L' v, each (answer_one dbg contract) (combine (seq (length (answers L)) (length l)) l) L = (v, L') ->
    v <> Panicked ->
    exists new, answers L' = answers L ++ new /\ epoch L' = epoch L /\
      view_of L' = fold_left (follow_one contract)
        (combine (seq (length (answers L)) (length new)) (combine (skipn (length (answers L)) (epoch L)) new)) (view_of L).
  Proof.
    assert (Base : forall L L' : ledger, L = L' -> exists new, answers L' = answers L ++ new /\ epoch L' = epoch L /\
      view_of L' = fold_left (follow_one contract)
        (combine (seq (length (answers L)) (length new)) (combine (skipn (length (answers L)) (epoch L)) new)) (view_of L)).
    { intros L L' E. subst L'. exists []. rewrite app_nil_r. repeat split. }
    induction l as [|[k sg] l IH]; intros L L' v E Hv.
    { cbn [length seq combine each] in E. apply (Base L L'). congruence. }
    cbn [length seq combine each] in E.
    unfold answer_one at 1 in E.
    destruct (nth_error (epoch L) (length (answers L))) as [t|] eqn:Et; [| congruence ].
    assert (Hs : skipn (length (answers L)) (epoch L) = t :: skipn (S (length (answers L))) (epoch L)).
    { clear - Et. revert Et. generalize (length (answers L)) as n, (epoch L) as m.
      induction n as [|n IHn]; intros [|y m] H; cbn in *; try discriminate; [ congruence | now apply IHn ]. }
    rewrite Hs.
    assert (Step : forall L1 o, answers L1 = answers L ++ [o] -> epoch L1 = epoch L ->
      view_of L1 = follow_one contract (view_of L) (length (answers L), (t, o)) ->
      forall new, answers L' = answers L1 ++ new -> epoch L' = epoch L1 ->
        view_of L' = fold_left (follow_one contract)
          (combine (seq (length (answers L1)) (length new)) (combine (skipn (length (answers L1)) (epoch L1)) new)) (view_of L1) ->
        exists new, answers L' = answers L ++ new /\ epoch L' = epoch L /\
          view_of L' = fold_left (follow_one contract)
            (combine (seq (length (answers L)) (length new)) (combine (t :: skipn (S (length (answers L))) (epoch L)) new)) (view_of L)).
    { intros L1 o E1 E2 E3 new F1 F2 F3. exists (o :: new). rewrite F1, E1, <- app_assoc. split; [ reflexivity |]. split; [ congruence |].
      cbn [length seq combine fold_left]. rewrite <- E3, F3, E1, E2, app_length, Nat.add_1_r. reflexivity. }
    assert (N : forall o, length (answers L ++ [o]) = S (length (answers L))) by (intros o; rewrite app_length; cbn; lia).
    destruct (authorised contract (merkle_root (tx_contents (epoch L))) t (k, sg)).
    - destruct (spend (slots L) (next L) (consumes contract t)) as [sl [u|]] eqn:Esp.
      + assert (EL : L' = mkLedger sl (next L) (made L) (set_leaf (keys L) (Z.of_nat (length (answers L))) k) (epoch L)
                                  (answers L ++ [Some k]) (entered L) (left L)) by congruence.
        eapply (Step L' (Some k)) with (new := []); [ rewrite EL; reflexivity | rewrite EL; reflexivity | | now rewrite app_nil_r | reflexivity | reflexivity ].
        rewrite EL. unfold view_of, follow_one. cbn [w_slots w_next w_keys w_in w_out slots next keys entered left]. rewrite Esp. reflexivity.
      + destruct (dbg && (two64 <=? leaving contract t)); [ congruence |].
        match type of E with each _ _ ?X = _ => set (L1 := X) in E end.
        change (S (length (answers L))) with (1 + length (answers L))%nat in E.
        assert (EA : (1 + length (answers L))%nat = length (answers L1)) by (unfold L1; cbn [answers]; rewrite N; reflexivity).
        rewrite EA in E. destruct (IH L1 L' v E Hv) as (new & F1 & F2 & F3).
        apply (Step L1 (Some k)) with (new := new); auto.
        unfold view_of, follow_one. cbn [w_slots w_next w_keys w_in w_out slots next keys entered left L1]. rewrite Esp. reflexivity.
    - match type of E with each _ _ ?X = _ => set (L1 := X) in E end.
      change (S (length (answers L))) with (1 + length (answers L))%nat in E.
      assert (EA : (1 + length (answers L))%nat = length (answers L1)) by (unfold L1; cbn [answers]; rewrite N; reflexivity).
      rewrite EA in E. destruct (IH L1 L' v E Hv) as (new & F1 & F2 & F3).
      apply (Step L1 None) with (new := new); auto.
  Qed.

  (** ** Reading a block *)
  Lemma read_named reg rest k i : last_place k reg = Some i -> read_key (reg ++ rest) (Z.of_nat i) = Some k.
  Proof.
    intros H. apply last_place_spec in H as [H _]. unfold read_key. rewrite Nat2Z.id.
    rewrite nth_error_app1 by (apply nth_error_Some; congruence). exact H.
  Qed.
  Lemma read_signers_ok reg rest l : forall m, all_some (named_slot reg) l = Some m ->
    map (fun o => match o with Some i => read_key (reg ++ rest) i | None => None end) m = l.
  Proof.
    induction l as [|o l IH]; intros m H; cbn [all_some] in H; [ now assert (m = []) as -> by congruence |].
    destruct (named_slot reg o) as [b|] eqn:Eb; [| discriminate H ]. destruct (all_some (named_slot reg) l) as [m'|]; [| discriminate H ].
    assert (m = b :: m') as -> by congruence. cbn [map]. rewrite (IH m' eq_refl). f_equal.
    destruct o as [k|]; cbn [named_slot] in Eb; [| now assert (b = None) as -> by congruence ].
    destruct (last_place k reg) as [i|] eqn:E; [| discriminate Eb ]. assert (b = Some (Z.of_nat i)) as -> by congruence.
    now apply read_named.
  Qed.
  Lemma read_entries_ok reg rest l : forall m, all_some (named reg) l = Some m ->
    read_entries (reg ++ rest) m = map (fun ka => (Some (fst ka), snd ka)) l.
  Proof.
    induction l as [|ka l IH]; intros m H; cbn [all_some] in H; [ now assert (m = []) as -> by congruence |].
    destruct (named reg ka) as [b|] eqn:Eb; [| discriminate H ]. destruct (all_some (named reg) l) as [m'|]; [| discriminate H ].
    assert (m = b :: m') as -> by congruence. unfold read_entries in *. cbn [map]. rewrite (IH m' eq_refl). f_equal.
    unfold named in Eb. destruct (last_place (fst ka) reg) as [i|] eqn:E; [| discriminate Eb ].
    assert (b = (Z.of_nat i, snd ka)) as -> by congruence. cbn [fst snd]. now rewrite (read_named reg rest _ _ E).
  Qed.

  (** ** Histories in pieces *)
  Lemma roomy_app q1 q2 : forall L, always_roomy dbg (q1 ++ q2) L -> ~ In Panicked (fst (play dbg q1 L)) ->
    always_roomy dbg q1 L /\ always_roomy dbg q2 (snd (play dbg q1 L)).
  Proof.
    induction q1 as [|q q1 IH]; intros L H Hn; cbn [app] in *; [ split; [ exact I | exact H ] |].
    pose proof (play_head _ _ _ Hn) as Hp. rewrite play_cons in * by exact Hp. cbn [fst snd always_roomy] in *.
    destruct H as [H1 H2]. destruct (IH _ (H2 Hp)) as [A B]; [ intros X; apply Hn; now right |]. split; [ split; auto | exact B ].
  Qed.
  Lemma play_app q1 q2 : forall L, ~ In Panicked (fst (play dbg q1 L)) ->
    snd (play dbg (q1 ++ q2) L) = snd (play dbg q2 (snd (play dbg q1 L))) /\
    (~ In Panicked (fst (play dbg q2 (snd (play dbg q1 L)))) -> ~ In Panicked (fst (play dbg (q1 ++ q2) L))).
  Proof.
    induction q1 as [|q q1 IH]; intros L Hn; cbn [app] in *; [ split; [ reflexivity | auto ] |].
    pose proof (play_head _ _ _ Hn) as Hp. rewrite (play_cons q (q1 ++ q2)), (play_cons q q1) in * by exact Hp. cbn [fst snd] in *.
    destruct (IH (snd (serve dbg L q))) as [A B]; [ intros X; apply Hn; now right |]. split; [ exact A |].
    intros H [X|X]; [ exact (Hp X) | exact (B H X) ].
  Qed.

  Lemma joined_app cs more : joined (cs ++ more) = joined cs ++ joined more.
  Proof. unfold joined. apply flat_map_app. Qed.

  Lemma follow_snoc contract reg l x : follow contract reg (l ++ [x]) = follow_block contract reg (follow contract reg l) x.
  Proof. unfold follow. rewrite fold_left_app. reflexivity. Qed.

  Record followed (contract : pt) (reg : list pt) (s : agg) (L : ledger) (l : list (list tx * block)) : Prop := mkFollowed
    { fw_agrees : agrees dbg s L;
      fw_roomy : roomy L;
      fw_epoch : epoch L = []; fw_answers : answers L = []; fw_in : entered L = []; fw_out : left L = [];
      fw_slots : slots L = w_slots (follow contract reg l);
      fw_next : next L = w_next (follow contract reg l);
      fw_keys : keys L = w_keys (follow contract reg l);
      fw_blocks : forall l1 txs b l2, l = l1 ++ (txs, b) :: l2 -> confirms reg txs b (follow contract reg (l1 ++ [(txs, b)])) }.

  Lemma published_inv contract k0 qs s cs l : published dbg contract k0 qs s cs l ->
    forall rest, always_roomy dbg qs start -> Z.of_nat (length (k0 :: joined cs)) <= 2 ^ 32 ->
    ~ In Panicked (fst (play dbg qs start)) /\
    followed contract ((k0 :: joined cs) ++ rest) s (snd (play dbg qs start)) l.
  Proof.
    induction 1 as [|qs s cs l takes al vs s2 more c b HP IH Hrun Hh Hb]; intros rest HR Hlen.
    { split; [ intros [] |]. constructor; try reflexivity; [ apply agrees_start | apply roomy_start |].
      intros l1 txs b l2 E. destruct l1; discriminate E. }
    rewrite joined_app in *.
    assert (Hlen' : Z.of_nat (length (k0 :: joined cs)) <= 2 ^ 32).
    { revert Hlen. cbn [length]. rewrite app_length. lia. }
    assert (Ereg : (k0 :: joined cs ++ joined more) ++ rest = (k0 :: joined cs) ++ (joined more ++ rest)).
    { cbn [app]. now rewrite app_assoc. }
    set (ep := map Take takes ++ [Answer contract al]) in *.
    assert (Eq : qs ++ map Take takes ++ [Answer contract al; NewEpoch] = qs ++ (ep ++ [NewEpoch])).
    { unfold ep. now rewrite <- app_assoc. }
    rewrite Eq in *. clear Eq.
    assert (HR0 : always_roomy dbg qs start).
    { clear - HR. revert HR. generalize start. induction qs as [|q qs IHq]; intros L H; cbn [app always_roomy] in *; [ exact I |].
      split; [ apply H | intros Hn; apply IHq; now apply H ]. }
    destruct (IH (joined more ++ rest) HR0 Hlen') as (Hn & HF). clear IH.
    rewrite <- Ereg in HF. set (reg := (k0 :: joined cs ++ joined more) ++ rest) in *.
    destruct (roomy_app qs (ep ++ [NewEpoch]) start HR Hn) as [_ HR1].
    destruct (play_app qs (ep ++ [NewEpoch]) start Hn) as [EP EN].
    set (L := snd (play dbg qs start)) in *.
    assert (HR2 : always_roomy dbg ep L).
    { clear - HR1. revert HR1. generalize L, ep. intros L0 q0. revert L0. induction q0 as [|q q0 IHq]; intros L0 H; cbn [app always_roomy] in *; [ exact I |].
      split; [ apply H | intros Hn; apply IHq; now apply H ]. }
    pose proof (play_sim dbg ep s L (fw_agrees _ _ _ _ _ HF) (fw_roomy _ _ _ _ _ HF) HR2) as HS.
    rewrite Hrun in HS. destruct HS as (Ev & Hv & HA2 & HRo2). rewrite <- Ev in Hv.
    destruct (roomy_app ep [NewEpoch] L HR1 Hv) as [_ HR3].
    destruct (play_app ep [NewEpoch] L Hv) as [EP2 EN2].
    set (L2 := snd (play dbg ep L)) in *.
    pose proof (play_sim dbg [NewEpoch] s2 L2 HA2 HRo2 HR3) as HS3.
    cbn [run obey] in HS3. destruct HS3 as (_ & _ & HA3 & HRo3).
    assert (Hnn : ~ In Panicked (fst (play dbg (ep ++ [NewEpoch]) L))).
    { apply EN2. cbn. intros [X|[]]. discriminate X. }
    split; [ now apply EN |]. rewrite EP, EP2. set (L3 := snd (play dbg [NewEpoch] L2)) in *.
    assert (E3 : L3 = mkLedger (slots L2) (next L2) (made L2) (keys L2) [] [] [] []) by reflexivity.
    (* the epoch on the ledger *)
    destruct (play_takes (Answer contract al) takes L Hv) as (L1 & [V1 A1] & E2 & Hp). fold ep L2 in E2.
    cbn [serve] in E2, Hp.
    destruct (each (answer_one dbg contract) (combine (seq 0 (length al)) al) L1) as [v L2'] eqn:Ee. cbn [fst snd] in E2, Hp. subst L2'.
    assert (N1 : length (answers L1) = 0%nat) by (rewrite A1, (fw_answers _ _ _ _ _ HF); reflexivity).
    rewrite <- N1 in Ee at 1. destruct (each_follow contract al L1 L2 v Ee Hp) as (new & F1 & F2 & F3).
    rewrite N1 in F3. cbn [skipn] in F3.
    assert (F1' : answers L2 = new).
    { rewrite F1, A1, (fw_answers _ _ _ _ _ HF). reflexivity. }
    (* the block *)
    pose proof (block_is dbg s2 L2 k0 (cs ++ more) c HA2 (ends_ok dbg s2 L2 HA2 HRo2) Hh) as HB.
    pose proof (proj1 (C38_registry dbg k0 _ c Hh)) as Ek. rewrite joined_app in Ek. rewrite Ek in HB.
    specialize (HB Hlen). rewrite Hb in HB.
    destruct (report L2 (k0 :: joined cs ++ joined more)) as [b'|] eqn:Er; [| discriminate HB ].
    assert (b' = b) by congruence. subst b'. clear HB. unfold report in Er.
    destruct (all_some (named_slot (k0 :: joined cs ++ joined more)) (answers L2)) as [sg|] eqn:G1; [| discriminate Er ].
    destruct (all_some (named (k0 :: joined cs ++ joined more)) (entered L2)) as [de|] eqn:G2; [| discriminate Er ].
    destruct (all_some (named (k0 :: joined cs ++ joined more)) (left L2)) as [wd|] eqn:G3; [| discriminate Er ].
    assert (B1 : utxo_tree_root b = merkle_root (slots L2)) by (injection Er as <-; reflexivity).
    assert (B2 : tx_tree_root b = merkle_root (tx_contents (epoch L2))) by (injection Er as <-; reflexivity).
    assert (B3 : signer_tree_root b = merkle_root (keys L2)) by (injection Er as <-; reflexivity).
    assert (B4 : b_signers b = sg) by (injection Er as <-; reflexivity).
    assert (B5 : b_deposits b = de) by (injection Er as <-; reflexivity).
    assert (B6 : b_withdrawals b = wd) by (injection Er as <-; reflexivity).
    assert (Esg : read_signers reg b = new).
    { unfold read_signers. rewrite B4, <- F1'. exact (read_signers_ok _ rest _ _ G1). }
    assert (EV : view_of L2 = follow contract reg (l ++ [(a_txs s2, b)])).
    { rewrite follow_snoc. unfold follow_block. cbn [fst snd]. rewrite Esg, F3, (ag_txs _ _ _ HA2), F2. f_equal.
      rewrite V1. unfold view_of. rewrite (fw_slots _ _ _ _ _ HF), (fw_next _ _ _ _ _ HF), (fw_keys _ _ _ _ _ HF).
      f_equal.
      - exact (fw_in _ _ _ _ _ HF).
      - exact (fw_out _ _ _ _ _ HF). }
    constructor.
    - exact HA3.
    - exact HRo3.
    - now rewrite E3.
    - now rewrite E3.
    - now rewrite E3.
    - now rewrite E3.
    - rewrite <- EV, E3. reflexivity.
    - rewrite <- EV, E3. reflexivity.
    - rewrite <- EV, E3. reflexivity.
    - intros l1 txs b0 l2 El.
      destruct l2 as [|y l2 _] using rev_ind.
      + apply app_inj_tail in El as [-> Ex]. assert (txs = a_txs s2 /\ b0 = b) as [-> ->] by (apply pair_equal_spec in Ex; intuition congruence).
        unfold confirms. rewrite <- EV. cbn [view_of w_slots w_keys w_in w_out].
        rewrite B1, B2, B3, B5, B6, (ag_txs _ _ _ HA2). split; [ reflexivity |]. split; [ reflexivity |]. split; [ reflexivity |].
        split; [ exact (read_entries_ok _ rest _ _ G2) | exact (read_entries_ok _ rest _ _ G3) ].
      + apply (fw_blocks _ _ _ _ _ HF l1 txs b0 l2). rewrite app_comm_cons, app_assoc in El. apply app_inj_tail in El as [El _]. exact El.
  Qed.

  (** C126: a follower who reads the keys in any later state of the registry rebuilds, from the
      transactions and the signer lists, the roots and the entries of every block. *)
  Theorem C126_blocks contract k0 qs s cs l rest : published dbg contract k0 qs s cs l ->
    always_roomy dbg qs start -> Z.of_nat (length (k0 :: joined cs)) <= 2 ^ 32 ->
    let reg := (k0 :: joined cs) ++ rest in
    forall l1 txs b l2, l = l1 ++ (txs, b) :: l2 -> confirms reg txs b (follow contract reg (l1 ++ [(txs, b)])).
  Proof.
    intros HP HR Hl reg. exact (fw_blocks _ _ _ _ _ (proj2 (published_inv contract k0 qs s cs l HP rest HR Hl))).
  Qed.

  (** C126: and knows every coin of the aggregator and its position. *)
  Theorem C126_coins contract k0 qs s cs l rest : published dbg contract k0 qs s cs l ->
    always_roomy dbg qs start -> Z.of_nat (length (k0 :: joined cs)) <= 2 ^ 32 ->
    let V := follow contract ((k0 :: joined cs) ++ rest) l in
    root (a_utxo_tree s) = Ok (merkle_root (w_slots V)) /\ root (a_signer_tree s) = Ok (merkle_root (w_keys V)) /\
    a_index s = Z.of_nat (w_next V) /\
    (forall i u, is_dummy u = false -> (In (i, u) (positions s) <-> 0 <= i < Z.of_nat (w_next V) /\ w_slots V i = u)).
  Proof.
    intros HP HR Hl V. destruct (published_inv contract k0 qs s cs l HP rest HR Hl) as [_ HF].
    pose proof (fw_agrees _ _ _ _ _ HF) as HA. destruct (ends_ok dbg s _ HA (fw_roomy _ _ _ _ _ HF)) as (R1 & _ & R3).
    unfold V. rewrite <- (fw_slots _ _ _ _ _ HF), <- (fw_keys _ _ _ _ _ HF), <- (fw_next _ _ _ _ _ HF).
    split; [ exact R1 |]. split; [ exact R3 |]. split; [ exact (ag_index _ _ _ HA) |].
    intros i u Hu. destruct (ag_coins _ _ _ HA) as (w & HI). rewrite <- (ag_index _ _ _ HA). exact (stands dbg s _ w i u HI Hu).
  Qed.

  (** C126: so the aggregator keeps nothing back: two that published the same transactions and the same
      signers, whatever signatures and rejected requests they saw, hold the same coins at the same positions. *)
  Theorem C126_nothing_hidden contract k0 qs s cs l qs' s' cs' l' :
    published dbg contract k0 qs s cs l -> always_roomy dbg qs start ->
    published dbg contract k0 qs' s' cs' l' -> always_roomy dbg qs' start ->
    joined cs = joined cs' -> Z.of_nat (length (k0 :: joined cs)) <= 2 ^ 32 ->
    map (fun tb => (fst tb, b_signers (snd tb))) l = map (fun tb => (fst tb, b_signers (snd tb))) l' ->
    root (a_utxo_tree s) = root (a_utxo_tree s') /\ root (a_signer_tree s) = root (a_signer_tree s') /\
    a_index s = a_index s' /\
    (forall i u, is_dummy u = false -> (In (i, u) (positions s) <-> In (i, u) (positions s'))).
  Proof.
    intros HP HR HP' HR' Ej Hl E.
    destruct (C126_coins contract k0 qs s cs l [] HP HR Hl) as (A1 & A2 & A3 & A4).
    pose proof Hl as Hl'. rewrite Ej in Hl'.
    destruct (C126_coins contract k0 qs' s' cs' l' [] HP' HR' Hl') as (B1 & B2 & B3 & B4).
    rewrite <- Ej in *. clear Ej.
    assert (EV : follow contract ((k0 :: joined cs) ++ []) l = follow contract ((k0 :: joined cs) ++ []) l').
    { unfold follow. revert E. generalize view_start as V, l', ((k0 :: joined cs) ++ []) as reg. clear.
      induction l as [|[t b] l IH]; intros V [|[t' b'] l'] reg E; cbn [map fst snd] in E; try discriminate; [ reflexivity |].
      cbn [fold_left]. assert (t = t' /\ b_signers b = b_signers b' /\
        map (fun tb => (fst tb, b_signers (snd tb))) l = map (fun tb => (fst tb, b_signers (snd tb))) l') as (-> & Eb & El).
      { assert (X : forall A (x y : A) m n, x :: m = y :: n -> x = y /\ m = n) by (intros A x y m n X; split; congruence).
        apply X in E as [E1 E2]. apply pair_equal_spec in E1 as [E1 E3]. auto. }
      replace (follow_block contract reg V (t', b)) with (follow_block contract reg V (t', b')).
      - now apply IH.
      - unfold follow_block, read_signers. cbn [fst snd]. now rewrite Eb. }
    rewrite <- EV in B1, B2, B3, B4.
    split; [ congruence |]. split; [ congruence |]. split; [ congruence |].
    intros i u Hu. rewrite (A4 i u Hu), (B4 i u Hu). reflexivity.
  Qed.
End props.

Print Assumptions C126_blocks.
Print Assumptions C126_coins.
Print Assumptions C126_nothing_hidden.

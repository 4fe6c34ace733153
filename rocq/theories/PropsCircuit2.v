(** C57, C59-C62, C76: value, transaction root, signers and the hash chains of the aggregator
    circuit. *)
From Coq Require Import ZArith List Bool Lia Permutation.
Import ListNotations.
From Verif Require Import Base Env Circuit SparseMT SparseMTSpec SparseMTHeap SparseMTRep SparseMTProofs
  SparseMTGadget SparseMTGadgetProofs Data DataSpec DataFacts Gadgets GadgetsProofs Schnorr SchnorrProofs
  Contract ContractSpec Aggregator AggCircuit AggCircuitFacts AggCircuitSpec CircuitRun PropsCircuit.
Open Scope Z_scope.

Section props.
  Context {hs : Hashes} {G : Curve}.
  Variable (contract : pt).

  (** ** C57: value *)
  Lemma vtotal_app a b : vtotal (a ++ b) = vtotal a + vtotal b.
  Proof. induction a as [|u a IH]; cbn [app vtotal]; [ reflexivity |]. rewrite IH. lia. Qed.
  Lemma vtotal_perm a b : Permutation a b -> vtotal a = vtotal b.
  Proof. induction 1; cbn [vtotal]; lia. Qed.
  Lemma vtotal_bound l : Forall (fun u => v_dummy u = false -> zval (v_amount u) < 2 ^ 64) l ->
    0 <= vtotal l <= Z.of_nat (length l) * 2 ^ 64.
  Proof.
    induction l as [|u l IH]; intros Hl; cbn [vtotal length]; [ lia |].
    pose proof (Forall_inv Hl) as Hu. cbv beta in Hu. apply Forall_inv_tail in Hl. specialize (IH Hl).
    pose proof (F_range (v_amount u)). rewrite Nat2Z.inj_succ. destruct (v_dummy u); [ lia |]. specialize (Hu eq_refl). lia.
  Qed.
  Lemma p_big : 4 * 2 ^ 64 < p.
  Proof. eapply Z.lt_trans; [| exact (proj1 p_254) ]. reflexivity. Qed.

  (** C57, one step: in full mode, inputs in the 64-bit range make the integer totals agree *)
  Theorem C57_integer_balance z x z' :
    wf_input x -> sat (c_step contract false z x) z' ->
    (forall u, In u (a4_list (v_inputs (x_tx x))) -> v_dummy u = false -> zval (v_amount u) < 2 ^ 64) ->
    vtotal_in (x_tx x) = vtotal_out (x_tx x) /\
    (forall u, In u (a4_list (v_outputs (x_tx x))) -> zval (v_amount u) < 2 ^ 64) /\
    vowned_by (x_sender x) (x_tx x).
  Proof.
    intros Hw H Hi. pose proof (step_facts_of contract false z x z' Hw H) as S.
    pose proof (sf_range _ _ _ _ _ S eq_refl) as Hr. destruct (sf_valid _ _ _ _ _ S) as [Ho Hm].
    split; [| split; auto ].
    assert (B1 : 0 <= vtotal_in (x_tx x) <= 4 * 2 ^ 64).
    { apply (vtotal_bound (a4_list (v_inputs (x_tx x)))). apply Forall_forall. auto. }
    assert (B2 : 0 <= vtotal_out (x_tx x) <= 4 * 2 ^ 64).
    { apply (vtotal_bound (a4_list (v_outputs (x_tx x)))). apply Forall_forall. auto. }
    pose proof p_big. rewrite !Z.mod_small in Hm by lia. exact Hm.
  Qed.

  (** real outputs split into those the contract receives and the others *)
  Lemma vtotal_filter_split (f : utxoV -> bool) l :
    vtotal l = vtotal (filter f l) + vtotal (filter (fun u => negb (f u)) l).
  Proof.
    induction l as [|u l IH]; cbn [filter vtotal]; [ reflexivity |].
    destruct (f u); cbn [negb vtotal]; lia.
  Qed.
  Lemma vtotal_real l : vtotal (filter (fun u => negb (v_dummy u)) l) = vtotal l.
  Proof. induction l as [|u l IH]; cbn [filter vtotal]; auto. destruct (v_dummy u) eqn:E; cbn [negb vtotal]; rewrite ?E; lia. Qed.
  Lemma filter_comm {A} (f g : A -> bool) l : filter f (filter g l) = filter g (filter f l).
  Proof.
    induction l as [|x l IH]; cbn; auto. destruct (f x) eqn:Ef, (g x) eqn:Eg; cbn; rewrite ?Ef, ?Eg, IH; auto.
  Qed.
  Lemma created_value final x :
    vtotal (created contract final x) =
    if is_applied contract final x then vtotal_out (x_tx x) - withdrawn contract x else 0.
  Proof.
    unfold created. destruct (is_applied contract final x); [| reflexivity ].
    unfold realV. rewrite filter_comm, vtotal_real. unfold vtotal_out, withdrawn.
    rewrite (vtotal_filter_split (fun u => pt_eqb (v_pk u) contract) (a4_list (v_outputs (x_tx x)))). lia.
  Qed.
  Lemma consumed_value final x :
    vtotal (consumed final x) = if is_signed final x then vtotal_in (x_tx x) else 0.
  Proof. unfold consumed, realV. destruct (is_signed final x); [ apply vtotal_real | reflexivity ]. Qed.

  Lemma crun_steps to xs z z' : crun contract to z xs z' ->
    Forall (fun x => exists z1 z2, z_tx_final z1 = z_tx_final z /\ wf_input x /\ sat (c_step contract to z1 x) z2) xs.
  Proof.
    intros H. induction H as [z|z x z1 xs z' Hw Hs Hr IH]; constructor.
    - exists z, z1. auto.
    - eapply Forall_impl; [| exact IH ]. intros y (za & zb & E & Hy). exists za, zb. split; [| exact Hy ].
      rewrite E. now apply (step_final contract to z x).
  Qed.

  Lemma vtotal_flat_map {A} (f : A -> list utxoV) l : vtotal (flat_map f l) = zsum (map (fun x => vtotal (f x)) l).
  Proof.
    induction l as [|x l IH]; cbn [flat_map map]; [ reflexivity |].
    rewrite vtotal_app, IH. reflexivity.
  Qed.
  Lemma zsum_ext {A} (f g : A -> Z) l : (forall x, In x l -> f x = g x) -> zsum (map f l) = zsum (map g l).
  Proof. intros H. f_equal. now apply map_ext_in. Qed.
  Lemma zsum_plus {A} (f g : A -> Z) l : zsum (map (fun x => f x + g x) l) = zsum (map f l) + zsum (map g l).
  Proof.
    induction l as [|x l IH]; [ reflexivity |]. cbn [map].
    change (zsum ((f x + g x) :: map (fun x => f x + g x) l)) with ((f x + g x) + zsum (map (fun x => f x + g x) l)).
    change (zsum (f x :: map f l)) with (f x + zsum (map f l)).
    change (zsum (g x :: map g l)) with (g x + zsum (map g l)). lia.
  Qed.

  (** C57, any number of steps: value changes only by withdrawals and contract transactions *)
  Lemma conserve_from z bs z' (c c' : contents utxoV_cfg) :
    ivc contract false (z_list z) bs (z_list z') ->
    (forall u, In u (live c) -> zval (v_amount u) < 2 ^ 64) ->
    Permutation (live c' ++ flat_map (consumed (z_tx_final z)) (concat bs))
                (live c ++ flat_map (created contract (z_tx_final z)) (concat bs)) ->
    (forall u, In u (live c') -> zval (v_amount u) < 2 ^ 64) /\
    vtotal (live c') + zsum (map (burnt contract (z_tx_final z)) (concat bs)) =
    vtotal (live c) + zsum (map (minted contract (z_tx_final z)) (concat bs)).
  Proof.
    intros H Hl HP. apply ivc_crun in H as (z1 & E1 & H). apply z_list_inj in E1. subst z1.
    set (xs := concat bs) in *. set (final := z_tx_final z) in *.
    pose proof (crun_steps false xs z z' H) as HS. fold final in HS. rewrite Forall_forall in HS.
    assert (Hcr : forall u, In u (flat_map (created contract final) xs) -> zval (v_amount u) < 2 ^ 64).
    { intros u Hu. apply in_flat_map in Hu as (x & Hx & Hu). destruct (HS x Hx) as (za & zb & Ef & Hw & Hs).
      pose proof (step_facts_of contract false za x zb Hw Hs) as S. apply (sf_range _ _ _ _ _ S eq_refl).
      unfold created in Hu. destruct (is_applied contract final x); [| destruct Hu ].
      apply filter_In in Hu as [Hu _]. unfold realV in Hu. now apply filter_In in Hu as [Hu _]. }
    assert (Hall : forall u, In u (live c' ++ flat_map (consumed final) xs) -> zval (v_amount u) < 2 ^ 64).
    { intros u Hu. apply (Permutation_in _ HP) in Hu. rewrite in_app_iff in Hu. destruct Hu as [Hu|Hu]; [ exact (Hl u Hu) | exact (Hcr u Hu) ]. }
    split; [ intros u Hu; apply Hall; rewrite in_app_iff; left; exact Hu |].
    apply vtotal_perm in HP. rewrite !vtotal_app, !vtotal_flat_map in HP.
    assert (EQ : zsum (map (fun x => vtotal (created contract final x)) xs) + zsum (map (burnt contract final) xs)
               = zsum (map (fun x => vtotal (consumed final x)) xs) + zsum (map (minted contract final) xs)).
    { rewrite <- !zsum_plus. apply zsum_ext. intros x Hx. destruct (HS x Hx) as (za & zb & Ef & Hw & Hs).
      rewrite created_value, consumed_value. unfold burnt, minted, is_applied.
      destruct (is_signed final x) eqn:Es; cbn [orb negb]; rewrite ?andb_false_r, ?andb_true_r.
      - assert (Eb : vtotal_in (x_tx x) = vtotal_out (x_tx x)).
        { apply (C57_integer_balance za x zb Hw Hs). intros u Hu Hd. apply Hall. rewrite in_app_iff. right.
          apply in_flat_map. exists x. split; [ exact Hx |]. unfold consumed. rewrite Es. unfold realV. apply filter_In.
          split; [ exact Hu | now rewrite Hd ]. }
        lia.
      - destruct (by_contract contract x); lia. }
    lia.
  Qed.
  Theorem C57_conservation z bs z' (c : contents utxoV_cfg) :
    ivc contract false (z_list z) bs (z_list z') ->
    z_utxo z = merkle_root c ->
    (forall u, In u (live c) -> zval (v_amount u) < 2 ^ 64) ->
    ~ collides utxoV_cfg utxo_encV c (flat_map (coin_writes contract (z_tx_final z)) (concat bs)) ->
    exists c' : contents utxoV_cfg,
      z_utxo z' = merkle_root c' /\
      (forall u, In u (live c') -> zval (v_amount u) < 2 ^ 64) /\
      vtotal (live c') + zsum (map (burnt contract (z_tx_final z)) (concat bs)) =
      vtotal (live c) + zsum (map (minted contract (z_tx_final z)) (concat bs)).
  Proof.
    intros H Hr Hl Hc.
    destruct (C55_no_double_spend contract false z bs z' c H Hr Hc) as (c' & E & HP).
    exists c'. split; [ exact E |]. exact (conserve_from z bs z' c c' H Hl HP).
  Qed.

  (** ** C59: the transaction root *)
  Lemma step_tx to z x z' (c : contents txV_cfg) : wf_input x -> sat (c_step contract to z x) z' ->
    z_tx z = merkle_root c ->
    (c (slot_of txV_cfg (z_step z)) = tx_alloc tx_default /\
     z_tx z' = merkle_root (set_leaf c (slot_of txV_cfg (z_step z)) (x_tx x)))
    \/ collides txV_cfg tx_encV c [tx_write (z_step z) x].
  Proof.
    intros Hw H Hr. pose proof (step_facts_of contract to z x z' Hw H) as S.
    pose proof (sf_shape _ _ _ _ _ S) as (Lt & _ & _ & _).
    pose proof (sf_tx_old _ _ _ _ _ S) as Ho. pose proof (sf_tx_new _ _ _ _ _ S) as Hn.
    assert (HI : forall l, LeafHash txV_cfg l = crh (tx_encV l)) by reflexivity.
    destruct (write_sound txV_cfg tx_encV HI tx_encV_inj c (tx_write (z_step z) x)) as [[G1 G2]|[G1|G1]].
    - apply slot_range.
    - exact Lt.
    - rewrite <- Hr, Ho. reflexivity.
    - left. split; [ exact G1 |]. rewrite Hn. exact G2.
    - right. now left.
    - right. right. now left.
  Qed.
  Lemma run_tx to xs : forall z z' (c : contents txV_cfg), crun contract to z xs z' -> z_tx z = merkle_root c ->
    (genuine txV_cfg c (tx_writes (z_step z) xs) /\
     z_tx z' = merkle_root (written txV_cfg c (tx_writes (z_step z) xs)))
    \/ collides txV_cfg tx_encV c (tx_writes (z_step z) xs).
  Proof.
    induction xs as [|x xs IH]; intros z z' c H Hr; cbn [tx_writes].
    - inversion H; subst. left. split; [ exact Logic.I | exact Hr ].
    - inversion H as [|? ? z1 ? ? Hw Hs Hrun]; subst.
      pose proof (sf_step _ _ _ _ _ (step_facts_of contract to z x z1 Hw Hs)) as Est.
      cbn [genuine written collides]. cbn [tx_write w_pos w_new w_old].
      destruct (step_tx to z x z1 c Hw Hs Hr) as [[G1 G2]|[G1|[G1|[]]]]; [| right; now left | right; right; now left ].
      specialize (IH z1 z' _ Hrun G2). rewrite Est in IH.
      destruct IH as [[G3 G4]|G3]; [ left; auto | right; auto ].
  Qed.
  Lemma run_counters to xs : forall z z', crun contract to z xs z' ->
    z_tx_final z' = z_tx_final z /\ z_step z' = Fadd (z_step z) (Fof (Z.of_nat (length xs))).
  Proof.
    induction xs as [|x xs IH]; intros z z' H.
    - inversion H; subst. split; auto. cbn [length]. change (Fof (Z.of_nat 0)) with Fzero. ring.
    - inversion H as [|? ? z1 ? ? Hw Hs Hrun]; subst. destruct (IH z1 z' Hrun) as [E1 E2].
      pose proof (step_facts_of contract to z x z1 Hw Hs) as S. rewrite E1, E2, (sf_final _ _ _ _ _ S), (sf_step _ _ _ _ _ S).
      split; auto. cbn [length]. rewrite Nat2Z.inj_succ.
      assert (Es : Fof (Z.succ (Z.of_nat (length xs))) = Fadd Fone (Fof (Z.of_nat (length xs)))).
      { apply zval_inj. change (zval (Fadd Fone (Fof (Z.of_nat (length xs))))) with ((1 mod p + Z.of_nat (length xs) mod p) mod p).
        change (zval (Fof (Z.succ (Z.of_nat (length xs))))) with (Z.succ (Z.of_nat (length xs)) mod p).
        rewrite <- Zplus_mod. f_equal. lia. }
      rewrite Es. ring.
  Qed.

  (** the transactions of a run, at consecutive slots *)
  Lemma tx_writes_nth xs : forall s j, nth_error (tx_writes (Fof s) xs) j =
    option_map (tx_write (Fof (s + Z.of_nat j))) (nth_error xs j).
  Proof.
    induction xs as [|x xs IH]; intros s j; cbn [tx_writes].
    - destruct j; reflexivity.
    - destruct j as [|j].
      + cbn [nth_error option_map]. now rewrite Z.add_0_r.
      + cbn [nth_error].
        assert (Es : Fadd (Fof s) Fone = Fof (s + 1)).
        { apply zval_inj. change (zval (Fadd (Fof s) Fone)) with ((s mod p + 1 mod p) mod p).
          change (zval (Fof (s + 1))) with ((s + 1) mod p). now rewrite <- Zplus_mod. }
        rewrite Es, IH. do 3 f_equal. lia.
  Qed.
  Lemma slot_small s : 0 <= s < p -> slot_of txV_cfg (Fof s) = s mod capacity txV_cfg.
  Proof. intros H. unfold slot_of. now rewrite zval_Fof_small. Qed.
  Lemma tx_writes_written xs : forall s (c : contents txV_cfg), 0 <= s -> s + Z.of_nat (length xs) <= capacity txV_cfg ->
    forall i, written txV_cfg c (tx_writes (Fof s) xs) i =
      if (s <=? i) && (i <? s + Z.of_nat (length xs)) then nth (Z.to_nat (i - s)) (map x_tx xs) (tx_alloc tx_default) else c i.
  Proof.
    assert (Hcap : capacity txV_cfg = 4096) by reflexivity.
    induction xs as [|x xs IH]; intros s c Hs Hl i; cbn [tx_writes written length map].
    - rewrite Z.add_0_r. destruct (s <=? i) eqn:E1, (i <? s) eqn:E2; auto. lia.
    - assert (Es : Fadd (Fof s) Fone = Fof (s + 1)).
      { apply zval_inj. change (zval (Fadd (Fof s) Fone)) with ((s mod p + 1 mod p) mod p).
        change (zval (Fof (s + 1))) with ((s + 1) mod p). now rewrite <- Zplus_mod. }
      rewrite Es. cbn [length] in Hl. rewrite Nat2Z.inj_succ in *. rewrite IH by lia.
      cbn [tx_write w_pos w_new]. rewrite slot_small by (pose proof p_big; lia). rewrite Z.mod_small by lia.
      unfold set_leaf.
      destruct (i =? s) eqn:E0.
      + apply Z.eqb_eq in E0. subst i.
        replace (s + 1 <=? s) with false by (symmetry; apply Z.leb_gt; lia). cbn [andb].
        replace ((s <=? s) && (s <? s + Z.succ (Z.of_nat (length xs)))) with true by (symmetry; apply andb_true_iff; split; [ apply Z.leb_le | apply Z.ltb_lt ]; lia).
        now rewrite Z.sub_diag.
      + apply Z.eqb_neq in E0.
        destruct (s + 1 <=? i) eqn:E1; cbn [andb].
        * apply Z.leb_le in E1. replace (s <=? i) with true by (symmetry; apply Z.leb_le; lia). cbn [andb].
          replace (i <? s + Z.succ (Z.of_nat (length xs))) with (i <? s + 1 + Z.of_nat (length xs)) by (f_equal; lia).
          destruct (i <? s + 1 + Z.of_nat (length xs)); auto.
          replace (Z.to_nat (i - s)) with (S (Z.to_nat (i - (s + 1)))) by lia. reflexivity.
        * apply Z.leb_gt in E1. replace (s <=? i) with false by (symmetry; apply Z.leb_gt; lia). reflexivity.
  Qed.
  Lemma merkle_root_ext (P : SparseConfig) (c c' : contents P) :
    (forall i, in_range P i -> c i = c' i) -> merkle_root c = merkle_root c'.
  Proof.
    intros H. unfold merkle_root.
    assert (Gn : forall d k, 0 <= k -> (k + 1) * 2 ^ Z.of_nat d <= capacity P ->
              node d (digests c) k = node d (digests c') k).
    { induction d as [|d IH]; intros k Hk Hb; cbn [node].
      - unfold digests. rewrite H; auto. unfold in_range. change (2 ^ Z.of_nat 0) with 1 in Hb. lia.
      - rewrite Nat2Z.inj_succ, Z.pow_succ_r in Hb by lia. assert (0 < 2 ^ Z.of_nat d) by (apply Z.pow_pos_nonneg; lia).
        rewrite !IH by nia. reflexivity. }
    apply Gn; [ lia |]. unfold capacity. lia.
  Qed.

  Lemma set_leaf_same {P} (c : contents P) i v : set_leaf c i v i = v.
  Proof. unfold set_leaf. now rewrite Z.eqb_refl. Qed.
  (** a slot written and not rewritten keeps its leaf *)
  Lemma written_other (P : SparseConfig) ws : forall (c : contents P) i,
    (forall w, In w ws -> w_pos w <> i) -> written P c ws i = c i.
  Proof.
    induction ws as [|w ws IH]; intros c i H; cbn [written]; auto.
    rewrite IH by (intros v Hv; apply H; now right). unfold set_leaf.
    destruct (i =? w_pos w) eqn:E; auto. apply Z.eqb_eq in E. exfalso. apply (H w); [ now left | congruence ].
  Qed.
  Lemma genuine_nth (P : SparseConfig) ws : forall (c : contents P) j w,
    genuine P c ws -> nth_error ws j = Some w -> written P c (firstn j ws) (w_pos w) = w_old w.
  Proof.
    induction ws as [|v ws IH]; intros c j w Hg Hj; [ destruct j; discriminate |].
    cbn [genuine] in Hg. destruct Hg as [H1 H2]. destruct j as [|j]; cbn [nth_error firstn written] in *.
    - congruence.
    - now apply IH.
  Qed.
  Lemma nth_error_firstn {A} (l : list A) : forall n i, (i < n)%nat -> nth_error (firstn n l) i = nth_error l i.
  Proof.
    induction l as [|x l IH]; intros n i H; destruct n as [|n]; try lia; cbn; auto.
    destruct i as [|i]; cbn; auto. apply IH. lia.
  Qed.

  Lemma nth_error_skipn' {A} (l : list A) : forall n m, nth_error (skipn n l) m = nth_error l (n + m).
  Proof.
    induction l as [|x l IH]; intros [|n] m; cbn [skipn nth_error Nat.add]; auto. now destruct m.
  Qed.

  (** C59: the transaction root is the root of the transactions in order; the counter counts; and
      a transaction can only be followed by 4096 or more others if it is the default one. *)
  Theorem C59_tx_root_chain to z bs z' :
    ivc contract to (z_list z) bs (z_list z') ->
    z_step z = Fzero -> z_tx z = merkle_root (empty_contents txV_cfg) ->
    let xs := concat bs in
    let n := Z.of_nat (length xs) in
    z_tx_final z' = z_tx_final z /\ z_step z' = Fof n /\
    (n < p ->
     collides txV_cfg tx_encV (empty_contents txV_cfg) (tx_writes Fzero xs) \/
     ((n <= capacity txV_cfg -> z_tx z' = merkle_root (txs_of xs)) /\
      (forall j x, nth_error xs j = Some x ->
         (j + Z.to_nat (capacity txV_cfg) < length xs)%nat -> x_tx x = tx_alloc tx_default))).
  Proof.
    intros H Hs Hr xs n. apply ivc_crun in H as (z1 & E1 & H). apply z_list_inj in E1. subst z1. fold xs in H.
    destruct (run_counters to xs z z' H) as [C1 C2]. split; auto. split.
    { rewrite C2, Hs. fold n. ring. }
    intros Hn. destruct (run_tx to xs z z' _ H Hr) as [[G1 G2]|G1]; [ right | left; now rewrite <- Hs ].
    rewrite Hs in G1, G2. change Fzero with (Fof 0) in G1, G2.
    assert (Hcap : capacity txV_cfg = 4096) by reflexivity.
    split.
    - intros Hle. rewrite G2. apply merkle_root_ext. intros i Hi. rewrite tx_writes_written by (fold n; lia).
      unfold txs_of, in_range in *. rewrite Z.add_0_l, Z.sub_0_r. fold n.
      destruct (i <? 0) eqn:E0; [ apply Z.ltb_lt in E0; lia |].
      replace (0 <=? i) with true by (symmetry; apply Z.leb_le; lia). cbn [andb].
      destruct (i <? n) eqn:E; auto. apply Z.ltb_ge in E. unfold empty_contents. rewrite nth_overflow; auto.
      rewrite map_length. unfold n in E. lia.
    - intros j x Hj Hlt. set (cap := Z.to_nat (capacity txV_cfg)) in *.
      assert (Hcn : Z.of_nat cap = 4096) by (unfold cap; rewrite Hcap; reflexivity).
      destruct (nth_error xs (j + cap)) as [y|] eqn:Ey; [| apply nth_error_None in Ey; lia ].
      assert (Hw : nth_error (tx_writes (Fof 0) xs) (j + cap) = Some (tx_write (Fof (Z.of_nat (j + cap))) y)).
      { rewrite tx_writes_nth, Ey. reflexivity. }
      assert (Hw0 : nth_error (tx_writes (Fof 0) xs) j = Some (tx_write (Fof (Z.of_nat j)) x)).
      { rewrite tx_writes_nth, Hj. reflexivity. }
      pose proof (genuine_nth txV_cfg _ _ _ _ G1 Hw) as Hg. cbn [tx_write w_pos w_old] in Hg.
      set (W := tx_writes (Fof 0) xs) in *.
      (* the writes before: ... write j, then others not on its slot *)
      assert (Hsp : firstn (j + cap) W = firstn j W ++ tx_write (Fof (Z.of_nat j)) x :: skipn (S j) (firstn (j + cap) W)).
      { rewrite <- (firstn_skipn j (firstn (j + cap) W)) at 1. rewrite firstn_firstn, Nat.min_l by lia. f_equal.
        assert (En : nth_error (firstn (j + cap) W) j = Some (tx_write (Fof (Z.of_nat j)) x)).
        { rewrite nth_error_firstn by lia. exact Hw0. }
        clear -En. revert En. generalize (firstn (j + cap) W) as l. generalize (tx_write (Fof (Z.of_nat j)) x) as w0.
        intros w0. induction j as [|j IH]; intros [|a l] E; cbn [nth_error] in E; try discriminate.
        - cbn. congruence.
        - cbn [skipn]. now apply IH. }
      change (@firstn (write (Leaf txV_cfg)) (j + cap) W) with (@firstn (write txV) (j + cap) W) in Hg.
      rewrite Hsp in Hg. change (@app (write txV)) with (@app (write (Leaf txV_cfg))) in Hg. rewrite written_app in Hg. cbn [written] in Hg.
      rewrite written_other in Hg.
      + cbn [tx_write w_pos w_new] in Hg. 
        assert (Esl : slot_of txV_cfg (Fof (Z.of_nat (j + cap))) = slot_of txV_cfg (Fof (Z.of_nat j))).
        { rewrite !slot_small by (unfold n in Hn; lia). rewrite Hcap, Nat2Z.inj_add, Hcn.
          replace (Z.of_nat j + 4096) with (Z.of_nat j + 1 * 4096) by lia. now rewrite Z.mod_add by lia. }
        rewrite Esl, set_leaf_same in Hg. exact Hg.
      + intros w Hw'. apply In_nth_error in Hw' as (m & Hm).
        assert (Hml : (S j + m < j + cap)%nat /\ nth_error W (S j + m) = Some w).
        { rewrite nth_error_skipn' in Hm. assert (Hlt' : (S j + m < length (firstn (j + cap) W))%nat) by (apply nth_error_Some; unfold txV_cfg in *; cbn [Leaf] in *; rewrite Hm; discriminate).
          rewrite firstn_length in Hlt'. split; [ lia |]. rewrite nth_error_firstn in Hm by lia. exact Hm. }
        destruct Hml as [Hml Hmw]. unfold W in Hmw. rewrite tx_writes_nth in Hmw.
        destruct (nth_error xs (S j + m)) as [v|]; [| discriminate ]. cbn [option_map] in Hmw. assert (Ew : tx_write (Fof (0 + Z.of_nat (S j + m))) v = w) by congruence. subst w.
        cbn [tx_write w_pos]. set (k := (S j + m)%nat) in *. rewrite !slot_small by (unfold n in Hn; lia). rewrite Hcap. intros E.
        revert E. rewrite Nat2Z.inj_add, Hcn. 
        replace (Z.of_nat j + 4096) with (Z.of_nat j + 1 * 4096) by lia. rewrite Z.mod_add by lia. intros E.
        assert (N : 4096 <> 0) by lia.
        pose proof (Z.div_mod (0 + Z.of_nat k) 4096 N) as D1. pose proof (Z.div_mod (Z.of_nat j) 4096 N) as D2.
        rewrite E in D1. assert (Hk : (j < k)%nat) by (unfold k; lia). clear -D1 D2 Hml Hcn Hk. set (a := (0 + Z.of_nat k) / 4096) in *.
        set (b := Z.of_nat j / 4096) in *. set (r := Z.of_nat j mod 4096) in *. lia.
  Qed.

  (** ** C60: signers *)
  Lemma step_key to z x z' (c : contents keyV_cfg) : wf_input x -> sat (c_step contract to z x) z' ->
    z_signer z = merkle_root c ->
    let ws := key_writes contract (z_tx_final z) (z_step z) x in
    (genuine keyV_cfg c ws /\ z_signer z' = merkle_root (written keyV_cfg c ws)) \/ collides keyV_cfg pt_encV c ws.
  Proof.
    intros Hw H Hr ws. pose proof (step_facts_of contract to z x z' Hw H) as S.
    pose proof (sf_shape _ _ _ _ _ S) as (_ & Ls & _ & _). pose proof (sf_signer _ _ _ _ _ S) as Hs.
    unfold ws, key_writes. destruct (is_applied contract (z_tx_final z) x).
    - destruct Hs as [Ho Hn].
      assert (HI : forall l, LeafHash keyV_cfg l = crh (pt_encV l)) by reflexivity.
      destruct (write_sound keyV_cfg pt_encV HI pt_encV_inj c
                  (mkWrite (slot_of keyV_cfg (z_step z)) pzero (x_sender x) (x_signer_proof x))) as [[G1 G2]|[G1|G1]].
      + apply slot_range.
      + exact Ls.
      + rewrite <- Hr, Ho. reflexivity.
      + left. cbn [genuine written w_pos w_old w_new]. split; [ split; [ exact G1 | exact Logic.I ] |]. rewrite Hn. exact G2.
      + right. now left.
      + right. right. now left.
    - left. split; [ exact Logic.I |]. rewrite Hs. exact Hr.
  Qed.
  Lemma run_key to xs : forall z z' (c : contents keyV_cfg), crun contract to z xs z' -> z_signer z = merkle_root c ->
    let ws := all_key_writes contract (z_tx_final z) (z_step z) xs in
    (genuine keyV_cfg c ws /\ z_signer z' = merkle_root (written keyV_cfg c ws)) \/ collides keyV_cfg pt_encV c ws.
  Proof.
    induction xs as [|x xs IH]; intros z z' c H Hr ws; unfold ws; cbn [all_key_writes].
    - inversion H; subst. left. split; [ exact Logic.I | exact Hr ].
    - inversion H as [|? ? z1 ? ? Hw Hs Hrun]; subst.
      pose proof (step_facts_of contract to z x z1 Hw Hs) as S.
      destruct (step_key to z x z1 c Hw Hs Hr) as [[G1 G2]|G1]; [| right; apply collides_app; now left ].
      specialize (IH z1 z' _ Hrun G2). cbv zeta in IH.
      rewrite (sf_final _ _ _ _ _ S), (sf_step _ _ _ _ _ S) in IH.
      rewrite genuine_app, written_app, collides_app.
      destruct IH as [[G3 G4]|G3]; [ left; auto | right; auto ].
  Qed.
  Lemma chain_app l1 l2 a : chain_from a (l1 ++ l2) = chain_from (chain_from a l1) l2.
  Proof. unfold chain_from. apply fold_left_app. Qed.
  Lemma run_chains to xs : forall z z', crun contract to z xs z' ->
    z_signer_acc z' = chain_from (z_signer_acc z) (map (signer_entry contract (z_tx_final z)) xs) /\
    z_deposit z' = (if to then z_deposit z else chain_from (z_deposit z) (flat_map (deposit_entries contract) xs)) /\
    z_withdrawal z' = (if to then z_withdrawal z else chain_from (z_withdrawal z) (flat_map (withdrawal_entries contract) xs)).
  Proof.
    induction xs as [|x xs IH]; intros z z' H.
    - inversion H; subst. destruct to; auto.
    - inversion H as [|? ? z1 ? ? Hw Hs Hrun]; subst. destruct (IH z1 z' Hrun) as (E1 & E2 & E3).
      pose proof (step_facts_of contract to z x z1 Hw Hs) as S.
      cbn [map flat_map].
      change (signer_entry contract (z_tx_final z) x :: map (signer_entry contract (z_tx_final z)) xs)
        with ([signer_entry contract (z_tx_final z) x] ++ map (signer_entry contract (z_tx_final z)) xs).
      rewrite !chain_app, E1, E2, E3, (sf_acc _ _ _ _ _ S), (sf_final _ _ _ _ _ S), (sf_deposit _ _ _ _ _ S), (sf_withdraw _ _ _ _ _ S).
      destruct to; auto.
  Qed.

  (** The signer chain grows by one entry per transaction - the sender's key, or the identity
      for a transaction that is not applied - and the signer tree is written, at the slot of the
      step counter, only over the identity. *)
  Theorem C60_signers to z bs z' (c : contents keyV_cfg) :
    ivc contract to (z_list z) bs (z_list z') ->
    z_signer z = merkle_root c ->
    let xs := concat bs in
    let ws := all_key_writes contract (z_tx_final z) (z_step z) xs in
    z_signer_acc z' = chain_from (z_signer_acc z) (map (signer_entry contract (z_tx_final z)) xs) /\
    ((genuine keyV_cfg c ws /\ z_signer z' = merkle_root (written keyV_cfg c ws)) \/ collides keyV_cfg pt_encV c ws).
  Proof.
    intros H Hr xs ws. apply ivc_crun in H as (z1 & E1 & H). apply z_list_inj in E1. subst z1. fold xs in H. split.
    - exact (proj1 (run_chains to xs z z' H)).
    - now apply (run_key to xs).
  Qed.

  (** ** C61, C62: the chains of withdrawals and deposits *)
  Theorem C61_withdrawal_chain to z bs z' :
    ivc contract to (z_list z) bs (z_list z') ->
    z_withdrawal z' = if to then z_withdrawal z
                      else chain_from (z_withdrawal z) (flat_map (withdrawal_entries contract) (concat bs)).
  Proof.
    intros H. apply ivc_crun in H as (z1 & E1 & H). apply z_list_inj in E1. subst z1.
    exact (proj2 (proj2 (run_chains to _ z z' H))).
  Qed.
  Theorem C62_deposit_chain to z bs z' :
    ivc contract to (z_list z) bs (z_list z') ->
    z_deposit z' = if to then z_deposit z
                   else chain_from (z_deposit z) (flat_map (deposit_entries contract) (concat bs)).
  Proof.
    intros H. apply ivc_crun in H as (z1 & E1 & H). apply z_list_inj in E1. subst z1.
    exact (proj1 (proj2 (run_chains to _ z z' H))).
  Qed.
  (** the amounts that enter the chains fit in 64 bits, so that their 8-byte encodings are exact *)
  Theorem C61_amounts_fit z bs z' :
    ivc contract false (z_list z) bs (z_list z') ->
    forall x, In x (concat bs) ->
      withdrawn contract x < 2 ^ 64 /\ forall u, In u (a4_list (v_outputs (x_tx x))) -> zval (v_amount u) < 2 ^ 64.
  Proof.
    intros H x Hx. apply ivc_crun in H as (z1 & E1 & H). apply z_list_inj in E1. subst z1.
    pose proof (crun_steps false _ z z' H) as HS. rewrite Forall_forall in HS.
    destruct (HS x Hx) as (za & zb & _ & Hw & Hs). pose proof (step_facts_of contract false za x zb Hw Hs) as S.
    split; [ exact (sf_wrange _ _ _ _ _ S eq_refl) | exact (sf_range _ _ _ _ _ S eq_refl) ].
  Qed.

  (** ** C76: how transactions are batched into proof steps does not matter *)
  Theorem C76_batching to zl bs bs' zl' :
    concat bs = concat bs' -> length zl = 8%nat ->
    ivc contract to zl bs zl' <-> ivc contract to zl bs' zl'.
  Proof.
    intros E Hl. assert (Hz : exists z, zl = z_list z).
    { destruct zl as [|a0 [|a1 [|a2 [|a3 [|a4 [|a5 [|a6 [|a7 [|]]]]]]]]]; try discriminate. 
      now exists (mkZ a0 a1 a2 a3 a4 a5 a6 a7). }
    destruct Hz as [z ->]. now rewrite !ivc_crun, E.
  Qed.
End props.

Print Assumptions C57_integer_balance.
Print Assumptions C57_conservation.
Print Assumptions C59_tx_root_chain.
Print Assumptions C60_signers.
Print Assumptions C61_withdrawal_chain.
Print Assumptions C62_deposit_chain.
Print Assumptions C61_amounts_fit.
Print Assumptions C76_batching.

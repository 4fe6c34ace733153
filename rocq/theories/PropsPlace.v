(** C127: the published data of a block do not say where the coins are. *)
From Coq Require Import ZArith List Bool Lia.
Import ListNotations.
From Verif Require Import Base Env Circuit SparseMT SparseMTSpec SparseMTHeap SparseMTRep SparseMTProofs
  SparseMTGadget SparseMTGadgetProofs Data DataSpec DataFacts Gadgets GadgetsProofs Schnorr SchnorrProofs
  Contract Aggregator AggIntake AggCircuit AggCircuitFacts AggCircuitSpec CircuitRun PropsCircuit PropsCircuit2 PropsCircuit3
  ExactSpec PropsExact PropsSpoil Place.
Open Scope Z_scope.

Section props.
  Context {hs : Hashes} {G : Curve}.
  Variable contract : pt.
  Local Opaque merkle_root sib_path node.

  (** ** Other coins positions for one accepted transaction *)
  Lemma step_elsewhere to z x z1 y (c : contents utxoV_cfg) :
    accepted contract to z x z1 -> public_part y = public_part x ->
    genuine utxoV_cfg c (coin_writes contract (z_tx_final z) y) ->
    exists y', same_claim y y' /\
      accepted contract to (with_coins z (merkle_root c)) y'
        (with_coins z1 (merkle_root (written utxoV_cfg c (coin_writes contract (z_tx_final z) y)))).
  Proof.
    intros A Hp Hg.
    destruct x as [tx tp dp dq ap aq sp sn sg], y as [tx2 tp2 dp2 dq2 ap2 aq2 sp2 sn2 sg2].
    unfold public_part in Hp. cbn [x_tx x_sender x_sig] in Hp.
    apply pair_equal_spec in Hp as [Hp ->]. apply pair_equal_spec in Hp as [-> ->].
    set (y := mkInputsV tx tp2 dp2 dq2 ap2 aq2 sp2 sn sg) in *.
    set (ws := coin_writes contract (z_tx_final z) y) in *.
    assert (Ews : ws = item_writes utxoV_cfg (del_write (is_signed (z_tx_final z) y)) (dels y)
                       ++ item_writes utxoV_cfg (add_write contract (is_applied contract (z_tx_final z) y)) (adds y)).
    { rewrite item_writes_dels, item_writes_adds. reflexivity. }
    rewrite Ews in Hg |- *. clearbody ws. clear ws Ews. rewrite written_app. apply genuine_app in Hg as [Hg1 Hg2].
    destruct (items_complete utxoV_cfg _ (proj1 (del_write_path _)) (proj2 (del_write_path _)) _ _ Hg1) as (pd & D1 & D2 & D3 & D4).
    destruct (items_complete utxoV_cfg _ (proj1 (add_write_path contract _)) (proj2 (add_write_path contract _)) _ _ Hg2)
      as (pa & A1 & A2 & A3 & A4).
    destruct (list4 pd D1) as [pda Epd]. destruct (list4 pa A1) as [paa Epa]. subst pd pa.
    exists (mkInputsV tx tp pda dq2 paa aq2 sp sn sg). split; [ repeat split |].
    pose proof (ac_bits _ _ _ _ _ A) as B1. pose proof (ac_tx_path _ _ _ _ _ A) as B2.
    pose proof (ac_signer_path _ _ _ _ _ A) as B3. pose proof (ac_owner _ _ _ _ _ A) as B4.
    pose proof (ac_balance _ _ _ _ _ A) as B5. pose proof (ac_challenge _ _ _ _ _ A) as B6.
    pose proof (ac_tx _ _ _ _ _ A) as B7. pose proof (ac_keys _ _ _ _ _ A) as B8.
    pose proof (ac_step _ _ _ _ _ A) as B9. pose proof (ac_final _ _ _ _ _ A) as B10.
    pose proof (ac_signers _ _ _ _ _ A) as B11. pose proof (ac_chains _ _ _ _ _ A) as B12. clear A.
    constructor; try assumption.
    cbn [z_utxo with_coins z_tx_final].
    unfold coin_writes at 1. cbn [x_tx x_del_proofs x_del_pos x_add_proofs x_add_pos].
    match goal with |- linked _ _ (?a ++ ?b) _ =>
      change a with (flat_map (fun upp : utxoV * list F * F => let '(u, path, pos) := upp in
                if is_signed (z_tx_final z) y && negb (v_dummy u)
                then [mkWrite (slot_of utxoV_cfg pos) u (utxo_alloc utxo_dummy) path] else [])
                (dels (mkInputsV tx tp pda dq2 paa aq2 sp sn sg)));
      change b with (flat_map (fun upp : utxoV * list F * F => let '(u, path, pos) := upp in
                if is_applied contract (z_tx_final z) y && negb (pt_eqb (v_pk u) contract) && negb (v_dummy u)
                then [mkWrite (slot_of utxoV_cfg pos) (utxo_alloc utxo_dummy) u path] else [])
                (adds (mkInputsV tx tp pda dq2 paa aq2 sp sn sg)))
    end.
    rewrite <- item_writes_dels, <- item_writes_adds.
    apply linked_app. eexists. split; apply (items_linked utxoV_cfg).
    - split; [ exact D3 | symmetry; exact D4 ].
    - split; [ exact A3 | symmetry; exact A4 ].
  Qed.

  Lemma with_coins_same z : with_coins z (z_utxo z) = z.
  Proof. now destruct z. Qed.
  Lemma run_elsewhere to xs : forall z z' ys (c : contents utxoV_cfg),
    all_accepted contract to z xs z' -> Forall2 (fun x y => public_part y = public_part x) xs ys ->
    genuine utxoV_cfg c (flat_map (coin_writes contract (z_tx_final z)) ys) ->
    exists ys', Forall2 same_claim ys ys' /\
      all_accepted contract to (with_coins z (merkle_root c)) ys'
        (with_coins z' (merkle_root (written utxoV_cfg c (flat_map (coin_writes contract (z_tx_final z)) ys)))).
  Proof.
    induction xs as [|x xs IH]; intros z z' ys c H Hp Hg; inversion Hp as [|? y ? ys1 Hy Hys]; subst.
    - inversion H; subst. exists []. split; constructor.
    - inversion H as [|? ? z1 ? ? Ha Hr]; subst. cbn [flat_map] in Hg |- *. rewrite written_app.
      apply genuine_app in Hg as [Hg1 Hg2].
      destruct (step_elsewhere to z x z1 y c Ha Hy Hg1) as (y' & S1 & S2).
      destruct (IH z1 z' ys1 (written utxoV_cfg c (coin_writes contract (z_tx_final z) y)) Hr Hys) as (ys' & S3 & S4).
      { rewrite (ac_final _ _ _ _ _ Ha). exact Hg2. }
      rewrite (ac_final _ _ _ _ _ Ha) in S4.
      exists (y' :: ys'). split; [ now constructor |]. econstructor; eauto.
  Qed.

  (** ** Writes at rearranged positions *)
  Section moved.
    Variables f g : Z -> Z.
    Hypothesis Hfg : rearranges f g.
    Definition mv_pos (pos : F) : F := Fof (f (slot_of utxoV_cfg pos)).
    Definition mv_in (x : agg_inputsV) : agg_inputsV :=
      mkInputsV (x_tx x) (x_tx_proof x) (x_del_proofs x) (a4_map mv_pos (x_del_pos x)) (x_add_proofs x)
        (a4_map mv_pos (x_add_pos x)) (x_signer_proof x) (x_sender x) (x_sig x).
    Definition mv_write (w : write utxoV) : write utxoV := mkWrite (f (w_pos w)) (w_old w) (w_new w) (w_path w).
    Lemma slot_mv pos : slot_of utxoV_cfg (mv_pos pos) = f (slot_of utxoV_cfg pos).
    Proof. apply slot_Fof_u. apply Hfg. apply slot_range. Qed.
    Lemma mv_relocated x : relocated f x (mv_in x).
    Proof.
      split; [ reflexivity |]. unfold places, mv_in. cbn [x_del_pos x_add_pos].
      destruct (x_del_pos x) as [d0 d1 d2 d3], (x_add_pos x) as [a0 a1 a2 a3].
      cbn [a4_map a4_list a4_0 a4_1 a4_2 a4_3 app map]. now rewrite !slot_mv.
    Qed.
    Lemma mv_writes final x : coin_writes contract final (mv_in x) = map mv_write (coin_writes contract final x).
    Proof.
      unfold coin_writes. rewrite map_app. f_equal.
      - change (is_signed final (mv_in x)) with (is_signed final x). unfold mv_in. cbn [x_tx x_del_proofs x_del_pos].
        destruct (v_inputs (x_tx x)) as [u0 u1 u2 u3], (x_del_proofs x) as [p0 p1 p2 p3], (x_del_pos x) as [d0 d1 d2 d3].
        unfold a4_zip3. cbn [a4_map a4_list a4_0 a4_1 a4_2 a4_3 combine map flat_map app]. rewrite !slot_mv, !map_app.
        f_equal; [ now destruct (is_signed final x && negb _) |].
        f_equal; [ now destruct (is_signed final x && negb _) |].
        f_equal; [ now destruct (is_signed final x && negb _) |].
        f_equal; now destruct (is_signed final x && negb _).
      - change (is_applied contract final (mv_in x)) with (is_applied contract final x). unfold mv_in. cbn [x_tx x_add_proofs x_add_pos].
        destruct (v_outputs (x_tx x)) as [u0 u1 u2 u3], (x_add_proofs x) as [p0 p1 p2 p3], (x_add_pos x) as [d0 d1 d2 d3].
        unfold a4_zip3. cbn [a4_map a4_list a4_0 a4_1 a4_2 a4_3 combine map flat_map app]. rewrite !slot_mv, !map_app.
        f_equal; [ now destruct (is_applied contract final x && _ && negb _) |].
        f_equal; [ now destruct (is_applied contract final x && _ && negb _) |].
        f_equal; [ now destruct (is_applied contract final x && _ && negb _) |].
        f_equal; now destruct (is_applied contract final x && _ && negb _).
    Qed.
    Lemma mv_all final xs :
      flat_map (coin_writes contract final) (map mv_in xs) = map mv_write (flat_map (coin_writes contract final) xs).
    Proof. induction xs as [|x xs IH]; cbn [map flat_map]; [ reflexivity |]. now rewrite map_app, mv_writes, IH. Qed.
    Definition along (c c2 : contents utxoV_cfg) : Prop := forall k, in_range utxoV_cfg k -> c2 (f k) = c k.
    Lemma along_set c c2 i v : in_range utxoV_cfg i -> along c c2 -> along (set_leaf c i v) (set_leaf c2 (f i) v).
    Proof.
      intros Hi H k Hk. unfold set_leaf. destruct (k =? i) eqn:E.
      - apply Z.eqb_eq in E. subst k. now rewrite Z.eqb_refl.
      - apply Z.eqb_neq in E. destruct (f k =? f i) eqn:E2; [| now apply H ].
        apply Z.eqb_eq in E2. exfalso. apply E. destruct (Hfg k Hk) as (_ & _ & <- & _), (Hfg i Hi) as (_ & _ & <- & _). now rewrite E2.
    Qed.
    Lemma mv_run ws : Forall (fun w => in_range utxoV_cfg (w_pos w)) ws -> forall c c2, along c c2 ->
      genuine utxoV_cfg c ws ->
      genuine utxoV_cfg c2 (map mv_write ws) /\ along (written utxoV_cfg c ws) (written utxoV_cfg c2 (map mv_write ws)).
    Proof.
      induction 1 as [|w ws Hw Hws IH]; intros c c2 Hc; cbn [map genuine written]; [ auto |].
      intros [H1 H2]. pose proof (along_set c c2 (w_pos w) (w_new w) Hw Hc) as Hs.
      destruct (IH _ _ Hs H2) as [H3 H4]. split; [| exact H4 ].
      split; [ exact (eq_trans (Hc _ Hw) H1) | exact H3 ].
    Qed.
  End moved.
  Lemma writes_in_range final xs :
    Forall (fun w => in_range utxoV_cfg (w_pos w)) (flat_map (coin_writes contract final) xs).
  Proof.
    apply Forall_forall. intros w Hw. apply in_flat_map in Hw as (x & _ & Hw). unfold coin_writes in Hw.
    apply in_app_iff in Hw as [Hw|Hw]; apply in_flat_map in Hw as ([[u pf] pos] & _ & Hw).
    - destruct (_ && _); [| destruct Hw ]. destruct Hw as [<-|[]]. cbn [w_pos]. apply slot_range.
    - destruct (_ && _); [| destruct Hw ]. destruct Hw as [<-|[]]. cbn [w_pos]. apply slot_range.
  Qed.
  Lemma forall2_map {A B} (R : A -> B -> Prop) (h : A -> B) l : (forall x, R x (h x)) -> Forall2 R l (map h l).
  Proof. intros H. induction l; cbn [map]; constructor; auto. Qed.
  Lemma claim_relocated f xs ys ys' : Forall2 (relocated f) xs ys -> Forall2 same_claim ys ys' -> Forall2 (relocated f) xs ys'.
  Proof.
    intros H. revert ys'. induction H as [|x y xs ys [Hp Hq] H IH]; intros ys' Hc; inversion Hc as [|? y' ? ? (E1 & E2 & E3 & E4 & E5) Hc']; subst; constructor; auto.
    unfold relocated, public_part, places in *. rewrite E1, E2, E3, E4, E5. auto.
  Qed.

  (** ** C127 *)
  (** Every other choice of positions that fits the opening state can be proved in place of the
      given one; whatever is public but the root of the coin tree stays the same. *)
  Theorem C127_any_positions to z bs z' ys (c : contents utxoV_cfg) :
    ivc contract to (z_list z) bs (z_list z') -> z_utxo z = merkle_root c ->
    Forall2 (fun x y => public_part y = public_part x) (concat bs) ys ->
    genuine utxoV_cfg c (flat_map (coin_writes contract (z_tx_final z)) ys) ->
    exists ys', Forall2 same_claim ys ys' /\
      forall bs', concat bs' = ys' ->
        ivc contract to (z_list z) bs'
          (z_list (with_coins z' (merkle_root (written utxoV_cfg c (flat_map (coin_writes contract (z_tx_final z)) ys))))).
  Proof.
    intros H Hr Hp Hg. apply C106_aggregator_proof in H as (z1 & E & H). apply z_list_inj in E. subst z1.
    destruct (run_elsewhere to (concat bs) z z' ys c H Hp Hg) as (ys' & S1 & S2).
    rewrite <- Hr, with_coins_same in S2. exists ys'. split; [ exact S1 |].
    intros bs' Eb. apply C106_aggregator_proof. eexists. split; [ reflexivity |]. rewrite Eb. exact S2.
  Qed.

  (** In particular the positions may be rearranged in any way that leaves the opening state alone. *)
  Theorem C127_rearranged to z bs z' (c : contents utxoV_cfg) f g :
    ivc contract to (z_list z) bs (z_list z') -> z_utxo z = merkle_root c ->
    rearranges f g -> (forall k, in_range utxoV_cfg k -> c (f k) = c k) ->
    ~ collides utxoV_cfg utxo_encV c (flat_map (coin_writes contract (z_tx_final z)) (concat bs)) ->
    let c1 := written utxoV_cfg c (flat_map (coin_writes contract (z_tx_final z)) (concat bs)) in
    exists ys (c2 : contents utxoV_cfg),
      Forall2 (relocated f) (concat bs) ys /\
      z_utxo z' = merkle_root c1 /\
      (forall k, in_range utxoV_cfg k -> c2 (f k) = c1 k) /\
      (forall bs', concat bs' = ys -> ivc contract to (z_list z) bs' (z_list (with_coins z' (merkle_root c2)))) /\
      (forall l1 b, derive_public_inputs l1 b = Ok (z_list z') ->
         derive_public_inputs l1 (block_with_coins b (merkle_root c2)) = Ok (z_list (with_coins z' (merkle_root c2)))) /\
      (forall k, in_range utxoV_cfg k -> c1 (f k) <> c1 k ->
         merkle_root c2 <> merkle_root c1
         \/ crh_collision (utxo_encV (c1 (f k))) (utxo_encV (c1 k))
         \/ collision2 (genuine_path c2 (f k) ++ genuine_path c1 (f k))).
  Proof.
    intros H Hr Hfg Hc Hcol c1. subst c1. set (ws := flat_map (coin_writes contract (z_tx_final z)) (concat bs)) in *.
    destruct (C54_coin_writes contract to z bs z' c H Hr) as [[G1 G2]|G1]; [| contradiction ]. fold ws in G1, G2.
    destruct (mv_run f g Hfg ws (writes_in_range _ _) c c Hc G1) as [M1 M2].
    set (ys0 := map (mv_in f) (concat bs)).
    assert (R0 : Forall2 (relocated f) (concat bs) ys0) by (apply forall2_map; intros x; apply (mv_relocated f g Hfg)).
    assert (Ew : flat_map (coin_writes contract (z_tx_final z)) ys0 = map (mv_write f) ws)
      by (unfold ys0, ws; apply (mv_all f g Hfg)).
    rewrite <- Ew in M1, M2.
    destruct (C127_any_positions to z bs z' ys0 c H Hr) as (ys & S1 & S2).
    { unfold ys0. apply forall2_map. reflexivity. }
    { exact M1. }
    exists ys, (written utxoV_cfg c (flat_map (coin_writes contract (z_tx_final z)) ys0)).
    split; [ exact (claim_relocated f _ _ _ R0 S1) |]. split; [ exact G2 |]. split; [ exact M2 |]. split; [ exact S2 |].
    clear Ew M1 S1 S2. revert M2.
    generalize (written utxoV_cfg c (flat_map (coin_writes contract (z_tx_final z)) ys0)) as c2.
    generalize (written utxoV_cfg c ws) as c1. clear - Hfg. intros c1 c2 M2. split.
    - intros l1 b E. unfold derive_public_inputs, block_with_coins in *. cbn [b_signers b_deposits b_withdrawals utxo_tree_root tx_tree_root signer_tree_root].
      destruct (signer_acc l1 (b_signers b)) as [a1| |]; cbn [rbind] in E |- *; try discriminate.
      destruct (amount_acc l1 (b_deposits b)) as [a2| |]; cbn [rbind] in E |- *; try discriminate.
      destruct (amount_acc l1 (b_withdrawals b)) as [a3| |]; cbn [rbind] in E |- *; try discriminate.
      destruct z' as [e1 e2 e3 e4 e5 e6 e7 e8]. unfold z_list, with_coins in *.
      cbn [z_step z_utxo z_tx z_tx_final z_signer z_signer_acc z_deposit z_withdrawal] in *. congruence.
    - intros k Hk Hd. destruct (F_eq_dec (merkle_root c2) (merkle_root c1)) as [E|E]; [| now left ]. right.
      destruct (same_root utxoV_cfg c2 c1 (f k) utxoV_ok (proj1 (Hfg k Hk)) E) as [L|L]; [| now right ]. left.
      rewrite (M2 k Hk) in L. split; [| symmetry; exact L ].
      intros E2. apply utxo_encV_inj in E2. contradiction.
  Qed.

  Lemma exchange_rearranges i j : in_range utxoV_cfg i -> in_range utxoV_cfg j ->
    rearranges (exchange i j) (exchange i j).
  Proof.
    intros Hi Hj k Hk. unfold exchange.
    destruct (k =? i) eqn:E1; [ apply Z.eqb_eq in E1; subst k | destruct (k =? j) eqn:E2; [ apply Z.eqb_eq in E2; subst k |]].
    - destruct (j =? i) eqn:E3; [ apply Z.eqb_eq in E3; subst j; auto | rewrite Z.eqb_refl; auto ].
    - rewrite Z.eqb_refl. auto.
    - rewrite E1, E2. auto.
  Qed.
  (** Two positions that hold the same leaf in the opening state, say two free ones, are
      interchangeable for everyone who sees only the published data: the same transactions,
      signatures, signers, deposits and withdrawals are proved with either position holding what
      the other one should. *)
  Theorem C127_interchangeable to z bs z' (c : contents utxoV_cfg) i j l1 b :
    ivc contract to (z_list z) bs (z_list z') -> z_utxo z = merkle_root c ->
    in_range utxoV_cfg i -> in_range utxoV_cfg j -> c i = c j ->
    ~ collides utxoV_cfg utxo_encV c (flat_map (coin_writes contract (z_tx_final z)) (concat bs)) ->
    derive_public_inputs l1 b = Ok (z_list z') ->
    let c1 := written utxoV_cfg c (flat_map (coin_writes contract (z_tx_final z)) (concat bs)) in
    utxo_tree_root b = merkle_root c1 /\
    exists (c2 : contents utxoV_cfg),
      c2 i = c1 j /\ c2 j = c1 i /\
      (forall k, in_range utxoV_cfg k -> k <> i -> k <> j -> c2 k = c1 k) /\
      (exists ys z2,
         map public_part ys = map public_part (concat bs) /\
         (forall bs', concat bs' = ys -> ivc contract to (z_list z) bs' (z_list z2)) /\
         derive_public_inputs l1 (block_with_coins b (merkle_root c2)) = Ok (z_list z2)) /\
      (c1 i <> c1 j ->
         merkle_root c2 <> utxo_tree_root b
         \/ crh_collision (utxo_encV (c1 j)) (utxo_encV (c1 i))
         \/ collision2 (genuine_path c2 j ++ genuine_path c1 j)).
  Proof.
    intros H Hr Hi Hj Hij Hcol Hb c1.
    assert (Hroot : z_utxo z' = merkle_root c1).
    { destruct (C54_coin_writes contract to z bs z' c H Hr) as [[_ G2]|G1]; [ exact G2 | contradiction ]. }
    assert (Eb : utxo_tree_root b = z_utxo z').
    { unfold derive_public_inputs in Hb.
      destruct (signer_acc l1 (b_signers b)) as [a1| |]; cbn [rbind] in Hb; try discriminate.
      destruct (amount_acc l1 (b_deposits b)) as [a2| |]; cbn [rbind] in Hb; try discriminate.
      destruct (amount_acc l1 (b_withdrawals b)) as [a3| |]; cbn [rbind] in Hb; try discriminate.
      unfold z_list in Hb. congruence. }
    rewrite Eb. split; [ exact Hroot |].
    assert (Hc : forall k, in_range utxoV_cfg k -> c (exchange i j k) = c k).
    { intros k _. unfold exchange. destruct (k =? i) eqn:E1; [ apply Z.eqb_eq in E1; now subst k |].
      destruct (k =? j) eqn:E2; [ apply Z.eqb_eq in E2; now subst k | reflexivity ]. }
    destruct (C127_rearranged to z bs z' c _ _ H Hr (exchange_rearranges i j Hi Hj) Hc Hcol)
      as (ys & c2 & R1 & _ & R2 & R3 & R4 & R5). fold c1 in R2, R5.
    assert (Ei : exchange i j i = j) by (unfold exchange; now rewrite Z.eqb_refl).
    assert (Ej : exchange i j j = i).
    { unfold exchange. rewrite Z.eqb_refl. destruct (j =? i) eqn:E; [ now apply Z.eqb_eq in E | reflexivity ]. }
    exists c2. split; [ now rewrite <- (R2 j Hj), Ej |]. split; [ now rewrite <- (R2 i Hi), Ei |]. split.
    { intros k Hk N1 N2. rewrite <- (R2 k Hk). unfold exchange.
      apply Z.eqb_neq in N1, N2. now rewrite N1, N2. }
    split.
    - exists ys, (with_coins z' (merkle_root c2)). split.
      { clear -R1. induction R1 as [|x y xs ys [Hp _] _ IH]; cbn [map]; [ reflexivity | now rewrite Hp, IH ]. }
      split; [ exact R3 | now apply R4 ].
    - intros Hd. rewrite Hroot. specialize (R5 i Hi). rewrite Ei in R5. apply R5. congruence.
  Qed.
End props.

Print Assumptions C127_any_positions.
Print Assumptions C127_rearranged.
Print Assumptions C127_interchangeable.

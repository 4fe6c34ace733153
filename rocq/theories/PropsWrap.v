(** C59, C95 for proofs of any length: the slot of a transaction is its position modulo 4096. *)
From Coq Require Import ZArith List Bool Lia Permutation.
Import ListNotations.
From Verif Require Import Base Env Circuit SparseMT SparseMTSpec SparseMTProofs Data DataSpec DataFacts PropsData Schnorr HMap Contract ContractSpec
  PropsContract PropsBlock Aggregator AggSpec AggFacts AggSign AggIntake PropsIntake PropsSign
  AggCircuit AggCircuitFacts AggCircuitSpec CircuitRun PropsCircuit PropsCircuit2 PropsLimits TruthSpec Honest PropsHonest PropsClient4 Clean PropsSpoil.
Open Scope Z_scope.

Section props.
  Context {hs : Hashes} {G : Curve} (dbg : bool).

  (** ** Specification: transaction number [n + j] is written at slot [(n + j) mod 4096] *)
  Fixpoint placed_from (n : nat) (xs : list agg_inputsV) (c : contents txV_cfg) : contents txV_cfg :=
    match xs with
    | [] => c
    | x :: xs' => placed_from (S n) xs' (set_leaf c (Z.of_nat n mod 4096) (x_tx x))
    end.
  Definition placed (xs : list agg_inputsV) : contents txV_cfg := placed_from 0 xs (empty_contents txV_cfg).

  Lemma next_step n : Fadd (Fof (Z.of_nat n)) Fone = Fof (Z.of_nat (S n)).
  Proof.
    apply zval_inj. change (zval (Fadd (Fof (Z.of_nat n)) Fone)) with ((Z.of_nat n mod p + 1 mod p) mod p).
    change (zval (Fof (Z.of_nat (S n)))) with (Z.of_nat (S n) mod p). rewrite <- Zplus_mod. f_equal. lia.
  Qed.
  Lemma slot_nat n : Z.of_nat n < p -> slot_of txV_cfg (Fof (Z.of_nat n)) = Z.of_nat n mod 4096.
  Proof. intros H. rewrite slot_small by lia. reflexivity. Qed.

  Lemma written_placed xs : forall n c, Z.of_nat (n + length xs) <= p ->
    written txV_cfg c (tx_writes (Fof (Z.of_nat n)) xs) = placed_from n xs c.
  Proof.
    induction xs as [|x xs IH]; intros n c Hp; cbn [tx_writes written placed_from]; [ reflexivity |].
    cbn [length] in Hp. rewrite next_step, IH by lia. cbn [tx_write w_pos w_new]. now rewrite slot_nat by lia.
  Qed.
  (** a slot that does not hold the default transaction is never written again *)
  Lemma placed_keeps xs : forall n c i, Z.of_nat (n + length xs) <= p ->
    genuine txV_cfg c (tx_writes (Fof (Z.of_nat n)) xs) -> c i <> tx_alloc tx_default -> placed_from n xs c i = c i.
  Proof.
    induction xs as [|x xs IH]; intros n c i Hp Hg Hd; cbn [tx_writes genuine placed_from] in *; [ reflexivity |].
    cbn [length] in Hp. destruct Hg as [G1 G2]. rewrite next_step in G2. cbn [tx_write w_pos w_new w_old] in G1, G2.
    rewrite slot_nat in G1, G2 by lia.
    assert (Hi : (i =? Z.of_nat n mod 4096) = false).
    { apply Z.eqb_neq. intros ->. exact (Hd G1). }
    assert (Hs : set_leaf c (Z.of_nat n mod 4096) (x_tx x) i = c i) by (unfold set_leaf; now rewrite Hi).
    rewrite IH; [ exact Hs | lia | exact G2 | now rewrite Hs ].
  Qed.
  Lemma placed_nth xs : forall n c j x, Z.of_nat (n + length xs) <= p ->
    genuine txV_cfg c (tx_writes (Fof (Z.of_nat n)) xs) -> nth_error xs j = Some x -> x_tx x <> tx_alloc tx_default ->
    placed_from n xs c (Z.of_nat (n + j) mod 4096) = x_tx x.
  Proof.
    induction xs as [|y xs IH]; intros n c j x Hp Hg Hj Hd; [ destruct j; discriminate Hj |].
    cbn [tx_writes genuine placed_from] in *. cbn [length] in Hp. destruct Hg as [_ G2]. rewrite next_step in G2.
    cbn [tx_write w_pos w_new] in G2. rewrite slot_nat in G2 by lia. destruct j as [|j]; cbn [nth_error] in Hj.
    - assert (y = x) by congruence. subst y. rewrite Nat.add_0_r.
      assert (Hs : set_leaf c (Z.of_nat n mod 4096) (x_tx x) (Z.of_nat n mod 4096) = x_tx x) by apply (@set_leaf_same txV_cfg).
      rewrite (placed_keeps xs (S n)); [ exact Hs | lia | exact G2 | now rewrite Hs ].
    - replace (n + S j)%nat with (S n + j)%nat by lia. apply IH; [ lia | exact G2 | exact Hj | exact Hd ].
  Qed.

  (** C59 without a bound on the number of transactions: the root is that of the transactions put at
      their slots, and no transaction other than the default one is ever overwritten. *)
  Theorem C59_any_length contract to z bs z' :
    ivc contract to (z_list z) bs (z_list z') ->
    z_step z = Fzero -> z_tx z = merkle_root (empty_contents txV_cfg) ->
    let xs := concat bs in
    Z.of_nat (length xs) < p ->
    collides txV_cfg tx_encV (empty_contents txV_cfg) (tx_writes Fzero xs) \/
    (z_tx z' = merkle_root (placed xs) /\
     forall j x, nth_error xs j = Some x ->
       x_tx x = tx_alloc tx_default \/ placed xs (Z.of_nat j mod 4096) = x_tx x).
  Proof.
    intros H Hs Hr xs Hn. apply ivc_crun in H as (z1 & E1 & H). apply z_list_inj in E1. subst z1. fold xs in H.
    destruct (run_tx contract to xs z z' _ H Hr) as [[G1 G2]|G1]; [ right | left; now rewrite <- Hs ].
    rewrite Hs in G1, G2. change Fzero with (Fof (Z.of_nat 0)) in G1, G2. split.
    - rewrite G2, written_placed by (cbn [Nat.add]; lia). reflexivity.
    - intros j x Hj. destruct (list_eq_dec F_eq_dec (tx_encV (x_tx x)) (tx_encV (tx_alloc tx_default))) as [E|E].
      + left. exact (tx_encV_inj _ _ E).
      + right. apply (placed_nth xs 0 _ j x); [ cbn [Nat.add]; lia | exact G1 | exact Hj |].
        intros X. apply E. now rewrite X.
  Qed.

  (** C95 without a bound: every slot holds the epoch's transaction, and every input of the proof is
      the epoch's transaction at its slot or the default one. *)
  Theorem C95_any_length s c b pi contract to z bs pos :
    reached dbg s -> Z.of_nat (length (a_txs s)) <= 4096 ->
    produce_block s c = Ok b -> derive_public_inputs c b = Ok pi ->
    z_step z = Fzero -> z_tx z = merkle_root (empty_contents txV_cfg) ->
    ivc contract to (z_list z) bs pi -> Z.of_nat (length (concat bs)) < p -> 0 <= pos < 4096 ->
    let xs := concat bs in
    let t := tx_contents (a_txs s) pos in
    (placed xs pos = tx_alloc t /\
     forall j x, nth_error xs j = Some x -> Z.of_nat j mod 4096 = pos -> x_tx x = tx_alloc tx_default \/ x_tx x = tx_alloc t) \/
    collides txV_cfg tx_encV (empty_contents txV_cfg) (tx_writes Fzero xs) \/
    collision2 (genuine_path (placed xs) pos ++ genuine_path (epoch_txs (a_txs s)) pos) \/
    crh_collision (tx_encV (placed xs pos)) (tx_enc t).
  Proof.
    intros Hr Hl Hb Hpi Hz Ht Hrun Hn Hpos xs t.
    destruct (proj1 (ivc_crun contract to bs z pi) Hrun) as (z' & E1 & _). subst pi.
    destruct (public_step c b z' Hpi) as (_ & E3 & _). destruct (block_fields s c b Hb) as [_ E4].
    destruct (C59_any_length contract to z bs z' Hrun Hz Ht Hn) as [H59|[H59 H59']]; [ right; left; exact H59 |].
    fold xs in H59, H59', Hn.
    pose proof (ei_holds _ _ (ri_epoch _ _ (reached_inv dbg s Hr)) Hl) as Hh.
    pose proof (tree_holds_root dbg tx_cfg AggFacts.tx_cfg_ok _ _ Hh) as Hroot.
    assert (Er : merkle_root (placed xs) = merkle_root (epoch_txs (a_txs s))).
    { rewrite epoch_txs_root. congruence. }
    destruct (same_root txV_cfg _ _ pos CircuitRun.txV_ok ltac:(exact Hpos) Er) as [E|E]; [| right; right; left; exact E ].
    change (crh (tx_encV (placed xs pos)) = crh (tx_encV (tx_alloc t))) in E.
    rewrite tx_encV_alloc in E.
    destruct (list_eq_dec (F_eq_dec) (tx_encV (placed xs pos)) (tx_enc t)) as [Eq|Eq].
    - left. rewrite <- tx_encV_alloc in Eq. apply tx_encV_inj in Eq. split; [ exact Eq |].
      intros j x Hj Hp. destruct (H59' j x Hj) as [X|X]; [ now left | right ]. rewrite Hp in X. congruence.
    - right. right. right. split; [ exact Eq | exact E ].
  Qed.

  (** C95: an epoch signed a second time, however many entries there are in all. *)
  Theorem C95_signed_twice_any s pairs s1 k1 l1 s2 k2 l2 s3 c b pi contract to z bs j k t :
    reached dbg s -> a_txs s = [] -> a_ivc s = [] ->
    process_transactions dbg s pairs = MOk s1 tt -> Z.of_nat (length pairs) <= 4096 ->
    process_signatures dbg s1 k1 l1 = MOk s2 tt -> fits k1 s1 l1 -> length l1 = length pairs ->
    process_signatures dbg s2 k2 l2 = MOk s3 tt -> fits k2 s2 l2 ->
    (j < length l2)%nat -> nth_error pairs j = Some (k, t) -> t <> tx_default ->
    produce_block s3 c = Ok b -> derive_public_inputs c b = Ok pi ->
    z_step z = Fzero -> z_tx z = merkle_root (empty_contents txV_cfg) ->
    concat bs = map inputs_alloc (ivc_inputs s3) ->
    ivc contract to (z_list z) bs pi ->
    let xs := concat bs in
    let pos := Z.of_nat (length pairs + j) mod 4096 in
    collides txV_cfg tx_encV (empty_contents txV_cfg) (tx_writes Fzero xs) \/
    collision2 (genuine_path (placed xs) pos ++ genuine_path (epoch_txs (map snd pairs)) pos) \/
    crh_collision (tx_enc t) (tx_enc tx_default).
  Proof.
    intros Hr Et Ei E1 Hn E2 F2 Hl1 E3 F3 Hj Hp Hd Hb Hpi Hz Htx Hbs Hrun xs pos.
    assert (Hr1 : reached dbg s1) by (apply (reached_intake dbg s pairs s1 Hr); left; eauto).
    destruct (C40_intake dbg s pairs s1 Hr Et E1) as (T1 & _ & Hsame & _ & _).
    assert (Hi1 : a_ivc s1 = []) by (destruct Hsame as (_&_&_&_&_&_&_&_&_&_&E); congruence).
    pose proof (run_ok dbg k1 s1 l1 s2 Hr1 F2 E2) as S1.
    assert (Hr2 : reached dbg s2) by (apply (reached_sign dbg s1 k1 l1 s2 Hr1 F2); left; eauto).
    pose proof (run_ok dbg k2 s2 l2 s3 Hr2 F3 E3) as S2.
    assert (Hr3 : reached dbg s3) by (apply (reached_sign dbg s2 k2 l2 s3 Hr2 F3); left; eauto).
    destruct (steps_same _ _ _ _ _ _ S1) as (T2 & _). destruct (steps_same _ _ _ _ _ _ S2) as (T3 & _).
    destruct (steps_ivc_txs _ _ _ _ _ _ S1) as (_ & I1). destruct (steps_ivc_txs _ _ _ _ _ _ S2) as (L2 & I2).
    rewrite T2, T1 in T3. rewrite T1 in T2. rewrite T1, Hi1, Hl1 in I1. cbn [skipn map app] in I1.
    rewrite <- (map_length snd pairs), firstn_all in I1. rewrite T2, I1 in I2. cbn [skipn] in I2.
    assert (Hlen : length (concat bs) = (length l1 + length l2)%nat).
    { rewrite Hbs, map_length. unfold ivc_inputs. destruct (steps_counts _ _ _ _ _ _ S1) as [_ X1]. destruct (steps_counts _ _ _ _ _ _ S2) as [_ X2].
      rewrite X2, X1, Hi1. reflexivity. }
    assert (L2' : (length l2 <= length pairs)%nat).
    { destruct L2 as [L2|L2]; [| subst l2; cbn [length]; lia ]. rewrite T2, map_length in L2. lia. }
    assert (Hpb : Z.of_nat (length (concat bs)) < p) by (rewrite Hlen; pose proof p_bounds; lia).
    assert (Hxs : map x_tx xs = map tx_alloc (map snd pairs ++ firstn (length l2) (map snd pairs))).
    { unfold xs. rewrite Hbs, map_map. change (fun x => x_tx (inputs_alloc x)) with (fun x => tx_alloc (i_tx x)).
      rewrite <- (map_map i_tx tx_alloc). unfold ivc_inputs. now rewrite I2. }
    (* the input at which the second call signs [t] *)
    assert (Hx : exists x, nth_error xs (length pairs + j) = Some x /\ x_tx x = tx_alloc t).
    { assert (X : nth_error (map x_tx xs) (length pairs + j) = Some (tx_alloc t)).
      { rewrite Hxs, nth_error_map, nth_error_app2 by (rewrite map_length; lia). rewrite map_length.
        replace (length pairs + j - length pairs)%nat with j by lia.
        rewrite nth_error_firstn by exact Hj. rewrite nth_error_map, Hp. reflexivity. }
      rewrite nth_error_map in X. destruct (nth_error xs (length pairs + j)) as [x|]; [| discriminate X ].
      exists x. split; [ reflexivity | cbn [option_map] in X; congruence ]. }
    destruct Hx as (x & Hx & Hxt).
    assert (Htd : tx_alloc t <> tx_alloc tx_default).
    { intros X. apply Hd. apply (f_equal tx_encV) in X. rewrite !tx_encV_alloc in X. exact (proj2 C20_tx_encoding_injective _ _ X). }
    assert (Hpos : 0 <= pos < 4096) by (apply Z.mod_pos_bound; lia).
    destruct (proj1 (ivc_crun contract to bs z pi) Hrun) as (z' & Ez & _). subst pi.
    destruct (C59_any_length contract to z bs z' Hrun Hz Htx Hpb) as [H59|[_ H59]]; [ left; exact H59 |].
    fold xs in H59. assert (Hat : placed xs pos = tx_alloc t).
    { destruct (H59 _ x Hx) as [X|X]; [ rewrite Hxt in X; now destruct Htd |]. fold pos in X. congruence. }
    (* the epoch has nothing but the default transaction there *)
    assert (Hq : tx_contents (a_txs s3) pos = tx_default \/
                 collides txV_cfg tx_encV (empty_contents txV_cfg) (tx_writes Fzero xs)).
    { assert (Hc : tx_contents (a_txs s3) pos = nth (Z.to_nat pos) (map snd pairs) tx_default).
      { unfold tx_contents. replace (pos <? 0) with false by (symmetry; apply Z.ltb_ge; lia). now rewrite T3. }
      rewrite Hc. destruct (Z_lt_dec (Z.of_nat (length pairs + j)) 4096) as [Hlt|Hge].
      - left. apply nth_overflow. rewrite map_length. unfold pos. rewrite Z.mod_small by lia. lia.
      - assert (Ep : pos = Z.of_nat (length pairs + j) - 4096).
        { unfold pos. symmetry. apply (Z.mod_unique _ _ 1); lia. }
        destruct (C59_tx_root_chain contract to z bs z' Hrun Hz Htx) as (_ & _ & X). fold xs in X, Hpb. cbv zeta in X.
        destruct (X Hpb) as [Y|[_ Y]]; [ now right | left ].
        assert (Hin : (Z.to_nat pos < length pairs)%nat) by lia.
        destruct (nth_error xs (Z.to_nat pos)) as [y|] eqn:Ey.
        + specialize (Y _ y Ey). assert (Hcap : capacity txV_cfg = 4096) by reflexivity. rewrite Hcap in Y.
          fold xs in Hlen. assert (Yd : x_tx y = tx_alloc tx_default) by (apply Y; lia).
          assert (Z1 : nth_error (map x_tx xs) (Z.to_nat pos) = Some (x_tx y)) by (rewrite nth_error_map, Ey; reflexivity).
          rewrite Hxs, nth_error_map, nth_error_app1 in Z1 by (rewrite map_length; lia).
          destruct (nth_error (map snd pairs) (Z.to_nat pos)) as [t'|] eqn:Et'; [| discriminate Z1 ].
          rewrite (nth_error_nth _ _ _ Et'). cbn [option_map] in Z1. assert (X2 : tx_alloc t' = tx_alloc tx_default) by congruence.
          apply (f_equal tx_encV) in X2. rewrite !tx_encV_alloc in X2. exact (proj2 C20_tx_encoding_injective _ _ X2).
        + exfalso. apply nth_error_None in Ey. fold xs in Hlen. lia. }
    destruct Hq as [Hq|Hq]; [| left; exact Hq ].
    destruct (C95_any_length s3 c b (z_list z') contract to z bs pos Hr3) as [[X _]|[X|[X|X]]]; try assumption.
    - rewrite T3, map_length. exact Hn.
    - exfalso. apply Htd. fold xs in X. rewrite Hat, Hq in X. exact X.
    - left. exact X.
    - right. left. rewrite T3 in X. exact X.
    - right. right. fold xs in X. rewrite Hat, Hq, tx_encV_alloc in X. exact X.
  Qed.
End props.

Print Assumptions C59_any_length.
Print Assumptions C95_any_length.
Print Assumptions C95_signed_twice_any.

(** Properties C75 (a user's bookkeeping), C81 (the identifier gadget) and the accumulators of C72. *)
From Coq Require Import ZArith List Bool Lia Sorted.
Import ListNotations.
From Verif Require Import Base Env Circuit SparseMT SparseMTSpec Data DataSpec DataFacts Gadgets GadgetsProofs PropsData Schnorr
  PropsSchnorr Contract Aggregator AggCircuit AggCircuitSpec User Client ClientSpec ClientFacts PropsClient PropsClient2 PropsClient3.
Open Scope Z_scope.

Section user.
  Context {hs : Hashes} {G : Curve}.

  Lemma total_app a b : total (a ++ b) = total a + total b.
  Proof. induction a as [|u a IH]; cbn [app total]; lia. Qed.
  Lemma sub_from_ok dbg l : Forall (fun u => is_dummy u = false) l -> forall b, 0 <= b < two64 -> total l <= b ->
    rfold (fun b x => @usub no_error dbg b (zval (amount x))) l b = Ok (b - total l).
  Proof.
    induction 1 as [|u l Hu _ IH]; intros b Hb Ht; cbn [rfold total] in *; [ f_equal; lia |]. rewrite Hu in *.
    pose proof (u64_range (amount u)). pose proof (total_nonneg l).
    rewrite usub_ok by (unfold is_u64; lia). cbn [rbind]. rewrite IH by lia. f_equal. lia.
  Qed.
  Lemma sub_from_panic l : Forall (fun u => is_dummy u = false) l -> forall b, 0 <= b < two64 -> b < total l ->
    rfold (fun b x => @usub no_error true b (zval (amount x))) l b = Panic.
  Proof.
    induction 1 as [|u l Hu _ IH]; intros b Hb Ht; cbn [rfold total] in *; [ lia |]. rewrite Hu in *.
    pose proof (u64_range (amount u)). unfold usub.
    destruct (Z.le_gt_cases (zval (amount u)) b) as [A|A].
    - rewrite wrap64_ok by (unfold is_u64; lia). cbn [rbind]. apply IH; lia.
    - rewrite wrap64_over by (unfold is_u64; lia). reflexivity.
  Qed.
  Lemma sub_from_wrap l : Forall (fun u => is_dummy u = false) l -> forall b, 0 <= b < two64 ->
    rfold (fun b x => @usub no_error false b (zval (amount x))) l b = Ok ((b - total l) mod two64).
  Proof.
    induction 1 as [|u l Hu _ IH]; intros b Hb; cbn [rfold total].
    - rewrite Z.sub_0_r, Z.mod_small by exact Hb. reflexivity.
    - rewrite Hu. pose proof (u64_range (amount u)).
      assert (E : @usub no_error false b (zval (amount u)) = Ok ((b - zval (amount u)) mod two64)).
      { unfold usub, wrap64. destruct ((0 <=? b - zval (amount u)) && (b - zval (amount u) <? two64)) eqn:E; [| reflexivity ].
        apply andb_true_iff in E as [E1 E2]. apply Z.leb_le in E1. apply Z.ltb_lt in E2. rewrite Z.mod_small by lia. reflexivity. }
      rewrite E. cbn [rbind]. rewrite IH by (apply Z.mod_pos_bound; reflexivity).
      rewrite Zminus_mod_idemp_l. do 2 f_equal. lia.
  Qed.
  Lemma add_from_ok dbg l : Forall (fun u => is_dummy u = false) l -> forall b, 0 <= b -> b + total l < two64 ->
    rfold (fun b x => @uadd no_error dbg b (zval (amount x))) l b = Ok (b + total l).
  Proof.
    induction 1 as [|u l Hu _ IH]; intros b Hb Ht; cbn [rfold total] in *; [ f_equal; lia |]. rewrite Hu in *.
    pose proof (u64_range (amount u)). pose proof (total_nonneg l).
    rewrite uadd_ok by (unfold is_u64; lia). cbn [rbind]. rewrite IH by lia. f_equal. lia.
  Qed.
  Lemma add_from_panic l : Forall (fun u => is_dummy u = false) l -> forall b, 0 <= b < two64 -> two64 <= b + total l ->
    rfold (fun b x => @uadd no_error true b (zval (amount x))) l b = Panic.
  Proof.
    induction 1 as [|u l Hu _ IH]; intros b Hb Ht; cbn [rfold total] in *; [ lia |]. rewrite Hu in *.
    pose proof (u64_range (amount u)). unfold uadd.
    destruct (Z.lt_ge_cases (b + zval (amount u)) two64) as [A|A].
    - rewrite wrap64_ok by (unfold is_u64; lia). cbn [rbind]. apply IH; lia.
    - rewrite wrap64_over by (unfold is_u64; lia). reflexivity.
  Qed.
  Lemma add_from_wrap l : Forall (fun u => is_dummy u = false) l -> forall b, 0 <= b < two64 ->
    rfold (fun b x => @uadd no_error false b (zval (amount x))) l b = Ok ((b + total l) mod two64).
  Proof.
    induction 1 as [|u l Hu _ IH]; intros b Hb; cbn [rfold total].
    - rewrite Z.add_0_r, Z.mod_small by exact Hb. reflexivity.
    - rewrite Hu. pose proof (u64_range (amount u)).
      assert (E : @uadd no_error false b (zval (amount u)) = Ok ((b + zval (amount u)) mod two64)).
      { unfold uadd, wrap64. destruct ((0 <=? b + zval (amount u)) && (b + zval (amount u) <? two64)) eqn:E; [| reflexivity ].
        apply andb_true_iff in E as [E1 E2]. apply Z.leb_le in E1. apply Z.ltb_lt in E2. rewrite Z.mod_small by lia. reflexivity. }
      rewrite E. cbn [rbind]. rewrite IH by (apply Z.mod_pos_bound; reflexivity).
      rewrite Zplus_mod_idemp_l. do 2 f_equal. lia.
  Qed.
  Lemma u64of_small b : 0 <= b < two64 -> zval (u64of b) = b.
  Proof. intros H. change (zval (u64of b)) with (b mod two64). now apply Z.mod_small. Qed.

  (** the parts of a user that bookkeeping leaves alone *)
  Definition same_identity (u u' : user) : Prop :=
    us_sk u' = us_sk u /\ us_key u' = us_key u /\ user_acc u' = user_acc u /\ user_id u' = user_id u.

  (** ** C75 *)
  Theorem C75_spend u t :
    (* overflow checks on: success exactly when the balance covers all real inputs *)
    ((exists u', spend_transaction true u t = Ok u') <-> total_in t <= zval (balance u) /\ zval (nonce u) + 1 < two64) /\
    (~ (total_in t <= zval (balance u) /\ zval (nonce u) + 1 < two64) -> spend_transaction true u t = Panic) /\
    (forall u', spend_transaction true u t = Ok u' ->
       zval (balance u') = zval (balance u) - total_in t /\ zval (nonce u') = zval (nonce u) + 1 /\ same_identity u u') /\
    (* overflow checks off: wraps around *)
    (exists u', spend_transaction false u t = Ok u' /\
       zval (balance u') = (zval (balance u) - total_in t) mod two64 /\ zval (nonce u') = (zval (nonce u) + 1) mod two64 /\
       same_identity u u').
  Proof.
    pose proof (u64_range (balance u)) as Rb. pose proof (u64_range (nonce u)) as Rn.
    pose proof (total_nonneg (a4_list (inputs t))) as Ht. fold (total_in t) in Ht.
    assert (Hf : Forall (fun u => is_dummy u = false) (real (a4_list (inputs t)))) by (apply Forall_forall; apply real_forall). assert (Er := total_real (a4_list (inputs t))). fold (total_in t) in Er.
    assert (H1 : total_in t <= zval (balance u) -> zval (nonce u) + 1 < two64 ->
      spend_transaction true u t = Ok (with_balance_nonce u (zval (balance u) - total_in t) (zval (nonce u) + 1))).
    { intros A B. unfold spend_transaction. rewrite sub_from_ok by (first [ exact Hf | exact Rb | rewrite Er; exact A ]). cbn [rbind].
      rewrite uadd_ok by (unfold is_u64; lia). cbn [rbind]. rewrite Er. reflexivity. }
    assert (H2 : ~ (total_in t <= zval (balance u) /\ zval (nonce u) + 1 < two64) -> spend_transaction true u t = Panic).
    { intros N. unfold spend_transaction. destruct (Z.le_gt_cases (total_in t) (zval (balance u))) as [A|A].
      - rewrite sub_from_ok by (first [ exact Hf | exact Rb | rewrite Er; exact A ]). cbn [rbind]. unfold uadd.
        rewrite wrap64_over by (unfold is_u64; lia). reflexivity.
      - rewrite sub_from_panic by (first [ exact Hf | exact Rb | rewrite Er; exact A ]). reflexivity. }
    assert (Hd : {total_in t <= zval (balance u) /\ zval (nonce u) + 1 < two64} + {~ (total_in t <= zval (balance u) /\ zval (nonce u) + 1 < two64)}).
    { destruct (Z_le_dec (total_in t) (zval (balance u))), (Z_lt_dec (zval (nonce u) + 1) two64); [ left | right | right | right ]; lia. }
    split; [| split; [ exact H2 | split ] ].
    - split.
      + intros (u' & E). destruct Hd as [D|D]; [ exact D |]. rewrite (H2 D) in E. discriminate E.
      + intros [A B]. eexists. exact (H1 A B).
    - intros u' E. destruct Hd as [[A B]|D]; [| rewrite (H2 D) in E; discriminate E ].
      rewrite (H1 A B) in E. assert (Eu : u' = with_balance_nonce u (zval (balance u) - total_in t) (zval (nonce u) + 1)) by congruence.
      rewrite Eu. cbn [balance nonce with_balance_nonce]. rewrite !u64of_small by lia. repeat split; reflexivity.
    - unfold spend_transaction. rewrite sub_from_wrap by (first [ exact Hf | exact Rb ]). cbn [rbind].
      assert (En : @uadd no_error false (zval (nonce u)) 1 = Ok ((zval (nonce u) + 1) mod two64)).
      { destruct (Z_lt_dec (zval (nonce u) + 1) two64) as [B|B].
        - rewrite uadd_ok by (unfold is_u64; lia). rewrite Z.mod_small by lia. reflexivity.
        - unfold uadd. rewrite wrap64_over by (unfold is_u64; lia). reflexivity. }
      rewrite En. cbn [rbind]. eexists. split; [ reflexivity |]. cbn [balance nonce with_balance_nonce].
      rewrite Er, !u64of_small by (apply Z.mod_pos_bound; reflexivity). repeat split; reflexivity.
  Qed.
  Theorem C75_receive u t :
    ((exists u', receive_transaction true u t = Ok u') <-> zval (balance u) + total_out t < two64) /\
    (two64 <= zval (balance u) + total_out t -> receive_transaction true u t = Panic) /\
    (forall u', receive_transaction true u t = Ok u' ->
       zval (balance u') = zval (balance u) + total_out t /\ nonce u' = nonce u /\ same_identity u u') /\
    (exists u', receive_transaction false u t = Ok u' /\
       zval (balance u') = (zval (balance u) + total_out t) mod two64 /\ nonce u' = nonce u /\ same_identity u u').
  Proof.
    pose proof (u64_range (balance u)) as Rb. pose proof (u64_range (nonce u)) as Rn.
    pose proof (total_nonneg (a4_list (outputs t))) as Ht. fold (total_out t) in Ht.
    assert (Hf : Forall (fun u => is_dummy u = false) (real (a4_list (outputs t)))) by (apply Forall_forall; apply real_forall). assert (Er := total_real (a4_list (outputs t))). fold (total_out t) in Er.
    assert (En : forall b, nonce (with_balance_nonce u b (zval (nonce u))) = nonce u).
    { intros b. cbn [nonce with_balance_nonce]. apply zval_inj. now apply u64of_small. }
    assert (H1 : zval (balance u) + total_out t < two64 ->
      receive_transaction true u t = Ok (with_balance_nonce u (zval (balance u) + total_out t) (zval (nonce u)))).
    { intros A. unfold receive_transaction. rewrite add_from_ok by (first [ exact Hf | rewrite ?Er; lia ]). cbn [rbind]. rewrite Er. reflexivity. }
    assert (H2 : two64 <= zval (balance u) + total_out t -> receive_transaction true u t = Panic).
    { intros A. unfold receive_transaction. rewrite add_from_panic by (first [ exact Hf | exact Rb | rewrite Er; exact A ]). reflexivity. }
    split; [| split; [ exact H2 | split ] ].
    - split.
      + intros (u' & E). destruct (Z.lt_ge_cases (zval (balance u) + total_out t) two64) as [D|D]; [ exact D |]. rewrite (H2 D) in E. discriminate E.
      + intros A. eexists. exact (H1 A).
    - intros u' E. destruct (Z.lt_ge_cases (zval (balance u) + total_out t) two64) as [D|D]; [| rewrite (H2 D) in E; discriminate E ].
      rewrite (H1 D) in E. assert (Eu : u' = with_balance_nonce u (zval (balance u) + total_out t) (zval (nonce u))) by congruence.
      rewrite Eu, En. cbn [balance with_balance_nonce]. rewrite !u64of_small by lia. repeat split; reflexivity.
    - unfold receive_transaction. rewrite add_from_wrap by (first [ exact Hf | exact Rb ]). cbn [rbind]. eexists. split; [ reflexivity |].
      rewrite En. cbn [balance with_balance_nonce].
      rewrite Er, !u64of_small by (apply Z.mod_pos_bound; reflexivity). repeat split; reflexivity.
  Qed.

  (** Who owns the entries does not matter. *)
  Definition anonymous (t : tx) : list (u64 * bool) :=
    map (fun u => (amount u, is_dummy u)) (a4_list (inputs t) ++ a4_list (outputs t)).
  Lemma real_anonymous (f : Z -> Z -> res no_error Z) l : forall l' b,
    map (fun u => (amount u, is_dummy u)) l = map (fun u => (amount u, is_dummy u)) l' ->
    rfold (fun b x => f b (zval (amount x))) (real l) b = rfold (fun b x => f b (zval (amount x))) (real l') b.
  Proof.
    unfold real. induction l as [|u l IH]; intros [|u' l'] b E; try discriminate E; [ reflexivity |].
    cbn [map] in E. assert (E1 : (amount u, is_dummy u) = (amount u', is_dummy u')) by congruence.
    assert (E2 : map (fun u => (amount u, is_dummy u)) l = map (fun u => (amount u, is_dummy u)) l') by congruence.
    apply pair_equal_spec in E1 as [E1 E3]. cbn [filter]. rewrite <- E3. destruct (is_dummy u); cbn [negb]; [ now apply IH |].
    cbn [rfold]. rewrite <- E1. destruct (f b (zval (amount u))); cbn [rbind]; auto.
  Qed.
  Theorem C75_owners_ignored dbg u t t' : anonymous t = anonymous t' ->
    spend_transaction dbg u t = spend_transaction dbg u t' /\ receive_transaction dbg u t = receive_transaction dbg u t'.
  Proof.
    unfold anonymous. rewrite !map_app. intros E. apply app_inj_len in E as [E1 E2]; [| reflexivity ].
    unfold spend_transaction, receive_transaction.
    rewrite (real_anonymous (fun b a => usub dbg b a) _ _ _ E1), (real_anonymous (fun b a => uadd dbg b a) _ _ _ E2). auto.
  Qed.

  (** A payment of [v] from [k] to [k'] with change [w]: the native books of the receiver grow by
      the change too, those of a sender who also receives it do not change, whereas the circuit
      credits [v] and debits [v]. *)
  Definition payment (k k' : pt) (v w : u64) (tot : u64) : tx :=
    mkTx (A4 (utxo_new k tot) utxo_dummy utxo_dummy utxo_dummy)
         (A4 (utxo_new k' v) (utxo_new k w) utxo_dummy utxo_dummy).
  Lemma held_zero k l : held k (utxo_alloc utxo_dummy :: l) = held k l.
  Proof.
    cbn [held]. replace (zval (v_amount (utxo_alloc utxo_dummy))) with 0 by reflexivity. now destruct (pt_eqb _ _).
  Qed.
  Theorem C75_differs_from_circuit k k' v w tot u :
    k <> k' -> zval tot = zval v + zval w ->
    let t := payment k k' v w tot in
    is_valid true t (Some k) = Ok tt /\
    (* the circuit *)
    gain k (tx_alloc t) = - zval v /\ gain k' (tx_alloc t) = zval v /\
    (* the native books: of whoever receives, and of whoever spends and receives *)
    (forall u', receive_transaction true u t = Ok u' -> zval (balance u') = zval (balance u) + zval v + zval w) /\
    (forall u1 u2, spend_transaction true u t = Ok u1 -> receive_transaction true u1 t = Ok u2 -> balance u2 = balance u).
  Proof.
    intros Hk Ht t.
    assert (Ei : total_in t = zval tot) by (unfold total_in, t, payment, a4_list; cbn [total inputs a4_0 a4_1 a4_2 a4_3 utxo_new utxo_dummy is_dummy amount]; lia).
    assert (Eo : total_out t = zval v + zval w) by (unfold total_out, t, payment, a4_list; cbn [total outputs a4_0 a4_1 a4_2 a4_3 utxo_new utxo_dummy is_dummy amount]; lia).
    assert (Hg : forall x, gain x (tx_alloc t) =
      ((if pt_eqb k' x then zval v else 0) + (if pt_eqb k x then zval w else 0)) - (if pt_eqb k x then zval tot else 0)).
    { intros x. unfold gain, t, payment. cbn [tx_alloc v_outputs v_inputs outputs inputs]. unfold a4_map, a4_list. cbn [a4_0 a4_1 a4_2 a4_3].
      cbn [held]. change (v_amount (utxo_alloc utxo_dummy)) with (Fu64 (u64of 0)).
      cbn [utxo_alloc utxo_new v_pk v_amount pk amount]. rewrite !zval_Fu64. change (zval (u64of 0)) with 0.
      destruct (pt_eqb (pk utxo_dummy) x); lia. }
    split; [| split; [| split; [| split ] ] ].
    - apply (C25_is_valid true t k); [ pose proof (u64_range tot); lia | pose proof (u64_range tot); lia |].
      split; [| lia ]. intros x Hx Hd. unfold t, payment, a4_list in Hx. cbn [inputs a4_0 a4_1 a4_2 a4_3] in Hx.
      destruct Hx as [<-|Hx]; [ reflexivity |]. exfalso.
      destruct Hx as [<-|[<-|[<-|[]]]]; discriminate Hd.
    - rewrite Hg, pt_eqb_refl. replace (pt_eqb k' k) with false; [ lia |]. symmetry. apply pt_eqb_neq. congruence.
    - rewrite Hg, pt_eqb_refl. replace (pt_eqb k k') with false; [ lia |]. symmetry. apply pt_eqb_neq. congruence.
    - intros u' E. destruct (C75_receive u t) as (_ & _ & H & _). destruct (H u' E) as [H1 _]. lia.
    - intros u1 u2 E1 E2. destruct (C75_spend u t) as (_ & _ & H & _). destruct (H u1 E1) as [H1 _].
      destruct (C75_receive u1 t) as (_ & _ & H' & _). destruct (H' u2 E2) as [H2 _]. apply zval_inj. lia.
  Qed.

  (** A new user has nothing, keeps the identifier given, and signs with their own key; so does a
      sampled one, whose nonce alone is random. *)
  Definition starts_as (u : user) (id : Z) (n : u64) : Prop :=
    zval (balance u) = 0 /\ nonce u = n /\ zval (user_acc u) = 0 /\ user_id u = id /\
    forall m draws sg, user_sign u m draws = Ok (Some sg) -> verify_signature (us_key u) m sg = true.
  Theorem C75_new_user sk id :
    starts_as (user_new sk id) id (u64of 0) /\ us_sk (user_new sk id) = sk /\
    forall draw, starts_as (sample_user sk id draw) id draw /\ us_sk (sample_user sk id draw) = sk.
  Proof.
    assert (H : forall n, starts_as (mkUser sk (public_key sk) (u64of 0) n (scalar_of 0) id) id n).
    { intros n. split; [ reflexivity |]. split; [ reflexivity |]. split; [ reflexivity |]. split; [ reflexivity |].
      intros m draws sg. exact (proj1 (C30_sign_verify sk m draws) sg). }
    split; [ exact (H (u64of 0)) |]. split; [ reflexivity |].
    intros draw. split; [ exact (H draw) | reflexivity ].
  Qed.
  (** The three-element state a user allocates is not a state of the circuit: synthesis fails. *)
  Theorem C75_user_state u acc0 acc N a :
    honest (update_balance acc N (user_var u acc0) a) = None /\ forall z', ~ satisfied acc N (user_var u acc0) a z'.
  Proof.
    split.
    - destruct (honest (update_balance acc N (user_var u acc0) a)) as [r|] eqn:E; [| reflexivity ]. exfalso.
      destruct (proj1 (C74_synthesis acc N (user_var u acc0) a) (ex_intro _ r E)) as [H _]. cbn in H. lia.
    - intros z' H. apply satisfied_iff in H as (s & E & _). discriminate E.
  Qed.

  (** ** C81: the identifier gadget *)
  Lemma position_length v : length (get_leaf_position v) = S (length (directions v)).
  Proof. unfold get_leaf_position. cbn [length]. now rewrite rev_length. Qed.
  Lemma id_sat v e : (length (directions v) < 253)%nat ->
    (sat (compute_id_from_path_and_check v e) tt <-> e = Fof (bits_val (get_leaf_position v))) /\
    (honest (compute_id_from_path_and_check v e) = Some (true, tt) <-> e = Fof (bits_val (get_leaf_position v))).
  Proof.
    intros H. unfold compute_id_from_path_and_check. rewrite le_bits_short by (rewrite position_length; lia). cbn [cbind].
    split.
    - rewrite sat_enforce, Feqb_eq. intuition congruence.
    - rewrite honest_enforce. split; [| intros ->; now rewrite Feqb_refl ].
      intros E. assert (E' : Feqb (Fof (bits_val (get_leaf_position v))) e = true) by congruence. apply Feqb_eq in E'. congruence.
  Qed.
  (** the path of leaf [i] passes exactly for the identifier [i], whatever hashes it carries *)
  Theorem C81_identifier n i e :
    (1 <= n <= 253)%nat -> 0 <= i < 2 ^ Z.of_nat n ->
    (sat (compute_id_from_path_and_check (path_var_of n i) e) tt <-> e = Fof i) /\
    (honest (compute_id_from_path_and_check (path_var_of n i) e) = Some (true, tt) <-> e = Fof i).
  Proof.
    intros Hn Hi.
    assert (Ev : bits_val (get_leaf_position (path_var_of n i)) = i).
    { unfold get_leaf_position, path_var_of. cbn [leaf_is_right_child directions]. rewrite rev_involutive. cbn [bits_val].
      rewrite bits_val_le. rewrite Z.mod_small.
      - rewrite (Z.div_mod i 2) at 3 by lia. rewrite Zmod_odd. destruct (Z.odd i); cbn [Z.b2z]; lia.
      - replace (Z.of_nat n) with (Z.succ (Z.of_nat (n - 1))) in Hi by lia. rewrite Z.pow_succ_r in Hi by lia.
        split; [ apply Z.div_pos; lia | apply Z.div_lt_upper_bound; lia ]. }
    assert (Hl : (length (directions (path_var_of n i)) < 253)%nat).
    { unfold path_var_of. cbn [directions]. rewrite rev_length, bits_le_length. lia. }
    pose proof (id_sat (path_var_of n i) e Hl) as H. now rewrite Ev in H.
  Qed.
  (** an identifier determines the position, among paths of one length *)
  Theorem C81_position v v' e :
    length (directions v) = length (directions v') -> (length (directions v) < 253)%nat ->
    sat (compute_id_from_path_and_check v e) tt -> sat (compute_id_from_path_and_check v' e) tt ->
    v = v' /\ zval e < 2 ^ Z.of_nat (S (length (directions v))).
  Proof.
    intros Hl Hn H H'. apply (id_sat v e Hn) in H. apply (id_sat v' e ltac:(lia)) in H'.
    pose proof (bits_val_bounds (get_leaf_position v)) as B. pose proof (bits_val_bounds (get_leaf_position v')) as B'.
    rewrite position_length in B, B'. rewrite <- Hl in B'.
    assert (Hp : 2 ^ Z.of_nat (S (length (directions v))) < p).
    { pose proof p_bounds as [P _]. eapply Z.le_lt_trans; [| exact P ]. apply Z.pow_le_mono_r; lia. }
    assert (Ev : zval e = bits_val (get_leaf_position v)) by (rewrite H; apply zval_Fof_small; lia).
    assert (Ev' : zval e = bits_val (get_leaf_position v')) by (rewrite H'; apply zval_Fof_small; lia).
    split; [| lia ].
    assert (E : get_leaf_position v = get_leaf_position v') by (apply bits_val_inj; [ rewrite !position_length; lia | lia ]).
    unfold get_leaf_position in E. destruct v as [r d], v' as [r' d']. cbn [leaf_is_right_child directions] in *.
    assert (E1 : r = r') by congruence. assert (E2 : rev d = rev d') by congruence.
    apply (f_equal (@rev bool)) in E2. rewrite !rev_involutive in E2. congruence.
  Qed.

  (** ** C72: the two accumulators commit to the blocks *)
  Theorem C72_poseidon N l l' s s' t t' :
    urun poseidon_acc N (u_list s) l (u_list t) -> urun poseidon_acc N (u_list s') l' (u_list t') ->
    length l = length l' -> us_acc t = us_acc t' ->
    (us_acc s = us_acc s' /\ map step_block l = map step_block l') \/
    collision2 (absorbed poseidon_acc (us_acc s) (map step_block l) ++ absorbed poseidon_acc (us_acc s') (map step_block l')).
  Proof.
    intros H H' Hl E. destruct (C72_accumulator_commits poseidon_acc N l l' s s' t t' H H' Hl E) as [C|(x & y & Hx & Hy & Hn & C)]; [ now left | right ].
    exists x, y. rewrite !in_app_iff. auto.
  Qed.
  Lemma field_bytesV_inj x y : field_bytesV x = field_bytesV y -> x = y.
  Proof.
    unfold field_bytesV. intros E. apply zval_inj. pose proof (F_range x). pose proof (F_range y). pose proof p_bounds as [_ P].
    assert (2 ^ 254 < 256 ^ Z.of_nat 32) by reflexivity.
    apply (bytes_le_inj 32); [ lia | lia | exact E ].
  Qed.
  Theorem C72_sha N l l' s s' t t' :
    urun sha_acc N (u_list s) l (u_list t) -> urun sha_acc N (u_list s') l' (u_list t') ->
    length l = length l' -> us_acc t = us_acc t' ->
    (us_acc s = us_acc s' /\ map step_block l = map step_block l') \/
    exists m m', m <> m' /\ length m = 64%nat /\ length m' = 64%nat /\ sha_field m = sha_field m'.
  Proof.
    intros H H' Hl E. destruct (C72_accumulator_commits sha_acc N l l' s s' t t' H H' Hl E) as [C|(x & y & Hx & Hy & Hn & C)]; [ now left | right ].
    exists (field_bytesV (fst x) ++ field_bytesV (snd x)), (field_bytesV (fst y) ++ field_bytesV (snd y)).
    split; [| split; [ reflexivity | split; [ reflexivity | exact C ] ] ].
    intros Em. apply Hn. apply app_inj_len in Em as [E1 E2]; [| reflexivity ].
    destruct x as [x1 x2], y as [y1 y2]. cbn [fst snd] in E1, E2.
    now rewrite (field_bytesV_inj _ _ E1), (field_bytesV_inj _ _ E2).
  Qed.
End user.

Print Assumptions C75_spend.
Print Assumptions C75_receive.
Print Assumptions C75_owners_ignored.
Print Assumptions C75_differs_from_circuit.
Print Assumptions C75_new_user.
Print Assumptions C75_user_state.
Print Assumptions C81_identifier.
Print Assumptions C81_position.
Print Assumptions C72_poseidon.
Print Assumptions C72_sha.

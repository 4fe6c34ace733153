(** What the user's circuit enforces and computes: no hint of the prover matters. *)
From Coq Require Import ZArith List Bool Lia Sorted.
Import ListNotations.
From Verif Require Import Base Env Circuit SparseMT SparseMTSpec SparseMTHeap SparseMTRep SparseMTProofs
  SparseMTGadget SparseMTGadgetProofs Data DataSpec DataFacts Gadgets GadgetsProofs PropsData AggCircuit AggCircuitFacts AggCircuitSpec
  Client ClientSpec.
Open Scope Z_scope.
Add Ring FR : F_ring.

Section facts.
  Context {hs : Hashes} {G : Curve}.

  Lemma computes_is_lt a b : computes (is_lt a b) (half_ok a && half_ok b) (zval a <? zval b).
  Proof.
    unfold is_lt. eapply computes_eq.
    - eapply computes_bind; [ apply computes_enforce |]. eapply computes_bind; [ apply computes_enforce |]. apply computes_ret.
    - now rewrite andb_true_r.
    - reflexivity.
  Qed.
  Lemma computes_ccm (P : SparseConfig) (Pg : GadgetConfig) path root leaf en :
    cfg_ok P -> GHEIGHT Pg = HEIGHT P -> length path = (HEIGHT P - 1)%nat ->
    computes (conditionally_check_membership Pg path root leaf en)
      (negb en || match verify_loop path (GLeafHash Pg leaf) with Some y => Feqb root y | None => false end) tt.
  Proof.
    intros Hok HH Hl. split.
    - rewrite (ccm_honest P Pg Hok HH), Hl, Nat.eqb_refl. reflexivity.
    - intros []. rewrite (ccm_sat P Pg Hok HH). rewrite Hl.
      destruct en; cbn [negb orb].
      + destruct (verify_loop path (GLeafHash Pg leaf)); [ rewrite Feqb_eq |]; intuition congruence.
      + intuition congruence.
  Qed.
  Lemma computes_ccmi (P : SparseConfig) (Pg : GadgetConfig) path root leaf idx en :
    cfg_ok P -> GHEIGHT Pg = HEIGHT P -> length path = (HEIGHT P - 1)%nat ->
    computes (conditionally_check_membership_with_index Pg path root leaf idx en)
      (negb en || match chain path (zval idx) (GLeafHash Pg leaf) with Some y => Feqb root y | None => false end) tt.
  Proof.
    intros Hok HH Hl. split.
    - rewrite (ccmi_honest P Pg Hok HH), Hl, Nat.eqb_refl. reflexivity.
    - intros []. rewrite (ccmi_sat P Pg Hok HH). rewrite Hl.
      destruct en; cbn [negb orb].
      + destruct (chain path (zval idx) (GLeafHash Pg leaf)) as [y|]; [ rewrite Feqb_eq |]; intuition congruence.
      + intuition congruence.
  Qed.

  (** ** Balance and nonce *)
  Lemma Fmul_bool x b : Fmul x (Fbool b) = if b then x else Fzero.
  Proof. destruct b; cbn [Fbool]; ring. Qed.
  Lemma spend_fold k l : forall b, fold_left (u_spend k) l b = Fof (zval b - held k l).
  Proof.
    induction l as [|u l IH]; intros b; cbn [fold_left held].
    - rewrite Z.sub_0_r. now rewrite Fof_zval.
    - rewrite IH. unfold u_spend. rewrite Fmul_bool.
      apply Fof_eq_iff. rewrite zval_Fsub.
      destruct (pt_eqb (v_pk u) k); rewrite ?zval_F0;
        rewrite Zminus_mod_idemp_l; f_equal; lia.
  Qed.
  Lemma receive_fold k l : forall b, fold_left (u_receive k) l b = Fof (zval b + held k l).
  Proof.
    induction l as [|u l IH]; intros b; cbn [fold_left held].
    - rewrite Z.add_0_r. now rewrite Fof_zval.
    - rewrite IH. unfold u_receive. rewrite Fmul_bool.
      apply Fof_eq_iff. rewrite zval_Fadd.
      destruct (pt_eqb (v_pk u) k); rewrite ?zval_F0;
        rewrite Zplus_mod_idemp_l; f_equal; lia.
  Qed.
  Lemma balance_gain k t b :
    fold_left (u_receive k) (a4_list (v_outputs t)) (fold_left (u_spend k) (a4_list (v_inputs t)) b)
    = Fof (zval b + gain k t).
  Proof.
    rewrite spend_fold, receive_fold. apply Fof_eq_iff. rewrite zval_Fof, Zplus_mod_idemp_l.
    unfold gain. f_equal. lia.
  Qed.
  Lemma signer_of_eq t : get_signer t = signer_of t.
  Proof. apply C29_get_signer_last. Qed.

  (** ** One transaction *)
  Definition tx_ok (blk : blockV) (t : txV) (i : F) (tp : list (F * F)) : bool :=
    match chain tp (zval i) (tx_hashV t) with Some y => Feqb (vb_tx_root blk) y | None => false end.
  Definition signer_ok (blk : blockV) (t : txV) (sp : list (F * F)) : bool :=
    match verify_loop sp (pk_hashV (signer_of t)) with Some y => Feqb (vb_signer_root blk) y | None => false end.
  Definition item_ok (blk : blockV) (st : F * F * F) (x : u_item) : bool :=
    let '(((t, i), tp), sp) := x in
    half_ok (snd st) && half_ok i && (negb (regular t) || (zval (snd st) <? zval i)) &&
    (negb (regular t) || tx_ok blk t i tp) && (negb (regular t) || signer_ok blk t sp).
  Definition item_next (k : pt) (st : F * F * F) (x : u_item) : F * F * F :=
    let '(((t, i), tp), sp) := x in
    (Fof (zval (fst (fst st)) + gain k t),
     Fof (zval (snd (fst st)) + if pt_eqb (signer_of t) k then 1 else 0),
     if regular t then i else snd st).
  Definition item_shaped (x : u_item) : Prop :=
    length (snd (fst x)) = 12%nat /\ length (snd x) = 12%nat.
  Lemma u_step_computes k blk st x : item_shaped x ->
    computes (u_step k blk st x) (item_ok blk st x) (item_next k st x).
  Proof.
    destruct st as [[b n] prev], x as [[[t i] tp] sp]. unfold item_shaped. cbn [fst snd]. intros [H1 H2].
    unfold u_step. eapply computes_eq.
    - eapply computes_bind; [ apply computes_is_lt |].
      eapply computes_bind; [ apply computes_cond |].
      eapply computes_bind; [ apply (computes_ccmi tx_cfg tx_gcfg); [ apply tx_cfg_ok | reflexivity | exact H1 ] |].
      eapply computes_bind; [ apply (computes_ccm signer_cfg signer_gcfg); [ apply signer_cfg_ok | reflexivity | exact H2 ] |].
      apply computes_ret.
    - unfold item_ok, tx_ok, signer_ok. cbn [fst snd]. rewrite <- signer_of_eq. unfold regular, dummy_transaction_hash.
      cbn [GLeafHash tx_gcfg signer_gcfg]. rewrite andb_true_r, !andb_assoc. reflexivity.
    - unfold item_next. cbn [fst snd]. rewrite balance_gain, <- signer_of_eq, pt_eqb_sym.
      f_equal; [ f_equal |].
      + apply zval_F. rewrite zval_Fadd, zval_Fof. destruct (pt_eqb (get_signer t) k); reflexivity.
      + fold (regular t). unfold dummy_transaction_hash. fold (regular t).
        destruct (regular t); cbn [Fbool]; ring.
  Qed.
  Lemma u_step_shaped k blk st x r : sat (u_step k blk st x) r -> item_shaped x.
  Proof.
    destruct st as [[b n] prev], x as [[[t i] tp] sp]. unfold item_shaped. cbn [fst snd]. unfold u_step. intros H.
    rewrite sat_bind in H; destruct H as (? & _ & H).
    rewrite sat_bind in H; destruct H as (? & _ & H).
    rewrite sat_bind in H; destruct H as ([] & H1 & H).
    rewrite sat_bind in H; destruct H as ([] & H2 & _).
    apply (ccmi_sat tx_cfg tx_gcfg tx_cfg_ok eq_refl) in H1 as [H1 _].
    apply (ccm_sat signer_cfg signer_gcfg signer_cfg_ok eq_refl) in H2 as [H2 _].
    split; [ exact H1 | exact H2 ].
  Qed.

  (** ** One step *)
  Definition items (a : user_auxV) : list u_item :=
    combine (combine (ux_txs a) (ux_tx_proofs a)) (ux_signer_proofs a).
  Definition start_index (s : ustate) (a : user_auxV) : F :=
    if Feqb (step_block a) (us_block s) then us_index s else Fzero.
  Definition start_of (s : ustate) (a : user_auxV) : F * F * F :=
    (us_balance s, us_nonce s, start_index s a).
  Definition end_of (s : ustate) (a : user_auxV) : F * F * F :=
    fold_left (item_next (ux_pk a)) (items a) (start_of s a).
  Definition lengths_ok (N : nat) (a : user_auxV) : Prop :=
    length (ux_tx_proofs a) = N /\ length (ux_txs a) = N /\ length (ux_signer_proofs a) = N.
  Definition ustep_ok (s : ustate) (a : user_auxV) : bool :=
    Feqb (pk_hashV (ux_pk a)) (us_pk s) &&
    (half_ok (us_height s) && half_ok (Fadd (vb_height (ux_block a)) Fone)
     && (zval (us_height s) <? zval (Fadd (vb_height (ux_block a)) Fone))) &&
    ok_fold (item_ok (ux_block a)) (item_next (ux_pk a)) (items a) (start_of s a).
  Definition ustep_next (acc : accumulator) (s : ustate) (a : user_auxV) : ustate :=
    {| us_balance := fst (fst (end_of s a)); us_nonce := snd (fst (end_of s a)); us_pk := us_pk s;
       us_acc := acc (us_acc s) (step_block a); us_block := step_block a;
       us_height := vb_height (ux_block a); us_index := snd (end_of s a) |}.
  Lemma computes_le a b :
    computes (enforce_le a b) (half_ok a && half_ok (Fadd b Fone) && (zval a <? zval (Fadd b Fone))) tt.
  Proof. unfold enforce_le. eapply computes_bind; [ apply computes_is_lt | apply computes_enforce ]. Qed.

  Theorem ustep_computes acc N z s a :
    u_of_list z = Some s -> lengths_ok N a -> Forall item_shaped (items a) ->
    computes (update_balance acc N z a) (ustep_ok s a) (u_list (ustep_next acc s a)).
  Proof.
    intros Es (L1 & L2 & L3) Hi. unfold update_balance. rewrite L1, L2, L3, !Nat.eqb_refl, Es. cbn [cassert cbind].
    unfold ustep_next, ustep_ok.
    assert (Hf := computes_cfold (u_step (ux_pk a) (ux_block a)) (item_ok (ux_block a)) (item_next (ux_pk a)) (items a)
                    (start_of s a) (fun st x Hx => u_step_computes (ux_pk a) (ux_block a) st x (proj1 (Forall_forall _ _) Hi x Hx))).
    fold (end_of s a) in Hf. destruct (end_of s a) as [[b n] i]. cbn [fst snd].
    eapply computes_eq.
    - eapply computes_bind; [ apply computes_enforce |].
      eapply computes_bind; [ apply computes_le |].
      eapply computes_bind; [ exact Hf |]. cbv beta iota. apply computes_ret.
    - now rewrite andb_true_r, andb_assoc.
    - reflexivity.
  Qed.

  Lemma ustep_shape acc N z a z' : sat (update_balance acc N z a) z' ->
    exists s, u_of_list z = Some s /\ lengths_ok N a /\ Forall item_shaped (items a).
  Proof.
    unfold update_balance. intros H.
    apply sat_cassert_bind in H as [L1 H]. apply sat_cassert_bind in H as [L2 H]. apply sat_cassert_bind in H as [L3 H].
    apply Nat.eqb_eq in L1, L2, L3.
    destruct (u_of_list z) as [s|]; [| destruct H ]. exists s. split; [ reflexivity |]. split; [ repeat split; assumption |].
    rewrite sat_bind in H; destruct H as (? & _ & H).
    rewrite sat_bind in H; destruct H as (? & _ & H).
    rewrite sat_bind in H; destruct H as (e & H & _).
    eapply cfold_sat_all; [| exact H ]. intros ? ? ? Hr. eapply u_step_shaped. exact Hr.
  Qed.

  Theorem ustep_sat acc N z a z' :
    sat (update_balance acc N z a) z' <->
    exists s, u_of_list z = Some s /\ lengths_ok N a /\ Forall item_shaped (items a) /\
      ustep_ok s a = true /\ z' = u_list (ustep_next acc s a).
  Proof.
    split.
    - intros H. destruct (ustep_shape _ _ _ _ _ H) as (s & Es & L & I). exists s. split; [ exact Es |]. split; [ exact L |].
      split; [ exact I |]. exact (proj1 (proj2 (ustep_computes acc N z s a Es L I) z') H).
    - intros (s & Es & L & I & H). exact (proj2 (proj2 (ustep_computes acc N z s a Es L I) z') H).
  Qed.
  Theorem ustep_honest acc N z s a : u_of_list z = Some s -> lengths_ok N a -> Forall item_shaped (items a) ->
    honest (update_balance acc N z a) = Some (ustep_ok s a, u_list (ustep_next acc s a)).
  Proof. intros Es L I. exact (proj1 (ustep_computes acc N z s a Es L I)). Qed.

  (** ** Readable forms *)
  Lemma half_ok_iff x : half_ok x = true <-> zval x <= max_cmp.
  Proof. unfold half_ok, max_cmp. apply Z.leb_le. Qed.
  Lemma height_iff a b :
    (half_ok a && half_ok (Fadd b Fone) && (zval a <? zval (Fadd b Fone))) = true <->
    zval a <= zval b /\ zval b + 1 <= max_cmp.
  Proof.
    assert (H := enforce_le_sat a b tt). pose proof (proj2 (computes_le a b) tt) as H'.
    unfold max_cmp. split.
    - intros E. destruct (proj1 H (proj2 H' (conj E eq_refl))) as (H1 & H2 & H3). auto.
    - intros [H1 H2]. apply (proj1 (proj1 H' (proj2 H ltac:(lia)))).
  Qed.

  (** the state after a list of items *)
  Lemma balance_end k l : forall b n i,
    fst (fst (fold_left (item_next k) l (b, n, i))) = Fof (zval b + zsumm (map (fun x => gain k (fst (fst (fst x)))) l)).
  Proof.
    induction l as [|[[[t j] tp] sp] l IH]; intros b n i; cbn [fold_left map zsumm fst snd].
    - now rewrite Z.add_0_r, Fof_zval.
    - unfold item_next at 2. cbn [fst snd]. rewrite IH. apply Fof_eq_iff. rewrite zval_Fof, Zplus_mod_idemp_l. f_equal. lia.
  Qed.
  Lemma nonce_end k l : forall b n i,
    snd (fst (fold_left (item_next k) l (b, n, i)))
    = Fof (zval n + Z.of_nat (length (filter (fun x => pt_eqb (signer_of (fst (fst (fst x)))) k) l))).
  Proof.
    induction l as [|[[[t j] tp] sp] l IH]; intros b n i; cbn [fold_left filter fst snd].
    - cbn [length]. now rewrite Z.add_0_r, Fof_zval.
    - unfold item_next at 2. cbn [fst snd]. rewrite IH. apply Fof_eq_iff. rewrite zval_Fof, Zplus_mod_idemp_l.
      destruct (pt_eqb (signer_of t) k); cbn [length]; f_equal; lia.
  Qed.
  Definition item_index (x : u_item) : F := snd (fst (fst x)).
  Definition item_tx (x : u_item) : txV := fst (fst (fst x)).
  Definition reg_items (l : list u_item) : list u_item := filter (fun x => regular (item_tx x)) l.
  Definition item_indices (l : list u_item) : list Z := map (fun x => zval (item_index x)) (reg_items l).
  Lemma index_end k l : forall b n i,
    zval (snd (fold_left (item_next k) l (b, n, i))) = last (item_indices l) (zval i).
  Proof.
    induction l as [|[[[t j] tp] sp] l IH]; intros b n i; [ reflexivity |].
    cbn [fold_left]. unfold item_next at 2. cbn [fst snd]. rewrite IH.
    unfold item_indices, reg_items. cbn [filter item_tx fst snd]. destruct (regular t); [| reflexivity ].
    cbn [map item_index fst snd]. destruct (map _ (filter _ l)) as [|y r] eqn:E; [ reflexivity |].
    change (last (y :: r) (zval j) = last (y :: r) (zval i)). clear. revert y. induction r as [|x r IH]; intros y; [ reflexivity |].
    change (last (x :: r) (zval j) = last (x :: r) (zval i)). apply IH.
  Qed.

  (** the conditions on a list of items, from a last index *)
  Definition item_cond (blk : blockV) (x : u_item) : Prop :=
    zval (item_index x) <= max_cmp /\
    (regular (item_tx x) = true ->
       tx_ok blk (item_tx x) (item_index x) (snd (fst x)) = true /\ signer_ok blk (item_tx x) (snd x) = true).
  Lemma item_ok_iff blk st t i tp sp :
    item_ok blk st (t, i, tp, sp) = true <->
    zval (snd st) <= max_cmp /\ (regular t = true -> zval (snd st) < zval i) /\ item_cond blk (t, i, tp, sp).
  Proof.
    unfold item_ok, item_cond, item_tx, item_index. cbn [fst snd]. rewrite !andb_true_iff, !half_ok_iff.
    destruct (regular t); cbn [negb orb]; rewrite ?Z.ltb_lt; intuition congruence.
  Qed.
  Lemma items_ok_iff k blk l : forall b n i,
    ok_fold (item_ok blk) (item_next k) l (b, n, i) = true <->
    (l <> [] -> zval i <= max_cmp) /\ Sorted Z.lt (zval i :: item_indices l) /\ Forall (item_cond blk) l.
  Proof.
    induction l as [|[[[t j] tp] sp] l IH]; intros b n i.
    - cbn. split; auto. intros _. split; [ congruence |]. split; repeat constructor.
    - cbn [ok_fold]. rewrite andb_true_iff, item_ok_iff. cbn [snd].
      change (item_next k (b, n, i) (t, j, tp, sp))
        with (Fof (zval b + gain k t), Fof (zval n + if pt_eqb (signer_of t) k then 1 else 0), if regular t then j else i).
      rewrite IH. clear IH.
      unfold item_indices, reg_items. cbn [filter item_tx fst snd].
      rewrite Forall_cons_iff. unfold item_cond at 1 3. cbn [item_tx item_index fst snd].
      destruct (regular t) eqn:R.
      + cbn [map item_index fst snd]. fold (reg_items l). fold (item_indices l). split.
        * intros ((H1 & H2 & H3 & H4) & H5 & H6 & H7). split; [ auto |]. split; [ constructor; auto |]. repeat split; auto; apply H4; auto.
        * intros (H1 & H2 & (H3 & H4) & H5). inversion H2 as [|? ? S1 S2]; subst. inversion S2; subst.
          assert (zval i <= max_cmp) by (apply H1; discriminate). repeat split; auto; apply H4; auto.
      + fold (reg_items l). fold (item_indices l). split.
        * intros ((H1 & H2 & H3 & H4) & H5 & H6 & H7). repeat split; auto; congruence.
        * intros (H1 & H2 & (H3 & H4) & H5). assert (zval i <= max_cmp) by (apply H1; discriminate).
          repeat split; auto; congruence.
  Qed.

  (** items and the three lists *)
  Lemma combine3_map {A B C D} (f : A -> D) (l1 : list A) (l2 : list B) (l3 : list C) N :
    length l1 = N -> length l2 = N -> length l3 = N ->
    map (fun x => f (fst (fst x))) (combine (combine l1 l2) l3) = map f l1.
  Proof.
    revert l2 l3 N; induction l1 as [|a l1 IH]; intros [|b l2] [|c l3] N H1 H2 H3; cbn in *; try congruence; try lia.
    f_equal. destruct N; [ discriminate |]. eapply IH; eauto; lia.
  Qed.
  Lemma items_txs N a : lengths_ok N a -> map (fun x => fst (fst x)) (items a) = ux_txs a.
  Proof. intros (L1 & L2 & L3). unfold items. rewrite (combine3_map (fun x => x) _ _ _ N) by auto. apply map_id. Qed.
  Lemma nth_combine {A B} (l1 : list A) (l2 : list B) n a b :
    nth_error (combine l1 l2) n = Some (a, b) <-> nth_error l1 n = Some a /\ nth_error l2 n = Some b.
  Proof.
    revert l2 n; induction l1 as [|x l1 IH]; intros [|y l2] [|n]; cbn; try (intuition congruence).
    all: try (split; [ intros H; assert (x = a /\ y = b) as [-> ->] by (split; congruence); auto | intros [H1 H2]; congruence ]).
    apply IH.
  Qed.
  Lemma items_nth a n t i tp sp : nth_error (items a) n = Some (t, i, tp, sp) <-> item_at a n t i tp sp.
  Proof.
    unfold items, item_at.
    assert (H1 := nth_combine (combine (ux_txs a) (ux_tx_proofs a)) (ux_signer_proofs a) n (t, i, tp) sp).
    assert (H2 := nth_combine (ux_txs a) (ux_tx_proofs a) n (t, i) tp).
    rewrite H2 in H1. rewrite <- and_assoc. exact H1.
  Qed.
  Lemma Forall_items a (Q : u_item -> Prop) :
    Forall Q (items a) <-> forall n t i tp sp, item_at a n t i tp sp -> Q (t, i, tp, sp).
  Proof.
    rewrite Forall_forall. split.
    - intros H n t i tp sp Hi. apply H. apply items_nth in Hi. eapply nth_error_In; eauto.
    - intros H [[[t i] tp] sp] Hx. apply In_nth_error in Hx as (n & Hn). apply (H n). now apply items_nth.
  Qed.
  Lemma filter_map {A B} (f : A -> B) (q : B -> bool) l : filter q (map f l) = map f (filter (fun x => q (f x)) l).
  Proof. induction l as [|x l IH]; cbn; auto. rewrite IH. destruct (q (f x)); reflexivity. Qed.
  Lemma item_indices_eq N a : lengths_ok N a -> item_indices (items a) = indices a.
  Proof.
    intros L. unfold indices, regular_entries. rewrite <- (items_txs N a L), filter_map, map_map. reflexivity.
  Qed.
  Lemma item_gains N a : lengths_ok N a -> zsumm (map (fun x => gain (ux_pk a) (fst (fst (fst x)))) (items a)) = step_gain a.
  Proof. intros L. unfold step_gain, transactions. rewrite <- (items_txs N a L), !map_map. reflexivity. Qed.
  Lemma item_signers N a : lengths_ok N a ->
    Z.of_nat (length (filter (fun x => pt_eqb (signer_of (fst (fst (fst x)))) (ux_pk a)) (items a))) = step_signed a.
  Proof.
    intros L. unfold step_signed, transactions. rewrite <- (items_txs N a L), map_map, filter_map, map_length. reflexivity.
  Qed.

  (** ** A satisfied step, in full *)
  Definition step_conditions (N : nat) (s : ustate) (a : user_auxV) : Prop :=
    lengths_ok N a /\
    pk_hashV (ux_pk a) = us_pk s /\
    zval (us_height s) <= step_height a /\ step_height a + 1 <= max_cmp /\
    (N <> 0%nat -> zval (start_index s a) <= max_cmp) /\
    Sorted Z.lt (zval (start_index s a) :: indices a) /\
    (forall n t i tp sp, item_at a n t i tp sp ->
       length tp = 12%nat /\ length sp = 12%nat /\ zval i <= max_cmp /\
       (regular t = true -> tx_ok (ux_block a) t i tp = true /\ signer_ok (ux_block a) t sp = true)).
  Definition step_result (acc : accumulator) (s : ustate) (a : user_auxV) : ustate :=
    {| us_balance := Fof (zval (us_balance s) + step_gain a);
       us_nonce := Fof (zval (us_nonce s) + step_signed a);
       us_pk := us_pk s; us_acc := acc (us_acc s) (step_block a); us_block := step_block a;
       us_height := vb_height (ux_block a);
       us_index := Fof (last (indices a) (zval (start_index s a))) |}.
  Lemma ustep_next_eq acc N s a : lengths_ok N a -> ustep_next acc s a = step_result acc s a.
  Proof.
    intros L. unfold ustep_next, step_result, end_of, start_of.
    rewrite balance_end, nonce_end, (item_gains N), (item_signers N) by exact L. f_equal.
    rewrite <- (Fof_zval (snd _)), index_end, (item_indices_eq N) by exact L. reflexivity.
  Qed.
  Lemma items_length N a : lengths_ok N a -> length (items a) = N.
  Proof. intros (L1 & L2 & L3). unfold items.
    etransitivity; [ exact (combine_length _ _) |]. rewrite combine_length, L1, L2, L3. lia. Qed.
  Lemma ustep_ok_iff N s a : lengths_ok N a ->
    (ustep_ok s a = true /\ Forall item_shaped (items a) <-> step_conditions N s a).
  Proof.
    intros L. unfold ustep_ok, step_conditions, start_of.
    rewrite andb_true_iff, (andb_true_iff (Feqb _ _)), Feqb_eq, height_iff, items_ok_iff, (item_indices_eq N) by exact L.
    rewrite !Forall_items. unfold item_shaped, item_cond, item_tx, item_index. cbn [fst snd].
    assert (Hne : items a <> [] <-> N <> 0%nat).
    { pose proof (items_length N a L). destruct (items a); cbn in *; split; intros; try congruence; lia. }
    rewrite Hne. unfold step_height. split.
    - intros (((H1 & H2 & H2') & H3 & H4 & H5) & H6).
      split; [ exact L |]. split; [ exact H1 |]. split; [ exact H2 |]. split; [ exact H2' |]. split; [ exact H3 |]. split; [ exact H4 |].
      intros n t i tp sp Hi. destruct (H5 _ _ _ _ _ Hi), (H6 _ _ _ _ _ Hi). auto.
    - intros (_ & H1 & H2 & H2' & H3 & H4 & H5).
      split; [| intros n t i tp sp Hi; destruct (H5 _ _ _ _ _ Hi) as (? & ? & _); auto ].
      split; [ auto |]. split; [ exact H3 |]. split; [ exact H4 |].
      intros n t i tp sp Hi. destruct (H5 _ _ _ _ _ Hi) as (? & ? & ? & ?); auto.
  Qed.
  Theorem satisfied_iff acc N z a z' :
    satisfied acc N z a z' <->
    exists s, u_of_list z = Some s /\ step_conditions N s a /\ z' = u_list (step_result acc s a).
  Proof.
    unfold satisfied. rewrite ustep_sat. split.
    - intros (s & Es & L & I & Ok & E). exists s. split; [ exact Es |]. split; [ now apply ustep_ok_iff |].
      now rewrite E, (ustep_next_eq acc N) by exact L.
    - intros (s & Es & C & E). pose proof C as (L & _). apply ustep_ok_iff in C as [C I]; [| exact L ].
      exists s. rewrite (ustep_next_eq acc N) by exact L. auto.
  Qed.
End facts.

(** Properties C65, C69, C72-C74: padding, replays across blocks, key and accumulator, totality. *)
From Coq Require Import ZArith List Bool Lia Sorted.
Import ListNotations.
From Verif Require Import Base Env Circuit SparseMT SparseMTSpec SparseMTHeap SparseMTRep SparseMTProofs
  SparseMTGadget SparseMTGadgetProofs Data DataSpec DataFacts Gadgets GadgetsProofs PropsData AggCircuit AggCircuitFacts AggCircuitSpec CircuitRun
  PropsTree Client ClientSpec ClientFacts PropsClient.
Open Scope Z_scope.

Section props.
  Context {hs : Hashes} {G : Curve}.
  Variables (acc : accumulator).

  (** ** C65: padding *)
  Lemma default_not_regular : regular (tx_alloc tx_default) = false.
  Proof. unfold regular. apply negb_false_iff. apply Feqb_eq. reflexivity. Qed.
  Lemma held_dummies k l : Forall (fun u => u = utxo_alloc utxo_dummy) l -> held k l = 0.
  Proof.
    induction 1 as [|u l -> _ IH]; [ reflexivity |]. cbn [held]. rewrite IH.
    replace (zval (v_amount (utxo_alloc utxo_dummy))) with 0 by reflexivity. now destruct (pt_eqb _ _).
  Qed.
  Lemma gain_default k : gain k (tx_alloc tx_default) = 0.
  Proof. unfold gain. rewrite !held_dummies by (repeat constructor). reflexivity. Qed.
  Lemma signer_default : signer_of (tx_alloc tx_default) = pzero.
  Proof. reflexivity. Qed.

  Definition insert {A} (n : nat) (x : A) (l : list A) : list A := firstn n l ++ x :: skipn n l.
  Lemma insert_length {A} n (x : A) l : length (insert n x l) = S (length l).
  Proof. unfold insert. rewrite app_length. cbn [length]. rewrite <- (firstn_skipn n l) at 3. rewrite app_length. lia. Qed.
  Lemma insert_combine {A B} n (x : A) (y : B) : forall l l', length l = length l' ->
    combine (insert n x l) (insert n y l') = insert n (x, y) (combine l l').
  Proof.
    unfold insert. induction n as [|n IH]; intros [|a l] [|b l'] H; try discriminate H; try reflexivity.
    cbn [firstn skipn app combine]. f_equal. apply IH. now injection H.
  Qed.
  Lemma Forall_insert {A} (Q : A -> Prop) n x l : Forall Q (insert n x l) <-> Q x /\ Forall Q l.
  Proof.
    unfold insert. rewrite Forall_app, Forall_cons_iff. rewrite <- (firstn_skipn n l) at 3. rewrite Forall_app. tauto.
  Qed.
  Lemma filter_insert {A} (f : A -> bool) n x l : f x = false -> filter f (insert n x l) = filter f l.
  Proof.
    intros H. unfold insert. rewrite filter_app. cbn [filter]. rewrite H, <- filter_app, firstn_skipn. reflexivity.
  Qed.
  Lemma map_insert {A B} (f : A -> B) n x l : map f (insert n x l) = insert n (f x) (map f l).
  Proof. unfold insert. now rewrite firstn_map, skipn_map, map_app. Qed.
  Lemma zsumm_app l l' : zsumm (l ++ l') = zsumm l + zsumm l'.
  Proof. induction l as [|x l IH]; cbn [app zsumm]; lia. Qed.
  Lemma zsumm_insert n x l : zsumm (insert n x l) = x + zsumm l.
  Proof. unfold insert. rewrite zsumm_app. cbn [zsumm]. rewrite <- (firstn_skipn n l) at 3. rewrite zsumm_app. lia. Qed.

  (** the same step with one more transaction, the default one, at place [n] *)
  Definition with_padding (n : nat) (i : F) (tp sp : list (F * F)) (a : user_auxV) : user_auxV :=
    {| ux_tx_proofs := insert n tp (ux_tx_proofs a); ux_signer_proofs := insert n sp (ux_signer_proofs a);
       ux_block := ux_block a; ux_txs := insert n (tx_alloc tx_default, i) (ux_txs a); ux_pk := ux_pk a |}.

  Lemma padding_conditions N n i tp sp s a :
    length (ux_tx_proofs a) = N -> length (ux_txs a) = N -> length (ux_signer_proofs a) = N ->
    step_conditions (S N) s (with_padding n i tp sp a) <->
    step_conditions N s a /\ length tp = 12%nat /\ length sp = 12%nat /\ zval i <= max_cmp /\
    zval (start_index s a) <= max_cmp.
  Proof.
    intros L1 L2 L3. set (a' := with_padding n i tp sp a).
    assert (L : lengths_ok N a) by (repeat split; assumption).
    assert (L' : lengths_ok (S N) a').
    { unfold lengths_ok, a', with_padding. cbn [ux_tx_proofs ux_txs ux_signer_proofs]. rewrite !insert_length. auto. }
    assert (Ei : items a' = insert n (tx_alloc tx_default, i, tp, sp) (items a)).
    { unfold items, a', with_padding. cbn [ux_tx_proofs ux_txs ux_signer_proofs].
      rewrite insert_combine by congruence. apply insert_combine. rewrite combine_length, L1, L2, L3. apply Nat.min_id. }
    assert (Ex : indices a' = indices a).
    { unfold indices, regular_entries, a', with_padding. cbn [ux_txs].
      rewrite filter_insert; [ reflexivity |]. exact default_not_regular. }
    assert (Es : start_index s a' = start_index s a) by reflexivity.
    unfold step_conditions. rewrite Ex, Es.
    assert (Hall : forall b, (forall n0 t i0 tp0 sp0, item_at b n0 t i0 tp0 sp0 ->
       length tp0 = 12%nat /\ length sp0 = 12%nat /\ zval i0 <= max_cmp /\
       (regular t = true -> tx_ok (ux_block b) t i0 tp0 = true /\ signer_ok (ux_block b) t sp0 = true)) <->
       Forall (fun x : u_item => length (snd (fst x)) = 12%nat /\ length (snd x) = 12%nat /\ zval (item_index x) <= max_cmp /\
         (regular (item_tx x) = true -> tx_ok (ux_block b) (item_tx x) (item_index x) (snd (fst x)) = true /\
            signer_ok (ux_block b) (item_tx x) (snd x) = true)) (items b)).
    { intros b. rewrite Forall_items. reflexivity. }
    rewrite !Hall, Ei, Forall_insert. unfold item_index, item_tx. cbn [fst snd]. rewrite default_not_regular.
    unfold a' at 2 3 4 5. cbn [ux_pk ux_block with_padding]. unfold step_height. cbn [ux_block with_padding].
    split.
    - intros (_ & H1 & H2 & H3 & H4 & H5 & (H6 & H7 & H8 & _) & H9). specialize (H4 ltac:(discriminate)). repeat split; auto.
    - intros ((_ & H1 & H2 & H3 & H4 & H5 & H9) & H6 & H7 & H8 & H10).
      split; [ exact L' |]. split; [ exact H1 |]. split; [ exact H2 |]. split; [ exact H3 |]. split; [ intros _; exact H10 |].
      split; [ exact H5 |]. split; [| exact H9 ]. split; [ exact H6 |]. split; [ exact H7 |]. split; [ exact H8 |]. discriminate.
  Qed.
  Theorem C65_padding N n i tp sp s a z' :
    length (ux_tx_proofs a) = N -> length (ux_txs a) = N -> length (ux_signer_proofs a) = N ->
    ux_pk a <> pzero ->
    satisfied acc (S N) (u_list s) (with_padding n i tp sp a) z' <->
    satisfied acc N (u_list s) a z' /\
    length tp = 12%nat /\ length sp = 12%nat /\ zval i <= max_cmp /\
    (if Feqb (step_block a) (us_block s) then zval (us_index s) else 0) <= max_cmp.
  Proof.
    intros L1 L2 L3 Hk. rewrite !satisfied_state, padding_conditions by assumption.
    assert (E : step_result acc s (with_padding n i tp sp a) = step_result acc s a).
    { unfold step_result.
      assert (E1 : step_gain (with_padding n i tp sp a) = step_gain a).
      { unfold step_gain, transactions, with_padding. cbn [ux_txs ux_pk]. rewrite !map_insert, zsumm_insert. cbn [fst]. now rewrite gain_default. }
      assert (E2 : step_signed (with_padding n i tp sp a) = step_signed a).
      { unfold step_signed, transactions, with_padding. cbn [ux_txs ux_pk]. rewrite map_insert, filter_insert; [ reflexivity |].
        cbn [fst]. rewrite signer_default. apply pt_eqb_neq. congruence. }
      assert (E3 : indices (with_padding n i tp sp a) = indices a).
      { unfold indices, regular_entries, with_padding. cbn [ux_txs]. rewrite filter_insert; [ reflexivity |]. exact default_not_regular. }
      rewrite E1, E2, E3. reflexivity. }
    rewrite E.
    assert (Es : (if Feqb (step_block a) (us_block s) then zval (us_index s) else 0) = zval (start_index s a)).
    { unfold start_index. now destruct (Feqb _ _). }
    rewrite Es. tauto.
  Qed.

  (** ** C72: key, block and accumulator *)
  Variable N : nat.
  Theorem C72_bindings l s z' :
    urun acc N (u_list s) l z' ->
    exists s', z' = u_list s' /\
      us_pk s' = us_pk s /\ (forall a, In a l -> pk_hashV (ux_pk a) = us_pk s) /\
      us_acc s' = fold_left acc (map step_block l) (us_acc s) /\
      us_block s' = last (map step_block l) (us_block s) /\
      zval (us_height s') = last (map step_height l) (zval (us_height s)).
  Proof.
    apply (run_ind acc N (fun s l s' =>
      us_pk s' = us_pk s /\ (forall a, In a l -> pk_hashV (ux_pk a) = us_pk s) /\
      us_acc s' = fold_left acc (map step_block l) (us_acc s) /\
      us_block s' = last (map step_block l) (us_block s) /\
      zval (us_height s') = last (map step_height l) (zval (us_height s)))).
    - intros s0. repeat split; auto. intros a [].
    - intros s0 a l0 s' C _ (H1 & H2 & H3 & H4 & H5). cbn [step_result us_pk us_acc us_block us_height] in *.
      assert (LT : forall {A} (x d e : A) r, last (x :: r) d = last r x).
      { intros A x d e r. revert x. induction r as [|y r IH]; intros x; [ reflexivity |].
        change (last (y :: r) d = last (y :: r) x). clear. revert y. induction r as [|w r IH]; intros y; [ reflexivity |].
        change (last (w :: r) d = last (w :: r) x). apply IH. }
      cbn [map fold_left]. rewrite (LT F _ _ Fzero), (LT Z _ _ 0). repeat split; auto.
      intros b [<-|Hb]; [| auto ]. apply C.
  Qed.
  (** one key for the whole run *)
  Theorem C72_one_key l s z' a b :
    urun acc N (u_list s) l z' -> In a l -> In b l ->
    ux_pk a = ux_pk b \/ crh_collision (pt_encV (ux_pk a)) (pt_encV (ux_pk b)).
  Proof.
    intros H Ha Hb. destruct (C72_bindings l s z' H) as (s' & _ & _ & Hk & _).
    destruct (list_eq_dec (fun x y : F => F_eq_dec x y) (pt_encV (ux_pk a)) (pt_encV (ux_pk b))) as [E|E].
    - left. now apply pt_encV_inj.
    - right. split; [ exact E |]. pose proof (Hk a Ha). pose proof (Hk b Hb). unfold pk_hashV in *. congruence.
  Qed.

  (** ** C73: the balance is not checked *)
  Definition with_balance (s : ustate) (b : F) : ustate :=
    mkU b (us_nonce s) (us_pk s) (us_acc s) (us_block s) (us_height s) (us_index s).
  Theorem C73_no_balance_check s a z' b :
    satisfied acc N (u_list s) a z' ->
    exists s', z' = u_list s' /\
      satisfied acc N (u_list (with_balance s b)) a
        (u_list (with_balance s' (Fof (zval b + step_gain a)))).
  Proof.
    rewrite satisfied_state. intros [C ->]. exists (step_result acc s a). split; [ reflexivity |].
    rewrite satisfied_state. split; [ exact C | reflexivity ].
  Qed.
  Theorem C73_overdraft s a z' :
    satisfied acc N (u_list s) a z' ->
    zval (us_balance s) + step_gain a < 0 -> - p <= zval (us_balance s) + step_gain a ->
    exists s', z' = u_list s' /\ zval (us_balance s') = p + zval (us_balance s) + step_gain a.
  Proof.
    rewrite satisfied_state. intros [C ->] H1 H2. exists (step_result acc s a). split; [ reflexivity |].
    cbn [step_result us_balance]. rewrite zval_Fof. pose proof (F_range (us_balance s)).
    rewrite <- (Z_mod_plus_full _ 1), Z.mod_small by lia. lia.
  Qed.

  (** ** C74: synthesis *)
  Theorem C74_synthesis z a :
    (exists r, honest (update_balance acc N z a) = Some r) <->
    (7 <= length z)%nat /\ length (ux_tx_proofs a) = N /\ length (ux_txs a) = N /\ length (ux_signer_proofs a) = N /\
    Forall (fun tp => length tp = 12%nat) (ux_tx_proofs a) /\ Forall (fun sp => length sp = 12%nat) (ux_signer_proofs a).
  Proof.
    assert (Ez : (7 <= length z)%nat <-> exists s, u_of_list z = Some s).
    { do 7 (destruct z as [|? z]; [ cbn; split; [ lia | intros (? & E); discriminate E ] |]).
      cbn [length u_of_list]. split; [ eauto | lia ]. }
    assert (Hsh : lengths_ok N a -> (Forall item_shaped (items a) <->
      Forall (fun tp => length tp = 12%nat) (ux_tx_proofs a) /\ Forall (fun sp => length sp = 12%nat) (ux_signer_proofs a))).
    { intros L. pose proof L as (L1 & L2 & L3).
      assert (Hin : forall n, (n < N)%nat -> exists t i tp sp, item_at a n t i tp sp).
      { intros n Hn. unfold item_at.
        destruct (nth_error (ux_txs a) n) as [[t i]|] eqn:E0; [| apply nth_error_None in E0; lia ].
        destruct (nth_error (ux_tx_proofs a) n) as [tp|] eqn:E1; [| apply nth_error_None in E1; lia ].
        destruct (nth_error (ux_signer_proofs a) n) as [sp|] eqn:E2; [| apply nth_error_None in E2; lia ].
        exists t, i, tp, sp. auto. }
      rewrite Forall_items. split.
      - intros H. split; apply Forall_forall; intros y Hy; apply In_nth_error in Hy as (n & Hn).
        + assert (n < N)%nat by (rewrite <- L1; apply nth_error_Some; congruence).
          destruct (Hin n H0) as (t & i & tp & sp & Hi). pose proof (H _ _ _ _ _ Hi) as [H1 _]. destruct Hi as (_ & E & _).
          assert (y = tp) as -> by congruence. exact H1.
        + assert (n < N)%nat by (rewrite <- L3; apply nth_error_Some; congruence).
          destruct (Hin n H0) as (t & i & tp & sp & Hi). pose proof (H _ _ _ _ _ Hi) as [_ H1]. destruct Hi as (_ & _ & E).
          assert (y = sp) as -> by congruence. exact H1.
      - intros [H1 H2] n t i tp sp (_ & E1 & E2). rewrite Forall_forall in H1, H2. split; cbn [fst snd].
        + apply H1. eapply nth_error_In; eauto.
        + apply H2. eapply nth_error_In; eauto. }
    rewrite Ez. split.
    - intros (r & H). unfold update_balance in H.
      rewrite honest_cassert_bind in H. destruct (length (ux_tx_proofs a) =? N)%nat eqn:E1; [| discriminate H ].
      rewrite honest_cassert_bind in H. destruct (length (ux_txs a) =? N)%nat eqn:E2; [| discriminate H ].
      rewrite honest_cassert_bind in H. destruct (length (ux_signer_proofs a) =? N)%nat eqn:E3; [| discriminate H ].
      apply Nat.eqb_eq in E1, E2, E3.
      destruct (u_of_list z) as [s|]; [| discriminate H ].
      split; [ eauto |]. split; [ exact E1 |]. split; [ exact E2 |]. split; [ exact E3 |].
      apply Hsh; [ repeat split; assumption |].
      rewrite honest_bind, honest_enforce, honest_bind, (proj1 (computes_le _ _)), honest_bind in H.
      match type of H with context [honest (cfold ?f ?l ?s0)] => assert (Hc : honest (cfold f l s0) <> None) end.
      { intros E. rewrite E in H. discriminate H. }
      revert Hc. clear. fold (items a). generalize (us_balance s, us_nonce s, sel (Feqb (block_hashV (ux_block a)) (us_block s)) (us_index s) Fzero).
      induction (items a) as [|x l IH]; intros st H; constructor.
      + cbn [cfold] in H. rewrite honest_bind in H. destruct st as [[b n] pi], x as [[[t i] tp] sp].
        destruct (honest (u_step (ux_pk a) (ux_block a) (b, n, pi) (t, i, tp, sp))) as [[ok r]|] eqn:E; [| now destruct H ].
        clear -E. unfold u_step in E. rewrite honest_bind, (proj1 (computes_is_lt _ _)) in E.
        rewrite honest_bind, honest_cond_enforce, honest_bind in E.
        rewrite (ccmi_honest tx_cfg tx_gcfg tx_cfg_ok eq_refl) in E. change (HEIGHT tx_cfg - 1)%nat with 12%nat in E.
        destruct (length tp =? 12)%nat eqn:E1; [| discriminate E ]. rewrite honest_bind in E.
        rewrite (ccm_honest signer_cfg signer_gcfg signer_cfg_ok eq_refl) in E. change (HEIGHT signer_cfg - 1)%nat with 12%nat in E.
        destruct (length sp =? 12)%nat eqn:E2; [| discriminate E ]. apply Nat.eqb_eq in E1, E2. split; assumption.
      + cbn [cfold] in H. rewrite honest_bind in H.
        destruct (honest (u_step (ux_pk a) (ux_block a) st x)) as [[ok r]|] eqn:E; [| now destruct H ].
        apply (IH r). intros E'. rewrite E' in H. now apply H.
    - intros ((s & Es) & L1 & L2 & L3 & H). assert (L : lengths_ok N a) by (repeat split; assumption).
      eexists. eapply (ustep_honest acc N z s a); [ exact Es | exact L |]. now apply Hsh.
  Qed.
End props.

Print Assumptions C65_padding.
Print Assumptions C72_bindings.
Print Assumptions C72_one_key.
Print Assumptions C73_no_balance_check.
Print Assumptions C73_overdraft.
Print Assumptions C74_synthesis.

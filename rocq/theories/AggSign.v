(** One step and whole calls of [process_signatures] against the ledger specification. *)
From Coq Require Import ZArith List Bool Lia Permutation.
Import ListNotations.
From Verif Require Import Base Env Circuit SparseMT SparseMTSpec SparseMTHeap SparseMTRep SparseMTNew
  SparseMTProofs Data DataSpec DataFacts Schnorr HMap Contract Aggregator AggSpec AggFacts.
Open Scope Z_scope.

(** * Tree updates never return an error *)
Section noerr.
  Context {hs : Hashes} (dbg : bool) (P : SparseConfig).
  Definition no_err {E A} (r : res E A) : Prop := forall e, r <> Err e.
  Lemma no_err_bind {E A B} (c : res E A) (f : A -> res E B) :
    no_err c -> (forall a, no_err (f a)) -> no_err (rbind c f).
  Proof. intros H1 H2 e. destruct c as [a|e'|]; cbn; [ apply H2 | exfalso; now apply (H1 e') | discriminate ]. Qed.
  Lemma no_err_wrap {E} z : @no_err E _ (wrap64 dbg z).
  Proof. intros e. unfold wrap64. destruct (_ && _); [ discriminate | destruct dbg; discriminate ]. Qed.
  Lemma no_err_unwrap {E A} (o : option A) : @no_err E _ (unwrap o).
  Proof. intros e. destruct o; discriminate. Qed.
  Lemma no_err_ok {E A} (a : A) : @no_err E _ (Ok a).
  Proof. discriminate. Qed.
  Lemma no_err_conv i : no_err (convert_index_to_last_level dbg P i).
  Proof. apply no_err_bind; intros; apply no_err_wrap. Qed.
  Lemma no_err_sibling i : no_err (sibling dbg i).
  Proof.
    unfold sibling. destruct (i =? 0); [ apply no_err_ok |].
    destruct (is_left_child i); apply no_err_bind; intros; try apply no_err_wrap; apply no_err_ok.
  Qed.
  Lemma no_err_siblings t n d i : no_err (siblings_loop dbg t n d i).
  Proof.
    revert d i; induction n as [|n IH]; intros d i; [ apply no_err_ok |]. cbn [siblings_loop].
    repeat (apply no_err_bind; [ first [ apply no_err_sibling | apply no_err_unwrap | apply IH ] | intros ]).
    apply no_err_ok.
  Qed.
  Lemma no_err_up m sibs i h : no_err (up_loop m sibs i h).
  Proof.
    revert m i h; induction sibs as [|x sibs IH]; intros m i h; [ apply no_err_ok |]. cbn [up_loop].
    apply no_err_bind; [ apply no_err_unwrap | intros; apply IH ].
  Qed.
  Lemma update_no_err t i l : no_err (update_and_prove dbg P t i l).
  Proof.
    unfold update_and_prove, siblings.
    apply no_err_bind; [ apply no_err_bind; [ apply no_err_conv | intros; apply no_err_siblings ] |].
    intros sibs. apply no_err_bind; [ apply no_err_conv |]. intros k.
    apply no_err_bind; [ apply no_err_up |]. intros [m h]. apply no_err_ok.
  Qed.
  Lemma update_root_some t i l t' pf : update_and_prove dbg P t i l = Ok (t', pf) -> t_root t' <> None.
  Proof.
    unfold update_and_prove.
    destruct (siblings dbg P t i) as [sb| |]; cbn [rbind]; try discriminate.
    destruct (convert_index_to_last_level dbg P i) as [k| |]; cbn [rbind]; try discriminate.
    destruct (up_loop (t_map t) sb k (LeafHash P l)) as [[m h]| |]; cbn [rbind]; try discriminate.
    intros [= <- _]. cbn. discriminate.
  Qed.
End noerr.

Section sign.
  Context {hs : Hashes} {G : Curve} (dbg : bool).

  Lemma real_enum v : map snd (enum_real v) = real (a4_list v).
  Proof.
    destruct v as [a b c d]. unfold enum_real, enum, real, a4_list. cbn.
    destruct (is_dummy a), (is_dummy b), (is_dummy c), (is_dummy d); reflexivity.
  Qed.
  Lemma consumes_eq contract t :
    consumes contract t = filter (noncontract contract) (real (a4_list (inputs t))).
  Proof.
    unfold consumes, real, noncontract. induction (a4_list (inputs t)) as [|u l IH]; cbn; auto.
    destruct (is_dummy u); cbn; auto. rewrite IH. reflexivity.
  Qed.
  Lemma creates_eq contract t :
    creates contract t = filter (noncontract contract) (real (a4_list (outputs t))).
  Proof.
    unfold creates, real, noncontract. induction (a4_list (outputs t)) as [|u l IH]; cbn; auto.
    destruct (is_dummy u); cbn; auto. rewrite IH. reflexivity.
  Qed.

  (** The amount withdrawn by a transaction, and the log entries of one applied transaction. *)
  Definition withdrawn (contract : pt) (t : tx) : Z := to_contract contract (real (a4_list (outputs t))).
  Definition wd_entry (k : pt) (z : Z) : list (pt * u64) := if 0 <? z then [(k, u64of z)] else [].

  Definition osig (o : option signature) : signature :=
    match o with Some sg => sg | None => sig_default end.

  (** What a successful step does. *)
  Record step_ok (contract : pt) (i : nat) (k : pt) (osg : option signature) (s s' : agg)
    (t : tx) (r : F) : Prop := mkStep
    { so_tx : nth_error (a_txs s) i = Some t;
      so_root : root (a_tx_tree s) = Ok r;
      so_coins : if authorised contract r t (k, osg)
                 then apply_tx contract t (coins s) (coins s') else coins s' = coins s;
      so_index : a_index s' = a_index s +
                 if authorised contract r t (k, osg) then Z.of_nat (length (creates contract t)) else 0;
      so_deposits : a_deposits s' = a_deposits s ++
                 if authorised contract r t (k, osg)
                 then new_deposits contract k (real (a4_list (outputs t))) else [];
      so_withdrawals : a_withdrawals s' = a_withdrawals s ++
                 if authorised contract r t (k, osg)
                 then wd_entry k (withdrawn contract t mod two64) else [];
      so_signers : a_signers s' = a_signers s ++
                 [if authorised contract r t (k, osg) then Some k else None];
      so_signer_tree : if authorised contract r t (k, osg)
                 then exists pf, update_and_prove dbg signer_cfg (a_signer_tree s)
                                   (Z.of_nat (length (a_signers s))) k = Ok (a_signer_tree s', pf)
                 else a_signer_tree s' = a_signer_tree s;
      so_ivc : exists inp, a_ivc s' = a_ivc s ++ [inp] /\ i_tx inp = t /\ i_sender inp = k /\
                           i_sig inp = osig osg /\ nth_error (a_tx_proofs s) i = Some (i_tx_proof inp);
      so_txs : a_txs s' = a_txs s;
      so_tx_tree : a_tx_tree s' = a_tx_tree s;
      so_tx_proofs : a_tx_proofs s' = a_tx_proofs s;
      so_height : a_height s' = a_height s;
      so_acc : a_acc_signer s' = a_acc_signer s /\ a_acc_pk s' = a_acc_pk s;
      so_inv : exists c w, CoinInv dbg s' c w }.

  (** What a failing step does. *)
  Record step_err (contract : pt) (i : nat) (k : pt) (osg : option signature) (s s' : agg)
    (t : tx) (r : F) (e : agg_error) : Prop := mkStepErr
    { se_kind : e = UTXONonExisting \/ e = UTXOError;
      se_tx : nth_error (a_txs s) i = Some t;
      se_root : root (a_tx_tree s) = Ok r;
      se_auth : authorised contract r t (k, osg) = true;
      se_coins : exists don u todo, consumes contract t = don ++ u :: todo /\
                   Permutation (coins s) (don ++ coins s') /\ ~ In u (coins s');
      se_signers : a_signers s' = a_signers s ++ [Some k];
      se_signer_tree : exists pf, update_and_prove dbg signer_cfg (a_signer_tree s)
                                   (Z.of_nat (length (a_signers s))) k = Ok (a_signer_tree s', pf);
      se_same : a_index s' = a_index s /\ a_txs s' = a_txs s /\ a_tx_tree s' = a_tx_tree s /\
                a_deposits s' = a_deposits s /\ a_withdrawals s' = a_withdrawals s /\
                a_height s' = a_height s /\ a_acc_signer s' = a_acc_signer s /\
                a_acc_pk s' = a_acc_pk s /\ a_tx_proofs s' = a_tx_proofs s /\ a_ivc s' = a_ivc s;
      se_inv : exists c w, CoinInv dbg s' c w }.

  (** When a step panics. *)
  Definition step_panic (contract : pt) (i : nat) (k : pt) (s : agg) : Prop :=
    nth_error (a_txs s) i = None \/ nth_error (a_tx_proofs s) i = None \/ t_root (a_tx_tree s) = None \/
    update_and_prove dbg signer_cfg (a_signer_tree s) (Z.of_nat (length (a_signers s))) k = Panic \/
    exists t, nth_error (a_txs s) i = Some t /\ dbg = true /\ two64 <= withdrawn contract t.

  Lemma coin_inv_signer s c w t k : CoinInv dbg s c w -> CoinInv dbg (with_signer s t k) c w.
  Proof. intros [H1 H2 H3 H4 H5 H6]. constructor; auto. Qed.
  Lemma coin_inv_ivc s c w x : CoinInv dbg s c w -> CoinInv dbg (with_ivc s x) c w.
  Proof. intros [H1 H2 H3 H4 H5 H6]. constructor; auto. Qed.

  Lemma withdrawn_nonneg contract t : 0 <= withdrawn contract t.
  Proof. apply to_contract_nonneg. Qed.

  Lemma sign_one_spec contract s c w i k osg : CoinInv dbg s c w ->
    (forall t r, nth_error (a_txs s) i = Some t -> root (a_tx_tree s) = Ok r ->
       authorised contract r t (k, osg) = true ->
       a_index s + Z.of_nat (length (creates contract t)) <= capacity utxo_cfg) ->
    match sign_one dbg contract s tt (i, (k, osg)) with
    | MOk s' _ => exists t r, step_ok contract i k osg s s' t r
    | MErr s' e => exists t r, step_err contract i k osg s s' t r e
    | MPanic => step_panic contract i k s
    end.
  Proof.
    intros HI Hcap. unfold sign_one, step_panic.
    destruct (nth_error (a_txs s) i) as [t|] eqn:Et; [| tauto ].
    destruct (root (a_tx_tree s)) as [r|e|] eqn:Er; [| | right; right; left ]; cycle 1.
    { unfold root in Er. destruct (t_root (a_tx_tree s)); discriminate. }
    { unfold root in Er. now destruct (t_root (a_tx_tree s)). }
    specialize (Hcap t r eq_refl eq_refl).
    fold (osig osg).
    assert (Ea : accepts contract r t k (osig osg) = authorised contract r t (k, osg)) by reflexivity.
    rewrite Ea. destruct (authorised contract r t (k, osg)) eqn:Eau.
    - specialize (Hcap eq_refl).
      destruct (update_and_prove dbg signer_cfg (a_signer_tree s) (Z.of_nat (length (a_signers s))) k)
        as [[st spf]|e|] eqn:Eu; [| exfalso; now apply (update_no_err dbg signer_cfg _ _ _ e Eu) | cbn; tauto ].
      cbn [mlift mbind fst snd].
      pose proof (coin_inv_signer s c w st (Some k) HI) as HI1.
      pose proof (delete_loop dbg contract (enum_real (inputs t)) _ c w
                    (a4_const Fzero, a4_const (default_two_paths utxo_cfg)) HI1) as HD.
      rewrite real_enum, <- consumes_eq in HD.
      destruct (mfold _ (enum_real (inputs t)) _ _) as [s2 del|s2 e|]; [| | tauto ].
      + destruct HD as (c2 & w2 & HI2 & Es2 & HP2). cbn [mbind].
        pose proof (add_loop dbg contract k (enum_real (outputs t)) s2 c2 w2
                      (a4_const Fzero) (a4_const (default_two_paths utxo_cfg)) (u64of 0) HI2) as HA.
        rewrite real_enum, <- creates_eq in HA.
        assert (Ei2 : a_index s2 = a_index s) by (rewrite Es2; reflexivity).
        specialize (HA ltac:(lia)).
        change (zval (u64of 0)) with 0 in HA. rewrite Z.add_0_l in HA.
        fold (withdrawn contract t) in HA.
        destruct (mfold _ (enum_real (outputs t)) _ _) as [s3 [[pos pf] wd]|s3 e|];
          [| tauto | cbn [mbind]; right; right; right; right; exists t; auto ].
        destruct HA as (c3 & w3 & HI3 & Es3 & HP3 & Hwd). cbn [mbind].
        set (s4 := if 0 <? zval wd
                   then with_logs s3 (a_deposits s3) (a_withdrawals s3 ++ [(k, wd)]) else s3).
        assert (HI4 : CoinInv dbg s4 c3 w3).
        { unfold s4. destruct (0 <? zval wd); auto. now apply coin_inv_logs. }
        assert (Etp : a_tx_proofs s4 = a_tx_proofs s).
        { transitivity (a_tx_proofs s3); [ unfold s4; now destruct (0 <? zval wd) |].
          rewrite Es3, Es2. reflexivity. }
        rewrite Etp. destruct del as [dpos dpf].
        destruct (nth_error (a_tx_proofs s) i) as [tpf|] eqn:Ep; [| tauto ].
        assert (Ewd : wd_entry k (withdrawn contract t mod two64)
                      = if 0 <? zval wd then [(k, wd)] else []).
        { rewrite <- Hwd. unfold wd_entry. destruct (0 <? zval wd); auto.
          do 2 f_equal. apply of_Z_zval. }
        assert (E1 : forall A (f : agg -> A), (forall x u v j, f (with_coins x u v j) = f x) ->
                  (forall x d e, f (with_logs x d e) = f x) -> f s4 = f (with_signer s st (Some k))).
        { intros A f H1 H2. transitivity (f s3).
          - unfold s4. destruct (0 <? zval wd); auto.
          - rewrite Es3, H2, H1, Es2, H1. reflexivity. }
        exists t, r. constructor; rewrite ?Eau; auto.
        * (* coins *)
          exists (coins s2). split; [ exact HP2 |].
          assert (Ec : coins (with_ivc s4 (mkInputs t tpf dpf dpos pf pos spf k (osig osg))) = coins s3).
          { unfold s4. now destruct (0 <? zval wd). }
          rewrite Ec. exact HP3.
        * cbn [with_ivc a_index].
          transitivity (a_index s3); [ unfold s4; now destruct (0 <? zval wd) |].
          rewrite Es3. cbn. now rewrite Ei2.
        * cbn [with_ivc a_deposits].
          transitivity (a_deposits s3); [ unfold s4; now destruct (0 <? zval wd) |].
          rewrite Es3. cbn. rewrite Es2. reflexivity.
        * rewrite Ewd. cbn [with_ivc a_withdrawals].
          assert (E3 : a_withdrawals s3 = a_withdrawals s) by (rewrite Es3; cbn; rewrite Es2; reflexivity).
          unfold s4. destruct (0 <? zval wd); cbn [with_logs a_withdrawals]; rewrite E3, ?app_nil_r; reflexivity.
        * cbn [with_ivc a_signers]. now rewrite (E1 _ a_signers).
        * exists spf. cbn [with_ivc a_signer_tree]. rewrite Eu. do 2 f_equal. now rewrite (E1 _ a_signer_tree).
        * exists (mkInputs t tpf dpf dpos pf pos spf k (osig osg)). cbn [with_ivc a_ivc].
          split; [ f_equal; now rewrite (E1 _ a_ivc) | auto ].
        * cbn [with_ivc a_txs]. now rewrite (E1 _ a_txs).
        * cbn [with_ivc a_tx_tree]. now rewrite (E1 _ a_tx_tree).
        * cbn [with_ivc a_height]. now rewrite (E1 _ a_height).
        * cbn [with_ivc a_acc_signer a_acc_pk]. now rewrite (E1 _ a_acc_signer), (E1 _ a_acc_pk).
        * exists c3, w3. now apply coin_inv_ivc.
      + destruct HD as (He & c2 & w2 & don & u & todo & HI2 & Es2 & Ef & HP2 & Hn). cbn [mbind].
        exists t, r. constructor; auto.
        * exists don, u, todo. auto.
        * rewrite Es2. reflexivity.
        * exists spf. rewrite Eu. do 2 f_equal. rewrite Es2. reflexivity.
        * rewrite Es2. cbn. tauto.
        * eauto.
    - cbn [mbind]. destruct (nth_error (a_tx_proofs (with_signer s (a_signer_tree s) None)) i) as [tpf|] eqn:Ep;
        [| cbn in Ep; tauto ].
      exists t, r. constructor; rewrite ?Eau; auto; try (cbn; rewrite ?app_nil_r; auto; lia).
      + eexists. cbn [with_ivc a_ivc]. split; [ reflexivity |]. cbn in Ep. auto.
      + exists c, w. apply coin_inv_ivc, coin_inv_signer. exact HI.
  Qed.

  (** * Whole calls *)
  Inductive steps (contract : pt) : nat -> list (pt * option signature) -> agg -> agg -> Prop :=
  | steps_nil n s : steps contract n [] s s
  | steps_cons n k osg l s s1 s' t r :
      step_ok contract n k osg s s1 t r -> steps contract (S n) l s1 s' ->
      steps contract n ((k, osg) :: l) s s'.

  Lemma nth_skipn {A} n (l : list A) x : nth_error l n = Some x -> skipn n l = x :: skipn (S n) l.
  Proof.
    revert l; induction n as [|n IH]; intros [|y l] H; cbn in *; try discriminate.
    - now injection H as ->.
    - now apply IH.
  Qed.
  Lemma skipn_none {A} n (l : list A) : nth_error l n = None -> skipn n l = [].
  Proof. intros H. apply nth_error_None in H. now apply skipn_all2. Qed.

  Lemma applied_cons contract r n txs t x l : nth_error txs n = Some t ->
    applied contract r (skipn n txs) (x :: l) =
    (if authorised contract r t x then [t] else []) ++ applied contract r (skipn (S n) txs) l.
  Proof. intros H. unfold applied. rewrite (nth_skipn n txs t H). reflexivity. Qed.

  Lemma sign_run contract l : forall n s c w r, CoinInv dbg s c w -> root (a_tx_tree s) = Ok r ->
    a_index s + Z.of_nat (length (flat_map (creates contract) (applied contract r (skipn n (a_txs s)) l)))
      <= capacity utxo_cfg ->
    match mfold (sign_one dbg contract) (combine (seq n (length l)) l) s tt with
    | MOk s' _ => steps contract n l s s'
    | MErr s' e => exists l1 k osg l2 s1 t r, l = l1 ++ (k, osg) :: l2 /\ steps contract n l1 s s1 /\
                     step_err contract (n + length l1) k osg s1 s' t r e /\
                     mfold (sign_one dbg contract) (combine (seq n (length l1)) l1) s tt = MOk s1 tt
    | MPanic => exists l1 k osg l2 s1, l = l1 ++ (k, osg) :: l2 /\ steps contract n l1 s s1 /\
                     step_panic contract (n + length l1) k s1
    end.
  Proof.
    induction l as [|[k osg] l IH]; intros n s c w r HI Hr Hcap; cbn [length seq combine mfold].
    - constructor.
    - pose proof (sign_one_spec contract s c w n k osg HI) as H1.
      match type of H1 with ?A -> _ => assert (Hc1 : A) end.
      { intros t r' Et Er' Ea. rewrite Hr in Er'. injection Er' as <-.
        rewrite (applied_cons _ _ _ _ t) in Hcap by auto. rewrite Ea in Hcap. cbn [app flat_map] in Hcap.
        rewrite app_length in Hcap. lia. }
      specialize (H1 Hc1).
      destruct (sign_one dbg contract s tt (n, (k, osg))) as [s1 []|s1 e|] eqn:Eone; cbn [mbind].
      + destruct H1 as (t & r' & H1).
        assert (r' = r) by (pose proof (so_root _ _ _ _ _ _ _ _ H1); congruence). subst r'.
        destruct (so_inv _ _ _ _ _ _ _ _ H1) as (c1 & w1 & HI1).
        specialize (IH (S n) s1 c1 w1 r HI1).
        rewrite (so_tx_tree _ _ _ _ _ _ _ _ H1), (so_txs _ _ _ _ _ _ _ _ H1) in IH.
        specialize (IH Hr).
        match type of IH with ?A -> _ => assert (Hc2 : A) end.
        { rewrite (so_index _ _ _ _ _ _ _ _ H1).
          rewrite (applied_cons _ _ _ _ t) in Hcap by apply H1.
          rewrite flat_map_app, app_length in Hcap.
          destruct (authorised contract r t (k, osg)); cbn [flat_map length] in Hcap |- *;
            rewrite ?app_length in Hcap; cbn [length] in Hcap; lia. }
        specialize (IH Hc2).
        destruct (mfold _ (combine (seq (S n) (length l)) l) s1 tt) as [s' u|s' e|].
        * econstructor; eauto.
        * destruct IH as (l1 & k1 & o1 & l2 & s2 & t2 & r2 & -> & Hs & He & Hm).
          exists ((k, osg) :: l1), k1, o1, l2, s2, t2, r2. split; auto. split; [| split ].
          -- econstructor; eauto.
          -- cbn [length]. rewrite <- Nat.add_succ_comm. exact He.
          -- cbn [length seq combine mfold]. rewrite Eone. cbn [mbind]. exact Hm.
        * destruct IH as (l1 & k1 & o1 & l2 & s2 & -> & Hs & He).
          exists ((k, osg) :: l1), k1, o1, l2, s2. split; auto. split.
          -- econstructor; eauto.
          -- cbn [length]. rewrite <- Nat.add_succ_comm. exact He.
      + destruct H1 as (t & r' & H1). exists [], k, osg, l, s, t, r'. split; auto. split; [ constructor |].
        rewrite Nat.add_0_r. split; [ exact H1 | reflexivity ].
      + exists [], k, osg, l, s. split; auto. split; [ constructor |]. rewrite Nat.add_0_r. exact H1.
  Qed.

  Lemma steps_same contract n l s s' : steps contract n l s s' ->
    a_txs s' = a_txs s /\ a_tx_tree s' = a_tx_tree s /\ a_tx_proofs s' = a_tx_proofs s /\
    a_height s' = a_height s /\ a_acc_signer s' = a_acc_signer s /\ a_acc_pk s' = a_acc_pk s.
  Proof.
    induction 1 as [|n k osg l s s1 s' t r H1 H2 IH]; [ tauto |].
    destruct H1. destruct IH as (-> & -> & -> & -> & -> & ->). tauto.
  Qed.
  Lemma steps_inv contract n l s s' : steps contract n l s s' ->
    (exists c w, CoinInv dbg s c w) -> exists c w, CoinInv dbg s' c w.
  Proof. induction 1 as [|n k osg l s s1 s' t r H1 H2 IH]; auto. intros _. apply IH, H1. Qed.

  Lemma ledger_perm contract ts : forall c c0 c', Permutation c c0 ->
    ledger contract ts c0 c' -> ledger contract ts c c'.
  Proof.
    destruct ts as [|t ts]; intros c c0 c' HP H; inversion H; subst.
    - constructor. now rewrite HP.
    - match goal with X : apply_tx _ _ _ _ |- _ => destruct X as (rest & A & B) end.
      econstructor; eauto. exists rest. split; auto. now rewrite HP.
  Qed.

  Lemma steps_ledger contract n l s s' r : steps contract n l s s' -> root (a_tx_tree s) = Ok r ->
    ledger contract (applied contract r (skipn n (a_txs s)) l) (coins s) (coins s').
  Proof.
    induction 1 as [|n k osg l s s1 s' t r' H1 H2 IH]; intros Hr.
    - unfold applied. destruct (skipn n (a_txs s)); constructor; reflexivity.
    - assert (r' = r) by (pose proof (so_root _ _ _ _ _ _ _ _ H1); congruence). subst r'.
      rewrite (applied_cons _ _ _ _ t) by apply H1.
      rewrite (so_tx_tree _ _ _ _ _ _ _ _ H1), (so_txs _ _ _ _ _ _ _ _ H1) in IH. specialize (IH Hr).
      pose proof (so_coins _ _ _ _ _ _ _ _ H1) as Hc.
      destruct (authorised contract r t (k, osg)); cbn [app].
      + econstructor; eauto.
      + rewrite <- Hc. exact IH.
  Qed.
End sign.

(** C111: what is recorded for the prover. *)
From Coq Require Import ZArith List Bool Lia Permutation.
Import ListNotations.
From Verif Require Import Base Env Circuit SparseMT SparseMTSpec Data DataSpec DataFacts PropsData Schnorr
  HMap Contract ContractSpec Aggregator AggSpec AggFacts AggSign AggIntake PropsIntake PropsSign PropsPad.
Open Scope Z_scope.

(** ** Specification *)
Section spec.
  Context {hs : Hashes} {G : Curve} (contract : pt) (r : F).
  (** A slot is used if the transaction is applied and the coin in it is real and not the contract's. *)
  Definition slot_used (app : bool) (u : utxo) : bool := app && negb (is_dummy u) && negb (pt_eqb (pk u) contract).
  (** In the slots that are not used, position 0 and the default path are recorded. *)
  Definition blank_unused (app : bool) (coins : arr4 utxo) (pos : arr4 F) (pf : arr4 (list F)) : Prop :=
    forall j u, nth_error (a4_list coins) j = Some u -> slot_used app u = false ->
      nth_error (a4_list pos) j = Some Fzero /\ nth_error (a4_list pf) j = Some (default_two_paths utxo_cfg).
  (** The record of a transaction, its update path, and the key and signature given for it. *)
  Definition record_of (x : tx * list F * (pt * option signature)) (inp : agg_inputs) : Prop :=
    let '(t, pf, (k, o)) := x in
    let app := authorised contract r t (k, o) in
    i_tx inp = t /\ i_tx_proof inp = pf /\ i_sender inp = k /\
    i_sig inp = match o with Some sg => sg | None => sig_default end /\
    (app = false -> i_signer_proof inp = default_two_paths signer_cfg) /\
    blank_unused app (inputs t) (i_del_pos inp) (i_del_proofs inp) /\
    blank_unused app (outputs t) (i_add_pos inp) (i_add_proofs inp).
  (** The positions of the coins that a recorded transaction created. *)
  Definition new_positions (inp : agg_inputs) : list F :=
    flat_map (fun up => if slot_used (authorised contract r (i_tx inp) (i_sender inp, Some (i_sig inp))) (fst up) then [snd up] else [])
             (combine (a4_list (outputs (i_tx inp))) (a4_list (i_add_pos inp))).
  (** [n] consecutive positions from [i] *)
  Definition consecutive (i : Z) (n : nat) : list F := map (fun m => Fof (i + Z.of_nat m)) (seq 0 n).
End spec.

Section props.
  Context {hs : Hashes} {G : Curve} (dbg : bool) (contract : pt).

  Lemma a4_set_nth {A} j (x : A) v i : (j < 4)%nat -> i <> j -> nth_error (a4_list (a4_set j x v)) i = nth_error (a4_list v) i.
  Proof.
    intros Hj Hi. destruct j as [|[|[|[|j]]]]; try lia; destruct i as [|[|[|[|i]]]]; try (now destruct Hi); destruct v; reflexivity.
  Qed.
  Lemma a4_set_same {A} j (x : A) v : (j < 4)%nat -> nth_error (a4_list (a4_set j x v)) j = Some x.
  Proof. intros Hj. destruct j as [|[|[|[|j]]]]; try lia; destruct v; reflexivity. Qed.

  Lemma fold_ivc {E A B} (g : agg -> A -> B -> mres agg E A) :
    (forall s a x s' a', g s a x = MOk s' a' -> a_ivc s' = a_ivc s) ->
    forall l s a s' a', mfold g l s a = MOk s' a' -> a_ivc s' = a_ivc s.
  Proof.
    intros Hg. induction l as [|x l IH]; intros s a s' a' H; cbn [mfold] in H.
    - assert (s' = s) by congruence. now subst.
    - destruct (g s a x) as [s1 a1|s1 e|] eqn:E1; cbn [mbind] in H; try discriminate H.
      apply IH in H as ->. now apply Hg in E1.
  Qed.
  Lemma delete_ivc l s a s' a' : mfold (delete_one dbg contract) l s a = MOk s' a' -> a_ivc s' = a_ivc s.
  Proof.
    apply fold_ivc. clear. intros s a [j u] s' a'. unfold delete_one. destruct (negb (pt_eqb (pk u) contract)); [| intros H; assert (s' = s) by congruence; now subst ].
    destruct (hget utxo_eqb (a_utxos s) u) as [v|]; [| discriminate ]. destruct (rev v) as [|i v']; [ discriminate |].
    cbv zeta. cbn [a_utxo_tree with_coins]. destruct (update_and_prove dbg utxo_cfg (a_utxo_tree s) i utxo_dummy) as [tp|e|]; cbn [mlift mbind]; intros H; try discriminate H.
    match type of H with MOk ?x _ = _ => assert (E : s' = x) by congruence end. subst s'. reflexivity.
  Qed.
  Lemma add_ivc k l s a s' a' : mfold (add_one dbg contract k) l s a = MOk s' a' -> a_ivc s' = a_ivc s.
  Proof.
    apply fold_ivc. clear. intros s [[pos pf] w] [j u] s' a'. unfold add_one. cbv zeta.
    set (s0 := if pt_eqb k contract then with_logs s (a_deposits s ++ [(pk u, amount u)]) (a_withdrawals s) else s).
    assert (E0 : a_ivc s0 = a_ivc s) by (unfold s0; now destruct (pt_eqb k contract)).
    rewrite <- E0. clearbody s0. clear E0 s.
    destruct (negb (pt_eqb (pk u) contract)).
    - cbn [a_utxo_tree with_coins]. destruct (update_and_prove dbg utxo_cfg (a_utxo_tree s0) (a_index s0) u) as [tp|e|]; cbn [mlift mbind]; intros H; try discriminate H.
      destruct (@uadd no_error dbg (a_index s0) 1) as [i'|e|]; try discriminate H.
      match type of H with MOk ?x _ = _ => assert (E : s' = x) by congruence end. subst s'. reflexivity.
    - destruct (@add64 no_error dbg w (amount u)); intros H; try discriminate H. assert (s' = s0) by congruence. now subst.
  Qed.

  (** one iteration changes only its own slot, and only if the slot is used *)
  Lemma delete_slot s pos pf j u s' pos' pf' : (j < 4)%nat ->
    delete_one dbg contract s (pos, pf) (j, u) = MOk s' (pos', pf') ->
    a_index s' = a_index s /\
    (forall i, (pt_eqb (pk u) contract = true \/ i <> j) ->
      nth_error (a4_list pos') i = nth_error (a4_list pos) i /\ nth_error (a4_list pf') i = nth_error (a4_list pf) i).
  Proof.
    intros Hj. unfold delete_one. destruct (pt_eqb (pk u) contract) eqn:Ek; cbn [negb].
    - intros H. assert (s' = s) by congruence. assert (pos' = pos) by congruence. assert (pf' = pf) by congruence. subst. repeat split.
    - destruct (hget utxo_eqb (a_utxos s) u) as [v|]; [| discriminate ]. destruct (rev v) as [|ix v']; [ discriminate |].
      cbv zeta. cbn [a_utxo_tree with_coins].
      destruct (update_and_prove dbg utxo_cfg (a_utxo_tree s) ix utxo_dummy) as [tp|e|]; cbn [mlift mbind]; intros H; try discriminate H.
      cbn [fst snd] in H.
      match type of H with MOk ?x (?y, ?z) = _ =>
        assert (E1 : s' = x) by congruence; assert (E2 : pos' = y) by congruence; assert (E3 : pf' = z) by congruence end. subst.
      split; [ reflexivity |]. intros i [X|Hi]; [ discriminate X |]. split; now apply a4_set_nth.
  Qed.
  Lemma add_slot k s pos pf w j u s' pos' pf' w' : (j < 4)%nat -> a_index s + 1 < two64 -> 0 <= a_index s ->
    add_one dbg contract k s (pos, pf, w) (j, u) = MOk s' (pos', pf', w') ->
    (forall i, (pt_eqb (pk u) contract = true \/ i <> j) ->
      nth_error (a4_list pos') i = nth_error (a4_list pos) i /\ nth_error (a4_list pf') i = nth_error (a4_list pf) i) /\
    if pt_eqb (pk u) contract then a_index s' = a_index s
    else a_index s' = a_index s + 1 /\ nth_error (a4_list pos') j = Some (Fof (a_index s)).
  Proof.
    intros Hj Hi H0. unfold add_one. cbv zeta.
    set (s0 := if pt_eqb k contract then with_logs s (a_deposits s ++ [(pk u, amount u)]) (a_withdrawals s) else s).
    assert (E0 : a_index s0 = a_index s) by (unfold s0; now destruct (pt_eqb k contract)).
    clearbody s0. destruct (pt_eqb (pk u) contract) eqn:Ek; cbn [negb].
    - destruct (@add64 no_error dbg w (amount u)); intros H; try discriminate H.
      assert (s' = s0) by congruence. assert (pos' = pos) by congruence. assert (pf' = pf) by congruence. subst. split; [ repeat split | exact E0 ].
    - cbn [a_utxo_tree with_coins].
      destruct (update_and_prove dbg utxo_cfg (a_utxo_tree s0) (a_index s0) u) as [tp|e|]; cbn [mlift mbind]; intros H; try discriminate H.
      rewrite E0 in H. destruct (@uadd no_error dbg (a_index s) 1) as [i'|e|] eqn:Eu; try discriminate H.
      assert (Ei : i' = a_index s + 1).
      { unfold uadd in Eu. rewrite wrap64_ok in Eu by (split; lia). congruence. }
      match type of H with MOk ?x (?y, ?z, _) = _ =>
        assert (E1 : s' = x) by congruence; assert (E2 : pos' = y) by congruence; assert (E3 : pf' = z) by congruence end. subst.
      split; [| split; [ reflexivity | now apply a4_set_same ] ].
      intros i [X|Hij]; [ discriminate X |]. split; now apply a4_set_nth.
  Qed.

  Lemma delete_slots L : forall s pos pf s' pos' pf', (forall j u, In (j, u) L -> (j < 4)%nat) ->
    mfold (delete_one dbg contract) L s (pos, pf) = MOk s' (pos', pf') ->
    a_index s' = a_index s /\
    forall i, (forall u, In (i, u) L -> pt_eqb (pk u) contract = true) ->
      nth_error (a4_list pos') i = nth_error (a4_list pos) i /\ nth_error (a4_list pf') i = nth_error (a4_list pf) i.
  Proof.
    induction L as [|[j u] L IH]; intros s pos pf s' pos' pf' HL H; cbn [mfold] in H.
    - assert (s' = s) by congruence. assert (pos' = pos) by congruence. assert (pf' = pf) by congruence. subst. repeat split.
    - destruct (delete_one dbg contract s (pos, pf) (j, u)) as [s1 [pos1 pf1]|s1 e|] eqn:E1; cbn [mbind] in H; try discriminate H.
      apply delete_slot in E1 as (I1 & F1); [| exact (HL j u (or_introl eq_refl)) ].
      apply IH in H as (I2 & F2); [| intros j0 u0 Hin; apply (HL j0 u0); now right ].
      split; [ congruence |]. intros i Hi.
      destruct (F2 i) as (X1 & X2); [ intros u0 Hin; apply Hi; now right |].
      destruct (F1 i) as (Y1 & Y2).
      { destruct (Nat.eq_dec i j) as [->|N]; [ left; apply Hi; now left | now right ]. }
      split; congruence.
  Qed.
  Definition kept (ju : nat * utxo) : bool := negb (pt_eqb (pk (snd ju)) contract).
  Lemma add_slots k L : forall s pos pf w s' pos' pf' w', (forall j u, In (j, u) L -> (j < 4)%nat) -> NoDup (map fst L) ->
    0 <= a_index s -> a_index s + Z.of_nat (length L) < two64 ->
    mfold (add_one dbg contract k) L s (pos, pf, w) = MOk s' (pos', pf', w') ->
    a_index s' = a_index s + Z.of_nat (length (filter kept L)) /\
    map (fun ju => nth_error (a4_list pos') (fst ju)) (filter kept L)
      = map Some (consecutive (a_index s) (length (filter kept L))) /\
    forall i, (forall u, In (i, u) L -> pt_eqb (pk u) contract = true) ->
      nth_error (a4_list pos') i = nth_error (a4_list pos) i /\ nth_error (a4_list pf') i = nth_error (a4_list pf) i.
  Proof.
    induction L as [|[j u] L IH]; intros s pos pf w s' pos' pf' w' HL Hnd H0 Hb H; cbn [mfold] in H.
    - assert (s' = s) by congruence. assert (pos' = pos) by congruence. assert (pf' = pf) by congruence. subst.
      cbn [filter length map]. split; [ now rewrite Z.add_0_r |]. repeat split.
    - cbn [map fst length] in Hnd, Hb. inversion Hnd as [|? ? Hnj Hnd']; subst.
      destruct (add_one dbg contract k s (pos, pf, w) (j, u)) as [s1 [[pos1 pf1] w1]|s1 e|] eqn:E1; cbn [mbind] in H; try discriminate H.
      apply add_slot in E1 as (F1 & I1); [| exact (HL j u (or_introl eq_refl)) | lia | exact H0 ].
      assert (Hin : forall j0 u0, In (j0, u0) L -> (j0 < 4)%nat) by (intros j0 u0 X; apply (HL j0 u0); now right).
      assert (B1 : 0 <= a_index s1 /\ a_index s1 + Z.of_nat (length L) < two64).
      { destruct (pt_eqb (pk u) contract); [ rewrite I1; lia | destruct I1 as [I1 _]; rewrite I1; lia ]. }
      destruct B1 as [B1 B2].
      destruct (IH s1 pos1 pf1 w1 s' pos' pf' w' Hin Hnd' B1 B2 H) as (I2 & P2 & F2).
      assert (FF : forall i, (forall u0, In (i, u0) ((j, u) :: L) -> pt_eqb (pk u0) contract = true) ->
        nth_error (a4_list pos') i = nth_error (a4_list pos) i /\ nth_error (a4_list pf') i = nth_error (a4_list pf) i).
      { intros i Hi. destruct (F2 i) as (X1 & X2); [ intros u0 X; apply Hi; now right |].
        destruct (F1 i) as (Y1 & Y2).
        { destruct (Nat.eq_dec i j) as [->|N]; [ left; apply Hi; now left | now right ]. }
        split; congruence. }
      cbn [filter]. change (kept (j, u)) with (negb (pt_eqb (pk u) contract)).
      destruct (pt_eqb (pk u) contract) eqn:Ek; cbn [negb].
      + rewrite I1 in I2, P2. split; [ exact I2 |]. split; [ exact P2 | exact FF ].
      + destruct I1 as [I1 J1]. rewrite I1 in I2, P2. cbn [length map fst]. split; [ lia |]. split; [| exact FF ].
        unfold consecutive. cbn [seq map]. rewrite Z.add_0_r. f_equal.
        * rewrite <- J1. apply (proj1 (F2 j ltac:(intros u0 X; exfalso; apply Hnj; apply in_map_iff; exists (j, u0); now split))).
        * rewrite P2. unfold consecutive. rewrite <- seq_shift, !map_map. apply map_ext. intros m. do 2 f_equal. lia.
  Qed.

  Lemma enum_real_slot v j u : In (j, u) (enum_real v) <-> nth_error (a4_list v) j = Some u /\ is_dummy u = false.
  Proof.
    unfold enum_real. rewrite filter_In. cbn [snd]. rewrite negb_true_iff, <- enum_nth. reflexivity.
  Qed.
  Lemma enum_real_lt v j u : In (j, u) (enum_real v) -> (j < 4)%nat.
  Proof.
    intros H. apply enum_real_slot in H as [H _]. assert (X : (j < length (a4_list v))%nat) by (apply nth_error_Some; congruence).
    now destruct v.
  Qed.
  Lemma enum_real_nodup v : NoDup (map fst (enum_real v)).
  Proof.
    unfold enum_real. assert (X : NoDup (map fst (enum (a4_list v)))) by (destruct v; cbn; repeat constructor; cbn; intuition discriminate).
    revert X. generalize (enum (a4_list v)) as l. induction l as [|x l IH]; intros H; cbn [filter map]; [ constructor |].
    cbn [map] in H. inversion H as [|? ? H1 H2]; subst. destruct (negb (is_dummy (snd x))); [| exact (IH H2) ].
    cbn [map]. constructor; [| exact (IH H2) ]. intros X. apply H1. apply in_map_iff in X as (y & Y1 & Y2).
    apply filter_In in Y2 as [Y2 _]. apply in_map_iff. now exists y.
  Qed.
  Lemma enum_real_len v : (length (enum_real v) <= 4)%nat.
  Proof.
    unfold enum_real. assert (Hle : forall f (m : list (nat * utxo)), (length (filter f m) <= length m)%nat).
    { intros f m. induction m as [|y m IH]; cbn [filter length]; [ lia |]. destruct (f y); cbn [length]; lia. }
    specialize (Hle (fun ju => negb (is_dummy (snd ju))) (enum (a4_list v))). destruct v. exact Hle.
  Qed.
  Lemma used_positions us : forall ps n (g : nat -> option F), length us = length ps -> (forall i, nth_error ps i = g (n + i)%nat \/ (length ps <= i)%nat) ->
    map Some (flat_map (fun up : utxo * F => if slot_used contract true (fst up) then [snd up] else []) (combine us ps)) =
    map (fun ju => g (fst ju)) (filter kept (filter (fun ju => negb (is_dummy (snd ju))) (combine (seq n (length us)) us))).
  Proof.
    induction us as [|u us IH]; intros [|x ps] n g Hl Hg; try discriminate Hl; [ reflexivity |].
    cbn [length seq combine flat_map fst snd filter]. rewrite map_app.
    rewrite (IH ps (S n) g); [| cbn [length] in Hl; lia |].
    - unfold slot_used. cbn [andb]. destruct (is_dummy u); cbn [negb andb map app]; [ reflexivity |].
      cbn [filter]. change (kept (n, u)) with (negb (pt_eqb (pk u) contract)).
      destruct (pt_eqb (pk u) contract); cbn [negb map app fst]; [ reflexivity |]. f_equal.
      destruct (Hg 0%nat) as [X|X]; [ rewrite Nat.add_0_r in X; exact X | cbn [length] in X; lia ].
    - intros i. destruct (Hg (S i)) as [X|X]; [ left; cbn [nth_error] in X; rewrite X; f_equal; lia | right; cbn [length] in X; lia ].
  Qed.
  Lemma blank_arrays app v : app = false -> blank_unused contract app v (a4_const Fzero) (a4_const (default_two_paths utxo_cfg)).
  Proof.
    intros _ j u Hj _. assert (X : (j < length (a4_list v))%nat) by (apply nth_error_Some; congruence).
    destruct v. cbn in X. destruct j as [|[|[|[|j]]]]; [ split; reflexivity .. | lia ].
  Qed.

  Lemma sign_one_record s i k osg t r s' : nth_error (a_txs s) i = Some t -> root (a_tx_tree s) = Ok r ->
    0 <= a_index s -> a_index s + 4 < two64 ->
    sign_one dbg contract s tt (i, (k, osg)) = MOk s' tt ->
    exists inp pf, nth_error (a_tx_proofs s) i = Some pf /\ a_ivc s' = a_ivc s ++ [inp] /\
      record_of contract r (t, pf, (k, osg)) inp /\
      new_positions contract r inp = consecutive (a_index s) (length (new_positions contract r inp)) /\
      a_index s' = a_index s + Z.of_nat (length (new_positions contract r inp)) /\ (length (new_positions contract r inp) <= 4)%nat.
  Proof.
    intros Et Er H0 Hb H. pose proof (sign_keeps _ _ _ _ _ H) as (K1 & _). unfold sign_one in H. rewrite Et, Er in H. cbv zeta in H.
    set (sg := match osg with Some sg => sg | None => sig_default end) in *.
    change (accepts contract r t k sg) with (authorised contract r t (k, osg)) in H.
    assert (Ea' : authorised contract r t (k, Some sg) = authorised contract r t (k, osg)) by (unfold authorised, sg; now destruct osg).
    destruct (authorised contract r t (k, osg)) eqn:Ea.
    - destruct (update_and_prove dbg signer_cfg (a_signer_tree s) (Z.of_nat (length (a_signers s))) k) as [tp|e|]; cbn [mlift mbind] in H; try discriminate H.
      destruct (mfold (delete_one dbg contract) _ _ _) as [s2 [dpos dpf]|s2 e|] eqn:Ed; cbn [mbind] in H; try discriminate H.
      destruct (mfold (add_one dbg contract k) _ _ _) as [s3 [[apos apf] w]|s3 e|] eqn:Eadd; cbn [mbind] in H; try discriminate H.
      pose proof (delete_ivc _ _ _ _ _ Ed) as Vd. pose proof (add_ivc k _ _ _ _ _ Eadd) as Va.
      apply delete_slots in Ed as (Id & Fd); [| exact (enum_real_lt (inputs t)) ].
      cbn [with_signer a_index] in Id.
      apply add_slots in Eadd as (Ia & Pa & Fa); [| exact (enum_real_lt (outputs t)) | apply enum_real_nodup | rewrite Id; exact H0
        | rewrite Id; pose proof (enum_real_len (outputs t)); lia ].
      rewrite Id in Ia, Pa.
      set (s4 := if 0 <? zval w then with_logs s3 (a_deposits s3) (a_withdrawals s3 ++ [(k, w)]) else s3) in *.
      assert (I4 : a_index s4 = a_index s3 /\ a_tx_proofs s4 = a_tx_proofs s3 /\ a_ivc s4 = a_ivc s3) by (unfold s4; now destruct (0 <? zval w)).
      destruct I4 as (I4 & P4 & V4).
      destruct (nth_error (a_tx_proofs s4) i) as [tpf|] eqn:Ep; [| discriminate H ].
      match type of H with MOk (with_ivc _ ?x) _ = _ => set (inp := x) in * end.
      assert (Es' : s' = with_ivc s4 inp) by congruence.
      assert (Epf : nth_error (a_tx_proofs s) i = Some tpf) by (rewrite <- K1, Es'; exact Ep).
      exists inp, tpf. split; [ exact Epf |]. split; [ rewrite Es'; cbn [with_ivc a_ivc]; rewrite V4, Va, Vd; reflexivity |].
      assert (Hn : map Some (new_positions contract r inp) = map Some (consecutive (a_index s) (length (filter kept (enum_real (outputs t)))))).
      { rewrite <- Pa. unfold new_positions. cbn [inp i_tx i_sender i_sig i_add_pos]. rewrite Ea'.
        rewrite (used_positions _ _ 0 (nth_error (a4_list apos))); [| destruct (outputs t), apos; reflexivity | intros j; now left ]. reflexivity. }
      assert (Hl : length (new_positions contract r inp) = length (filter kept (enum_real (outputs t)))).
      { apply (f_equal (@length _)) in Hn. unfold consecutive in Hn. rewrite !map_length, seq_length in Hn. exact Hn. }
      split; [| split; [| split ] ].
      + unfold record_of. cbv zeta. rewrite Ea. do 4 (split; [ reflexivity |]). split; [ discriminate |].
        assert (Hblank : forall v pos pf, (forall i0, (forall u, In (i0, u) (enum_real v) -> pt_eqb (pk u) contract = true) ->
            nth_error (a4_list pos) i0 = nth_error (a4_list (a4_const Fzero)) i0 /\
            nth_error (a4_list pf) i0 = nth_error (a4_list (a4_const (default_two_paths utxo_cfg))) i0) ->
            blank_unused contract true v pos pf).
        { intros v pos pf Hf j u Hj Hu.
          destruct (Hf j) as (X1 & X2).
          - intros u' Hin. apply enum_real_slot in Hin as [Hin Hd]. assert (u' = u) by congruence. subst u'.
            unfold slot_used in Hu. rewrite Hd in Hu. cbn [negb andb] in Hu. now apply negb_false_iff in Hu.
          - rewrite X1, X2. assert (X : (j < length (a4_list v))%nat) by (apply nth_error_Some; congruence).
            destruct v. cbn in X. destruct j as [|[|[|[|j]]]]; [ split; reflexivity .. | lia ]. }
        split; [ apply Hblank, Fd | apply Hblank, Fa ].
      + rewrite Hl. revert Hn. generalize (new_positions contract r inp) (consecutive (a_index s) (length (filter kept (enum_real (outputs t))))).
        induction l as [|x l IH]; intros [|y m] E; try discriminate E; [ reflexivity |]. cbn [map] in E. f_equal; [ congruence | apply IH; congruence ].
      + rewrite Es'. cbn [with_ivc a_index]. rewrite I4, Ia, Hl. reflexivity.
      + rewrite Hl. assert (Hle : forall f (m : list (nat * utxo)), (length (filter f m) <= length m)%nat).
        { intros f m. induction m as [|y m IH]; cbn [filter length]; [ lia |]. destruct (f y); cbn [length]; lia. }
        specialize (Hle kept (enum_real (outputs t))). pose proof (enum_real_len (outputs t)). lia.
    - cbn [mbind with_signer a_tx_proofs] in H. destruct (nth_error (a_tx_proofs s) i) as [tpf|] eqn:Ep; [| discriminate H ].
      match type of H with MOk (with_ivc ?y ?x) _ = _ => set (inp := x) in *; assert (Es' : s' = with_ivc y inp) by congruence end.
      assert (Hn : new_positions contract r inp = []).
      { unfold new_positions. cbn [inp i_tx i_sender i_sig i_add_pos]. rewrite Ea'.
        generalize (combine (a4_list (outputs t)) (a4_list (a4_const Fzero))) as l. induction l as [|x l IH]; [ reflexivity | exact IH ]. }
      exists inp, tpf. split; [ reflexivity |]. split; [ rewrite Es'; reflexivity |].
      split; [| rewrite Hn; split; [ reflexivity |]; split; [ rewrite Es'; cbn [with_ivc with_signer a_index length]; lia | cbn [length]; lia ] ].
      unfold record_of. cbv zeta. rewrite Ea. do 4 (split; [ reflexivity |]). split; [ reflexivity |].
      split; now apply blank_arrays.
  Qed.

  Lemma consecutive_app i n m : consecutive i (n + m) = consecutive i n ++ consecutive (i + Z.of_nat n) m.
  Proof.
    unfold consecutive. rewrite seq_app, map_app. f_equal. cbn [Nat.add].
    rewrite <- (Nat.add_0_r n) at 1. generalize 0%nat as b. induction m as [|m IH]; intros b; cbn [seq map]; [ reflexivity |].
    rewrite <- Nat.add_succ_r, IH. f_equal. f_equal. lia.
  Qed.
  Lemma combine_skipn {A B} n : forall (a : list A) (b : list B), skipn n (combine a b) = combine (skipn n a) (skipn n b).
  Proof.
    induction n as [|n IH]; intros a b; [ reflexivity |]. destruct a as [|x a]; [ reflexivity |].
    destruct b as [|y b]; [ cbn [combine skipn]; now rewrite combine_nil |]. exact (IH a b).
  Qed.
  Lemma run_records r l : forall n s s', root (a_tx_tree s) = Ok r -> 0 <= a_index s -> a_index s + 4 * Z.of_nat (length l) < two64 ->
    mfold (sign_one dbg contract) (combine (seq n (length l)) l) s tt = MOk s' tt ->
    exists new, a_ivc s' = a_ivc s ++ new /\ length new = length l /\
      Forall2 (record_of contract r) (combine (skipn n (combine (a_txs s) (a_tx_proofs s))) l) new /\
      flat_map (new_positions contract r) new = consecutive (a_index s) (length (flat_map (new_positions contract r) new)) /\
      a_index s' = a_index s + Z.of_nat (length (flat_map (new_positions contract r) new)).
  Proof.
    induction l as [|[k o] l IH]; intros n s s' Hr H0 Hb H; cbn [length seq combine mfold] in *.
    - assert (s' = s) by congruence. subst s'. exists []. rewrite app_nil_r, combine_nil. cbn [flat_map length].
      split; [ reflexivity |]. split; [ reflexivity |]. split; [ constructor |]. split; [ reflexivity | lia ].
    - destruct (sign_one dbg contract s tt (n, (k, o))) as [s1 []|s1 e|] eqn:E1; cbn [mbind] in H; try discriminate H.
      destruct (nth_error (a_txs s) n) as [t|] eqn:Et.
      2:{ unfold sign_one in E1. rewrite Et in E1. discriminate E1. }
      pose proof (sign_keeps _ _ _ _ _ E1) as (K1 & K2 & K3).
      destruct (sign_one_record s n k o t r s1 Et Hr H0 ltac:(lia) E1) as (inp & pf & Ep & Ei & HR & Hc & Hix & Hle).
      destruct (IH (S n) s1 s') as (new & Ei' & Hl & HF & Hc' & Hix'); [ now rewrite K3 | rewrite Hix; lia | rewrite Hix; lia | exact H |].
      exists (inp :: new). split; [ rewrite Ei', Ei, <- app_assoc; reflexivity |]. split; [ cbn [length]; now rewrite Hl |].
      rewrite K1, K2 in HF. split.
      + rewrite combine_skipn. rewrite (nth_skipn n _ t Et), (nth_skipn n _ pf Ep). rewrite combine_skipn in HF. cbn [combine].
        constructor; [ exact HR | exact HF ].
      + cbn [flat_map]. rewrite app_length. split.
        * rewrite consecutive_app, <- Hc. rewrite Hix in Hc'. rewrite <- Hc'. reflexivity.
        * rewrite Hix', Hix. lia.
  Qed.

  (** C111. A successful call adds one record per answer, in order: the transaction, its update path, the key, the
      signature (the all-zero one if missing), and for what is not touched position 0 and default paths. The
      coins created are recorded at consecutive positions from the index on, in the order of the records and of their outputs. *)
  Theorem C111_records s l s' r : reached dbg s -> root (a_tx_tree s) = Ok r -> a_index s + 4 * Z.of_nat (length l) < two64 ->
    process_signatures dbg s contract l = MOk s' tt ->
    exists new, ivc_inputs s' = ivc_inputs s ++ new /\ length new = length l /\
      Forall2 (record_of contract r) (combine (combine (a_txs s) (a_tx_proofs s)) l) new /\
      flat_map (new_positions contract r) new = consecutive (a_index s) (length (flat_map (new_positions contract r) new)) /\
      a_index s' = a_index s + Z.of_nat (length (flat_map (new_positions contract r) new)).
  Proof.
    intros Hr Hroot Hb H. destruct (ri_coins _ _ (reached_inv dbg s Hr)) as (c & w & HC).
    refine (run_records r l 0 s s' Hroot _ Hb H). exact (proj1 (ci_index _ _ _ _ HC)).
  Qed.
End props.

Print Assumptions C111_records.

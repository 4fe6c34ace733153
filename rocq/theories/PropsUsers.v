(** C93: the gains of all users together. *)
From Coq Require Import ZArith List Bool Lia Permutation.
Import ListNotations.
From Verif Require Import Base Env Circuit SparseMT SparseMTSpec Data DataSpec DataFacts PropsData
  AggCircuit AggCircuitFacts AggCircuitSpec CircuitRun PropsCircuit PropsCircuit2
  Client ClientSpec ClientFacts PropsClient PropsClient2 PropsClient3 PropsClient4 PropsClient6.
Open Scope Z_scope.

Section props.
  Context {hs : Hashes} {G : Curve}.

  (** amounts written in entries that are flagged as dummies *)
  Definition flagged (l : list utxoV) : Z :=
    zsumm (map (fun u => if v_dummy u then zval (v_amount u) else 0) l).
  Definition flagged_out (t : txV) : Z := flagged (a4_list (v_outputs t)).
  Definition flagged_in (t : txV) : Z := flagged (a4_list (v_inputs t)).
  (** every key that some amount of the transaction belongs to is among [ks] *)
  Definition covers (ks : list pt) (t : txV) : Prop :=
    forall u, In u (a4_list (v_inputs t) ++ a4_list (v_outputs t)) -> zval (v_amount u) <> 0 -> In (v_pk u) ks.

  Lemma sum_one (ks : list pt) k x : NoDup ks -> (x <> 0 -> In k ks) ->
    zsumm (map (fun k' => if pt_eqb k k' then x else 0) ks) = x.
  Proof.
    intros Hn Hin. induction Hn as [|k0 ks Hk Hn IH]; cbn [map zsumm].
    - destruct (Z.eq_dec x 0) as [->|Hx]; [ reflexivity | destruct (Hin Hx) ].
    - destruct (pt_eqb k k0) eqn:E.
      + apply pt_eqb_eq in E. subst k0. assert (H0 : zsumm (map (fun k' => if pt_eqb k k' then x else 0) ks) = 0).
        { clear - Hk. induction ks as [|k1 ks IH]; cbn [map zsumm]; [ reflexivity |].
          assert (E : pt_eqb k k1 = false) by (apply pt_eqb_neq; intros ->; apply Hk; now left).
          rewrite E, IH; [ reflexivity |]. intros H. apply Hk. now right. }
        lia.
      + rewrite IH; [ reflexivity |]. intros Hx. destruct (Hin Hx) as [->|H]; [| exact H ].
        rewrite pt_eqb_refl in E. discriminate.
  Qed.
  Lemma sum_plus {A} (f g : A -> Z) l : zsumm (map (fun a => f a + g a) l) = zsumm (map f l) + zsumm (map g l).
  Proof. induction l as [|a l IH]; cbn [map zsumm]; lia. Qed.
  Lemma sum_minus {A} (f g : A -> Z) l : zsumm (map (fun a => f a - g a) l) = zsumm (map f l) - zsumm (map g l).
  Proof. induction l as [|a l IH]; cbn [map zsumm]; lia. Qed.
  Lemma sum_zero {A} (f : A -> Z) l : (forall a, In a l -> f a = 0) -> zsumm (map f l) = 0.
  Proof.
    induction l as [|a l IH]; intros H; cbn [map zsumm]; [ reflexivity |].
    rewrite (H a (or_introl eq_refl)), IH; [ reflexivity |]. intros b Hb. apply H. now right.
  Qed.
  Lemma sum_swap {A B} (f : A -> B -> Z) la lb :
    zsumm (map (fun a => zsumm (map (f a) lb)) la) = zsumm (map (fun b => zsumm (map (fun a => f a b) la)) lb).
  Proof.
    induction la as [|a la IH]; cbn [map zsumm].
    - symmetry. now apply sum_zero.
    - rewrite IH, <- sum_plus. reflexivity.
  Qed.
  Lemma held_all ks l : NoDup ks -> (forall u, In u l -> zval (v_amount u) <> 0 -> In (v_pk u) ks) ->
    zsumm (map (fun k => held k l) ks) = vtotal l + flagged l.
  Proof.
    intros Hn. unfold flagged. induction l as [|u l IH]; intros H; cbn [map zsumm held vtotal].
    - now apply sum_zero.
    - rewrite sum_plus, IH by (intros v Hv; apply H; now right).
      rewrite (sum_one ks (v_pk u) (zval (v_amount u)) Hn) by (apply H; now left).
      destruct (v_dummy u); lia.
  Qed.

  (** C93, one transaction. *)
  Theorem C93_one_transaction ks t : NoDup ks -> covers ks t ->
    zsumm (map (fun k => gain k t) ks) = (vtotal_out t - vtotal_in t) + (flagged_out t - flagged_in t).
  Proof.
    intros Hn Hc. unfold gain. rewrite sum_minus, !held_all; auto.
    - unfold vtotal_out, vtotal_in, flagged_out, flagged_in. lia.
    - intros u Hu. apply Hc, in_or_app. now left.
    - intros u Hu. apply Hc, in_or_app. now right.
  Qed.

  (** one user: key, steps of the client proof, state before and after *)
  Record user_run := mkRun { r_key : pt; r_steps : list user_auxV; r_before : ustate; r_after : ustate }.
  (** an accepted client run of that key which processes exactly the transactions [ts], as far as
      they concern the key, each once and in any order *)
  Definition processes (acc : accumulator) (N : nat) (ts : list txV) (r : user_run) : Prop :=
    urun acc N (u_list (r_before r)) (r_steps r) (u_list (r_after r)) /\
    (forall a, In a (r_steps r) -> ux_pk a = r_key r) /\
    Permutation (filter (concerns (r_key r)) (flat_map transactions (r_steps r))) (filter (concerns (r_key r)) ts).

  Lemma zsumm_mod l : forall l', Forall2 (fun a b => a mod p = b mod p) l l' -> zsumm l mod p = zsumm l' mod p.
  Proof.
    intros l' H. induction H as [|a b l l' E H IH]; cbn [zsumm]; [ reflexivity |].
    rewrite Zplus_mod, E, IH, <- Zplus_mod. reflexivity.
  Qed.

  (** C93. Some of the transactions of an aggregator proof (either mode), and one client run for
      each key they concern: the sum of all balances changes by the amounts in outputs flagged as
      dummies less those in inputs flagged as dummies, modulo the characteristic. *)
  Theorem C93_all_users contract acc N to z bs z' ts us :
    ivc contract to (z_list z) bs (z_list z') ->
    (forall t, In t ts -> exists x, In x (concat bs) /\ x_tx x = t) ->
    NoDup (map r_key us) -> (forall t, In t ts -> covers (map r_key us) t) ->
    (forall r, In r us -> processes acc N ts r) ->
    zsumm (map (fun r => zval (us_balance (r_after r))) us) mod p =
    (zsumm (map (fun r => zval (us_balance (r_before r))) us)
     + zsumm (map flagged_out ts) - zsumm (map flagged_in ts)) mod p.
  Proof.
    intros H Hts Hn Hcov Hus.
    apply ivc_crun in H as (z1 & E1 & H). apply z_list_inj in E1. subst z1.
    pose proof (crun_steps contract to (concat bs) z z' H) as HS. rewrite Forall_forall in HS.
    assert (Hval : forall t, In t ts -> vtotal_in t mod p = vtotal_out t mod p).
    { intros t Ht. destruct (Hts t Ht) as (x & Hx & <-). destruct (HS x Hx) as (za & zb & _ & Hw & Hs).
      exact (proj2 (sf_valid _ _ _ _ _ (step_facts_of contract to za x zb Hw Hs))). }
    clear HS Hts H.
    assert (Hone : forall r, In r us ->
      zval (us_balance (r_after r)) mod p = (zval (us_balance (r_before r)) + zsumm (map (gain (r_key r)) ts)) mod p).
    { intros r Hr. destruct (Hus r Hr) as (Hu & Hpk & HP).
      destruct (C64_balance acc N _ _ _ Hu) as (s1 & E1 & B & _). apply u_list_inj in E1. subst s1.
      rewrite B, Zmod_mod. do 2 f_equal.
      rewrite (map_ext_in _ (fun a => zsumm (map (gain (r_key r)) (transactions a)))).
      - rewrite zsumm_flat, <- zsumm_concerns, (zsumm_perm _ _ (Permutation_map (gain (r_key r)) HP)), zsumm_concerns. reflexivity.
      - intros a Ha. unfold step_gain. now rewrite (Hpk a Ha). }
    rewrite (zsumm_mod (map (fun r => zval (us_balance (r_after r))) us)
              (map (fun r => zval (us_balance (r_before r)) + zsumm (map (gain (r_key r)) ts)) us)).
    2:{ clear - Hone. induction us as [|r us IH]; constructor.
        - apply Hone. now left.
        - apply IH. intros x Hx. apply Hone. now right. }
    rewrite sum_plus. rewrite <- Z.add_sub_assoc. rewrite <- Zplus_mod_idemp_r. rewrite <- (Zplus_mod_idemp_r (_ - _)).
    f_equal. f_equal. rewrite (sum_swap (fun r t => gain (r_key r) t)), <- sum_minus.
    apply zsumm_mod. clear Hone Hus. induction ts as [|t ts IH]; constructor.
    - change (map (fun a => gain (r_key a) t) us) with (map (fun a => (fun k => gain k t) (r_key a)) us).
      rewrite <- (map_map r_key (fun k => gain k t)), C93_one_transaction by (auto; apply Hcov; now left).
      specialize (Hval t (or_introl eq_refl)). rewrite <- Zplus_mod_idemp_l, Zminus_mod, Hval, Z.sub_diag, Zmod_0_l. reflexivity.
    - apply IH; intros t' Ht'; [ apply Hcov | apply Hval ]; now right.
  Qed.

  (** Without such entries, and while the sums stay below the characteristic, the client balances
      are conserved as integers. *)
  Corollary C93_conserved contract acc N to z bs z' ts us :
    ivc contract to (z_list z) bs (z_list z') ->
    (forall t, In t ts -> exists x, In x (concat bs) /\ x_tx x = t) ->
    NoDup (map r_key us) -> (forall t, In t ts -> covers (map r_key us) t) ->
    (forall r, In r us -> processes acc N ts r) ->
    (forall t u, In t ts -> In u (a4_list (v_inputs t) ++ a4_list (v_outputs t)) -> v_dummy u = true -> zval (v_amount u) = 0) ->
    zsumm (map (fun r => zval (us_balance (r_before r))) us) < p ->
    zsumm (map (fun r => zval (us_balance (r_after r))) us) < p ->
    zsumm (map (fun r => zval (us_balance (r_after r))) us) = zsumm (map (fun r => zval (us_balance (r_before r))) us).
  Proof.
    intros H Hts Hn Hcov Hus Hf Hb Ha.
    pose proof (C93_all_users contract acc N to z bs z' ts us H Hts Hn Hcov Hus) as E.
    assert (F1 : zsumm (map flagged_out ts) = 0 /\ zsumm (map flagged_in ts) = 0).
    { split; apply sum_zero; intros t Ht; unfold flagged_out, flagged_in, flagged; apply sum_zero; intros u Hu;
        destruct (v_dummy u) eqn:Ed; try reflexivity; apply (Hf t u Ht); auto; apply in_or_app; auto. }
    destruct F1 as [-> ->] in E. rewrite Z.add_0_r, Z.sub_0_r in E.
    assert (P0 : forall f : user_run -> ustate, 0 <= zsumm (map (fun r => zval (us_balance (f r))) us)).
    { intros f. clear. induction us as [|r us IH]; cbn [map zsumm]; [ lia |]. pose proof (F_range (us_balance (f r))). lia. }
    pose proof (P0 r_before). pose proof (P0 r_after). rewrite !Z.mod_small in E by lia. exact E.
  Qed.
End props.

Print Assumptions C93_one_transaction.
Print Assumptions C93_all_users.
Print Assumptions C93_conserved.

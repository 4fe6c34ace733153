(** C105: what the users of a sequence of proved blocks have. *)
From Coq Require Import ZArith List Bool Lia Permutation.
Import ListNotations.
From Verif Require Import Base Env Circuit SparseMT SparseMTSpec Data DataSpec DataFacts Gadgets Schnorr Contract ContractSpec
  Aggregator AggCircuit AggCircuitFacts AggCircuitSpec CircuitRun PropsCircuit PropsCircuit2 PropsLimits TruthSpec PropsTruth
  PropsTruth2 Client ClientSpec ClientFacts PropsClient PropsClient2 PropsClient3 PropsClient4 PropsClient6 PropsUsers.
Open Scope Z_scope.

Section diligent.
  Context {hs : Hashes} {G : Curve}.
  Variable contract : pt.

  (** * Specification *)

  (** the applied transactions of a sequence of proved epochs, in order *)
  Definition history_of (l : list (block * list agg_inputsV)) : list txV :=
    flat_map (fun bx => map x_tx (filter (is_applied contract (tx_tree_root (fst bx))) (snd bx))) l.
  (** no entry that is flagged as a dummy bears an amount for [k] *)
  Definition unflagged_for (k : pt) (ts : list txV) : Prop :=
    forall t u, In t ts -> In u (a4_list (v_inputs t) ++ a4_list (v_outputs t)) ->
      v_dummy u = true -> v_pk u = k -> zval (v_amount u) = 0.
  (** all that the blocks report as paid in and as paid out *)
  Definition deposits (l : list (block * list agg_inputsV)) : Z := zsum (map (fun bx => paid_in (fst bx)) l).
  Definition withdrawals (l : list (block * list agg_inputsV)) : Z := zsum (map (fun bx => paid_out (fst bx)) l).

  (** * Proofs *)
  Lemma epoch_held c cu b xs cu' k : epoch_proved contract c cu b xs cu' -> k <> contract ->
    unflagged_for k (history_of [(b, xs)]) ->
    held k (live cu') = held k (live cu) + zsumm (map (gain k) (history_of [(b, xs)])).
  Proof.
    intros (z & bs & z' & H & Hb & Hd & Exs & Hr & (Hc & Ecu) & _ & _) Hk Hf.
    destruct (C82_truthful_block contract c b z bs z' H Hb Hd) as (Ef & _).
    unfold history_of in *. cbn [flat_map fst snd] in *. rewrite app_nil_r in *. rewrite <- Ef in *.
    assert (Hg : genuine utxoV_cfg cu (flat_map (coin_writes contract (z_tx_final z)) xs)).
    { subst xs. destruct (C54_coin_writes contract false z bs z' cu H Hr) as [C|C]; [ exact (proj1 C) | contradiction ]. }
    pose proof (run_live contract xs (z_tx_final z) cu Hg) as HP. cbv zeta in HP. rewrite <- Ecu in HP.
    apply (held_perm k) in HP. rewrite !held_app, !held_flat_map in HP.
    apply ivc_crun in H as (z1 & E1 & H). apply z_list_inj in E1. subst z1.
    rewrite <- Exs in H. set (final := z_tx_final z) in *.
    pose proof (crun_steps contract false xs z z' H) as HS. fold final in HS. rewrite Forall_forall in HS.
    assert (Hx : forall x, In x xs -> held k (created contract final x) - held k (consumed final x)
                   = if is_applied contract final x then gain k (x_tx x) else 0).
    { intros x Hin. destruct (HS x Hin) as (za & zb & _ & Hw & Hs).
      pose proof (step_facts_of contract false za x zb Hw Hs) as S. destruct (sf_valid _ _ _ _ _ S) as [Ho _].
      unfold created, consumed. destruct (is_applied contract final x) eqn:Ea.
      - assert (Hi : In (x_tx x) (map x_tx (filter (is_applied contract final) xs))) by (apply in_map, filter_In; auto).
        assert (F1 : no_flagged k (a4_list (v_inputs (x_tx x)))).
        { intros u Hu. apply (Hf _ _ Hi). apply in_or_app. now left. }
        assert (F2 : no_flagged k (a4_list (v_outputs (x_tx x)))).
        { intros u Hu. apply (Hf _ _ Hi). apply in_or_app. now right. }
        rewrite held_not_contract by exact Hk. unfold realV. rewrite held_real by exact F2. unfold gain.
        destruct (is_signed final x) eqn:Es.
        + rewrite held_real by exact F1. reflexivity.
        + unfold is_applied in Ea. rewrite Es in Ea. cbn [orb] in Ea. unfold by_contract in Ea. apply pt_eqb_eq in Ea.
          rewrite <- (held_real k (a4_list (v_inputs (x_tx x)))) by exact F1.
          rewrite (held_other k (filter _ _)); [ cbn [held]; lia |].
          intros u Hu. apply filter_In in Hu as [Hu Hdm]. apply negb_true_iff in Hdm. rewrite (Ho u Hu Hdm), Ea. congruence.
      - assert (Es : is_signed final x = false) by (unfold is_applied in Ea; now apply orb_false_iff in Ea as [Ea _]).
        rewrite Es. cbn [held]. lia. }
    assert (Hsum : zsumm (map (fun x => held k (created contract final x)) xs) - zsumm (map (fun x => held k (consumed final x)) xs)
                   = zsumm (map (gain k) (map x_tx (filter (is_applied contract final) xs)))).
    { clear - Hx. induction xs as [|x xs IH]; [ reflexivity |]. cbn [map zsumm filter].
      specialize (IH (fun y Hy => Hx y (or_intror Hy))). specialize (Hx x (or_introl eq_refl)).
      destruct (is_applied contract final x); cbn [map zsumm]; lia. }
    clear - HP Hsum. lia.
  Qed.
  Lemma history_cons bx l : history_of (bx :: l) = history_of [bx] ++ history_of l.
  Proof. unfold history_of. cbn [flat_map]. now rewrite app_nil_r. Qed.
  Lemma epochs_held cu l cu' k : epochs contract cu l cu' -> k <> contract -> unflagged_for k (history_of l) ->
    held k (live cu') = held k (live cu) + zsumm (map (gain k) (history_of l)).
  Proof.
    intros H Hk. induction H as [cu|c cu b xs cu1 l cu' H1 H IH]; intros Hf.
    - cbn. lia.
    - rewrite history_cons in Hf |- *. rewrite map_app, zsumm_app.
      rewrite IH by (intros t u Ht; apply Hf, in_or_app; now right).
      rewrite (epoch_held _ _ _ _ _ _ H1 Hk) by (intros t u Ht; apply Hf, in_or_app; now left). lia.
  Qed.
  Lemma run_gain acc N ts r : processes acc N ts r ->
    zval (us_balance (r_after r)) = (zval (us_balance (r_before r)) + zsumm (map (gain (r_key r)) ts)) mod p.
  Proof.
    intros (Hu & Hpk & HP). destruct (C64_balance acc N _ _ _ Hu) as (s1 & E1 & B & _). apply u_list_inj in E1. subst s1.
    rewrite B. do 2 f_equal.
    rewrite (map_ext_in _ (fun a => zsumm (map (gain (r_key r)) (transactions a)))).
    - rewrite zsumm_flat, <- zsumm_concerns, (zsumm_perm _ _ (Permutation_map (gain (r_key r)) HP)), zsumm_concerns. reflexivity.
    - intros a Ha. unfold step_gain. now rewrite (Hpk a Ha).
  Qed.
  Lemma held_one_le k l : (forall u, In u l -> v_dummy u = false) -> held k l <= vtotal l.
  Proof.
    induction l as [|u l IH]; intros H; cbn [held vtotal]; [ lia |]. rewrite (H u (or_introl eq_refl)).
    specialize (IH (fun v Hv => H v (or_intror Hv))). pose proof (F_range (v_amount u)). destruct (pt_eqb _ _); lia.
  Qed.

  (** ** C105 *)

  (** Over any sequence of proved epochs, a user whose client proof processes exactly the applied
      transactions that concern them, each once, in whatever order and with whatever steps, keeps
      the difference between balance and value of the coins they own, modulo the characteristic. *)
  Theorem C105_balance acc N cu l cu' r :
    epochs contract cu l cu' -> r_key r <> contract -> unflagged_for (r_key r) (history_of l) ->
    processes acc N (history_of l) r ->
    (zval (us_balance (r_after r)) - held (r_key r) (live cu')) mod p =
    (zval (us_balance (r_before r)) - held (r_key r) (live cu)) mod p.
  Proof.
    intros H Hk Hf Hr. rewrite (run_gain _ _ _ _ Hr), (epochs_held _ _ _ _ H Hk Hf), Zminus_mod_idemp_l. f_equal. lia.
  Qed.
  (** From the beginning, as long as less than the characteristic was ever deposited: the balance is
      the value of the user's coins, and never more than everything deposited. *)
  Theorem C105_balance_is_coins acc N l cu' r :
    epochs contract (empty_contents utxoV_cfg) l cu' -> deposits l < p ->
    r_key r <> contract -> unflagged_for (r_key r) (history_of l) ->
    processes acc N (history_of l) r -> zval (us_balance (r_before r)) = 0 ->
    zval (us_balance (r_after r)) = held (r_key r) (live cu') /\
    held (r_key r) (live cu') <= deposits l.
  Proof.
    intros H Hd Hk Hf Hr H0.
    assert (E0 : live (empty_contents utxoV_cfg) = []).
    { destruct (live (empty_contents utxoV_cfg)) as [|u us] eqn:E; [ reflexivity |]. exfalso.
      destruct (in_live (empty_contents utxoV_cfg) u) as (Hdm & i & _ & Eu); [ rewrite E; now left |].
      rewrite Eu in Hdm. discriminate Hdm. }
    destruct (C83_blocks contract _ l cu' H) as (_ & Hle & _).
    { intros u Hu. rewrite E0 in Hu. destruct Hu. }
    fold (deposits l) in Hle. rewrite E0 in Hle. cbn [vtotal] in Hle.
    pose proof (held_one_le (r_key r) (live cu') (fun u Hu => proj1 (in_live cu' u Hu))) as Hh.
    pose proof (held_nonneg (r_key r) (live cu')) as Hn.
    split; [| lia ]. rewrite (run_gain _ _ _ _ Hr), H0.
    replace (0 + zsumm (map (gain (r_key r)) (history_of l))) with (held (r_key r) (live cu')).
    - apply Z.mod_small. lia.
    - rewrite (epochs_held _ _ _ _ H Hk Hf), E0. cbn [held]. reflexivity.
  Qed.
  Lemma held_sum_le ks l : NoDup ks -> (forall u, In u l -> v_dummy u = false) ->
    zsumm (map (fun k => held k l) ks) <= vtotal l.
  Proof.
    intros Hn. induction l as [|u l IH]; intros H; cbn [held vtotal].
    - rewrite sum_zero by reflexivity. lia.
    - rewrite sum_plus, (H u (or_introl eq_refl)). specialize (IH (fun v Hv => H v (or_intror Hv))).
      assert (zsumm (map (fun k => if pt_eqb (v_pk u) k then zval (v_amount u) else 0) ks) <= zval (v_amount u)); [| lia ].
      clear - Hn. pose proof (F_range (v_amount u)) as Hr. induction Hn as [|k ks Hk Hn IH]; cbn [map zsumm]; [ lia |].
      destruct (pt_eqb (v_pk u) k) eqn:E; [| lia ]. apply pt_eqb_eq in E. subst k.
      rewrite sum_zero; [ lia |]. intros k Hin. destruct (pt_eqb (v_pk u) k) eqn:E; [| reflexivity ].
      apply pt_eqb_eq in E. subst k. contradiction.
  Qed.
  Lemma vtotal_unflagged l : (forall u, In u l -> v_dummy u = false) -> flagged l = 0.
  Proof.
    intros H. unfold flagged. apply sum_zero. intros u Hu. now rewrite (H u Hu).
  Qed.

  (** All users together: their balances never sum to more than the deposits, and if every payer of
      the contract signed they sum to at most what is left of the deposits after the withdrawals --
      exactly that, if every owner of a coin is among the users. *)
  Theorem C105_all_users acc N l cu' us :
    epochs contract (empty_contents utxoV_cfg) l cu' -> deposits l < p ->
    NoDup (map r_key us) ->
    (forall r, In r us -> r_key r <> contract /\ unflagged_for (r_key r) (history_of l) /\
       processes acc N (history_of l) r /\ zval (us_balance (r_before r)) = 0) ->
    let total := zsumm (map (fun r => zval (us_balance (r_after r))) us) in
    total <= deposits l /\
    ((forall b xs, In (b, xs) l -> all_payers_signed contract (tx_tree_root b) xs) ->
     total <= deposits l - withdrawals l /\
     ((forall u, In u (live cu') -> In (v_pk u) (map r_key us)) -> total = deposits l - withdrawals l)).
  Proof.
    intros H Hd Hn Hus total.
    assert (Et : total = zsumm (map (fun k => held k (live cu')) (map r_key us))).
    { unfold total. rewrite map_map. f_equal. apply map_ext_in. intros r Hr. destruct (Hus r Hr) as (H1 & H2 & H3 & H4).
      exact (proj1 (C105_balance_is_coins acc N l cu' r H Hd H1 H2 H3 H4)). }
    assert (E0 : live (empty_contents utxoV_cfg) = []).
    { destruct (live (empty_contents utxoV_cfg)) as [|u us'] eqn:E; [ reflexivity |]. exfalso.
      destruct (in_live (empty_contents utxoV_cfg) u) as (Hdm & i & _ & Eu); [ rewrite E; now left |].
      rewrite Eu in Hdm. discriminate Hdm. }
    destruct (C83_blocks contract _ l cu' H) as (_ & Hle & _ & He).
    { intros u Hu. rewrite E0 in Hu. destruct Hu. }
    fold (deposits l) in Hle, He. fold (withdrawals l) in He. rewrite E0 in Hle, He. cbn [vtotal] in Hle, He.
    pose proof (held_sum_le (map r_key us) (live cu') Hn (fun u Hu => proj1 (in_live cu' u Hu))) as Hs.
    split; [ lia |]. intros Ha. specialize (He Ha). split; [ lia |]. intros Hown.
    pose proof (held_all (map r_key us) (live cu') Hn (fun u Hu _ => Hown u Hu)) as Hall.
    pose proof (vtotal_unflagged (live cu') (fun u Hu => proj1 (in_live cu' u Hu))) as Hfl.
    clear - Et Hall Hfl He. lia.
  Qed.
End diligent.

Print Assumptions C105_balance.
Print Assumptions C105_balance_is_coins.
Print Assumptions C105_all_users.

(** Property C83: value over a sequence of proved blocks. *)
From Coq Require Import ZArith List Bool Lia Permutation.
Import ListNotations.
From Verif Require Import Base Env Circuit SparseMT SparseMTSpec Data DataSpec DataFacts Gadgets Schnorr Contract ContractSpec
  Aggregator AggCircuit AggCircuitFacts AggCircuitSpec CircuitRun PropsCircuit PropsCircuit2 PropsLimits TruthSpec PropsTruth.
Open Scope Z_scope.

Section value.
  Context {hs : Hashes} {G : Curve}.
  Variable contract : pt.

  Lemma entries_sum c l es : entries_are c l es -> zsum (map (fun ia : Z * u64 => zval (snd ia)) l) = sum_of es.
  Proof.
    unfold sum_of. induction 1 as [|[i a] [k v] l es [_ E] _ IH]; [ reflexivity |]. cbn [map].
    cbn [snd fst] in *. change (zval a + zsum (map (fun ia : Z * u64 => zval (snd ia)) l) = v + zsum (map snd es)).
    rewrite IH, E. reflexivity.
  Qed.
  Lemma sum_of_app a b : sum_of (a ++ b) = sum_of a + sum_of b.
  Proof. unfold sum_of. rewrite map_app. apply zsum_app. Qed.
  Lemma sum_of_flat {A} (f : A -> list (pt * Z)) l : sum_of (flat_map f l) = zsum (map (fun x => sum_of (f x)) l).
  Proof. induction l as [|x l IH]; [ reflexivity |]. cbn [flat_map map]. rewrite sum_of_app, IH. reflexivity. Qed.
  Lemma vtotal_sum l : (forall u, In u l -> v_dummy u = false) -> zsum (map (fun u => zval (v_amount u)) l) = vtotal l.
  Proof.
    induction l as [|u l IH]; intros H; [ reflexivity |]. cbn [vtotal map]. rewrite (H u (in_eq _ _)).
    rewrite <- IH by auto using in_cons. reflexivity.
  Qed.
  Lemma deposits_sum xs : sum_of (run_deposits contract xs) = zsum (map (fun x => if by_contract contract x then vtotal_out (x_tx x) else 0) xs).
  Proof.
    unfold run_deposits. rewrite sum_of_flat. apply zsum_ext. intros x _. destruct (by_contract contract x); [| reflexivity ].
    unfold sum_of. rewrite map_map. cbn [snd]. rewrite vtotal_sum.
    - unfold realV. apply vtotal_real.
    - intros u Hu. unfold realV in Hu. apply filter_In in Hu as [_ Hu]. now apply negb_true_iff in Hu.
  Qed.
  Lemma withdrawals_sum xs : sum_of (run_withdrawals contract xs) = zsum (map (withdrawn contract) xs).
  Proof.
    unfold run_withdrawals. rewrite sum_of_flat. apply zsum_ext. intros x _.
    destruct (Z.eqb_spec (withdrawn contract x) 0) as [E|E].
    - rewrite E. reflexivity.
    - unfold sum_of. cbn [map snd]. unfold zsum. cbn [fold_right]. apply Z.add_0_r.
  Qed.
  Lemma zsum_le {A} (f g : A -> Z) l : (forall x, In x l -> f x <= g x) -> zsum (map f l) <= zsum (map g l).
  Proof.
    induction l as [|x l IH]; intros H; [ apply Z.le_refl |]. cbn [map].
    change (f x + zsum (map f l) <= g x + zsum (map g l)). apply Z.add_le_mono; [ apply H, in_eq | apply IH; auto using in_cons ].
  Qed.

  (** ** C83, one block: the value of all coins afterwards is what it was, plus the block's
      deposits, less what was withdrawn -- at most the block's withdrawals, exactly those if all
      payers signed. *)
  Theorem C83_block c cu b xs cu' :
    epoch_proved contract c cu b xs cu' -> ordinary contract cu ->
    utxo_tree_root b = merkle_root cu' /\ ordinary contract cu' /\
    vtotal (live cu) + paid_in b - paid_out b <= vtotal (live cu') <= vtotal (live cu) + paid_in b /\
    (all_payers_signed contract (tx_tree_root b) xs ->
     vtotal (live cu') = vtotal (live cu) + paid_in b - paid_out b).
  Proof.
    intros (z & bs & z' & H & Hb & Hd & Exs & Hr & (Hc & Ecu) & Sd & Sw) Ho.
    destruct (C82_truthful_block contract c b z bs z' H Hb Hd) as (Ef & _ & keys & deps & wds & _ & D & W & _ & Td & Tw).
    rewrite <- Exs in Td, Tw. destruct Td as [Td|Td]; [| destruct (Sd _ D Td) ]. destruct Tw as [Tw|Tw]; [| destruct (Sw _ W Tw) ].
    destruct (derive_inv c b z' Hd) as (_ & _ & _ & _ & _ & _ & _ & Eu & _).
    assert (Ein : paid_in b = sum_of deps) by exact (entries_sum _ _ _ D).
    assert (Eout : paid_out b = sum_of wds) by exact (entries_sum _ _ _ W).
    rewrite Ein, Eout, Td, Tw, deposits_sum, withdrawals_sum.
    clear Ein Eout D W Td Tw Sd Sw keys deps wds.
    rewrite <- Ef in *.
    assert (Hgw : genuine utxoV_cfg cu (flat_map (coin_writes contract (z_tx_final z)) xs) /\
                  z_utxo z' = merkle_root cu').
    { rewrite Ecu. subst xs. destruct (C54_coin_writes contract false z bs z' cu H Hr) as [C|C]; [ exact C | contradiction ]. }
    destruct Hgw as [Hg Er].
    assert (HP : Permutation (live cu' ++ flat_map (consumed (z_tx_final z)) xs) (live cu ++ flat_map (created contract (z_tx_final z)) xs)).
    { rewrite Ecu. exact (run_live contract xs (z_tx_final z) cu Hg). }
    assert (HP' := HP). rewrite Exs in HP'.
    destruct (conserve_from contract z bs z' cu cu' H (fun u Hu => proj1 (Ho u Hu)) HP') as [Hr' Hv].
    rewrite <- Exs in Hv. clear HP'.
    assert (Em : zsum (map (minted contract (z_tx_final z)) xs) = zsum (map (fun x => if by_contract contract x then vtotal_out (x_tx x) else 0) xs)).
    { apply zsum_ext. intros x Hx. unfold minted. destruct (by_contract contract x) eqn:Eb; [| reflexivity ].
      destruct (is_signed (z_tx_final z) x) eqn:Es; cbn [andb negb]; [| reflexivity ].
      assert (En : realV (v_inputs (x_tx x)) = []).
      { destruct (realV (v_inputs (x_tx x))) as [|u us] eqn:Ei; [ reflexivity | exfalso ]. apply Hc. subst xs.
        apply (C63_circuit contract false z bs z' cu x H Hr (fun u Hu => proj2 (Ho u Hu)) Hx).
        - apply pt_eqb_eq. exact Eb.
        - exact Es.
        - rewrite Ei. discriminate. }
      pose proof H as Hrun. apply ivc_crun in Hrun as (z1 & E1 & Hrun). apply z_list_inj in E1. subst z1.
      pose proof (crun_steps contract false _ _ _ Hrun) as HS. rewrite Forall_forall in HS. rewrite <- Exs in HS.
      destruct (HS x Hx) as (za & zb & _ & Hw & Hsat).
      destruct (C57_integer_balance contract za x zb Hw Hsat) as [E _].
      - intros u Hu Hdm. exfalso. assert (In u (realV (v_inputs (x_tx x)))) as X.
        { unfold realV. apply filter_In. split; [ exact Hu | now rewrite Hdm ]. }
        rewrite En in X. destruct X.
      - rewrite <- E. unfold vtotal_in. rewrite <- vtotal_real. unfold realV in En. rewrite En. reflexivity. }
    rewrite Em in Hv. clear Em.
    split; [ rewrite <- Eu; exact Er |]. split.
    { intros u Hu. split; [ exact (Hr' u Hu) |]. intros Ek.
      assert (Hin : In u (live cu ++ flat_map (created contract (z_tx_final z)) xs)).
      { apply (Permutation_in _ HP). apply in_or_app. left. exact Hu. }
      destruct (in_app_or _ _ _ Hin) as [Hi|Hi]; [ exact (proj2 (Ho u Hi) Ek) |].
      apply in_flat_map in Hi as (y & _ & Hy). unfold created in Hy.
      destruct (is_applied contract (z_tx_final z) y); [| destruct Hy ].
      apply filter_In in Hy as [_ Hy]. apply negb_true_iff in Hy. apply pt_eqb_neq in Hy. exact (Hy Ek). }
    pose proof (zsum_le (burnt contract (z_tx_final z)) (withdrawn contract) xs) as L1.
    pose proof (zsum_le (fun _ => 0) (burnt contract (z_tx_final z)) xs) as L2.
    assert (L3 : zsum (map (fun _ : agg_inputsV => 0) xs) = 0).
    { clear. induction xs as [|x xs IH]; [ reflexivity | exact IH ]. }
    specialize (L1 ltac:(intros x _; unfold burnt; destruct (is_applied contract (z_tx_final z) x); [ apply Z.le_refl | apply withdrawn_nonneg ])).
    specialize (L2 ltac:(intros x _; unfold burnt; destruct (is_applied contract (z_tx_final z) x); [ apply withdrawn_nonneg | apply Z.le_refl ])).
    split; [ lia |].
    intros Ha. assert (Eb : zsum (map (burnt contract (z_tx_final z)) xs) = zsum (map (withdrawn contract) xs)).
    { apply zsum_ext. intros x Hx. unfold burnt. destruct (is_applied contract (z_tx_final z) x) eqn:E; [ reflexivity |].
      destruct (Z.eq_dec (withdrawn contract x) 0) as [E0|E0]; [ now rewrite E0 |]. specialize (Ha x Hx E0). congruence. }
    lia.
  Qed.

  (** ** C83, any number of blocks *)
  Theorem C83_blocks cu l cu' :
    epochs contract cu l cu' -> ordinary contract cu ->
    ordinary contract cu' /\
    vtotal (live cu') <= vtotal (live cu) + zsum (map (fun bx => paid_in (fst bx)) l) /\
    vtotal (live cu) + zsum (map (fun bx => paid_in (fst bx)) l) - zsum (map (fun bx => paid_out (fst bx)) l) <= vtotal (live cu') /\
    ((forall b xs, In (b, xs) l -> all_payers_signed contract (tx_tree_root b) xs) ->
     vtotal (live cu') = vtotal (live cu) + zsum (map (fun bx => paid_in (fst bx)) l) - zsum (map (fun bx => paid_out (fst bx)) l)).
  Proof.
    induction 1 as [cu|c cu b xs cu1 l cu' H1 H IH]; intros Ho.
    - split; [ exact Ho |]. change (zsum (map _ [])) with 0. change (zsum (map _ [])) with 0. lia.
    - destruct (C83_block c cu b xs cu1 H1 Ho) as (_ & Ho1 & Hb & He). destruct (IH Ho1) as (Ho2 & I1 & I2 & I3).
      cbn [map fst].
      change (zsum (paid_in b :: map (fun bx => paid_in (fst bx)) l)) with (paid_in b + zsum (map (fun bx : block * list agg_inputsV => paid_in (fst bx)) l)).
      change (zsum (paid_out b :: map (fun bx => paid_out (fst bx)) l)) with (paid_out b + zsum (map (fun bx : block * list agg_inputsV => paid_out (fst bx)) l)).
      split; [ exact Ho2 |]. split; [ lia |]. split; [ lia |]. intros Ha.
      rewrite I3 by (intros b' xs' Hin; apply Ha; now right). rewrite He by (apply Ha; now left). lia.
  Qed.
  (** Starting without coins: as long as all payers signed, what was paid out is at most what was
      paid in, and the difference is the value of the coins. *)
  Corollary C83_solvency l cu' :
    epochs contract (empty_contents utxoV_cfg) l cu' ->
    (forall b xs, In (b, xs) l -> all_payers_signed contract (tx_tree_root b) xs) ->
    zsum (map (fun bx => paid_in (fst bx)) l) - zsum (map (fun bx => paid_out (fst bx)) l) = vtotal (live cu') /\
    0 <= vtotal (live cu').
  Proof.
    intros H Ha.
    assert (E : forall u, In u (live (empty_contents utxoV_cfg)) -> False).
    { intros u Hu. destruct (in_live _ u Hu) as [E (i & _ & Eu)]. subst u.
      revert E. change (empty_contents utxoV_cfg i) with (utxo_alloc utxo_dummy). discriminate. }
    destruct (C83_blocks _ l cu' H) as (_ & _ & _ & He).
    - intros u Hu. destruct (E u Hu).
    - specialize (He Ha). assert (E0 : vtotal (live (empty_contents utxoV_cfg)) = 0).
      { revert E. generalize (live (empty_contents utxoV_cfg)). intros [|u l0] E; [ reflexivity | destruct (E u (in_eq _ _)) ]. }
      split; [ rewrite E0 in He; lia | apply vtotal_nonneg ].
  Qed.
End value.

Print Assumptions C83_block.
Print Assumptions C83_blocks.
Print Assumptions C83_solvency.

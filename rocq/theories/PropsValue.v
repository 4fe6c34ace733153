(** C46-C48, C51: value, failures, signers, replay. *)
From Coq Require Import ZArith List Bool Lia Permutation.
Import ListNotations.
From Verif Require Import Base Env Circuit SparseMT SparseMTSpec SparseMTHeap SparseMTRep SparseMTNew
  SparseMTProofs TreeTotal PropsTree Data DataSpec DataFacts PropsData Schnorr SchnorrProofs PropsSchnorr HMap Contract
  Aggregator AggSpec AggFacts AggSign AggIntake PropsIntake PropsSign.
Open Scope Z_scope.

Section props.
  Context {hs : Hashes} {G : Curve} (dbg : bool).

  Lemma value_cons u l : value (u :: l) = zval (amount u) + value l.
  Proof. reflexivity. Qed.
  Lemma value_app a b : value (a ++ b) = value a + value b.
  Proof. unfold value. now rewrite map_app, zsum_app. Qed.
  Lemma value_perm a b : Permutation a b -> value a = value b.
  Proof. induction 1; rewrite ?value_cons; try lia. Qed.
  Lemma value_nonneg l : 0 <= value l.
  Proof. induction l as [|u l IH]; [ cbn; lia |]. rewrite value_cons. pose proof (u64_range (amount u)). lia. Qed.
  Lemma log_total_app a b : log_total (a ++ b) = log_total a + log_total b.
  Proof. unfold log_total. now rewrite map_app, zsum_app. Qed.
  Lemma total_real l : total l = value (real l).
  Proof.
    induction l as [|u l IH]; [ reflexivity |]. unfold real in *. cbn [total filter].
    destruct (is_dummy u); cbn [negb]; rewrite ?value_cons, IH; lia.
  Qed.
  Lemma value_split contract l : value l = value (filter (noncontract contract) l) + to_contract contract l.
  Proof.
    unfold to_contract. induction l as [|u l IH]; [ reflexivity |]. cbn [filter]. unfold noncontract in *.
    destruct (pt_eqb (pk u) contract); cbn [negb]; rewrite ?value_cons, IH; [| lia ].
    cbn [map]. change (zsum (zval (amount u) :: ?x)) with (zval (amount u) + zsum x). lia.
  Qed.
  Lemma owned_consumes contract k t : owned_by k t ->
    consumes contract t = if pt_eqb k contract then [] else real (a4_list (inputs t)).
  Proof.
    intros H. unfold consumes, real, owned_by in *. induction (a4_list (inputs t)) as [|u l IH].
    - now destruct (pt_eqb k contract).
    - cbn [filter]. rewrite IH by (intros v Hv; apply H; now right).
      destruct (is_dummy u) eqn:E; cbn [negb andb]; [ reflexivity |].
      rewrite (H u (or_introl eq_refl) E). destruct (pt_eqb k contract); reflexivity.
  Qed.

  (** A transaction that was valid at intake for this key, without wrap-around. *)
  Definition sound_tx (k : pt) (t : tx) : Prop :=
    is_valid dbg t (Some k) = Ok tt /\ (dbg = true \/ total_in t < two64 /\ total_out t < two64).
  Lemma sound_balanced k t : sound_tx k t ->
    owned_by k t /\ total_in t = total_out t /\ total_out t < two64.
  Proof.
    intros [Hv Hd].
    assert (Ho : owned_by k t).
    { destruct (owned_dec k t) as [H|H]; auto. rewrite is_valid_not_owned in Hv by auto. discriminate. }
    assert (Hs : total_in t < two64 /\ total_out t < two64).
    { destruct Hd as [Hd|]; auto. destruct C26_is_valid_overflow as (HP & _). subst dbg.
      destruct (Z_lt_le_dec (total_in t) two64) as [A|A]; [| rewrite HP in Hv by auto; discriminate ].
      destruct (Z_lt_le_dec (total_out t) two64) as [B|B]; [| rewrite HP in Hv by auto; discriminate ]. auto. }
    destruct Hs as [A B]. apply (C25_is_valid dbg t k A B) in Hv. tauto.
  Qed.

  Lemma step_value contract i k osg s s' t r : step_ok dbg contract i k osg s s' t r ->
    (authorised contract r t (k, osg) = true -> sound_tx k t) ->
    live_value s' + (log_total (a_withdrawals s') - log_total (a_withdrawals s)) =
    live_value s + (log_total (a_deposits s') - log_total (a_deposits s)).
  Proof.
    intros H Hs. pose proof (so_coins _ _ _ _ _ _ _ _ _ H) as Hc.
    rewrite (so_deposits _ _ _ _ _ _ _ _ _ H), (so_withdrawals _ _ _ _ _ _ _ _ _ H), !log_total_app.
    destruct (authorised contract r t (k, osg)).
    2:{ unfold live_value. rewrite Hc. change (log_total []) with 0. lia. }
    destruct (sound_balanced k t (Hs eq_refl)) as (Ho & Hio & Hlt).
    destruct Hc as (rest & A & B). apply value_perm in A, B. rewrite value_app in A, B.
    unfold live_value. rewrite A, B, (owned_consumes contract k t Ho), creates_eq.
    unfold total_in in Hio. unfold total_out in Hio, Hlt. rewrite total_real in Hio, Hlt. rewrite (total_real (a4_list (outputs t))) in Hio.
    pose proof (value_split contract (real (a4_list (outputs t)))) as Hsp.
    fold (withdrawn contract t) in Hsp. pose proof (withdrawn_nonneg contract t) as Hw.
    pose proof (value_nonneg (filter (noncontract contract) (real (a4_list (outputs t))))) as Hn.
    assert (Ew : log_total (wd_entry k (withdrawn contract t mod two64)) = withdrawn contract t).
    { rewrite Z.mod_small by lia. unfold wd_entry. destruct (Z.ltb_spec 0 (withdrawn contract t)) as [H0|H0].
      - change (log_total [(k, u64of (withdrawn contract t))]) with (zval (u64of (withdrawn contract t)) + 0).
        rewrite zval_u64of_small by lia. lia.
      - change (log_total []) with 0. lia. }
    rewrite Ew. unfold new_deposits. destruct (pt_eqb k contract).
    - change (value []) with 0.
      assert (El : log_total (map (fun u => (pk u, amount u)) (real (a4_list (outputs t)))) = value (real (a4_list (outputs t)))).
      { unfold log_total, value. rewrite map_map. reflexivity. }
      rewrite El. lia.
    - change (log_total []) with 0. lia.
  Qed.

  Lemma steps_value contract n l s s' r : steps dbg contract n l s s' -> root (a_tx_tree s) = Ok r ->
    (forall i t k osg, nth_error (a_txs s) (n + i) = Some t -> nth_error l i = Some (k, osg) ->
       authorised contract r t (k, osg) = true -> sound_tx k t) ->
    live_value s' + (log_total (a_withdrawals s') - log_total (a_withdrawals s)) =
    live_value s + (log_total (a_deposits s') - log_total (a_deposits s)).
  Proof.
    induction 1 as [|n k osg l s s1 s' t r' H1 H2 IH]; intros Hroot Hs; [ lia |].
    assert (r' = r) by (pose proof (so_root _ _ _ _ _ _ _ _ _ H1); congruence). subst r'.
    pose proof (step_value _ _ _ _ _ _ _ _ H1) as V1.
    match type of V1 with ?A -> _ => assert (HA : A) end.
    { intros Ha. apply (Hs 0%nat t k osg); auto. rewrite Nat.add_0_r. apply H1. }
    specialize (V1 HA). rewrite (so_tx_tree _ _ _ _ _ _ _ _ _ H1), (so_txs _ _ _ _ _ _ _ _ _ H1) in IH.
    specialize (IH Hroot). match type of IH with ?A -> _ => assert (HB : A) end.
    { intros i t1 k1 o1 E1 E2. apply (Hs (S i)); auto. rewrite <- Nat.add_succ_comm. exact E1. }
    specialize (IH HB). lia.
  Qed.

  (** C46 *)
  Theorem C46_conservation contract s l s' r : reached dbg s -> fits contract s l ->
    root (a_tx_tree s) = Ok r -> process_signatures dbg s contract l = MOk s' tt ->
    (forall i t k osg, nth_error (a_txs s) i = Some t -> nth_error l i = Some (k, osg) ->
       authorised contract r t (k, osg) = true -> sound_tx k t) ->
    live_value s' + (log_total (a_withdrawals s') - log_total (a_withdrawals s)) =
    live_value s + (log_total (a_deposits s') - log_total (a_deposits s)).
  Proof.
    intros Hr Hf Hroot E Hs. pose proof (run_ok dbg contract s l s' Hr Hf E) as HS.
    exact (steps_value _ _ _ _ _ r HS Hroot Hs).
  Qed.

  (** C47 *)
  Theorem C47_failure_not_atomic contract s l s' e : reached dbg s -> fits contract s l ->
    process_signatures dbg s contract l = MErr s' e ->
    exists l1 k osg l2 s1 t r don u todo,
      l = l1 ++ (k, osg) :: l2 /\
      process_signatures dbg s contract l1 = MOk s1 tt /\
      nth_error (a_txs s) (length l1) = Some t /\ root (a_tx_tree s) = Ok r /\
      authorised contract r t (k, osg) = true /\
      (e = UTXONonExisting \/ e = UTXOError) /\
      (* the inputs before the missing one are gone, none of the outputs exists *)
      consumes contract t = don ++ u :: todo /\ ~ In u (coins s') /\
      Permutation (coins s1) (don ++ coins s') /\
      live_value s' = live_value s1 - value don /\ live_value s' <= live_value s1 /\
      (* the key is recorded as a signer, nothing else changed *)
      a_signers s' = a_signers s1 ++ [Some k] /\
      (exists pf, update_and_prove dbg signer_cfg (a_signer_tree s1) (Z.of_nat (length (a_signers s1))) k
                  = Ok (a_signer_tree s', pf)) /\
      a_index s' = a_index s1 /\ a_deposits s' = a_deposits s1 /\ a_withdrawals s' = a_withdrawals s1 /\
      a_txs s' = a_txs s /\ a_tx_tree s' = a_tx_tree s /\ a_tx_proofs s' = a_tx_proofs s /\
      a_ivc s' = a_ivc s1.
  Proof.
    intros Hr Hf E.
    destruct (run_err dbg contract s l s' e Hr Hf E) as (l1 & k & osg & l2 & s1 & t & r & El & Hs & He & Ep).
    pose proof (steps_same _ _ _ _ _ _ Hs) as (E1 & E2 & E3 & _).
    destruct He as [Hk Htx Hroot Ha (don & u & todo & Ec & Hp & Hu) Hsg Hst Hsame _].
    destruct Hsame as (F1 & F2 & F3 & F4 & F5 & F6 & F7 & F8 & F9 & F10).
    assert (Hval : live_value s' = live_value s1 - value don).
    { apply value_perm in Hp. rewrite value_app in Hp. unfold live_value. lia. }
    pose proof (value_nonneg don).
    exists l1, k, osg, l2, s1, t, r, don, u, todo.
    repeat (split; [ first [ assumption | congruence | lia ] |]). congruence.
  Qed.

  (** * C48 *)
  Definition slot (contract : pt) (r : F) (x : tx * (pt * option signature)) : option pt :=
    if authorised contract r (fst x) (snd x) then Some (fst (snd x)) else None.
  (** contents overwritten by the keys at the applied indices from [from] on *)
  Definition overlay (from : nat) (sg : list (option pt)) (c : contents signer_cfg) : contents signer_cfg :=
    fun i => if i <? Z.of_nat from then c i
             else match nth_error sg (Z.to_nat i) with Some (Some k) => k | _ => c i end.

  Lemma steps_signers contract n l s s' r : steps dbg contract n l s s' -> root (a_tx_tree s) = Ok r ->
    a_signers s' = a_signers s ++ map (slot contract r) (combine (skipn n (a_txs s)) l).
  Proof.
    induction 1 as [|n k osg l s s1 s' t r' H1 H2 IH]; intros Hroot.
    - destruct (skipn n (a_txs s)); cbn [combine map]; now rewrite app_nil_r.
    - assert (r' = r) by (pose proof (so_root _ _ _ _ _ _ _ _ _ H1); congruence). subst r'.
      rewrite (so_tx_tree _ _ _ _ _ _ _ _ _ H1), (so_txs _ _ _ _ _ _ _ _ _ H1) in IH.
      rewrite IH by exact Hroot. rewrite (so_signers _ _ _ _ _ _ _ _ _ H1), <- app_assoc.
      rewrite (nth_skipn n (a_txs s) t) by apply H1. reflexivity.
  Qed.

  Lemma steps_signer_tree contract n l s s' c0 r : steps dbg contract n l s s' -> root (a_tx_tree s) = Ok r ->
    Z.of_nat (length (a_signers s')) <= 4096 ->
    tree_holds dbg signer_cfg (a_signer_tree s) c0 ->
    tree_holds dbg signer_cfg (a_signer_tree s') (overlay (length (a_signers s)) (a_signers s') c0).
  Proof.
    intros H. revert c0. induction H as [n s|n k osg l s s1 s' t r' H1 H2 IH]; intros c0 Hroot Hlen Hh.
    - apply (tree_holds_ext dbg _ _ c0); auto. intros i Hi. unfold overlay.
      destruct (Z.ltb_spec i (Z.of_nat (length (a_signers s)))); auto.
      rewrite (proj2 (nth_error_None _ _)) by (unfold in_range in Hi; lia). reflexivity.
    - assert (r' = r) by (pose proof (so_root _ _ _ _ _ _ _ _ _ H1); congruence). subst r'.
      pose proof (steps_signers _ _ _ _ _ r H2) as Happ.
      rewrite (so_tx_tree _ _ _ _ _ _ _ _ _ H1) in Happ, IH. specialize (Happ Hroot).
      pose proof (so_signers _ _ _ _ _ _ _ _ _ H1) as Hs1.
      pose proof (so_signer_tree _ _ _ _ _ _ _ _ _ H1) as Ht.
      assert (Hl1 : length (a_signers s1) = S (length (a_signers s))) by (rewrite Hs1, app_length; cbn [length]; lia).
      assert (Hl : (S (length (a_signers s)) <= length (a_signers s'))%nat) by (rewrite Happ, app_length; lia).
      assert (Hin : in_range signer_cfg (Z.of_nat (length (a_signers s)))) by (unfold in_range; rewrite signer_capacity; lia).
      assert (exists c1, tree_holds dbg signer_cfg (a_signer_tree s1) c1 /\
        forall i, c1 i = if i =? Z.of_nat (length (a_signers s))
                         then (if authorised contract r t (k, osg) then k else c0 i) else c0 i) as (c1 & Hc1 & Ec1).
      { destruct (authorised contract r t (k, osg)).
        - destruct Ht as (pf & E). destruct (tree_holds_update dbg signer_cfg signer_cfg_ok _ _ _ k Hh Hin) as (t2 & pf2 & E2 & Hh2 & _).
          rewrite E in E2. injection E2 as <- _. exists (set_leaf c0 (Z.of_nat (length (a_signers s))) k). split; auto.
        - exists c0. rewrite Ht. split; auto. intros i. now destruct (i =? _). }
      specialize (IH c1 Hroot Hlen Hc1). rewrite Hl1 in IH.
      apply (tree_holds_ext dbg _ _ _ _) with (2 := IH). intros i Hi. unfold overlay. rewrite Ec1.
      destruct (Z.ltb_spec i (Z.of_nat (S (length (a_signers s))))) as [A|A];
      destruct (Z.ltb_spec i (Z.of_nat (length (a_signers s)))) as [B|B]; try lia.
      + destruct (Z.eqb_spec i (Z.of_nat (length (a_signers s)))); [ lia | reflexivity ].
      + assert (i = Z.of_nat (length (a_signers s))) by lia. subst i. rewrite Z.eqb_refl, Nat2Z.id.
        rewrite Happ, Hs1, <- app_assoc. rewrite nth_error_app2, Nat.sub_diag by lia. cbn [nth_error app].
        destruct (authorised contract r t (k, osg)); reflexivity.
      + destruct (Z.eqb_spec i (Z.of_nat (length (a_signers s)))); [ lia | reflexivity ].
  Qed.

  Lemma steps_ivc contract n l s s' : steps dbg contract n l s s' ->
    exists m, a_ivc s' = a_ivc s ++ m /\ length m = length l /\
      forall i k osg, nth_error l i = Some (k, osg) ->
        exists inp, nth_error m i = Some inp /\ nth_error (a_txs s) (n + i) = Some (i_tx inp) /\
          i_sender inp = k /\ i_sig inp = osig osg /\
          nth_error (a_tx_proofs s) (n + i) = Some (i_tx_proof inp).
  Proof.
    induction 1 as [n s|n k osg l s s1 s' t r' H1 H2 IH].
    - exists []. rewrite app_nil_r. split; auto. split; auto. intros [|i] k osg E; discriminate.
    - destruct IH as (m & Em & Hl & Hm). destruct (so_ivc _ _ _ _ _ _ _ _ _ H1) as (inp & Ei & I1 & I2 & I3 & I4).
      exists (inp :: m). rewrite Em, Ei, <- app_assoc. split; [ reflexivity |]. split; [ cbn [length]; congruence |].
      rewrite (so_txs _ _ _ _ _ _ _ _ _ H1), (so_tx_proofs _ _ _ _ _ _ _ _ _ H1) in Hm.
      intros [|i] k1 o1 E; cbn [nth_error] in *.
      + injection E as <- <-. exists inp. rewrite Nat.add_0_r. rewrite I1. split; auto. split; [ apply H1 |]. auto.
      + destruct (Hm i k1 o1 E) as (inp' & A). exists inp'. rewrite <- Nat.add_succ_comm. exact A.
  Qed.

  Theorem C48_signers contract s l s' r c0 : reached dbg s -> fits contract s l ->
    root (a_tx_tree s) = Ok r -> a_signers s = [] -> a_ivc s = [] -> Z.of_nat (length l) <= 4096 ->
    tree_holds dbg signer_cfg (a_signer_tree s) c0 ->
    process_signatures dbg s contract l = MOk s' tt ->
    (length l <= length (a_txs s))%nat /\
    length (a_signers s') = length l /\
    (forall i t k osg, nth_error (a_txs s) i = Some t -> nth_error l i = Some (k, osg) ->
       nth_error (a_signers s') i = Some (if authorised contract r t (k, osg) then Some k else None)) /\
    tree_holds dbg signer_cfg (a_signer_tree s')
      (fun i => match nth_error (a_signers s') (Z.to_nat i) with Some (Some k) => k | _ => c0 i end) /\
    length (ivc_inputs s') = length l /\
    (forall i k osg, nth_error l i = Some (k, osg) ->
       exists inp, nth_error (ivc_inputs s') i = Some inp /\ nth_error (a_txs s) i = Some (i_tx inp) /\
         i_sender inp = k /\ i_sig inp = osig osg /\ nth_error (a_tx_proofs s) i = Some (i_tx_proof inp)).
  Proof.
    intros Hr Hf Hroot Hs0 Hv0 Hlen Hh E. pose proof (run_ok dbg contract s l s' Hr Hf E) as HS.
    destruct (steps_ivc _ _ _ _ _ HS) as (m & Em & Hm & Hi). rewrite Hv0 in Em. cbn [app] in Em.
    pose proof (steps_signers _ _ _ _ _ r HS Hroot) as Hsg. rewrite Hs0 in Hsg. cbn [app skipn] in Hsg.
    assert (Hl : (length l <= length (a_txs s))%nat).
    { destruct (Nat.le_gt_cases (length l) (length (a_txs s))) as [A|A]; auto. exfalso.
      assert (Hx : (length (a_txs s) < length l)%nat) by lia. apply nth_error_Some in Hx.
      destruct (nth_error l (length (a_txs s))) as [[k o]|] eqn:En; [| tauto ].
      destruct (Hi _ _ _ En) as (inp & _ & F & _). cbn [plus] in F.
      rewrite (proj2 (nth_error_None (a_txs s) _)) in F by lia. discriminate. }
    assert (Hls : length (a_signers s') = length l).
    { rewrite Hsg, map_length, combine_length. lia. }
    split; [ exact Hl |]. split; [ exact Hls |]. split; [| split; [| split ] ].
    - intros i t k osg E1 E2. rewrite Hsg, nth_error_map.
      assert (Ec : nth_error (combine (a_txs s) l) i = Some (t, (k, osg))).
      { clear - E1 E2. revert i l E1 E2. induction (a_txs s) as [|x m IH]; intros [|i] [|y l] E1 E2; try discriminate.
        - cbn in *. congruence.
        - cbn [combine nth_error] in *. now apply IH. }
      rewrite Ec. reflexivity.
    - pose proof (steps_signer_tree _ _ _ _ _ c0 r HS Hroot) as Ht. rewrite Hls in Ht.
      specialize (Ht Hlen Hh). rewrite Hs0 in Ht. apply (tree_holds_ext dbg _ _ _ _) with (2 := Ht).
      intros i Hi'. unfold overlay. cbn [length]. destruct (Z.ltb_spec i (Z.of_nat 0)); [ unfold in_range in Hi'; lia | reflexivity ].
    - unfold ivc_inputs. now rewrite Em.
    - unfold ivc_inputs. rewrite Em. exact Hi.
  Qed.

  (** * C51 *)
  Theorem C51_replay contract s l1 l2 s1 s2 r : reached dbg s -> fits contract s l1 -> fits contract s1 l2 ->
    root (a_tx_tree s) = Ok r ->
    process_signatures dbg s contract l1 = MOk s1 tt ->
    process_signatures dbg s1 contract l2 = MOk s2 tt ->
    (* both calls run over the same transactions from the first one *)
    ledger contract (applied contract r (a_txs s) l1) (coins s) (coins s1) /\
    ledger contract (applied contract r (a_txs s) l2) (coins s1) (coins s2) /\
    a_txs s2 = a_txs s.
  Proof.
    intros Hr Hf1 Hf2 Hroot E1 E2.
    assert (Hr1 : reached dbg s1) by (eapply reached_sign; eauto; left; eauto).
    pose proof (run_ok dbg contract s l1 s1 Hr Hf1 E1) as S1. pose proof (run_ok dbg contract s1 l2 s2 Hr1 Hf2 E2) as S2.
    pose proof (steps_same _ _ _ _ _ _ S1) as (A1 & A2 & _). pose proof (steps_same _ _ _ _ _ _ S2) as (B1 & B2 & _).
    split; [ exact (C44_ledger dbg contract s l1 s1 r Hr Hf1 Hroot E1) |].
    split; [| congruence ].
    rewrite <- A1. apply (C44_ledger dbg contract s1 l2 s2 r Hr1 Hf2); auto. congruence.
  Qed.

  Lemma ledger_mint contract ts : (forall t, In t ts -> consumes contract t = []) -> forall c c',
    ledger contract ts c c' -> Permutation c' (c ++ flat_map (creates contract) ts).
  Proof.
    induction ts as [|t ts IH]; intros H c c' HL; inversion HL; subst.
    - cbn [flat_map]. rewrite app_nil_r. now symmetry.
    - match goal with X : apply_tx _ _ _ _ |- _ => destruct X as (rest & A & B) end.
      rewrite (H t (or_introl eq_refl)) in A. cbn [app] in A.
      match goal with X : ledger _ ts _ _ |- _ => rewrite (IH (fun t Ht => H t (or_intror Ht)) _ _ X) end. rewrite B. cbn [flat_map].
      rewrite A. now rewrite <- app_assoc.
  Qed.
  Lemma mint_ledger contract ts : (forall t, In t ts -> consumes contract t = []) -> forall c,
    exists c', ledger contract ts c c'.
  Proof.
    induction ts as [|t ts IH]; intros H c.
    - exists c. constructor. reflexivity.
    - destruct (IH (fun t Ht => H t (or_intror Ht)) (c ++ creates contract t)) as (c' & HL).
      exists c'. econstructor; [| exact HL ]. exists c. rewrite (H t (or_introl eq_refl)). split; reflexivity.
  Qed.
  Lemma applied_contract contract r txs : applied contract r txs (map (fun _ => (contract, None)) txs) = txs.
  Proof.
    unfold applied. induction txs as [|t txs IH]; [ reflexivity |]. cbn [map combine flat_map fst snd].
    unfold authorised at 1. cbn [fst snd]. rewrite pt_eqb_refl, orb_true_r. cbn [app]. now f_equal.
  Qed.

  (** Contract-sent transactions: a second call mints their outputs a second time. *)
  Theorem C51_double_mint contract s :
    let l := map (fun _ => (contract, None)) (a_txs s) in
    let minted := flat_map (creates contract) (a_txs s) in
    reached dbg s -> (forall t, In t (a_txs s) -> owned_by contract t) ->
    a_index s + 2 * Z.of_nat (length minted) <= capacity utxo_cfg ->
    Z.of_nat (length (a_signers s)) + 2 * Z.of_nat (length (a_txs s)) + 4096 < two64 ->
    exists s1 s2,
      process_signatures dbg s contract l = MOk s1 tt /\
      process_signatures dbg s1 contract l = MOk s2 tt /\
      Permutation (coins s2) (coins s ++ minted ++ minted) /\
      live_value s2 = live_value s + 2 * value minted.
  Proof.
    intros l minted Hr Ho Hcap Hsig. pose proof (reached_inv dbg s Hr) as HI.
    destruct (reach_root dbg s HI) as (r & Hroot).
    assert (Hap : applied contract r (a_txs s) l = a_txs s) by apply applied_contract.
    assert (Hcon : forall t, In t (a_txs s) -> consumes contract t = []).
    { intros t Ht. rewrite (owned_consumes contract contract t (Ho t Ht)), pt_eqb_refl. reflexivity. }
    assert (Hf : fits contract s l).
    { intros r' Hr'. rewrite Hroot in Hr'. injection Hr' as <-. rewrite Hap. fold minted. lia. }
    assert (Hll : length l = length (a_txs s)) by apply map_length.
    assert (Hno : no_overflow s l) by (split; lia).
    destruct (C44_succeeds_iff dbg contract s l r Hr Hf Hno Hroot) as [[_ H1] _].
    destruct H1 as (s1 & E1); [ rewrite Hap; now apply mint_ledger |].
    pose proof (run_ok dbg contract s l s1 Hr Hf E1) as S1.
    pose proof (steps_same _ _ _ _ _ _ S1) as (A1 & A2 & _).
    assert (Hr1 : reached dbg s1) by (eapply reached_sign; eauto; left; eauto).
    assert (Hroot1 : root (a_tx_tree s1) = Ok r) by congruence.
    assert (Hidx : a_index s1 = a_index s + Z.of_nat (length minted)).
    { clear - S1 Hroot Hap Hll. unfold minted. rewrite <- Hap at 1.
      assert (Hg : forall n m s s1, steps dbg contract n m s s1 -> root (a_tx_tree s) = Ok r ->
        a_index s1 = a_index s + Z.of_nat (length (flat_map (creates contract) (applied contract r (skipn n (a_txs s)) m)))).
      { clear. intros n m s s1 H. induction H as [n s|n k osg m s s0 s' t r' H1 H2 IH]; intros Hroot.
        - unfold applied. destruct (skipn n (a_txs s)); cbn [combine flat_map length]; lia.
        - assert (r' = r) by (pose proof (so_root _ _ _ _ _ _ _ _ _ H1); congruence). subst r'.
          rewrite (so_tx_tree _ _ _ _ _ _ _ _ _ H1), (so_txs _ _ _ _ _ _ _ _ _ H1) in IH.
          rewrite (IH Hroot), (so_index _ _ _ _ _ _ _ _ _ H1).
          rewrite (applied_cons _ _ _ _ t) by apply H1. rewrite flat_map_app, app_length.
          destruct (authorised contract r t (k, osg)); cbn [flat_map]; rewrite ?app_nil_r; cbn [length]; lia. }
      exact (Hg _ _ _ _ S1 Hroot). }
    assert (Hf1 : fits contract s1 l).
    { intros r' Hr'. rewrite Hroot1 in Hr'. injection Hr' as <-. rewrite A1, Hap. fold minted. lia. }
    assert (Hno1 : no_overflow s1 l).
    { split; [ rewrite A1; lia |]. rewrite (steps_len dbg _ _ _ _ _ S1). lia. }
    destruct (C44_succeeds_iff dbg contract s1 l r Hr1 Hf1 Hno1 Hroot1) as [[_ H2] _].
    destruct H2 as (s2 & E2); [ rewrite A1, Hap; now apply mint_ledger |].
    destruct (C51_replay contract s l l s1 s2 r Hr Hf Hf1 Hroot E1 E2) as (L1 & L2 & _).
    rewrite Hap in L1, L2.
    assert (HP : Permutation (coins s2) (coins s ++ minted ++ minted)).
    { rewrite (ledger_mint contract _ Hcon _ _ L2), (ledger_mint contract _ Hcon _ _ L1). fold minted. now rewrite app_assoc. }
    exists s1, s2. split; [ exact E1 |]. split; [ exact E2 |]. split; [ exact HP |].
    apply value_perm in HP. unfold live_value. rewrite HP, !value_app. lia.
  Qed.
End props.

Print Assumptions C46_conservation.
Print Assumptions C47_failure_not_atomic.
Print Assumptions C48_signers.
Print Assumptions C51_replay.
Print Assumptions C51_double_mint.

(** C116: the records rebuild the table of live coins, and a spend takes the newest copy of its coin. *)
From Coq Require Import ZArith List Bool Lia Permutation Sorted.
Import ListNotations.
From Verif Require Import Base Env Circuit SparseMT SparseMTSpec Data DataSpec DataFacts PropsData Schnorr SparseMTRep
  HMap Contract ContractSpec Aggregator AggSpec AggFacts AggSign AggIntake PropsIntake PropsSign PropsPad PropsRecord.
Open Scope Z_scope.

(** ** Specification *)
Section spec.
  Context {hs : Hashes} {G : Curve} (contract : pt) (r : F).
  (** A table of live coins: which coin is at which position of the coin tree. *)
  Definition table : Type := list (Z * utxo).
  (** The used slots of a record, with the positions recorded for them, in slot order. *)
  Definition used_slots (app : bool) (us : arr4 utxo) (ps : arr4 F) : list (F * utxo) :=
    filter (fun pu => slot_used contract app (snd pu)) (combine (a4_list ps) (a4_list us)).
  (** The coins are removed one after the other. Each is found at the position recorded for it, and no
      copy of it stands at a larger position: the newest copy is taken. *)
  Inductive takes : table -> list (F * utxo) -> table -> Prop :=
  | takes_nil T T' : Permutation T T' -> takes T [] T'
  | takes_cons T T1 p u l T' : Permutation T ((zval p, u) :: T1) ->
      (forall q, In (q, u) T -> q <= zval p) -> takes T1 l T' -> takes T ((p, u) :: l) T'.
  (** What one record does to the table. *)
  Definition replay_record (T : table) (inp : agg_inputs) (T' : table) : Prop :=
    let app := authorised contract r (i_tx inp) (i_sender inp, Some (i_sig inp)) in
    exists T1, takes T (used_slots app (inputs (i_tx inp)) (i_del_pos inp)) T1 /\
      Permutation T' (map (fun pu => (zval (fst pu), snd pu)) (used_slots app (outputs (i_tx inp)) (i_add_pos inp)) ++ T1).
  Inductive replay_records : table -> list agg_inputs -> table -> Prop :=
  | replay_none T T' : Permutation T T' -> replay_records T [] T'
  | replay_more T inp T1 l T' : replay_record T inp T1 -> replay_records T1 l T' -> replay_records T (inp :: l) T'.
End spec.

Section props.
  Context {hs : Hashes} {G : Curve} (dbg : bool) (contract : pt).

  Definition ordered (s : agg) : Prop :=
    forall u v, hget utxo_eqb (a_utxos s) u = Some v -> StronglySorted Z.lt v.
  Definition table_ok (s : agg) : Prop := (exists c w, CoinInv dbg s c w) /\ ordered s.

  Lemma sorted_snoc v i : StronglySorted Z.lt (v ++ [i]) <-> StronglySorted Z.lt v /\ Forall (fun x => x < i) v.
  Proof.
    induction v as [|a v IH]; cbn [app].
    - split; intros _; [ split; constructor | repeat constructor ].
    - split.
      + intros H. inversion H as [|? ? H1 H2]; subst. apply IH in H1 as [H1 H3].
        apply Forall_app in H2 as [H2 H4]. apply Forall_inv in H4. split; constructor; auto.
      + intros [H1 H2]. inversion H1 as [|? ? H3 H4]; subst. inversion H2 as [|? ? H5 H6]; subst.
        constructor; [ apply IH; now split |]. apply Forall_app. split; [ exact H4 | now constructor ].
  Qed.

  Lemma ordered_set s u v m t i : ordered s -> m = hset utxo_eqb (a_utxos s) u v -> StronglySorted Z.lt v ->
    ordered (with_coins s m t i).
  Proof.
    intros H -> Hv u' v' E. cbn [with_coins a_utxos] in E. destruct (utxo_eq_dec u' u) as [->|N].
    - rewrite (hget_hset_same utxo_eqb utxo_eqb_eq) in E. assert (v' = v) by congruence. now subst.
    - rewrite (hget_hset_other utxo_eqb utxo_eqb_eq) in E by auto. exact (H u' v' E).
  Qed.

  Lemma del_step s pos pf j u : table_ok s ->
    match delete_one dbg contract s (pos, pf) (j, u) with
    | MOk s' (pos', pf') => table_ok s' /\ a_index s' = a_index s /\
        if pt_eqb (pk u) contract then s' = s /\ pos' = pos
        else exists ix, 0 <= ix < a_index s /\ pos' = a4_set j (Fof ix) pos /\
               Permutation (positions s) ((ix, u) :: positions s') /\ forall q, In (q, u) (positions s) -> q <= ix
    | MErr s' _ => s' = s
    | MPanic => False
    end.
  Proof.
    intros ((c & w & HI) & HO). destruct (pt_eqb (pk u) contract) eqn:Ek.
    { rewrite delete_one_contract by now apply pt_eqb_eq. split; [ split; eauto |]. repeat split. }
    apply pt_eqb_neq in Ek.
    destruct (utxo_in_dec u (coins s)) as [Hu|Hu]; cycle 1.
    { destruct (delete_one_absent dbg contract s c w (pos, pf) j u HI Ek Hu) as [Ee|Ee]; rewrite Ee; reflexivity. }
    destruct (delete_one_present dbg contract s c w (pos, pf) j u HI Ek Hu) as (ix & s' & w' & Hin & E & Es & HP & HI').
    rewrite E. split; [ split; [ eauto |] |].
    - (* order *)
      unfold delete_one in E. rewrite (proj2 (pt_eqb_neq _ _) Ek) in E. cbn [negb] in E.
      destruct (hget utxo_eqb (a_utxos s) u) as [v|] eqn:Eg; [| discriminate E ].
      destruct (rev v) as [|i v'] eqn:Ev; [ discriminate E |].
      cbv zeta in E. cbn [a_utxo_tree with_coins] in E.
      destruct (update_and_prove dbg utxo_cfg (a_utxo_tree s) i utxo_dummy) as [tp|e|]; cbn [mlift mbind] in E; try discriminate E.
      match type of E with MOk ?x _ = _ => assert (E1 : s' = x) by congruence end. rewrite E1. cbn [a_utxos with_coins a_index].
      apply (ordered_set s u (rev v')); [ exact HO | reflexivity |].
      pose proof (HO u v Eg) as Hs. assert (Hv : v = rev v' ++ [i]) by (rewrite <- (rev_involutive v), Ev; reflexivity).
      rewrite Hv in Hs. exact (proj1 (proj1 (sorted_snoc _ _) Hs)).
    - split; [ rewrite Es; reflexivity |]. exists ix. split; [ exact (proj1 (ci_pos _ _ _ _ HI _ _ Hin)) |].
      split; [ reflexivity |]. split; [ exact HP |].
      intros q Hq. destruct (coin_hget _ _ _ (ci_keys _ _ _ _ HI) Hq) as (v & Eg & Hqv).
      unfold delete_one in E. rewrite (proj2 (pt_eqb_neq _ _) Ek), Eg in E. cbn [negb] in E.
      destruct (rev v) as [|i v'] eqn:Ev; [ discriminate E |].
      cbv zeta in E. cbn [a_utxo_tree with_coins] in E.
      destruct (update_and_prove dbg utxo_cfg (a_utxo_tree s) i utxo_dummy) as [tp|e|]; cbn [mlift mbind] in E; try discriminate E.
      assert (Hv : v = rev v' ++ [i]) by (rewrite <- (rev_involutive v), Ev; reflexivity).
      assert (HP2 : Permutation (positions s) ((i, u) :: positions s')).
      { match type of E with MOk ?x _ = _ => assert (E1 : s' = x) by congruence end. rewrite E1.
        apply (pop_positions (a_utxos s) u i v'). rewrite Eg, Hv. reflexivity. }
      assert (i = ix).
      { assert (X : In (i, u) ((ix, u) :: positions s')).
        { apply (Permutation_in _ HP). apply (Permutation_in _ (Permutation_sym HP2)). now left. }
        destruct X as [X|X]; [ now apply pair_equal_spec in X as [X _] |]. exfalso.
        pose proof (Permutation_NoDup (Permutation_map fst HP2) (ci_nodup _ _ _ _ HI)) as Hn.
        cbn [map fst] in Hn. apply NoDup_cons_iff in Hn as [Hn _]. apply Hn. apply in_map_iff. exists (i, u). split; [ reflexivity | exact X ]. }
      subst i. pose proof (HO u v Eg) as Hs. rewrite Hv in Hs, Hqv. apply sorted_snoc in Hs as [_ Hs].
      apply in_app_or in Hqv as [Hqv|[<-|[]]]; [| lia ]. rewrite Forall_forall in Hs. apply Hs in Hqv. lia.
  Qed.

  Lemma takes_perm T0 T l T' : Permutation T0 T -> takes T l T' -> takes T0 l T'.
  Proof.
    intros HP H. destruct H as [T T' H|T T1 p u l T' H1 H2 H3].
    - constructor. now rewrite HP.
    - apply (takes_cons T0 T1); [ now rewrite HP | intros q Hq; apply H2; now apply (Permutation_in _ HP) | exact H3 ].
  Qed.

  Lemma zval_pos ix : 0 <= ix <= capacity utxo_cfg -> zval (Fof ix) = ix.
  Proof.
    intros H. apply zval_Fof_small. assert (Hc31 : capacity utxo_cfg < two64) by reflexivity.
    pose proof two64_lt_p. split; [ lia |]. apply (Z.le_lt_trans _ (capacity utxo_cfg)); [ lia |]. now apply (Z.lt_trans _ two64).
  Qed.

  Definition slot_list (L : list (nat * utxo)) (ps : arr4 F) : list (F * utxo) :=
    map (fun ju => (nth (fst ju) (a4_list ps) Fzero, snd ju)) (filter (kept contract) L).
  Lemma nth_of_error {A} (l : list A) i d x : nth_error l i = x -> nth i l d = match x with Some y => y | None => d end.
  Proof. intros <-. revert i. induction l as [|a l IH]; intros [|i]; cbn; auto. Qed.

  Lemma del_loop L : forall s pos pf, table_ok s -> (forall j u, In (j, u) L -> (j < 4)%nat) -> NoDup (map fst L) ->
    match mfold (delete_one dbg contract) L s (pos, pf) with
    | MOk s' (pos', pf') => table_ok s' /\ a_index s' = a_index s /\ takes (positions s) (slot_list L pos') (positions s')
    | MErr s' _ => table_ok s' /\ a_index s' = a_index s
    | MPanic => False
    end.
  Proof.
    induction L as [|[j u] L IH]; intros s pos pf HT HL Hnd; cbn [mfold].
    { split; [ exact HT |]. split; [ reflexivity |]. constructor. reflexivity. }
    pose proof (del_step s pos pf j u HT) as H1.
    destruct (delete_one dbg contract s (pos, pf) (j, u)) as [s1 [pos1 pf1]|s1 e|] eqn:E1; cbn [mbind]; [| now subst s1 | exact H1 ].
    destruct H1 as (HT1 & I1 & H1). cbn [map fst] in Hnd. apply NoDup_cons_iff in Hnd as [Hnj Hnd].
    assert (HL1 : forall j0 u0, In (j0, u0) L -> (j0 < 4)%nat) by (intros j0 u0 X; apply (HL j0 u0); now right).
    specialize (IH s1 pos1 pf1 HT1 HL1 Hnd).
    destruct (mfold (delete_one dbg contract) L s1 (pos1, pf1)) as [s' [pos' pf']|s' e|] eqn:E2; [| split; [ apply IH | rewrite <- I1; apply IH ] | exact IH ].
    destruct IH as (HT' & I' & HK). split; [ exact HT' |]. split; [ congruence |].
    destruct (pt_eqb (pk u) contract) eqn:Ek.
    - destruct H1 as [-> ->]. unfold slot_list. cbn [filter]. unfold kept at 1. cbn [snd]. rewrite Ek. cbn [negb]. exact HK.
    - destruct H1 as (ix & Hix & Ep & HP & Hmax).
      unfold slot_list. cbn [filter]. unfold kept at 1. cbn [snd]. rewrite Ek. cbn [negb map fst snd].
      assert (Ex : nth j (a4_list pos') Fzero = Fof ix).
      { apply delete_slots in E2 as (_ & F2); [| exact HL1 ]. destruct (F2 j) as [F2' _].
        { intros u0 X. exfalso. apply Hnj. apply in_map_iff. exists (j, u0). split; [ reflexivity | exact X ]. }
        rewrite Ep in F2'. rewrite a4_set_same in F2' by (apply (HL j u); now left).
        now rewrite (nth_of_error _ _ Fzero _ F2'). }
      rewrite Ex. destruct HT as ((c & w & HI) & _).
      assert (Ez : zval (Fof ix) = ix) by (apply zval_pos; pose proof (ci_index _ _ _ _ HI); lia).
      apply (takes_cons _ (positions s1)); [ rewrite Ez; exact HP | intros q Hq; rewrite Ez; auto | exact HK ].
  Qed.

  Lemma add_loop_table k L : forall s pos pf w, table_ok s -> (forall j u, In (j, u) L -> (j < 4)%nat) -> NoDup (map fst L) ->
    a_index s + Z.of_nat (length (filter (kept contract) L)) <= capacity utxo_cfg ->
    match mfold (add_one dbg contract k) L s (pos, pf, w) with
    | MOk s' (pos', pf', w') => table_ok s' /\ a_index s' = a_index s + Z.of_nat (length (filter (kept contract) L)) /\
        Permutation (positions s') (map (fun pu => (zval (fst pu), snd pu)) (slot_list L pos') ++ positions s)
    | MErr _ _ => False
    | MPanic => True
    end.
  Proof.
    induction L as [|[j u] L IH]; intros s pos pf w HT HL Hnd Hcap; cbn [mfold].
    { split; [ exact HT |]. split; [ cbn; lia |]. reflexivity. }
    cbn [map fst] in Hnd. apply NoDup_cons_iff in Hnd as [Hnj Hnd].
    assert (HL1 : forall j0 u0, In (j0, u0) L -> (j0 < 4)%nat) by (intros j0 u0 X; apply (HL j0 u0); now right).
    destruct HT as ((c & wr & HI) & HO). cbn [filter] in Hcap |- *. unfold slot_list. cbn [filter].
    assert (Ekk : kept contract (j, u) = negb (pt_eqb (pk u) contract)) by reflexivity. rewrite Ekk in Hcap |- *. clear Ekk.
    destruct (pt_eqb (pk u) contract) eqn:Ek; cbn [negb] in Hcap |- *.
    - rewrite add_one_withdraw by now apply pt_eqb_eq.
      destruct (@add64 no_error dbg w (amount u)) as [w'|e|]; cbn [mbind]; [| exact I | exact I ].
      assert (Ei : a_index (logged contract k s u) = a_index s) by (unfold logged; now destruct (pt_eqb k contract)).
      assert (Ep : positions (logged contract k s u) = positions s) by (unfold logged; now destruct (pt_eqb k contract)).
      assert (Em : a_utxos (logged contract k s u) = a_utxos s) by (unfold logged; now destruct (pt_eqb k contract)).
      assert (HT1 : table_ok (logged contract k s u)).
      { split; [ exists c, wr; now apply coin_inv_logged |]. intros u' v'. rewrite Em. apply HO. }
      specialize (IH (logged contract k s u) pos pf w' HT1 HL1 Hnd). rewrite Ei, Ep in IH. exact (IH Hcap).
    - cbn [length] in Hcap. rewrite Nat2Z.inj_succ in Hcap.
      destruct (add_one_create dbg contract k s c wr pos pf w j u HI ltac:(now apply pt_eqb_neq) ltac:(lia)) as (s1 & w1 & E1 & Es & HP & HI1).
      rewrite E1. cbn [mbind].
      assert (I1 : a_index s1 = a_index s + 1) by (rewrite Es; reflexivity).
      assert (HO1 : ordered s1).
      { unfold add_one in E1. fold (logged contract k s u) in E1. rewrite Ek in E1. cbn [negb] in E1. cbv zeta in E1. cbn [a_utxo_tree with_coins] in E1.
        assert (Em : a_utxos (logged contract k s u) = a_utxos s) by (unfold logged; now destruct (pt_eqb k contract)).
        assert (Ei : a_index (logged contract k s u) = a_index s) by (unfold logged; now destruct (pt_eqb k contract)).
        assert (HO0 : ordered (logged contract k s u)) by (intros u' v'; rewrite Em; apply HO).
        set (s0 := logged contract k s u) in *. clearbody s0.
        destruct (update_and_prove dbg utxo_cfg (a_utxo_tree s0) (a_index s0) u) as [tp|e|]; cbn [mlift mbind] in E1; try discriminate E1.
        destruct (@uadd no_error dbg (a_index s0) 1) as [i'|e|]; try discriminate E1.
        match type of E1 with MOk ?x _ = _ => assert (E2 : s1 = x) by congruence end. rewrite E2. cbn [a_utxos with_coins a_index].
        apply (ordered_set s0 u (match hget utxo_eqb (a_utxos s0) u with Some v => v | None => [] end ++ [a_index s0])); [ exact HO0 | reflexivity |].
        apply sorted_snoc. destruct (hget utxo_eqb (a_utxos s0) u) as [v|] eqn:Eg; [| split; constructor ].
        split; [ exact (HO0 u v Eg) |]. apply Forall_forall. intros q Hq. rewrite Em in Eg.
        assert (X : In (q, u) (positions s)) by (apply (hget_coin _ _ v); auto).
        apply (ci_pos _ _ _ _ HI) in X as [X _]. lia. }
      specialize (IH s1 (a4_set j (Fof (a_index s)) pos) (a4_set j (sib_path 0 31 (digests c) (a_index s)) pf) w
                    (conj (ex_intro _ _ (ex_intro _ _ HI1)) HO1) HL1 Hnd ltac:(lia)).
      destruct (mfold (add_one dbg contract k) L s1 _) as [s' [[pos' pf'] w']|s' e|] eqn:E2; [| exact IH | exact I ].
      destruct IH as (HT' & I' & HP'). split; [ exact HT' |]. split; [ cbn [length]; lia |].
      assert (Ex : nth j (a4_list pos') Fzero = Fof (a_index s)).
      { pose proof (ci_index _ _ _ _ HI1). assert (capacity utxo_cfg = 2 ^ 31) by apply utxo_capacity.
        assert (Hlen : (length L <= 4)%nat).
        { rewrite <- (map_length fst). change 4%nat with (length (seq 0 4)). apply (NoDup_incl_length Hnd).
          intros x Hx. apply in_map_iff in Hx as ([j0 u0] & <- & Hx). apply in_seq. apply HL1 in Hx. cbn [fst]. lia. }
        apply add_slots in E2 as (_ & _ & F2); [| exact HL1 | exact Hnd | lia | unfold two64; lia ]. destruct (F2 j) as [F2' _].
        { intros u0 X. exfalso. apply Hnj. apply in_map_iff. exists (j, u0). split; [ reflexivity | exact X ]. }
        rewrite a4_set_same in F2' by (apply (HL j u); now left).
        now rewrite (nth_of_error _ _ Fzero _ F2'). }
      cbn [map fst snd app]. rewrite Ex, zval_pos by (pose proof (ci_index _ _ _ _ HI); lia).
      rewrite HP', HP. symmetry. apply Permutation_middle.
  Qed.

  Lemma slots_used_list us : forall ps n (g : nat -> F), length us = length ps -> (forall i, (i < length ps)%nat -> nth i ps Fzero = g (n + i)%nat) ->
    filter (fun pu : F * utxo => slot_used contract true (snd pu)) (combine ps us) =
    map (fun ju => (g (fst ju), snd ju)) (filter (kept contract) (filter (fun ju => negb (is_dummy (snd ju))) (combine (seq n (length us)) us))).
  Proof.
    induction us as [|u us IH]; intros [|x ps] n g Hl Hg; try discriminate Hl; [ reflexivity |].
    cbn [length seq combine fst snd filter].
    rewrite (IH ps (S n) g); [| cbn [length] in Hl; lia |].
    - unfold slot_used. cbn [andb]. destruct (is_dummy u); cbn [negb andb]; [ reflexivity |].
      cbn [filter]. change (kept contract (n, u)) with (negb (pt_eqb (pk u) contract)).
      destruct (pt_eqb (pk u) contract); cbn [negb map fst snd]; [ reflexivity |]. f_equal. f_equal.
      specialize (Hg 0%nat ltac:(cbn [length]; lia)). rewrite Nat.add_0_r in Hg. exact Hg.
    - intros i Hi. specialize (Hg (S i) ltac:(cbn [length]; lia)). cbn [nth] in Hg. rewrite Hg. f_equal. lia.
  Qed.
  Lemma used_slots_list us ps : used_slots contract true us ps = slot_list (enum_real us) ps.
  Proof.
    unfold used_slots, slot_list, enum_real, enum. apply (slots_used_list (a4_list us) (a4_list ps) 0 (fun i => nth i (a4_list ps) Fzero)); [ now destruct us, ps | intros i _; reflexivity ].
  Qed.
  Lemma used_slots_none us ps : used_slots contract false us ps = [].
  Proof. unfold used_slots. generalize (combine (a4_list ps) (a4_list us)) as l. induction l as [|x l IH]; [ reflexivity | exact IH ]. Qed.
  Lemma kept_creates t : length (filter (kept contract) (enum_real (outputs t))) = length (creates contract t).
  Proof.
    rewrite creates_eq, <- real_enum. generalize (enum_real (outputs t)) as l. induction l as [|[j u] l IH]; [ reflexivity |].
    cbn [filter map snd]. unfold kept at 1, noncontract at 1. cbn [snd]. destruct (negb (pt_eqb (pk u) contract)); cbn [length]; now rewrite IH.
  Qed.

  Lemma sign_one_table s i k osg t r : table_ok s -> nth_error (a_txs s) i = Some t -> root (a_tx_tree s) = Ok r ->
    (authorised contract r t (k, osg) = true -> a_index s + Z.of_nat (length (creates contract t)) <= capacity utxo_cfg) ->
    match sign_one dbg contract s tt (i, (k, osg)) with
    | MOk s' _ => table_ok s' /\ exists inp, a_ivc s' = a_ivc s ++ [inp] /\ replay_record contract r (positions s) inp (positions s')
    | MErr s' _ => table_ok s'
    | MPanic => True
    end.
  Proof.
    intros HT Et Er Hcap. unfold sign_one. rewrite Et, Er. cbv zeta.
    set (sg := match osg with Some sg => sg | None => sig_default end) in *.
    change (accepts contract r t k sg) with (authorised contract r t (k, osg)).
    assert (Ea' : authorised contract r t (k, Some sg) = authorised contract r t (k, osg)) by (unfold authorised, sg; now destruct osg).
    destruct (authorised contract r t (k, osg)) eqn:Ea.
    - specialize (Hcap eq_refl).
      destruct (update_and_prove dbg signer_cfg (a_signer_tree s) (Z.of_nat (length (a_signers s))) k) as [tp|e|]; cbn [mlift mbind]; [| | exact I ].
      2:{ exact HT. }
      set (s1 := with_signer s (fst tp) (Some k)).
      assert (HT1 : table_ok s1).
      { destruct HT as ((c & w & HI) & HO). split; [ exists c, w; now apply coin_inv_signer | exact HO ]. }
      pose proof (del_loop (enum_real (inputs t)) s1 (a4_const Fzero) (a4_const (default_two_paths utxo_cfg)) HT1
                    (enum_real_lt (inputs t)) (enum_real_nodup (inputs t))) as HD.
      destruct (mfold (delete_one dbg contract) _ _ _) as [s2 [dpos dpf]|s2 e|] eqn:Ed; cbn [mbind]; [| apply HD | exact I ].
      destruct HD as (HT2 & I2 & HK).
      assert (Hcap2 : a_index s2 + Z.of_nat (length (filter (kept contract) (enum_real (outputs t)))) <= capacity utxo_cfg).
      { rewrite I2, kept_creates. exact Hcap. }
      pose proof (add_loop_table k (enum_real (outputs t)) s2 (a4_const Fzero) (a4_const (default_two_paths utxo_cfg)) (u64of 0) HT2
                    (enum_real_lt (outputs t)) (enum_real_nodup (outputs t)) Hcap2) as HA.
      destruct (mfold (add_one dbg contract k) _ _ _) as [s3 [[apos apf] w]|s3 e|] eqn:Eadd; cbn [mbind]; [| destruct HA | exact I ].
      destruct HA as (HT3 & I3 & HP3).
      pose proof (delete_ivc _ _ _ _ _ _ _ Ed) as Vd. pose proof (add_ivc _ _ k _ _ _ _ _ Eadd) as Va.
      set (s4 := if 0 <? zval w then with_logs s3 (a_deposits s3) (a_withdrawals s3 ++ [(k, w)]) else s3) in *.
      assert (E4 : a_utxos s4 = a_utxos s3 /\ positions s4 = positions s3 /\ a_ivc s4 = a_ivc s3 /\ table_ok s4).
      { unfold s4. destruct (0 <? zval w); [| do 3 (split; [ reflexivity |]); exact HT3 ]. do 3 (split; [ reflexivity |]).
        destruct HT3 as ((c & wr & HI) & HO). split; [ exists c, wr; now apply coin_inv_logs | exact HO ]. }
      destruct E4 as (_ & P4 & V4 & HT4). clearbody s4.
      destruct (nth_error (a_tx_proofs s4) i) as [tpf|] eqn:Ep; [| exact I ].
      match goal with |- table_ok (with_ivc _ ?x) /\ _ => set (inp := x) in * end.
      split.
      + destruct HT4 as ((c & wr & HI) & HO). split; [ exists c, wr; now apply coin_inv_ivc | exact HO ].
      + exists inp. split; [ cbn [with_ivc a_ivc]; rewrite V4, Va, Vd; reflexivity |].
        change (positions (with_ivc s4 inp)) with (positions s4). rewrite P4.
        unfold replay_record. cbv zeta. cbn [inp i_tx i_sender i_sig i_add_pos i_del_pos]. rewrite Ea', !used_slots_list.
        exists (positions s2). split; [ exact HK | exact HP3 ].
    - cbn [mbind with_signer a_tx_proofs]. destruct (nth_error (a_tx_proofs s) i) as [tpf|] eqn:Ep; [| exact I ].
      match goal with |- table_ok (with_ivc ?y ?x) /\ _ => set (inp := x) in *; set (s1 := y) in * end.
      split.
      + destruct HT as ((c & w & HI) & HO). split; [ exists c, w; apply coin_inv_ivc; now apply coin_inv_signer | exact HO ].
      + exists inp. split; [ reflexivity |]. change (positions (with_ivc s1 inp)) with (positions s).
        unfold replay_record. cbv zeta. cbn [inp i_tx i_sender i_sig i_add_pos i_del_pos]. rewrite Ea', !used_slots_none.
        exists (positions s). split; [ now constructor | reflexivity ].
  Qed.

  Lemma run_table r l : forall n s, table_ok s -> root (a_tx_tree s) = Ok r ->
    a_index s + Z.of_nat (length (flat_map (creates contract) (applied contract r (skipn n (a_txs s)) l))) <= capacity utxo_cfg ->
    match mfold (sign_one dbg contract) (combine (seq n (length l)) l) s tt with
    | MOk s' _ => table_ok s' /\ exists new, a_ivc s' = a_ivc s ++ new /\ replay_records contract r (positions s) new (positions s')
    | MErr s' _ => table_ok s'
    | MPanic => True
    end.
  Proof.
    induction l as [|[k osg] l IH]; intros n s HT Hr Hcap; cbn [length seq combine mfold].
    - split; [ exact HT |]. exists []. rewrite app_nil_r. split; [ reflexivity | now constructor ].
    - destruct (nth_error (a_txs s) n) as [t|] eqn:Et.
      2:{ unfold sign_one. rewrite Et. exact I. }
      rewrite (applied_cons _ _ _ _ t) in Hcap by auto. rewrite flat_map_app, app_length in Hcap.
      assert (Hc1 : authorised contract r t (k, osg) = true -> a_index s + Z.of_nat (length (creates contract t)) <= capacity utxo_cfg).
      { intros Ea. rewrite Ea in Hcap. cbn [flat_map] in Hcap. rewrite app_nil_r in Hcap. lia. }
      pose proof (sign_one_table s n k osg t r HT Et Hr Hc1) as H1.
      destruct HT as ((c & w & HI) & _).
      pose proof (sign_one_spec dbg contract s c w n k osg HI) as H2.
      destruct (sign_one dbg contract s tt (n, (k, osg))) as [s1 []|s1 e|] eqn:E1; cbn [mbind]; [| exact H1 | exact I ].
      destruct H1 as (HT1 & inp & Ei & HR). destruct H2 as (t' & r' & H2).
      { intros t' r' Et' Er'. assert (t' = t) by congruence. assert (r' = r) by congruence. subst. exact Hc1. }
      assert (t' = t) by (pose proof (so_tx _ _ _ _ _ _ _ _ _ H2); congruence).
      assert (r' = r) by (pose proof (so_root _ _ _ _ _ _ _ _ _ H2); congruence). subst t' r'.
      specialize (IH (S n) s1 HT1).
      rewrite (so_tx_tree _ _ _ _ _ _ _ _ _ H2), (so_txs _ _ _ _ _ _ _ _ _ H2) in IH. specialize (IH Hr).
      rewrite (so_index _ _ _ _ _ _ _ _ _ H2) in IH.
      match type of IH with ?A -> _ => assert (Hc2 : A) end.
      { destruct (authorised contract r t (k, osg)); cbn [flat_map length app] in Hcap |- *; rewrite ?app_nil_r in Hcap; lia. }
      specialize (IH Hc2). destruct (mfold _ (combine (seq (S n) (length l)) l) s1 tt) as [s' []|s' e|]; [| exact IH | exact I ].
      destruct IH as (HT' & new & Ei' & HR'). split; [ exact HT' |]. exists (inp :: new).
      split; [ rewrite Ei', Ei, <- app_assoc; reflexivity |]. exact (replay_more _ _ _ _ _ _ _ HR HR').
  Qed.
End props.

Section reached.
  Context {hs : Hashes} {G : Curve} (dbg : bool).
  Lemma table_new : table_ok dbg agg_new.
  Proof. split; [ exists (empty_contents utxo_cfg), (fun _ => false); apply coin_inv_new | intros u v H; discriminate H ]. Qed.

  Lemma reached_table s : reached dbg s -> table_ok dbg s.
  Proof.
    induction 1 as [|s l s' Hr IH Hl|s contract l s' Hr IH Hf Hl|s Hr IH].
    - apply table_new.
    - pose proof (intake_run dbg l s (ri_epoch _ _ (reached_inv dbg s Hr))) as HR.
      assert (Hs : same_but_intake s s').
      { destruct Hl as [[a E]|[e E]]; rewrite E in HR; [ apply HR |].
        destruct HR as (l1 & k & x & l2 & _ & _ & _ & _ & _ & _ & B). exact B. }
      destruct IH as ((c & w & HI) & HO). split; [ exists c, w; now apply (coin_inv_intake dbg s) |].
      intros u v. destruct Hs as (E1 & _). rewrite E1. apply HO.
    - destruct (reach_root dbg s (reached_inv dbg s Hr)) as (r & Hroot).
      pose proof (run_table dbg contract r l 0 s IH Hroot (Hf r Hroot)) as HT.
      unfold process_signatures in Hl.
      destruct Hl as [(x & Hl)|(e & Hl)]; unfold enum in Hl; rewrite Hl in HT; [ apply HT | exact HT ].
    - destruct IH as ((c & w & HI) & HO). split; [ exists c, w; destruct HI; constructor; auto | exact HO ].
  Qed.

  (** C116. The records a successful call adds rebuild the table of live coins: starting from the table
      before the call, every applied transaction removes the coins it spends, in slot order, each at the
      position recorded for it, which is that of the newest copy, and adds its new coins at the positions recorded for
      them; the result is the table after the call. *)
  Theorem C116_records contract s l s' r : reached dbg s -> root (a_tx_tree s) = Ok r -> fits contract s l ->
    process_signatures dbg s contract l = MOk s' tt ->
    exists new, ivc_inputs s' = ivc_inputs s ++ new /\ replay_records contract r (positions s) new (positions s').
  Proof.
    intros Hr Hroot Hf H. pose proof (run_table dbg contract r l 0 s (reached_table s Hr) Hroot (Hf r Hroot)) as HT.
    unfold process_signatures, enum in H. rewrite H in HT. apply HT.
  Qed.

  (** The table before the call and the coins spent determine the positions recorded for them and the
      table that is left. *)
  Theorem C116_newest (T : table) l1 l2 T1 T2 : takes T l1 T1 -> takes T l2 T2 -> map snd l1 = map snd l2 ->
    l1 = l2 /\ Permutation T1 T2.
  Proof.
    intros H. revert l2 T2. induction H as [T T' H|T T1 p u l T' HP Hmax H IH]; intros l2 T2 H2 E.
    - destruct l2; [| discriminate E ]. inversion H2 as [? ? H0|]; subst. split; [ reflexivity |]. now rewrite <- H, H0.
    - destruct l2 as [|[p2 u2] l2]; [ discriminate E |]. cbn [map snd] in E.
      assert (u2 = u) by congruence. assert (El : map snd l = map snd l2) by congruence. subst u2. clear E.
      inversion H2 as [|? T3 ? ? ? ? HP2 Hmax2 H3]; subst.
      assert (Ep : p2 = p).
      { apply zval_F. apply Z.le_antisymm.
        - apply Hmax. apply (Permutation_in _ (Permutation_sym HP2)). now left.
        - apply Hmax2. apply (Permutation_in _ (Permutation_sym HP)). now left. }
      subst p2. assert (HP3 : Permutation T1 T3) by (apply (Permutation_cons_inv (a := (zval p, u))); now rewrite <- HP, HP2).
      destruct (IH l2 T2) as [-> HP4]; [ now apply (takes_perm T1 T3) | exact El |]. now split.
  Qed.
  (** The records determine the table. *)
  Theorem C116_determined contract r (T : table) new T1 T2 :
    replay_records contract r T new T1 -> replay_records contract r T new T2 -> Permutation T1 T2.
  Proof.
    intros H. assert (HT : Permutation T T) by reflexivity. revert HT T2. generalize T at 2 3 as T0.
    induction H as [T T' H|T inp Ta l T' HR H IH]; intros T0 HT T2 H2.
    - inversion H2; subst. now rewrite <- H, HT.
    - inversion H2 as [|? ? Tb ? ? HR2 H3]; subst. apply (IH Tb); [| exact H3 ].
      destruct HR as (Tc & HK & HP). destruct HR2 as (Td & HK2 & HP2). rewrite HP, HP2. apply Permutation_app_head.
      exact (proj2 (C116_newest _ _ _ _ _ HK (takes_perm _ _ _ _ HT HK2) eq_refl)).
  Qed.
End reached.

Print Assumptions C116_records.
Print Assumptions C116_newest.
Print Assumptions C116_determined.

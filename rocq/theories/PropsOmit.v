(** Property C112: a client proof cannot show that a transaction was left out. *)
From Coq Require Import ZArith List Bool Lia Sorted.
Import ListNotations.
From Verif Require Import Base Env Circuit SparseMT SparseMTSpec Data DataSpec AggCircuit AggCircuitSpec
  Client ClientSpec ClientFacts PropsClient PropsClient2.
Open Scope Z_scope.

Section props.
  Context {hs : Hashes} {G : Curve}.

  (** the same step, in which any of the transactions may have been replaced by the default one: same
      block, key, paths and indices *)
  Record thinned (a b : user_auxV) : Prop :=
    { th_block : ux_block b = ux_block a; th_pk : ux_pk b = ux_pk a;
      th_tx_proofs : ux_tx_proofs b = ux_tx_proofs a; th_signer_proofs : ux_signer_proofs b = ux_signer_proofs a;
      th_txs : Forall2 (fun x y => y = x \/ y = (tx_alloc tx_default, snd x)) (ux_txs a) (ux_txs b) }.

  (** what a step credits when only the transactions that bring something are counted *)
  Definition step_received (a : user_auxV) : Z :=
    zsumm (map (fun t => Z.max 0 (gain (ux_pk a) t)) (transactions a)).

  Definition behind (s t : ustate) : Prop :=
    us_pk t = us_pk s /\ us_acc t = us_acc s /\ us_block t = us_block s /\ us_height t = us_height s /\
    zval (us_index t) <= zval (us_index s).

  Lemma thin_nth {A} (R : A -> A -> Prop) l l' : Forall2 R l l' ->
    forall n y, nth_error l' n = Some y -> exists x, nth_error l n = Some x /\ R x y.
  Proof.
    induction 1 as [|x y l l' Hxy Hl IH]; intros [|n] z Hz; cbn in *; try discriminate.
    - exists x. split; [ reflexivity |]. congruence.
    - exact (IH n z Hz).
  Qed.

  Lemma thin_indices l l' : Forall2 (fun x y : txV * F => y = x \/ y = (tx_alloc tx_default, snd x)) l l' ->
    forall i j, i <= j ->
      StronglySorted Z.lt (j :: map (fun ti => zval (snd ti)) (filter (fun ti => regular (fst ti)) l)) ->
      StronglySorted Z.lt (i :: map (fun ti => zval (snd ti)) (filter (fun ti => regular (fst ti)) l')) /\
      last (map (fun ti => zval (snd ti)) (filter (fun ti => regular (fst ti)) l')) i <=
      last (map (fun ti => zval (snd ti)) (filter (fun ti => regular (fst ti)) l)) j.
  Proof.
    induction 1 as [|x y l l' Hxy Hl IH]; intros i j Hij Hs.
    - cbn. split; [ repeat constructor | exact Hij ].
    - assert (Hlast : forall (m : list Z) d e, last (d :: m) e = last m d).
      { induction m as [|c m IHm]; intros d e; [ reflexivity |].
        change (last (d :: c :: m) e) with (last (c :: m) e). rewrite !IHm. reflexivity. }
      destruct Hxy as [-> | ->].
      + cbn [filter] in *. destruct (regular (fst x)) eqn:Er; [| exact (IH i j Hij Hs) ].
        cbn [map] in *. inversion Hs as [|? ? Hs' Hall]; subst.
        destruct (IH (zval (snd x)) (zval (snd x)) (Z.le_refl _) Hs') as [S1 S2].
        rewrite !Hlast. split; [| exact S2 ]. constructor; [ exact S1 |].
        assert (Hx : i < zval (snd x)) by exact (Z.le_lt_trans _ _ _ Hij (Forall_inv Hall)).
        constructor; [ exact Hx |]. inversion S1 as [|? ? _ Hall']; subst.
        eapply Forall_impl; [| exact Hall' ]. intros c Hc. exact (Z.lt_trans _ _ _ Hx Hc).
      + change (filter (fun ti => regular (fst ti)) ((tx_alloc tx_default, snd x) :: l'))
          with (if regular (tx_alloc tx_default) then (tx_alloc tx_default, snd x) :: filter (fun ti => regular (fst ti)) l'
                else filter (fun ti => regular (fst ti)) l').
        rewrite default_not_regular. cbn [filter] in *. destruct (regular (fst x)) eqn:Er; [| exact (IH i j Hij Hs) ].
        cbn [map] in *. inversion Hs as [|? ? Hs' Hall]; subst. rewrite Hlast. apply IH; [| exact Hs' ].
        exact (Z.le_trans _ _ _ Hij (Z.lt_le_incl _ _ (Forall_inv Hall))).
  Qed.

  Lemma thin_step acc N s t a b :
    behind s t -> thinned a b -> step_conditions N s a ->
    step_conditions N t b /\ behind (step_result acc s a) (step_result acc t b).
  Proof.
    intros (P1 & P2 & P3 & P4 & P5) [T1 T2 T3 T4 T5] C.
    assert (Eb : step_block b = step_block a) by (unfold step_block; now rewrite T1).
    assert (Ei : zval (start_index t b) <= zval (start_index s a)).
    { unfold start_index. rewrite P3, Eb. destruct (Feqb _ _); [ exact P5 | apply Z.le_refl ]. }
    pose proof (index_after acc N s a C) as Ia.
    destruct C as ((L1 & L2 & L3) & H1 & H2 & H2' & H3 & H4 & H5).
    assert (Ss : StronglySorted Z.lt (zval (start_index s a) :: indices a)) by (apply sorted_strong; exact H4).
    destruct (thin_indices _ _ T5 _ _ Ei Ss) as [S1 S2].
    assert (Cb : step_conditions N t b).
    { unfold step_conditions. split.
      { unfold lengths_ok in *. rewrite T3, T4. split; [ exact L1 |]. split; [| exact L3 ].
        rewrite <- L2. clear -T5. induction T5; cbn [length]; [ reflexivity | now f_equal ]. }
      rewrite T2, P1, P4. unfold step_height in *. rewrite T1.
      split; [ exact H1 |]. split; [ exact H2 |]. split; [ exact H2' |].
      split; [ intros Hn; specialize (H3 Hn); lia |].
      split; [ apply StronglySorted_Sorted; exact S1 |].
      intros n u i tp sp (N1 & N2 & N3). rewrite T3 in N2. rewrite T4 in N3.
      destruct (thin_nth _ _ _ T5 n _ N1) as ([u0 i0] & N0 & [E|E]).
      - apply pair_equal_spec in E as [-> ->]. exact (H5 n u0 i0 tp sp (conj N0 (conj N2 N3))).
      - apply pair_equal_spec in E as [-> ->]. cbn [snd].
        destruct (H5 n u0 i0 tp sp (conj N0 (conj N2 N3))) as (Q1 & Q2 & Q3 & _).
        split; [ exact Q1 |]. split; [ exact Q2 |]. split; [ exact Q3 |].
        rewrite default_not_regular. discriminate. }
    split; [ exact Cb |]. pose proof (index_after acc N t b Cb) as Ib.
    unfold behind. rewrite Ia, Ib. unfold step_result. cbn [us_pk us_acc us_block us_height].
    rewrite P1, P2, Eb, T1. split; [ reflexivity |]. split; [ reflexivity |]. split; [ reflexivity |].
    split; [ reflexivity | exact S2 ].
  Qed.

  (** Any of the transactions of an accepted run can be left out: the run is still accepted, ends at
      the same block, height, accumulator and key, and has the balance that counts only the
      transactions that were kept. *)
  Theorem C112_omit acc N l : forall l' s t z',
    us_pk t = us_pk s -> us_acc t = us_acc s -> us_block t = us_block s -> us_height t = us_height s ->
    zval (us_index t) <= zval (us_index s) ->
    urun acc N (u_list s) l z' -> Forall2 thinned l l' ->
    exists s' t', z' = u_list s' /\ urun acc N (u_list t) l' (u_list t') /\
      us_pk t' = us_pk s' /\ us_acc t' = us_acc s' /\ us_block t' = us_block s' /\ us_height t' = us_height s' /\
      zval (us_index t') <= zval (us_index s') /\
      zval (us_balance t') = (zval (us_balance t) + zsumm (map step_gain l')) mod p.
  Proof.
    induction l as [|a l IH]; intros l' s t z' P1 P2 P3 P4 P5 H T.
    - inversion T; subst. apply urun_nil_inv in H as ->. exists s, t. split; [ reflexivity |]. split; [ constructor |].
      cbn [map zsumm]. rewrite Z.add_0_r, Z.mod_small by apply F_range. auto 10.
    - inversion T as [|? b ? l0 Tab Tl]; subst. apply urun_inv in H as [C H].
      destruct (thin_step acc N s t a b (conj P1 (conj P2 (conj P3 (conj P4 P5)))) Tab C)
        as (Cb & Q1 & Q2 & Q3 & Q4 & Q5).
      destruct (IH l0 _ _ _ Q1 Q2 Q3 Q4 Q5 H Tl) as (s' & t' & -> & R & R1 & R2 & R3 & R4 & R5 & B).
      exists s', t'. split; [ reflexivity |].
      split; [ econstructor; [ apply satisfied_state; split; [ exact Cb | reflexivity ] | exact R ] |].
      split; [ exact R1 |]. split; [ exact R2 |]. split; [ exact R3 |]. split; [ exact R4 |]. split; [ exact R5 |].
      unfold step_result in B. cbn [us_balance] in B. rewrite zval_Fof, Zplus_mod_idemp_l in B.
      cbn [map zsumm]. rewrite B. f_equal. lia.
  Qed.

  (** In particular, the transactions that lower the balance can all be left out: whoever can prove
      a balance can prove, for the same blocks, everything received and nothing spent. *)
  Definition only_gains (a : user_auxV) : user_auxV :=
    {| ux_tx_proofs := ux_tx_proofs a; ux_signer_proofs := ux_signer_proofs a; ux_block := ux_block a;
       ux_txs := map (fun x => if gain (ux_pk a) (fst x) <? 0 then (tx_alloc tx_default, snd x) else x) (ux_txs a);
       ux_pk := ux_pk a |}.
  Lemma only_gains_thinned a : thinned a (only_gains a).
  Proof.
    constructor; try reflexivity. unfold only_gains. cbn [ux_txs].
    induction (ux_txs a) as [|x l IH]; cbn [map]; constructor; [| exact IH ].
    destruct (_ <? 0); [ right | left ]; reflexivity.
  Qed.
  Lemma only_gains_gain a : step_gain (only_gains a) = step_received a.
  Proof.
    unfold step_gain, step_received, transactions, only_gains. cbn [ux_txs ux_pk].
    induction (ux_txs a) as [|x l IH]; [ reflexivity |]. cbn [map zsumm]. rewrite IH. f_equal.
    destruct (Z.ltb_spec (gain (ux_pk a) (fst x)) 0) as [E|E].
    - cbn [fst]. rewrite gain_default. lia.
    - lia.
  Qed.

  Corollary C112_received acc N l s z' :
    urun acc N (u_list s) l z' ->
    exists l' s' t', z' = u_list s' /\ Forall2 thinned l l' /\ urun acc N (u_list s) l' (u_list t') /\
      us_pk t' = us_pk s' /\ us_acc t' = us_acc s' /\ us_block t' = us_block s' /\ us_height t' = us_height s' /\
      zval (us_balance t') = (zval (us_balance s) + zsumm (map step_received l)) mod p /\
      zval (us_balance s') = (zval (us_balance s) + zsumm (map step_gain l)) mod p.
  Proof.
    intros H. assert (T : Forall2 thinned l (map only_gains l)).
    { clear. induction l as [|a l IH]; cbn [map]; constructor; [ apply only_gains_thinned | exact IH ]. }
    destruct (C64_balance acc N l s z' H) as (s0 & E0 & B0 & _).
    destruct (C112_omit acc N l _ s s z' eq_refl eq_refl eq_refl eq_refl (Z.le_refl _) H T)
      as (s' & t' & -> & R & R1 & R2 & R3 & R4 & _ & B).
    exists (map only_gains l), s', t'. split; [ reflexivity |]. split; [ exact T |]. split; [ exact R |].
    split; [ exact R1 |]. split; [ exact R2 |]. split; [ exact R3 |]. split; [ exact R4 |].
    split.
    - rewrite B. do 2 f_equal. rewrite map_map. f_equal. apply map_ext. exact only_gains_gain.
    - apply u_list_inj in E0 as ->. exact B0.
  Qed.
End props.

Print Assumptions C112_omit.
Print Assumptions C112_received.

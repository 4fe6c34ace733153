(** The gadgets compute what the native verifiers compute. *)
From Coq Require Import ZArith List Bool Lia.
Import ListNotations.
From Verif Require Import Base Env Circuit SparseMT SparseMTSpec SparseMTHeap SparseMTRep SparseMTNew
  SparseMTProofs SparseMTGadget.
Open Scope Z_scope.

Lemma odd_even_neg z : Z.odd z = negb (Z.even z).
Proof. now rewrite Z.negb_even. Qed.
Lemma div2_2 z : Z.div2 z = z / 2.
Proof. apply Z.div2_div. Qed.

Lemma sat_cassert_bind {A} b (k : circ A) a :
  sat (cbind (cassert b) (fun _ => k)) a <-> b = true /\ sat k a.
Proof. destruct b; cbn; intuition congruence. Qed.
Lemma honest_cassert_bind {A} b (k : circ A) :
  honest (cbind (cassert b) (fun _ => k)) = if b then honest k else None.
Proof. destruct b; reflexivity. Qed.

Section loops.
  Context {hs : Hashes}.
  Lemma membership_loop_sat path en : forall prev y,
    sat (membership_loop path prev en) y ->
    en = true -> verify_loop path prev = Some y.
  Proof.
    induction path as [|[l r] path IH]; intros prev y H Hen; cbn [membership_loop verify_loop] in *.
    - cbn in H. congruence.
    - cbn [cbind witness] in H. destruct H as (b & H).
      apply sat_bind in H as (u & H1 & H2). rewrite sat_cond_enforce in H1. specialize (H1 Hen).
      rewrite (IH _ _ H2 Hen). apply Feqb_eq in H1. subst prev.
      destruct b; cbn [sel]; rewrite Feqb_refl; cbn [negb andb]; rewrite ?andb_false_r; reflexivity.
  Qed.
  Lemma membership_loop_honest path en : forall prev,
    exists y ok, honest (membership_loop path prev en) = Some (ok, y) /\
      (en = false -> ok = true) /\
      (en = true -> match verify_loop path prev with Some z => ok = true /\ y = z | None => ok = false end).
  Proof.
    induction path as [|[l r] path IH]; intros prev; cbn [membership_loop verify_loop].
    - exists prev, true. cbn. auto.
    - cbn [cbind witness honest]. rewrite honest_bind, honest_cond_enforce.
      destruct (IH (two l r)) as (y & ok & -> & H1 & H2).
      eexists y, _. split; [ reflexivity |]. split.
      + intros Hen. specialize (H1 Hen). subst. reflexivity.
      + intros Hen. specialize (H2 Hen). subst en. cbn [negb orb].
        destruct (Feqb prev l) eqn:El; cbn [sel negb andb].
        * rewrite El. cbn [andb]. exact H2.
        * destruct (Feqb prev r) eqn:Er; cbn [negb andb]; auto.
  Qed.
  Lemma index_loop_sat path en : forall n z prev y, (length path <= n)%nat ->
    sat (index_loop path (bits_le n z) prev en) y <->
    (y = fold_left (fun _ lr => two (fst lr) (snd lr)) path prev /\
     (en = true -> chain path z prev = Some y)).
  Proof.
    induction path as [|[l r] path IH]; intros n z prev y Hn; cbn [index_loop chain fold_left fst snd].
    - cbn. intuition congruence.
    - destruct n as [|n]; [ cbn in Hn; lia |]. cbn [bits_le]. cbn [length] in Hn.
      rewrite sat_bind. rewrite odd_even_neg, negb_involutive, div2_2. split.
      + intros (u & H1 & H2). rewrite sat_cond_enforce in H1. apply IH in H2 as [-> H2]; [| lia ].
        split; auto. intros Hen. specialize (H1 Hen). rewrite H2 by auto.
        unfold sel in H1. now rewrite H1.
      + intros [Hy H]. exists tt. split.
        * apply sat_cond_enforce. intros Hen. specialize (H Hen). unfold sel.
          destruct (Feqb prev (if Z.even z then l else r)); auto; discriminate.
        * apply IH; [ lia |]. split; auto. intros Hen. specialize (H Hen).
          destruct (Feqb prev (if Z.even z then l else r)); auto; discriminate.
  Qed.
  Lemma index_loop_honest path en : forall n z prev, (length path <= n)%nat ->
    exists ok, honest (index_loop path (bits_le n z) prev en)
      = Some (ok, fold_left (fun _ lr => two (fst lr) (snd lr)) path prev) /\
      (ok = true <-> (en = true -> chain path z prev <> None)).
  Proof.
    induction path as [|[l r] path IH]; intros n z prev Hn; cbn [index_loop chain fold_left fst snd].
    - exists true. cbn. split; auto. split; auto. intros _ _; congruence.
    - destruct n as [|n]; [ cbn in Hn; lia |]. cbn [bits_le]. cbn [length] in Hn.
      rewrite honest_bind, honest_cond_enforce. rewrite odd_even_neg, negb_involutive, div2_2.
      destruct (IH n (z / 2) (two l r) ltac:(lia)) as (ok & -> & Hk).
      eexists; split; [ reflexivity |]. unfold sel.
      destruct (Feqb prev (if Z.even z then l else r)); destruct en; cbn [negb orb andb]; auto;
        (split; intros G; [ try congruence | try (exfalso; now apply (G eq_refl)) ]);
        apply Hk; congruence.
  Qed.
  Lemma chain_last path : forall z prev y, chain path z prev = Some y ->
    y = fold_left (fun _ lr => two (fst lr) (snd lr)) path prev.
  Proof.
    induction path as [|[l r] path IH]; intros z prev y H; cbn in *; [ congruence |].
    destruct (Feqb prev (if Z.even z then l else r)); [| discriminate ]. eauto.
  Qed.
  Lemma chain_mod path : forall n z prev, length path = n ->
    chain path (z mod pw n) prev = chain path z prev.
  Proof.
    induction path as [|[l r] path IH]; intros n z prev Hn; auto.
    destruct n as [|n]; [ discriminate |]. cbn [length] in Hn. injection Hn as Hn.
    cbn [chain]. pose proof (pw_pos n).
    assert (E : Z.even (z mod pw (S n)) = Z.even z).
    { rewrite <- !Z.negb_odd. f_equal. rewrite <- !Z.bit0_odd. unfold pw.
      apply Z.mod_pow2_bits_low. lia. }
    rewrite E. destruct (Feqb prev (if Z.even z then l else r)); auto.
    rewrite <- (IH n (z / 2)) by auto. f_equal.
    rewrite pw_S, Z.rem_mul_r by lia.
    rewrite (Z.mul_comm 2), Z.div_add by lia.
    rewrite Z.div_small; [ lia |]. apply Z.mod_pos_bound; lia.
  Qed.
  Lemma update_loop_eq path : forall n z x y, (length path <= n)%nat ->
    update_loop path (bits_le n z) x y = (fold_sibs path z x, fold_sibs path z y).
  Proof.
    induction path as [|s path IH]; intros n z x y Hn; cbn [update_loop fold_sibs].
    - reflexivity.
    - destruct n as [|n]; [ cbn in Hn; lia |]. cbn [length] in Hn. cbn [bits_le].
      rewrite odd_even_neg, div2_2.
      destruct (Z.even z); cbn [negb sel]; rewrite IH by lia.
      + now replace (Fsub (Fadd x s) x) with s by ring; replace (Fsub (Fadd y s) y) with s by ring.
      + now replace (Fsub (Fadd x s) s) with x by ring; replace (Fsub (Fadd y s) s) with y by ring.
  Qed.
  Lemma fold_sibs_mod path : forall n z x, length path = n ->
    fold_sibs path (z mod pw n) x = fold_sibs path z x.
  Proof.
    induction path as [|s path IH]; intros n z x Hn; auto.
    destruct n as [|n]; [ discriminate |]. cbn [length] in Hn. injection Hn as Hn.
    cbn [fold_sibs]. pose proof (pw_pos n).
    assert (E : Z.even (z mod pw (S n)) = Z.even z).
    { rewrite <- !Z.negb_odd. f_equal. rewrite <- !Z.bit0_odd. unfold pw.
      apply Z.mod_pow2_bits_low. lia. }
    rewrite E. rewrite <- (IH n (z / 2)) by auto. f_equal.
    rewrite pw_S, Z.rem_mul_r by lia.
    rewrite (Z.mul_comm 2), Z.div_add by lia.
    rewrite Z.div_small; [ lia |]. apply Z.mod_pos_bound; lia.
  Qed.
End loops.

Section gadget_proofs.
  Context {hs : Hashes} (P : SparseConfig) (Pg : GadgetConfig).
  Context (Hok : cfg_ok P) (HH : GHEIGHT Pg = HEIGHT P).
  Let h := (HEIGHT P - 1)%nat.
  Let Hh : (1 <= h <= 61)%nat := h_ok P Hok.

  (** ** Membership without index *)

  Lemma ccm_honest path root leaf en :
    honest (conditionally_check_membership Pg path root leaf en) =
    if (length path =? h)%nat
    then Some (negb en ||
               match verify_loop path (GLeafHash Pg leaf) with Some y => Feqb root y | None => false end, tt)
    else None.
  Proof.
    unfold conditionally_check_membership. rewrite HH. fold h. rewrite honest_cassert_bind.
    destruct (length path =? h)%nat eqn:El; auto. apply Nat.eqb_eq in El.
    destruct path as [|[l0 r0] path]; [ cbn in El; lia |].
    set (x := GLeafHash Pg leaf).
    cbn [cbind witness honest]. rewrite honest_bind, honest_cond_enforce, honest_bind.
    destruct (membership_loop_honest ((l0, r0) :: path) en x) as (y & ok & -> & H1 & H2).
    rewrite honest_cond_enforce.
    destruct en; cbn [negb orb].
    - specialize (H2 eq_refl). clear H1.
      destruct (verify_loop ((l0, r0) :: path) x) as [z|] eqn:Ev.
      + destruct H2 as [-> ->]. cbn [andb].
        cbn [verify_loop] in Ev.
        destruct (negb (Feqb x l0) && negb (Feqb x r0)) eqn:E; [ discriminate |].
        destruct (Feqb x l0) eqn:E0; cbn [sel]; [ now rewrite E0 |].
        cbn [negb andb] in E. apply negb_false_iff in E. now rewrite E.
      + subst ok. cbn [andb]. now rewrite andb_false_r.
    - rewrite (H1 eq_refl). reflexivity.
  Qed.

  Lemma ccm_sat path root leaf en :
    sat (conditionally_check_membership Pg path root leaf en) tt <->
    (length path = h /\
     (en = true -> match verify_loop path (GLeafHash Pg leaf) with Some y => root = y | None => False end)).
  Proof.
    split.
    - unfold conditionally_check_membership. rewrite HH. fold h. rewrite sat_cassert_bind.
      intros [El H]. apply Nat.eqb_eq in El. split; auto. intros Hen.
      destruct path as [|[l0 r0] path]; [ cbn in El; lia |].
      cbn [cbind witness] in H. destruct H as (b & H).
      apply sat_bind in H as (u & _ & H). apply sat_bind in H as (y & H1 & H2).
      rewrite (membership_loop_sat _ _ _ _ H1 Hen).
      rewrite sat_cond_enforce in H2. now apply Feqb_eq, H2.
    - intros [El H]. apply honest_sat. rewrite ccm_honest, El, Nat.eqb_refl. do 2 f_equal.
      destruct en; auto. cbn [negb orb]. specialize (H eq_refl).
      destruct (verify_loop path (GLeafHash Pg leaf)); [| contradiction ]. subst. apply Feqb_refl.
  Qed.

  (** ** Membership with index *)

  Lemma ccmi_honest path root leaf idx en :
    honest (conditionally_check_membership_with_index Pg path root leaf idx en) =
    if (length path =? h)%nat
    then Some (negb en || match chain path (zval idx) (GLeafHash Pg leaf) with
                          | Some y => Feqb root y | None => false end, tt)
    else None.
  Proof.
    unfold conditionally_check_membership_with_index. rewrite HH. fold h. rewrite honest_cassert_bind.
    destruct (length path =? h)%nat eqn:El; auto. apply Nat.eqb_eq in El.
    rewrite honest_bind. unfold to_bits_le.
    destruct (index_loop_honest path en 254 (zval idx) (GLeafHash Pg leaf) ltac:(lia)) as (ok & -> & Hk).
    rewrite honest_cond_enforce. do 2 f_equal.
    destruct en; cbn [negb orb].
    - destruct (chain path (zval idx) (GLeafHash Pg leaf)) as [y|] eqn:E.
      + assert (ok = true) as -> by (apply Hk; congruence).
        apply chain_last in E. now rewrite E.
      + destruct ok; auto. exfalso. now apply (proj1 Hk eq_refl eq_refl).
    - assert (ok = true) as -> by (apply Hk; congruence). reflexivity.
  Qed.
  Lemma ccmi_sat path root leaf idx en :
    sat (conditionally_check_membership_with_index Pg path root leaf idx en) tt <->
    (length path = h /\
     (en = true -> chain path (zval idx) (GLeafHash Pg leaf) = Some root)).
  Proof.
    unfold conditionally_check_membership_with_index. rewrite HH. fold h. rewrite sat_cassert_bind.
    rewrite Nat.eqb_eq, sat_bind. unfold to_bits_le. split.
    - intros (El & y & H1 & H2). split; auto. intros Hen.
      apply index_loop_sat in H1 as [_ H1]; [| lia ]. rewrite sat_cond_enforce in H2.
      rewrite (H1 Hen). f_equal. symmetry. now apply Feqb_eq, H2.
    - intros [El H]. split; auto.
      exists (fold_left (fun _ lr => two (fst lr) (snd lr)) path (GLeafHash Pg leaf)). split.
      + apply index_loop_sat; [ lia |]. split; auto. intros Hen. specialize (H Hen).
        rewrite H. f_equal. now apply chain_last in H.
      + apply sat_cond_enforce. intros Hen. specialize (H Hen). apply Feqb_eq.
        now apply chain_last in H.
  Qed.


  (** ** Updates *)

  Lemma update_root_honest path lo ln idx :
    honest (update_root Pg path lo ln idx) =
    if (length path =? h)%nat
    then Some (true, (fold_sibs path (zval idx) (GLeafHash Pg lo), fold_sibs path (zval idx) (GLeafHash Pg ln)))
    else None.
  Proof.
    unfold update_root. rewrite HH. fold h. rewrite honest_cassert_bind.
    destruct (length path =? h)%nat eqn:El; auto. apply Nat.eqb_eq in El.
    unfold to_bits_le. rewrite update_loop_eq by lia. reflexivity.
  Qed.
  Lemma ccu_honest path ro rn lo ln idx en :
    honest (conditionally_check_update Pg path ro rn lo ln idx en) =
    if (length path =? h)%nat
    then Some (negb en || (Feqb ro (fold_sibs path (zval idx) (GLeafHash Pg lo))
                          && Feqb rn (fold_sibs path (zval idx) (GLeafHash Pg ln))), tt)
    else None.
  Proof.
    unfold conditionally_check_update. rewrite honest_bind, update_root_honest.
    destruct (length path =? h)%nat; auto.
    rewrite honest_bind, !honest_cond_enforce. destruct en; reflexivity.
  Qed.
  Lemma ccu_sat path ro rn lo ln idx en :
    sat (conditionally_check_update Pg path ro rn lo ln idx en) tt <->
    (length path = h /\
     (en = true -> ro = fold_sibs path (zval idx) (GLeafHash Pg lo)
                   /\ rn = fold_sibs path (zval idx) (GLeafHash Pg ln))).
  Proof.
    unfold conditionally_check_update. rewrite sat_bind. split.
    - intros ((a & b) & H1 & H2). unfold update_root in H1. rewrite HH in H1. fold h in H1.
      apply sat_cassert_bind in H1 as [El H1]. apply Nat.eqb_eq in El. split; auto.
      unfold to_bits_le in H1. rewrite update_loop_eq in H1 by lia. cbn in H1.
      injection H1 as <- <-. apply sat_bind in H2 as (u & H2 & H3).
      rewrite sat_cond_enforce in H2, H3. intros Hen. split; apply Feqb_eq; auto.
    - intros [El H].
      exists (fold_sibs path (zval idx) (GLeafHash Pg lo), fold_sibs path (zval idx) (GLeafHash Pg ln)).
      split.
      + apply honest_sat. now rewrite update_root_honest, El, Nat.eqb_refl.
      + apply sat_bind. exists tt. split; apply sat_cond_enforce; intros Hen; apply Feqb_eq; now apply H.
  Qed.
End gadget_proofs.

(** Lemmas about encodings, sums and validity. *)
From Coq Require Import ZArith List Bool Lia.
Import ListNotations.
From Verif Require Import Base Env Circuit SparseMT SparseMTGadget SparseMTGadgetProofs Data DataSpec.
Open Scope Z_scope.

Lemma app_inj_len {A} (a b c d : list A) :
  length a = length c -> a ++ b = c ++ d -> a = c /\ b = d.
Proof.
  revert c; induction a as [|x a IH]; intros [|y c]; cbn; try discriminate; auto.
  intros [= H] [= -> E]. apply IH in E as [-> ->]; auto.
Qed.

Lemma flat_map_inj {A B} (f : A -> list B) n (l l' : list A) :
  (forall x, length (f x) = S n) -> (forall x y, f x = f y -> x = y) ->
  flat_map f l = flat_map f l' -> l = l'.
Proof.
  intros Hn Hi. revert l'; induction l as [|x l IH]; intros [|y l']; cbn; auto.
  - intros H. apply (f_equal (@length B)) in H. rewrite app_length, Hn in H. discriminate.
  - intros H. apply (f_equal (@length B)) in H. rewrite app_length, Hn in H. discriminate.
  - intros H. apply app_inj_len in H as [H1 H2]; [| now rewrite !Hn ].
    f_equal; auto.
Qed.

Lemma flat_map_len {A B} (f : A -> list B) n (l : list A) :
  (forall x, length (f x) = n) -> length (flat_map f l) = (n * length l)%nat.
Proof. intros H; induction l; cbn; [ lia |]. rewrite app_length, H, IHl. lia. Qed.

Lemma a4_ext {A} (v w : arr4 A) : a4_list v = a4_list w -> v = w.
Proof. destruct v, w; cbn. now intros [= -> -> -> ->]. Qed.
Lemma a4_map_list {A B} (f : A -> B) v : a4_list (a4_map f v) = map f (a4_list v).
Proof. reflexivity. Qed.

Section facts.
  Context {hs : Hashes} {G : Curve}.

  Lemma pt_enc_length k : length (pt_enc k) = 3%nat.
  Proof. unfold pt_enc. destruct (affine k) as [[x y]|]; reflexivity. Qed.
  Lemma Fone_ne_0 : Fone <> Fzero.
  Proof. apply Feqb_neq. vm_compute. reflexivity. Qed.
  Lemma pt_enc_inj k k' : pt_enc k = pt_enc k' -> k = k'.
  Proof.
    unfold pt_enc. intros H. apply affine_inj.
    destruct (affine k) as [[x y]|], (affine k') as [[x' y']|]; auto.
    - assert (H1 := f_equal (fun l => nth 0 l Fzero) H).
      assert (H2 := f_equal (fun l => nth 1 l Fzero) H). cbn [nth] in H1, H2. congruence.
    - exfalso. assert (H1 := f_equal (fun l => nth 2 l Fzero) H). cbn [nth] in H1.
      symmetry in H1. now apply Fone_ne_0 in H1.
    - exfalso. assert (H1 := f_equal (fun l => nth 2 l Fzero) H). cbn [nth] in H1.
      now apply Fone_ne_0 in H1.
  Qed.
  Lemma utxo_enc_length u : length (utxo_enc u) = 5%nat.
  Proof. unfold utxo_enc. rewrite app_length, pt_enc_length. reflexivity. Qed.
  Lemma utxo_enc_inj u u' : utxo_enc u = utxo_enc u' -> u = u'.
  Proof.
    unfold utxo_enc. cbn [app]. intros H.
    assert (H1 := f_equal (fun l => nth 0 l Fzero) H).
    assert (H2 := f_equal (fun l => nth 1 l Fzero) H).
    assert (H3 := f_equal (skipn 2) H). cbn [nth skipn] in H1, H2, H3.
    apply Fu64_inj in H1. apply Fbool_inj in H2. apply pt_enc_inj in H3.
    destruct u, u'; cbn in *; congruence.
  Qed.
  Lemma tx_enc_length t : length (tx_enc t) = 40%nat.
  Proof. unfold tx_enc. rewrite (flat_map_len _ 5); [ reflexivity | apply utxo_enc_length ]. Qed.
  Lemma tx_enc_inj t t' : tx_enc t = tx_enc t' -> t = t'.
  Proof.
    intros H. apply (flat_map_inj _ 4) in H; [| apply utxo_enc_length | apply utxo_enc_inj ].
    apply app_inj_len in H as [H1 H2]; [| reflexivity ].
    destruct t, t'; cbn in *. f_equal; now apply a4_ext.
  Qed.

  Lemma utxo_eqb_eq a b : utxo_eqb a b = true <-> a = b.
  Proof.
    unfold utxo_eqb. rewrite !andb_true_iff, zeqb_eq, pt_eqb_eq, Bool.eqb_true_iff.
    destruct a, b; cbn. split; [ now intros [[-> ->] ->] | now intros [= -> -> ->] ].
  Qed.
  Lemma utxo_eqb_refl a : utxo_eqb a a = true.
  Proof. now apply utxo_eqb_eq. Qed.
  Lemma utxo_eq_dec (a b : utxo) : {a = b} + {a <> b}.
  Proof.
    destruct (utxo_eqb a b) eqn:E; [ left; now apply utxo_eqb_eq |].
    right. intros H. apply utxo_eqb_eq in H. congruence.
  Defined.

  (** * Allocation *)
  Lemma utxo_encV_alloc u : utxo_encV (utxo_alloc u) = utxo_enc u.
  Proof. reflexivity. Qed.
  Lemma tx_encV_alloc t : tx_encV (tx_alloc t) = tx_enc t.
  Proof. reflexivity. Qed.
  Lemma pt_encV_eq k : pt_encV k = pt_enc k.
  Proof. reflexivity. Qed.

  (** * Sums *)
  Lemma total_real l : total (real l) = total l.
  Proof.
    unfold real. induction l as [|u l IH]; cbn; auto. destruct (is_dummy u) eqn:E; cbn; auto.
    rewrite E, IH. reflexivity.
  Qed.
  Lemma total_nonneg l : 0 <= total l.
  Proof.
    induction l as [|u l IH]; cbn [total]; [ lia |].
    pose proof (u64_range (amount u)). destruct (is_dummy u); lia.
  Qed.
  Lemma total_app a b : total (a ++ b) = total a + total b.
  Proof. induction a; cbn [total app]; lia. Qed.
  Lemma real_forall l u : In u (real l) -> is_dummy u = false.
  Proof. unfold real. rewrite filter_In. now intros [_ H%negb_true_iff]. Qed.

  Lemma sum_from_ok dbg l a :
    (forall u, In u l -> is_dummy u = false) -> 0 <= a -> a + total l < two64 ->
    rfold (E := tx_error) (fun a u => uadd dbg a (zval (amount u))) l a = Ok (a + total l).
  Proof.
    revert a; induction l as [|u l IH]; intros a Hd Ha Hb; cbn [rfold total].
    - f_equal; lia.
    - assert (Eu : is_dummy u = false) by (apply Hd; now left).
      cbn [total] in Hb. rewrite Eu in Hb |- *.
      pose proof (u64_range (amount u)). pose proof (total_nonneg l).
      rewrite uadd_ok by (unfold is_u64, two64 in *; lia). cbn [rbind].
      rewrite IH; [ f_equal; lia | | lia | lia ].
      intros v Hv; apply Hd; now right.
  Qed.
  Lemma sum_u64_ok dbg l :
    total l < two64 -> sum_u64 dbg (real l) = Ok (total l).
  Proof.
    intros H. unfold sum_u64. rewrite sum_from_ok; rewrite ?total_real; [ f_equal; lia | | lia | lia ].
    apply real_forall.
  Qed.
  Lemma sum_from_panic l a :
    (forall u, In u l -> is_dummy u = false) -> 0 <= a < two64 -> two64 <= a + total l ->
    rfold (E := tx_error) (fun a u => uadd true a (zval (amount u))) l a = Panic.
  Proof.
    revert a; induction l as [|u l IH]; intros a Hd Ha Hb; cbn [rfold total].
    - cbn [total] in Hb. lia.
    - assert (Eu : is_dummy u = false) by (apply Hd; now left).
      cbn [total] in Hb. rewrite Eu in Hb.
      pose proof (u64_range (amount u)).
      destruct (Z.lt_ge_cases (a + zval (amount u)) two64).
      + rewrite uadd_ok by (unfold is_u64, two64 in *; lia). cbn [rbind].
        apply IH; [| unfold two64 in *; lia | lia ]. intros v Hv; apply Hd; now right.
      + unfold uadd. rewrite wrap64_over; auto. unfold is_u64, two64 in *. lia.
  Qed.
  Lemma sum_u64_panic l : two64 <= total l -> sum_u64 true (real l) = Panic.
  Proof.
    intros H. unfold sum_u64. apply sum_from_panic; rewrite ?total_real; [ apply real_forall | | lia ].
    unfold two64; lia.
  Qed.
  Lemma sum_from_wrap l a :
    (forall u, In u l -> is_dummy u = false) -> 0 <= a < two64 ->
    rfold (E := tx_error) (fun a u => uadd false a (zval (amount u))) l a
    = Ok ((a + total l) mod two64).
  Proof.
    revert a; induction l as [|u l IH]; intros a Hd Ha; cbn [rfold total].
    - rewrite Z.add_0_r, Z.mod_small by lia. reflexivity.
    - assert (Eu : is_dummy u = false) by (apply Hd; now left). rewrite Eu.
      pose proof (u64_range (amount u)).
      assert (E : uadd (E := tx_error) false a (zval (amount u)) = Ok ((a + zval (amount u)) mod two64)).
      { destruct (Z.lt_ge_cases (a + zval (amount u)) two64).
        - rewrite uadd_ok by (unfold is_u64, two64 in *; lia). now rewrite Z.mod_small by lia.
        - unfold uadd. rewrite wrap64_over; auto. unfold is_u64, two64 in *. lia. }
      rewrite E. cbn [rbind]. rewrite IH.
      + rewrite Zplus_mod_idemp_l. do 2 f_equal. lia.
      + intros v Hv; apply Hd; now right.
      + apply Z.mod_pos_bound. reflexivity.
  Qed.
  Lemma sum_u64_wrap l : sum_u64 false (real l) = Ok (total l mod two64).
  Proof.
    unfold sum_u64. rewrite sum_from_wrap; rewrite ?total_real; [ f_equal; lia | apply real_forall |].
    unfold two64; lia.
  Qed.

  Lemma owners_ok s t :
    existsb (fun u => negb (pt_eqb (pk u) s)) (real (a4_list (inputs t))) = false <-> owned_by s t.
  Proof.
    rewrite <- not_true_iff_false, existsb_exists. unfold owned_by. split.
    - intros H u Hu Hd. destruct (pt_eqb (pk u) s) eqn:E; [ now apply pt_eqb_eq in E |].
      exfalso; apply H. exists u. unfold real. rewrite filter_In, Hd, E. auto.
    - intros H (u & Hu & E). unfold real in Hu. apply filter_In in Hu as [Hu Hd].
      apply negb_true_iff in Hd. apply H in Hu; auto. subst.
      now rewrite pt_eqb_refl in E.
  Qed.
  Lemma owned_dec s t : {owned_by s t} + {~ owned_by s t}.
  Proof.
    destruct (existsb (fun u => negb (pt_eqb (pk u) s)) (real (a4_list (inputs t)))) eqn:E.
    - right. intros H%owners_ok. congruence.
    - left. now apply owners_ok.
  Qed.
  Lemma is_valid_owned dbg t s : owned_by s t ->
    is_valid dbg t (Some s) =
      do i <- sum_u64 dbg (real (a4_list (inputs t)));
      do o <- sum_u64 dbg (real (a4_list (outputs t)));
      if negb (i =? o) then Err InvalidAmounts else Ok tt.
  Proof. intros H%owners_ok. unfold is_valid. now rewrite H. Qed.
  Lemma is_valid_not_owned dbg t s : ~ owned_by s t ->
    is_valid dbg t (Some s) = Err InvalidPublicKey.
  Proof.
    intros H. unfold is_valid.
    destruct (existsb (fun u => negb (pt_eqb (pk u) s)) (real (a4_list (inputs t)))) eqn:E; auto.
    apply owners_ok in E. contradiction.
  Qed.
  Lemma is_valid_small dbg t s :
    total_in t < two64 -> total_out t < two64 -> owned_by s t ->
    is_valid dbg t (Some s) = if total_in t =? total_out t then Ok tt else Err InvalidAmounts.
  Proof.
    intros Hi Ho H. rewrite is_valid_owned by auto. unfold total_in, total_out in *.
    rewrite !sum_u64_ok by auto. cbn. now destruct (_ =? _).
  Qed.

  (** * The circuit's sum *)
  Lemma fold_in_sum l s :
    fold_left (fun s i => Fadd s (sel (v_dummy i) Fzero (v_amount i))) l s = Fadd s (Fof (vtotal l)).
  Proof.
    revert s; induction l as [|u l IH]; intros s; cbn [fold_left vtotal].
    - change (Fof 0) with Fzero. ring.
    - rewrite IH, Fof_add. destruct (v_dummy u); cbn [sel].
      + change (Fof 0) with Fzero. ring.
      + rewrite Fof_zval. ring.
  Qed.
  Lemma fold_out_sum l s :
    fold_left (fun s i => Fsub s (sel (v_dummy i) Fzero (v_amount i))) l s = Fsub s (Fof (vtotal l)).
  Proof.
    revert s; induction l as [|u l IH]; intros s; cbn [fold_left vtotal].
    - change (Fof 0) with Fzero. ring.
    - rewrite IH, Fof_add. destruct (v_dummy u); cbn [sel].
      + change (Fof 0) with Fzero. ring.
      + rewrite Fof_zval. ring.
  Qed.
  Lemma amount_diff_eq t : amount_diff t = Fof (vtotal_in t - vtotal_out t).
  Proof.
    unfold amount_diff. rewrite fold_in_sum, fold_out_sum, Fof_sub.
    unfold vtotal_in, vtotal_out. ring.
  Qed.
  Lemma amount_diff_zero t : amount_diff t = Fzero <-> vtotal_in t mod p = vtotal_out t mod p.
  Proof.
    rewrite amount_diff_eq, Fof_sub. rewrite <- (Fof_eq_iff (vtotal_in t)). split.
    - intros H. now apply Fsub_0_eq.
    - intros ->. ring.
  Qed.

  Lemma sat_conds (l : list utxoV) s u :
    sat (cfold (fun _ i => cond_enforce (pt_eqb (v_pk i) s) (negb (v_dummy i))) l tt) u <->
    (forall i, In i l -> v_dummy i = false -> v_pk i = s).
  Proof.
    induction l as [|x l IH]; cbn [cfold].
    - destruct u; cbn; intuition.
    - rewrite sat_bind. split.
      + intros ([] & H1 & H2). rewrite sat_cond_enforce in H1. rewrite IH in H2.
        intros i [->|Hi] Hd; auto. rewrite Hd in H1. now apply pt_eqb_eq, H1.
      + intros H. exists tt. split; [ apply sat_cond_enforce |].
        * intros Hd%negb_true_iff. apply pt_eqb_eq, H; auto. now left.
        * apply IH. intros i Hi; apply H; now right.
  Qed.
  Lemma enforce_valid_sat t s :
    sat (enforce_valid t s) tt <-> vowned_by s t /\ vtotal_in t mod p = vtotal_out t mod p.
  Proof.
    unfold enforce_valid. rewrite sat_bind. split.
    - intros ([] & H1 & H2). rewrite sat_conds in H1. rewrite sat_enforce in H2.
      apply Feqb_eq in H2. split; [ exact H1 | now apply amount_diff_zero ].
    - intros [H1 H2]. exists tt. rewrite sat_conds, sat_enforce, Feqb_eq, amount_diff_zero. auto.
  Qed.
  Lemma enforce_valid_honest t s :
    exists b, honest (enforce_valid t s) = Some (b, tt) /\ (b = true <-> sat (enforce_valid t s) tt).
  Proof.
    pose proof (enforce_valid_sat t s) as Hs. unfold enforce_valid at 1. rewrite honest_bind.
    assert (E : forall l, exists b,
      honest (cfold (fun _ i => cond_enforce (pt_eqb (v_pk i) s) (negb (v_dummy i))) l tt) = Some (b, tt)
      /\ (b = true <-> forall i, In i l -> v_dummy i = false -> v_pk i = s)).
    { induction l as [|x l (b & IH & Hb)]; cbn [cfold].
      - exists true. split; auto. cbn. intuition.
      - rewrite honest_bind, honest_cond_enforce, IH. eexists; split; [ reflexivity |].
        rewrite andb_true_iff, orb_true_iff, negb_involutive, pt_eqb_eq, Hb. split.
        + intros [H1 H2] i [->|Hi] Hd; auto. destruct H1; congruence.
        + intros H. split; [| intros i Hi; apply H; now right ].
          destruct (v_dummy x) eqn:Hd; auto. right. apply H; auto. now left. }
    destruct (E (a4_list (v_inputs t))) as (b & -> & Hb).
    rewrite honest_enforce. eexists; split; [ reflexivity |].
    rewrite Hs, andb_true_iff, Feqb_eq, amount_diff_zero, Hb. reflexivity.
  Qed.

  Lemma vtotal_alloc l : vtotal (map utxo_alloc l) = total l.
  Proof. induction l; cbn [map vtotal total utxo_alloc v_dummy v_amount]; auto. rewrite zval_Fu64, IHl. reflexivity. Qed.
  Lemma vtotal_in_alloc t : vtotal_in (tx_alloc t) = total_in t.
  Proof. unfold vtotal_in. cbn [tx_alloc v_inputs]. rewrite a4_map_list. apply vtotal_alloc. Qed.
  Lemma vtotal_out_alloc t : vtotal_out (tx_alloc t) = total_out t.
  Proof. unfold vtotal_out. cbn [tx_alloc v_outputs]. rewrite a4_map_list. apply vtotal_alloc. Qed.
  Lemma vowned_alloc s t : vowned_by s (tx_alloc t) <-> owned_by s t.
  Proof.
    unfold vowned_by, owned_by. cbn [tx_alloc v_inputs]. rewrite a4_map_list. split.
    - intros H u Hu. apply (H (utxo_alloc u)). apply in_map_iff. eauto.
    - intros H u (v & <- & Hv)%in_map_iff. apply (H v); auto.
  Qed.
  Lemma vtotal_nonneg l : 0 <= vtotal l.
  Proof.
    induction l as [|u l IH]; cbn [total vtotal]; [ lia |].
    pose proof (F_range (v_amount u)). destruct (v_dummy u); lia.
  Qed.
  Lemma enforce_valid_alloc t s :
    total_in t < p -> total_out t < p ->
    sat (enforce_valid (tx_alloc t) s) tt <-> owned_by s t /\ total_in t = total_out t.
  Proof.
    intros Hi Ho. rewrite enforce_valid_sat, vowned_alloc, vtotal_in_alloc, vtotal_out_alloc.
    pose proof (total_nonneg (a4_list (inputs t))). pose proof (total_nonneg (a4_list (outputs t))).
    unfold total_in, total_out in *. rewrite !Z.mod_small by lia. reflexivity.
  Qed.

  (** the last non-dummy input wins *)
  Lemma get_signer_fold l k :
    fold_left (fun k i => sel (v_dummy i) k (v_pk i)) l k =
    last (map v_pk (filter (fun i => negb (v_dummy i)) l)) k.
  Proof.
    revert k; induction l as [|x l IH]; intros k; cbn; auto.
    rewrite IH. destruct (v_dummy x); cbn; auto.
    destruct (map v_pk (filter (fun i => negb (v_dummy i)) l)) eqn:E; auto.
    assert (L : forall (A : Type) (l : list A) a d d', last (a :: l) d = last (a :: l) d').
    { clear. induction l; intros; cbn; auto. destruct l; auto. apply (IHl a). }
    apply L.
  Qed.
End facts.

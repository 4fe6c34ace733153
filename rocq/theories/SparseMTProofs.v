(** Completeness and soundness of membership and update proofs. *)
From Coq Require Import ZArith List Bool Lia.
Import ListNotations.
From Verif Require Import Base Env SparseMT SparseMTSpec SparseMTHeap SparseMTRep SparseMTNew.
Open Scope Z_scope.

Section chain.
  Context {hs : Hashes}.

  (** Follow a path of pairs from [prev] at position [k]. *)
  Fixpoint chain (path : list (F * F)) (k : Z) (prev : F) : option F :=
    match path with
    | [] => Some prev
    | (l, r) :: p => if Feqb prev (if Z.even k then l else r) then chain p (k / 2) (two l r) else None
    end.

  Lemma chain_genuine n : forall d f k,
    chain (genuine_from d n f k) k (node d f k) = Some (node (n + d) f (k / pw n)).
  Proof.
    induction n as [|n IH]; intros d f k; cbn [genuine_from chain].
    - now rewrite div_pw_0.
    - assert (E : (if Z.even k then node d f (2 * (k / 2)) else node d f (2 * (k / 2) + 1)) = node d f k).
      { destruct (Z.even k) eqn:E; [ now rewrite even_half | now rewrite odd_half ]. }
      rewrite E, Feqb_refl.
      change (two (node d f (2 * (k / 2))) (node d f (2 * (k / 2) + 1))) with (node (S d) f (k / 2)).
      rewrite IH. rewrite (div_pw_add k 1 n : k / 2 / pw n = _). do 2 f_equal; lia.
  Qed.
  Lemma genuine_from_length n : forall d f k, length (genuine_from d n f k) = n.
  Proof. induction n; intros; cbn; auto. Qed.

  Lemma collision2_incl l l' : incl l l' -> collision2 l -> collision2 l'.
  Proof. intros Hi (a & b & H1 & H2 & H3). exists a, b. auto. Qed.

  Lemma chain_sound f path : forall d k prev,
    chain path k prev = Some (node (length path + d) f (k / pw (length path))) ->
    prev = node d f k \/ collision2 (path ++ genuine_from d (length path) f k).
  Proof.
    induction path as [|[l r] path IH]; intros d k prev H; cbn [length] in *.
    - cbn in H. rewrite div_pw_0 in H. left; congruence.
    - cbn [chain] in H.
      destruct (Feqb prev (if Z.even k then l else r)) eqn:E; [| discriminate ].
      apply Feqb_eq in E. subst prev.
      replace (S (length path) + d)%nat with (length path + S d)%nat in H by lia.
      replace (k / pw (S (length path))) with (k / 2 / pw (length path)) in H
        by (rewrite (div_pw_add k 1 _ : k / 2 / pw _ = _); reflexivity).
      cbn [genuine_from app].
      destruct (IH (S d) (k / 2) (two l r) H) as [E|C].
      + destruct (F_eq_dec l (node d f (2 * (k / 2)))) as [El|El];
          [ destruct (F_eq_dec r (node d f (2 * (k / 2) + 1))) as [Er|Er] |].
        * left. subst. destruct (Z.even k) eqn:G; [ now rewrite even_half | now rewrite odd_half ].
        * right. exists (l, r), (node d f (2 * (k / 2)), node d f (2 * (k / 2) + 1)).
          repeat split; [ now left | | congruence | exact E ].
          right. apply in_or_app. right. now left.
        * right. exists (l, r), (node d f (2 * (k / 2)), node d f (2 * (k / 2) + 1)).
          repeat split; [ now left | | congruence | exact E ].
          right. apply in_or_app. right. now left.
      + right. eapply collision2_incl; [| exact C ].
        intros x Hx. apply in_app_or in Hx as [Hx|Hx]; right; apply in_or_app; [ now left | right; now right ].
  Qed.

  Lemma chain_verify_loop path : forall k prev r,
    chain path k prev = Some r -> verify_loop path prev = Some r.
  Proof.
    induction path as [|[l r] path IH]; intros k prev x H; cbn in *; auto.
    destruct (Z.even k) eqn:E;
    match type of H with (if ?b then _ else _) = _ => destruct b eqn:G; [| discriminate ] end;
    cbn [negb andb]; rewrite ?andb_false_r; eauto.
  Qed.
  Lemma verify_loop_chain path : forall prev r,
    verify_loop path prev = Some r ->
    exists k, 0 <= k < pw (length path) /\ chain path k prev = Some r.
  Proof.
    induction path as [|[l r] path IH]; intros prev x H; cbn [verify_loop] in H.
    - exists 0. cbn [length chain]. rewrite pw_0. split; [ lia | exact H ].
    - destruct (negb (Feqb prev l) && negb (Feqb prev r)) eqn:E; [ discriminate |].
      destruct (IH _ _ H) as (k & Hk & G).
      cbn [length]. rewrite pw_S.
      destruct (Feqb prev l) eqn:El.
      + exists (2 * k). split; [ lia |]. cbn [chain].
        rewrite Z.even_mul. cbn [Z.even orb]. rewrite El, Z.mul_comm, Z.div_mul by lia. exact G.
      + cbn [negb andb] in E. exists (2 * k + 1). split; [ lia |]. cbn [chain].
        rewrite Z.even_add, Z.even_mul. cbn [Z.even orb eqb].
        apply negb_false_iff in E. rewrite E.
        replace ((2 * k + 1) / 2) with k; auto.
        apply Z.div_unique with 1; lia.
  Qed.

  (** Siblings. *)
  Lemma fold_sibs_sound f sibs : forall d k x,
    fold_sibs sibs k x = node (length sibs + d) f (k / pw (length sibs)) ->
    (x = node d f k /\ sibs = sib_path d (length sibs) f k) \/
    collision2 (climb_pairs sibs k x ++ genuine_from d (length sibs) f k).
  Proof.
    induction sibs as [|s sibs IH]; intros d k x H; cbn [length fold_sibs climb_pairs sib_path] in *.
    - cbn in H. rewrite div_pw_0 in H. left; auto.
    - set (pr := if Z.even k then (x, s) else (s, x)) in *.
      assert (Ep : (if Z.even k then two x s else two s x) = two (fst pr) (snd pr)).
      { unfold pr; destruct (Z.even k); reflexivity. }
      rewrite Ep in H.
      replace (S (length sibs) + d)%nat with (length sibs + S d)%nat in H by lia.
      replace (k / pw (S (length sibs))) with (k / 2 / pw (length sibs)) in H
        by (rewrite (div_pw_add k 1 _ : k / 2 / pw _ = _); reflexivity).
      cbn [genuine_from app].
      destruct (IH (S d) (k / 2) _ H) as [[E E']|C].
      + set (gp := (node d f (2 * (k / 2)), node d f (2 * (k / 2) + 1))).
        assert (D : pr = gp \/ pr <> gp).
        { destruct pr as [a b]; unfold gp.
          destruct (F_eq_dec a (node d f (2 * (k / 2)))); [| right; congruence ].
          destruct (F_eq_dec b (node d f (2 * (k / 2) + 1))); [ left | right ]; congruence. }
        destruct D as [D|D].
        * left. unfold pr, gp in D. unfold sibk.
          destruct (Z.even k) eqn:G; apply pair_equal_spec in D as [-> ->].
          -- rewrite even_half by auto. split; auto. f_equal; auto.
          -- rewrite odd_half by auto. split; auto.
             replace (2 * (k / 2)) with (k - 1) by (pose proof (odd_half k G); lia).
             f_equal; auto.
        * right. exists pr, gp. repeat split; auto; [ now left |].
          right. apply in_or_app. right. now left.
      + right. eapply collision2_incl; [| exact C ].
        intros y Hy. apply in_app_or in Hy as [Hy|Hy]; right; apply in_or_app; [ now left | right; now right ].
  Qed.
  Lemma climb_pairs_length sibs : forall k x, length (climb_pairs sibs k x) = length sibs.
  Proof. induction sibs; intros; cbn; auto. Qed.
End chain.

Section proofs.
  Context {hs : Hashes} (dbg : bool) (P : SparseConfig) (Hok : cfg_ok P).
  Let h := (HEIGHT P - 1)%nat.
  Let Hh : (1 <= h <= 61)%nat := h_ok P Hok.

  Lemma rep_node1 t c w : Rep P t c w -> forall d k, vpos h d k ->
    get_or (t_map t) (eh P d) (heap h d k) = node d (digests c) k.
  Proof. intros HR. exact (rep_node _ _ _ _ HR). Qed.
  Lemma cap_pw : capacity P = pw h.
  Proof. reflexivity. Qed.

  (** ** Generation *)
  Lemma gmp_rep t c w : Rep P t c w ->
    forall n d k acc iter, (n + d = h)%nat -> vpos h d k ->
      (forall j, (j <= n)%nat -> nth_error iter j = Some (eh P (j + d))) ->
      gmp_loop dbg (t_map t) iter (heap h d k) acc
      = Ok (acc ++ genuine_from d n (digests c) k).
  Proof.
    intros HR. induction n as [|n IH]; intros d k acc iter Hn Hv Hiter.
    - assert (d = h) by lia. subst d.
      assert (E : heap h h k = 0) by (apply heap_0_iff; auto).
      rewrite E. cbn [genuine_from]. rewrite app_nil_r. destruct iter; reflexivity.
    - assert (Hd : (d < h)%nat) by lia.
      pose proof (heap_pos h Hh d k Hd Hv) as Hp.
      destruct iter as [|e iter]; [ specialize (Hiter 0%nat ltac:(lia)); discriminate |].
      cbn [gmp_loop genuine_from]. unfold is_root.
      assert (heap h d k =? 0 = false) as -> by (apply Z.eqb_neq; lia).
      rewrite (heap_sibling h Hh dbg d k Hd Hv). cbn [rbind unwrap].
      rewrite (heap_parent h Hh d k Hd Hv). cbn [rbind unwrap].
      rewrite (heap_left h Hh d k Hd Hv).
      pose proof (Hiter 0%nat ltac:(lia)) as He. cbn [nth_error Nat.add] in He. assert (e = eh P d) by congruence. subst e. clear He.
      rewrite (rep_node1 _ _ _ HR d k Hv), (rep_node1 _ _ _ HR d _ (vpos_sib h Hh d k Hd Hv)).
      rewrite IH; [| lia | now apply vpos_up |].
      + rewrite <- app_assoc. cbn [app]. do 3 f_equal.
        destruct (Z.even k) eqn:E.
        * now rewrite (even_half k E).
        * rewrite (odd_half k E). do 2 f_equal. pose proof (odd_half k E); lia.
      + intros j Hj. specialize (Hiter (S j) ltac:(lia)). cbn [nth_error] in Hiter.
        rewrite Hiter. replace (S j + d)%nat with (j + S d)%nat by lia. reflexivity.
  Qed.

  Theorem gmp_ok t c w i : Rep P t c w -> in_range P i ->
    generate_membership_proof dbg P t i = Ok (genuine_path c i).
  Proof.
    intros HR Hi. unfold generate_membership_proof. rewrite (conv_ok dbg P Hok i Hi). cbn [rbind].
    fold h. rewrite (gmp_rep t c w HR h 0 i [] (t_empty t)).
    - cbn [rbind app]. rewrite genuine_from_length, Nat.eqb_refl. reflexivity.
    - lia.
    - now apply (in_range_vpos P Hok).
    - intros j Hj. rewrite (rep_empty _ _ _ _ HR), Nat.add_0_r. apply nth_eh; auto.
  Qed.

  (** ** verify_with_index, in range *)
  Lemma vwi_loop_in path : forall d k prev fp,
    (length path + d = h)%nat -> vpos h d k ->
    pw h - 1 <= fp < pw h - 1 + pw d ->
    vwi_loop dbg path prev (heap h d k) fp (pw d)
    = Ok (match chain path k prev with None => None | Some x => Some (x, fp + pw d * k) end).
  Proof.
    assert (Hpw : pw h * 4 < two64).
    { assert (pw h <= pw 61) by (apply pw_le; lia).
      assert (pw 61 * 4 < two64) by reflexivity. lia. }
    induction path as [|[l r] path IH]; intros d k prev fp Hl Hv Hfp; cbn [vwi_loop chain].
    - cbn in Hl. assert (d = h) by lia. subst d.
      destruct Hv as [_ Hk]. rewrite Nat.sub_diag, pw_0 in Hk.
      assert (k = 0) by lia. subst k. now rewrite Z.mul_0_r, Z.add_0_r.
    - cbn [length] in Hl. assert (Hd : (d < h)%nat) by lia.
      rewrite (heap_mod2 h Hh d k Hd Hv).
      assert (Hpd : pw d * 2 <= pw h) by (rewrite Z.mul_comm, <- pw_S; apply pw_le; lia).
      pose proof (pw_pos d). pose proof (heap_pos h Hh d k Hd Hv). pose proof (heap_bound h Hh d k Hv).
      assert (pw (S h) <= pw 62) by (apply pw_le; lia). assert (pw 62 < two64) by reflexivity.
      rewrite umul_ok by (unfold is_u64; lia).
      rewrite usub_ok by (unfold is_u64; lia).
      pose proof (heap_parent h Hh d k Hd Hv) as Hpar. unfold parent in Hpar.
      assert (0 <? heap h d k = true) as E0 by (apply Z.ltb_lt; lia).
      rewrite E0 in Hpar. injection Hpar as Hpar. rewrite Z.shiftr_div_pow2 in Hpar by lia.
      change (2 ^ 1) with 2 in Hpar.
      replace (pw d * 2) with (pw (S d)) by (rewrite pw_S; lia).
      destruct (Z.even k) eqn:E.
      + destruct (Feqb prev l); cbn [negb]; auto. cbn [rbind]. rewrite Hpar.
        rewrite (IH (S d) (k / 2) (two l r) fp);
          [| lia | now apply vpos_up | rewrite pw_S; lia ].
        rewrite pw_S. replace (fp + 2 * pw d * (k / 2)) with (fp + pw d * k); auto.
        rewrite <- (even_half k E) at 1. lia.
      + destruct (Feqb prev r); cbn [negb]; auto.
        rewrite uadd_ok by (unfold is_u64; lia). cbn [rbind]. rewrite Hpar.
        rewrite (IH (S d) (k / 2) (two l r) (fp + pw d));
          [| lia | now apply vpos_up | rewrite pw_S; lia ].
        rewrite pw_S. replace (fp + pw d + 2 * pw d * (k / 2)) with (fp + pw d * k); auto.
        rewrite <- (odd_half k E) at 1. lia.
  Qed.

  Definition chain_ok (path : list (F * F)) (root : F) (x : F) (i : Z) : bool :=
    (length path =? h)%nat &&
    match chain path i x with Some y => Feqb root y | None => false end.

  Theorem vwi_in path root leaf i : in_range P i ->
    verify_with_index dbg P path root leaf i = Ok (chain_ok path root (LeafHash P leaf) i).
  Proof.
    intros Hi. unfold verify_with_index, chain_ok. fold h.
    destruct (length path =? h)%nat eqn:El; cbn [negb andb]; auto.
    apply Nat.eqb_eq in El.
    pose proof (proj1 (in_range_vpos P Hok i) Hi) as Hv. fold h in Hv.
    assert (Ec : uadd dbg (last_level_index P) i = @Ok mt_error _ (heap h 0 i)).
    { pose proof (heap_u64 h Hh 0 i Hv) as Hu.
      unfold last_level_index. fold h. fold (pw h). unfold heap in *. rewrite Nat.sub_0_r in *.
      now apply uadd_ok. }
    rewrite Ec. cbn [rbind].
    destruct path as [|[l0 r0] path]; [ cbn in El; lia |].
    rewrite (heap_mod2 h Hh 0 i) by (auto; lia).
    rewrite (vwi_loop_in _ 0%nat i) by (auto; rewrite ?pw_0; unfold last_level_index; fold h; fold (pw h); try lia).
    cbn [rbind]. rewrite pw_0.
    set (x := LeafHash P leaf).
    destruct (if Z.even i then negb (Feqb x l0) else negb (Feqb x r0)) eqn:E.
    - f_equal. cbn [chain]. destruct (Z.even i); apply negb_true_iff in E; now rewrite E.
    - destruct (chain ((l0, r0) :: path) i x) as [y|]; auto.
      destruct (Feqb root y); cbn [negb]; auto.
      f_equal. apply Z.eqb_eq. unfold last_level_index, heap. fold h. fold (pw h).
      rewrite Nat.sub_0_r. lia.
  Qed.

  (** ** verify *)
  Theorem verify_eq path root leaf :
    verify P path root leaf =
    Ok ((length path =? h)%nat &&
        match verify_loop path (LeafHash P leaf) with Some y => Feqb root y | None => false end).
  Proof.
    unfold verify. fold h.
    destruct (length path =? h)%nat eqn:El; cbn [negb andb]; auto.
    apply Nat.eqb_eq in El.
    destruct path as [|[l0 r0] path]; [ cbn in El; lia |].
    cbn [verify_loop].
    destruct (negb (Feqb (LeafHash P leaf) l0) && negb (Feqb (LeafHash P leaf) r0)); auto.
    destruct (verify_loop path (two l0 r0)); auto.
  Qed.

  Theorem verify_iff path root leaf :
    verify P path root leaf = Ok true <->
    exists i, in_range P i /\ verify_with_index dbg P path root leaf i = Ok true.
  Proof.
    rewrite verify_eq. split.
    - intros H. injection H as H. apply andb_prop in H as [El H].
      apply Nat.eqb_eq in El.
      destruct (verify_loop path (LeafHash P leaf)) as [y|] eqn:E; [| discriminate ].
      apply verify_loop_chain in E as (k & Hk & E). rewrite El in Hk.
      exists k. assert (Hr : in_range P k) by exact Hk. split; auto.
      rewrite vwi_in by auto. unfold chain_ok. now rewrite El, Nat.eqb_refl, E, H.
    - intros (i & Hi & H). rewrite vwi_in in H by auto. injection H as H.
      unfold chain_ok in H. apply andb_prop in H as [El H]. rewrite El.
      destruct (chain path i (LeafHash P leaf)) as [y|] eqn:E; [| discriminate ].
      apply chain_verify_loop in E. now rewrite E, H.
  Qed.

  (** ** Out-of-range indices *)
  Lemma vwi_loop_bounds path : forall prev pi fp d r fp',
    (length path + d = h)%nat ->
    pw h - 1 <= fp < pw h - 1 + pw d ->
    vwi_loop dbg path prev pi fp (pw d) = Ok (Some (r, fp')) ->
    pw h - 1 <= fp' < pw h - 1 + pw h.
  Proof.
    assert (Hpw : pw h * 4 < two64).
    { assert (pw h <= pw 61) by (apply pw_le; lia).
      assert (pw 61 * 4 < two64) by reflexivity. lia. }
    induction path as [|[l r0] path IH]; intros prev pi fp d r fp' Hl Hfp H; cbn [vwi_loop] in H.
    - cbn in Hl. subst d. injection H as _ <-. exact Hfp.
    - cbn [length] in Hl.
      assert (Hpd : pw d * 2 <= pw h) by (rewrite Z.mul_comm, <- pw_S; apply pw_le; lia).
      pose proof (pw_pos d).
      rewrite umul_ok in H by (unfold is_u64; lia).
      replace (pw d * 2) with (pw (S d)) in H by (rewrite pw_S; lia).
      destruct (pi mod 2 =? 1).
      + destruct (negb (Feqb prev l)); [ discriminate |]. cbn [rbind] in H.
        destruct (usub dbg pi 1) as [pi'| |]; cbn [rbind] in H; try discriminate.
        eapply IH; [| | exact H ]; [ lia | rewrite pw_S; lia ].
      + destruct (negb (Feqb prev r0)); [ discriminate |].
        rewrite uadd_ok in H by (unfold is_u64; lia). cbn [rbind] in H.
        destruct (usub dbg pi 1) as [pi'| |]; cbn [rbind] in H; try discriminate.
        eapply IH; [| | exact H ]; [ lia | rewrite pw_S; lia ].
  Qed.

  Lemma range_split i : is_u64 i -> ~ in_range P i -> pw h <= i.
  Proof. unfold is_u64, in_range. rewrite cap_pw. lia. Qed.

  Lemma pwh_small : pw h * 4 < two64.
  Proof.
    assert (pw h <= pw 61) by (apply pw_le; lia).
    assert (pw 61 * 4 < two64) by reflexivity. lia.
  Qed.

  Theorem vwi_out path root leaf i : is_u64 i -> ~ in_range P i ->
    verify_with_index dbg P path root leaf i <> Ok true.
  Proof.
    intros Hu Ho H. pose proof (range_split i Hu Ho) as Hi. pose proof pwh_small.
    unfold verify_with_index in H. fold h in H.
    destruct (length path =? h)%nat eqn:El; cbn [negb] in H; [| discriminate ].
    apply Nat.eqb_eq in El.
    destruct (uadd dbg (last_level_index P) i) as [ti| |] eqn:Eti; cbn [rbind] in H; try discriminate.
    destruct path as [|[l0 r0] path]; [ discriminate |].
    destruct (if ti mod 2 =? 1 then negb (Feqb (LeafHash P leaf) l0)
              else negb (Feqb (LeafHash P leaf) r0)); [ discriminate |].
    destruct (vwi_loop dbg ((l0, r0) :: path) (LeafHash P leaf) ti (last_level_index P) 1)
      as [[[r fp]|]| |] eqn:Ev; cbn [rbind] in H; try discriminate.
    destruct (negb (Feqb root r)); [ discriminate |].
    injection H as H. apply Z.eqb_eq in H.
    unfold last_level_index in *. fold h in Ev, Eti. fold (pw h) in Ev, Eti.
    pose proof (vwi_loop_bounds ((l0, r0) :: path) (LeafHash P leaf) ti (pw h - 1) 0 r fp
                  ltac:(lia) ltac:(rewrite pw_0; lia) Ev) as Hb.
    apply wrap64_inv in Eti as [Hti Eti].
    unfold is_u64 in *.
    destruct (Z_lt_le_dec (pw h - 1 + i) two64).
    - rewrite Z.mod_small in Eti by (pose proof (pw_pos h); lia). lia.
    - assert (ti = pw h - 1 + i - two64).
      { rewrite Eti. symmetry. apply Z.mod_unique with 1; lia. }
      lia.
  Qed.

  (** ** Update proofs *)
  Lemma two_loop_in path : forall d k x y,
    (length path + d = h)%nat -> vpos h d k ->
    two_loop dbg path (heap h d k) x y = @Ok mt_error _ (fold_sibs path k x, fold_sibs path k y, 0).
  Proof.
    induction path as [|s path IH]; intros d k x y Hl Hv; cbn [two_loop fold_sibs length] in *.
    - assert (E : heap h d k = 0) by (apply heap_0_iff; auto; lia). now rewrite E.
    - assert (Hd : (d < h)%nat) by lia.
      rewrite (heap_mod2 h Hh d k Hd Hv).
      pose proof (heap_pos h Hh d k Hd Hv). pose proof (heap_u64 h Hh d k Hv) as Hu.
      unfold is_u64 in Hu.
      pose proof (heap_parent h Hh d k Hd Hv) as Hpar. unfold parent in Hpar.
      assert (0 <? heap h d k = true) as E0 by (apply Z.ltb_lt; lia).
      rewrite E0 in Hpar. injection Hpar as Hpar. rewrite Z.shiftr_div_pow2 in Hpar by lia.
      change (2 ^ 1) with 2 in Hpar.
      destruct (Z.even k); rewrite usub_ok by (unfold is_u64; lia); cbn [rbind];
        rewrite Hpar; rewrite (IH (S d)) by (try lia; now apply vpos_up); reflexivity.
  Qed.

  Lemma leaf_conv i : in_range P i ->
    uadd dbg (last_level_index P) i = @Ok mt_error _ (heap h 0 i).
  Proof.
    intros Hi. pose proof (proj1 (in_range_vpos P Hok i) Hi) as Hv. fold h in Hv.
    pose proof (heap_u64 h Hh 0 i Hv) as Hu.
    unfold last_level_index. fold h. fold (pw h). unfold heap in *. rewrite Nat.sub_0_r in *.
    now apply uadd_ok.
  Qed.

  Theorem vu_in path ro rn lo ln i : in_range P i ->
    verify_update dbg P path ro rn lo ln i =
    Ok ((length path =? h)%nat && (Feqb ro (fold_sibs path i (LeafHash P lo))
         && Feqb rn (fold_sibs path i (LeafHash P ln)))).
  Proof.
    intros Hi. unfold verify_update. fold h.
    destruct (length path =? h)%nat eqn:El; cbn [negb andb]; auto.
    apply Nat.eqb_eq in El.
    rewrite (leaf_conv i Hi). cbn [rbind].
    rewrite (two_loop_in path 0 i) by (try lia; now apply (in_range_vpos P Hok)).
    cbn [rbind]. now rewrite Z.eqb_refl, andb_true_r.
  Qed.

  (** [ti + 1] after one step of the index recurrence. *)
  Lemma two_loop_idx path : forall ti x y a b r, is_u64 ti ->
    two_loop dbg path ti x y = @Ok mt_error _ (a, b, r) ->
    (pw (length path) <= ti + 1 -> r + 1 = (ti + 1) / pw (length path)) /\
    (ti + 1 < pw (length path) -> (length path <= 62)%nat -> 0 < r).
  Proof.
    induction path as [|s path IH]; intros ti x y a b r Hu H; cbn [two_loop length] in *.
    - injection H as _ _ ->. rewrite div_pw_0, pw_0. unfold is_u64 in Hu. split; lia.
    - destruct (if ti mod 2 =? 1 then (two x s, two y s) else (two s x, two s y)) as [x' y'].
      destruct (usub dbg ti 1) as [pi| |] eqn:E; cbn [rbind] in H; try discriminate.
      apply wrap64_inv in E as [Hpi E]. unfold is_u64 in *.
      rewrite pw_S.
      destruct (Z.eq_dec ti 0) as [->|Hne].
      + assert (pi = two64 - 1) by (rewrite E; reflexivity). clear E. subst pi.
        assert (Ei : (two64 - 1) / 2 = pw 63 - 1) by reflexivity.
        rewrite Ei in H.
        specialize (IH (pw 63 - 1) x' y' a b r).
        destruct IH as [IH1 _]; auto.
        split.
        * pose proof (pw_pos (length path)). lia.
        * intros _ Hlen.
          assert (Hle : pw (length path) <= pw 62) by (apply pw_le; lia).
          assert (pw 62 * 2 = pw 63) by reflexivity.
          replace (pw 63 - 1 + 1) with (pw 63) in IH1 by lia.
          pose proof (pw_pos (length path)).
          assert (2 <= pw 63 / pw (length path)).
          { apply Z.div_le_lower_bound; lia. }
          lia.
      + rewrite Z.mod_small in E by lia. subst pi.
        assert (Es : (ti - 1) / 2 + 1 = (ti + 1) / 2).
        { replace (ti + 1) with (ti - 1 + 1 * 2) by lia. rewrite Z.div_add; lia. }
        destruct (IH ((ti - 1) / 2) x' y' a b r) as [IH1 IH2]; auto.
        { split; [ apply Z.div_pos; lia | apply Z.div_lt_upper_bound; lia ]. }
        rewrite Es in IH1, IH2.
        pose proof (pw_pos (length path)).
        split.
        * intros Hge. rewrite IH1; [| apply Z.div_le_lower_bound; lia ].
          rewrite Z.div_div by lia. reflexivity.
        * intros Hlt Hlen. apply IH2; [| lia ]. apply Z.div_lt_upper_bound; lia.
  Qed.

  Theorem vu_out path ro rn lo ln i : is_u64 i -> ~ in_range P i ->
    verify_update dbg P path ro rn lo ln i <> Ok true.
  Proof.
    intros Hu Ho H. pose proof (range_split i Hu Ho) as Hi. pose proof pwh_small.
    unfold verify_update in H. fold h in H.
    destruct (length path =? h)%nat eqn:El; cbn [negb] in H; [| discriminate ].
    apply Nat.eqb_eq in El.
    destruct (uadd dbg (last_level_index P) i) as [ti| |] eqn:Eti; cbn [rbind] in H; try discriminate.
    destruct (two_loop dbg path ti (LeafHash P lo) (LeafHash P ln)) as [[[a b] r]| |] eqn:Et;
      cbn [rbind] in H; try discriminate.
    injection H as H. apply andb_prop in H as [_ H]. apply Z.eqb_eq in H. subst r.
    unfold last_level_index in Eti. fold h in Eti. fold (pw h) in Eti.
    apply wrap64_inv in Eti as [Hti Eti].
    apply two_loop_idx in Et as [T1 T2]; auto. rewrite El in *.
    unfold is_u64 in *. pose proof (pw_pos h).
    destruct (Z_lt_le_dec (pw h - 1 + i) two64).
    - rewrite Z.mod_small in Eti by lia. subst ti.
      specialize (T1 ltac:(lia)).
      assert (2 <= (pw h - 1 + i + 1) / pw h) by (apply Z.div_le_lower_bound; lia). lia.
    - assert (ti = pw h - 1 + i - two64).
      { rewrite Eti. symmetry. apply Z.mod_unique with 1; lia. }
      specialize (T2 ltac:(lia) ltac:(lia)). lia.
  Qed.

  (** Generation out of range. *)
  Lemma gmp_len m iter : forall idx acc path, is_u64 idx ->
    gmp_loop dbg m iter idx acc = Ok path ->
    Z.of_nat (length path) = Z.of_nat (length acc) + Z.log2 (idx + 1).
  Proof.
    induction iter as [|e iter IH]; intros idx acc path Hu H; cbn [gmp_loop] in H; unfold is_root in H.
    - destruct (idx =? 0) eqn:E.
      + apply Z.eqb_eq in E; subst. injection H as <-. cbn. lia.
      + destruct (sibling dbg idx) as [[s|]| |]; cbn in H; discriminate.
    - destruct (idx =? 0) eqn:E.
      + apply Z.eqb_eq in E; subst. injection H as <-. cbn. lia.
      + apply Z.eqb_neq in E. unfold is_u64 in Hu.
        destruct (sibling dbg idx) as [[s|]| |]; cbn [rbind unwrap] in H; try discriminate.
        unfold parent in H. assert (0 <? idx = true) as E0 by (apply Z.ltb_lt; lia).
        rewrite E0 in H. cbn [rbind unwrap] in H.
        rewrite Z.shiftr_div_pow2 in H by lia. change (2 ^ 1) with 2 in H.
        apply IH in H; [| unfold is_u64; split;
           [ apply Z.div_pos; lia | apply Z.div_lt_upper_bound; lia ] ].
        rewrite H, app_length. cbn [length].
        assert (Es : (idx - 1) / 2 + 1 = Z.div2 (idx + 1)).
        { rewrite Z.div2_div. replace (idx + 1) with (idx - 1 + 1 * 2) by lia. rewrite Z.div_add; lia. }
        rewrite Es.
        assert (El : Z.log2 (idx + 1) = Z.log2 (Z.div2 (idx + 1)) + 1).
        { rewrite Z.div2_spec, Z.log2_shiftr by lia.
          assert (1 <= Z.log2 (idx + 1)) by (apply Z.log2_le_pow2; lia). lia. }
        lia.
  Qed.
  Theorem gmp_out t i path : is_u64 i -> ~ in_range P i ->
    generate_membership_proof dbg P t i <> Ok path.
  Proof.
    intros Hu Ho H. pose proof (range_split i Hu Ho) as Hi. pose proof pwh_small.
    unfold generate_membership_proof in H. fold h in H.
    destruct (convert_index_to_last_level dbg P i) as [ti| |] eqn:Ec; cbn [rbind] in H; try discriminate.
    destruct (gmp_loop dbg (t_map t) (t_empty t) ti []) as [pth| |] eqn:Eg; cbn [rbind] in H; try discriminate.
    destruct (length pth =? h)%nat eqn:El; [| discriminate ]. apply Nat.eqb_eq in El.
    unfold convert_index_to_last_level in Ec. fold h in Ec. fold (pw h) in Ec.
    destruct (uadd dbg i (pw h)) as [a| |] eqn:Ea; cbn [rbind] in Ec; try discriminate.
    apply wrap64_inv in Ea as [Ha Ea]. apply wrap64_inv in Ec as [Hti Ec].
    apply gmp_len in Eg; auto. cbn [length] in Eg. rewrite El in Eg.
    unfold is_u64 in *. pose proof (pw_pos h).
    assert (Hl : pw h <= ti + 1 < pw (S h)).
    { unfold pw. rewrite Nat2Z.inj_succ.
      replace (Z.of_nat h) with (Z.log2 (ti + 1)) by lia. apply Z.log2_spec. lia. }
    rewrite pw_S in Hl.
    destruct (Z_lt_le_dec (i + pw h) two64).
    - rewrite Z.mod_small in Ea by lia. subst a. rewrite Z.mod_small in Ec by lia. lia.
    - assert (a = i + pw h - two64).
      { rewrite Ea. symmetry. apply Z.mod_unique with 1; lia. }
      destruct (Z.eq_dec a 0) as [E0|E0].
      + rewrite E0 in Ec. assert (ti = two64 - 1) by (rewrite Ec; reflexivity). lia.
      + rewrite Z.mod_small in Ec by lia. lia.
  Qed.

  (** [update_and_prove] out of range: no error is reported. *)
  Lemma siblings_loop_out t n : forall i idx, (n + i <= S h)%nat -> length (t_empty t) = S (S h) ->
    pw (S n) <= idx + 1 < two64 ->
    exists l, siblings_loop dbg t n i idx = Ok l /\ length l = n.
  Proof.
    induction n as [|n IH]; intros i idx Hn He Hidx; cbn [siblings_loop].
    - exists []; auto.
    - rewrite pw_S in Hidx. pose proof (pw_pos (S n)).
      assert (exists s, sibling dbg idx = @Ok mt_error _ (Some s)) as (s & ->).
      { unfold sibling. assert (idx =? 0 = false) as -> by (apply Z.eqb_neq; lia).
        destruct (is_left_child idx).
        - rewrite uadd_ok by (unfold is_u64; lia). eexists; reflexivity.
        - rewrite usub_ok by (unfold is_u64; lia). eexists; reflexivity. }
      cbn [rbind unwrap].
      destruct (nth_error (t_empty t) i) as [e|] eqn:Ee.
      2:{ apply nth_error_None in Ee. lia. }
      cbn [rbind unwrap]. unfold parent.
      assert (0 <? idx = true) as -> by (apply Z.ltb_lt; lia). cbn [rbind unwrap].
      rewrite Z.shiftr_div_pow2 by lia. change (2 ^ 1) with 2.
      assert (Es : (idx - 1) / 2 + 1 = (idx + 1) / 2).
      { replace (idx + 1) with (idx - 1 + 1 * 2) by lia. rewrite Z.div_add; lia. }
      destruct (IH (S i) ((idx - 1) / 2)) as (l & -> & Hl); auto; try lia.
      { rewrite Es. split; [ apply Z.div_le_lower_bound; lia | apply Z.div_lt_upper_bound; lia ]. }
      cbn [rbind]. eexists; split; [ reflexivity |]. cbn; lia.
  Qed.
  Lemma up_loop_out sibs : forall m idx x, pw (S (length sibs)) <= idx + 1 ->
    exists m', up_loop m sibs idx x = @Ok mt_error _ (m', fold_sibs sibs (idx + 1) x).
  Proof.
    induction sibs as [|s sibs IH]; intros m idx x Hidx; cbn [up_loop fold_sibs length] in *.
    - eexists; reflexivity.
    - rewrite pw_S in Hidx. pose proof (pw_pos (S (length sibs))).
      unfold parent. assert (0 <? idx = true) as -> by (apply Z.ltb_lt; lia). cbn [rbind unwrap].
      rewrite Z.shiftr_div_pow2 by lia. change (2 ^ 1) with 2.
      assert (Es : (idx - 1) / 2 + 1 = (idx + 1) / 2).
      { replace (idx + 1) with (idx - 1 + 1 * 2) by lia. rewrite Z.div_add; lia. }
      assert (is_left_child idx = Z.even (idx + 1)) as ->.
      { unfold is_left_child. rewrite Zmod_odd, Z.even_add. rewrite <- Z.negb_even.
        destruct (Z.even idx); reflexivity. }
      destruct (IH (bm_insert m idx x) ((idx - 1) / 2)
                   (if Z.even (idx + 1) then two x s else two s x)) as (m' & E).
      { rewrite Es. apply Z.div_le_lower_bound; lia. }
      rewrite Es in E. rewrite E. eauto.
  Qed.
  Theorem update_out t i l : pw h <= i -> i + pw h < two64 -> length (t_empty t) = S (S h) ->
    exists t' pf, update_and_prove dbg P t i l = Ok (t', pf) /\
      length pf = h /\
      t_root t' = Some (fold_sibs pf (i + pw h) (LeafHash P l)).
  Proof.
    intros Hi Hlt He. pose proof (pw_pos h).
    unfold update_and_prove, siblings, convert_index_to_last_level. fold h. fold (pw h).
    rewrite uadd_ok by (unfold is_u64; lia). cbn [rbind].
    rewrite usub_ok by (unfold is_u64; lia). cbn [rbind].
    destruct (siblings_loop_out t h 0 (i + pw h - 1)) as (sl & -> & Hl); auto; try lia.
    { rewrite pw_S. lia. }
    cbn [rbind].
    destruct (up_loop_out sl (t_map t) (i + pw h - 1) (LeafHash P l)) as (m' & ->).
    { rewrite Hl, pw_S. lia. }
    cbn [rbind]. eexists _, sl. split; [ reflexivity |]. split; auto.
    cbn [t_root]. do 2 f_equal. lia.
  Qed.

  (** ** Soundness against given contents *)
  Theorem chain_ok_sound (c : contents P) path x i : in_range P i ->
    chain_ok path (merkle_root c) x i = true ->
    x = LeafHash P (c i) \/ collision2 (path ++ genuine_path c i).
  Proof.
    intros Hi H. unfold chain_ok in H. apply andb_prop in H as [El H]. apply Nat.eqb_eq in El.
    destruct (chain path i x) as [y|] eqn:E; [| discriminate ]. apply Feqb_eq in H. subst y.
    assert (i / pw h = 0) as E0 by (apply Z.div_small; exact Hi).
    unfold merkle_root in E. fold h in E.
    destruct (chain_sound (digests c) path 0 i x) as [G|G].
    - rewrite E, El, Nat.add_0_r, E0. reflexivity.
    - left. exact G.
    - right. rewrite El in G. exact G.
  Qed.

  Theorem update_sound (c : contents P) path x y i : in_range P i -> length path = h ->
    fold_sibs path i x = merkle_root c ->
    (x = LeafHash P (c i) /\
     fold_sibs path i (LeafHash P y) = merkle_root (set_leaf c i y) /\
     path = sib_path 0 h (digests c) i)
    \/ collision2 (climb_pairs path i x ++ genuine_path c i).
  Proof.
    intros Hi El H.
    assert (i / pw h = 0) as E0 by (apply Z.div_small; exact Hi).
    destruct (fold_sibs_sound (digests c) path 0 i x) as [[G1 G2]|G].
    - rewrite H, El, Nat.add_0_r, E0. reflexivity.
    - left. rewrite El in G2. split; [ exact G1 | split; [| exact G2 ] ].
      unfold merkle_root. fold h.
      set (f' := digests (set_leaf c i y)).
      assert (Es : sib_path 0 h (digests c) i = sib_path 0 h f' i).
      { apply sib_path_ext. intros j Hj. rewrite div_pw_0 in Hj. unfold f'.
        rewrite digests_set_leaf. apply Z.eqb_neq in Hj. now rewrite Hj. }
      rewrite G2, Es.
      replace (LeafHash P y) with (node 0 f' i)
        by (cbn; unfold f'; now rewrite digests_set_leaf, Z.eqb_refl).
      rewrite fold_sib_path, Nat.add_0_r, E0. reflexivity.
    - right. rewrite El in G. exact G.
  Qed.

  (** The genuine siblings lead from the old root to the new one. *)
  Lemma sib_path_roots (c : contents P) i y : in_range P i ->
    fold_sibs (sib_path 0 h (digests c) i) i (LeafHash P (c i)) = merkle_root c /\
    fold_sibs (sib_path 0 h (digests c) i) i (LeafHash P y) = merkle_root (set_leaf c i y).
  Proof.
    intros Hi. assert (i / pw h = 0) as E0 by (apply Z.div_small; exact Hi). split.
    - change (LeafHash P (c i)) with (node 0 (digests c) i).
      rewrite fold_sib_path, Nat.add_0_r, E0. reflexivity.
    - set (f' := digests (set_leaf c i y)).
      assert (Es : sib_path 0 h (digests c) i = sib_path 0 h f' i).
      { apply sib_path_ext. intros j Hj. rewrite div_pw_0 in Hj. unfold f'.
        rewrite digests_set_leaf. apply Z.eqb_neq in Hj. now rewrite Hj. }
      rewrite Es.
      replace (LeafHash P y) with (node 0 f' i)
        by (cbn; unfold f'; now rewrite digests_set_leaf, Z.eqb_refl).
      rewrite fold_sib_path, Nat.add_0_r, E0. reflexivity.
  Qed.

  Lemma chain_ok_genuine (c : contents P) i x : in_range P i ->
    chain_ok (genuine_path c i) (merkle_root c) x i = Feqb x (LeafHash P (c i)).
  Proof.
    intros Hi. assert (i / pw h = 0) as E0 by (apply Z.div_small; exact Hi).
    unfold chain_ok, genuine_path. fold h. rewrite genuine_from_length, Nat.eqb_refl. cbn [andb].
    destruct (Feqb x (LeafHash P (c i))) eqn:E.
    - apply Feqb_eq in E. subst x. change (LeafHash P (c i)) with (node 0 (digests c) i).
      rewrite chain_genuine, Nat.add_0_r, E0. apply Feqb_refl.
    - assert (exists n, h = S n) as (n & En) by (exists (h - 1)%nat; lia).
      rewrite En. cbn [genuine_from chain].
      assert (G : (if Z.even i then node 0 (digests c) (2 * (i / 2))
                   else node 0 (digests c) (2 * (i / 2) + 1)) = LeafHash P (c i)).
      { destruct (Z.even i) eqn:G; [ rewrite even_half by auto | rewrite odd_half by auto ]; reflexivity. }
      now rewrite G, E.
  Qed.

  Theorem update_verifies t c w i l : Rep P t c w -> in_range P i ->
    exists t' pf, update_and_prove dbg P t i l = Ok (t', pf) /\
      Rep P t' (set_leaf c i l) (fun j => (j =? i) || w j) /\
      length pf = h /\
      verify_update dbg P pf (merkle_root c) (merkle_root (set_leaf c i l)) (c i) l i = Ok true.
  Proof.
    intros HR Hi. destruct (update_rep dbg P Hok t c w i l HR Hi) as (t' & E & HR'). fold h in E.
    exists t', (sib_path 0 h (digests c) i). rewrite sib_path_length.
    split; [ exact E | split; [ exact HR' | split; [ reflexivity |] ] ].
    rewrite vu_in by auto. rewrite sib_path_length, Nat.eqb_refl.
    destruct (sib_path_roots c i l Hi) as [-> ->]. now rewrite !Feqb_refl.
  Qed.
End proofs.

Section proofs2.
  Context {hs : Hashes} (dbg : bool) (P : SparseConfig) (Hok : cfg_ok P).
  Let h := (HEIGHT P - 1)%nat.
  Let Hh : (1 <= h <= 61)%nat := h_ok P Hok.

  Lemma rep_node2 t c w : Rep P t c w -> forall d k, vpos h d k ->
    get_or (t_map t) (eh P d) (heap h d k) = node d (digests c) k.
  Proof. intros HR. exact (rep_node _ _ _ _ HR). Qed.
  (** ** validate *)
  (** Positions of stored leaves. *)
  Definition stored_leaves (t : tree) : bmap (Leaf P) :=
    map (fun k => (k - last_level_index P, LeafDefault P))
        (filter (fun k => last_level_index P <=? k) (bm_keys (t_map t))).
  Definition tree_in_range (t : tree) : Prop :=
    forall k, In k (bm_keys (t_map t)) -> 0 <= k < pw (S h) - 1.

  Lemma lli : last_level_index P = pw h - 1.
  Proof. reflexivity. Qed.
  Lemma stored_leaves_In t i : In i (bm_keys (stored_leaves t)) <->
    0 <= i /\ In (heap h 0 i) (bm_keys (t_map t)).
  Proof.
    unfold stored_leaves, bm_keys at 1. rewrite map_map. cbn [fst].
    rewrite in_map_iff. unfold heap. rewrite Nat.sub_0_r, lli. split.
    - intros (k & <- & Hk). apply filter_In in Hk as [H1 H2]. apply Z.leb_le in H2.
      split; [ lia |]. replace (pw h - 1 + (k - (pw h - 1))) with k by lia. exact H1.
    - intros [H1 H2]. exists (pw h - 1 + i). split; [ lia |]. apply filter_In. split; auto.
      apply Z.leb_le. lia.
  Qed.
  Lemma stored_leaves_range t : tree_in_range t ->
    forall i, In i (bm_keys (stored_leaves t)) -> in_range P i.
  Proof.
    intros Ht i Hi. apply stored_leaves_In in Hi as [H1 H2]. apply Ht in H2.
    unfold heap in H2. rewrite Nat.sub_0_r, pw_S in H2. unfold in_range.
    change (capacity P) with (pw h). lia.
  Qed.

  Lemma validate_middle t : tree_in_range t ->
    exists l, rfold (fun s k => if (last_level_index P <=? k) && negb (is_root k)
                          then do q <- unwrap (parent k); @Ok mt_error _ (bs_insert s q)
                          else Ok s) (bm_keys (t_map t)) [] = Ok l /\
      forall x, In x l <-> exists i, In i (bm_keys (stored_leaves t)) /\ x = heap h 1 (i / pw 1).
  Proof.
    intros Ht. set (K := bm_keys (t_map t)).
    assert (HK : forall k, In k K -> 0 <= k < pw (S h) - 1) by exact Ht.
    assert (Hp1 : 1 < pw h) by (rewrite <- pw_0; apply pw_lt; lia).
    rewrite rfold_ok with (g := fun s k => if last_level_index P <=? k
       then bs_insert s (heap h 1 ((k - last_level_index P) / pw 1)) else s).
    - eexists; split; [ reflexivity |].
      assert (G : forall l s x, In x (fold_left (fun s k => if last_level_index P <=? k
           then bs_insert s (heap h 1 ((k - last_level_index P) / pw 1)) else s) l s)
          <-> (exists k, In k l /\ last_level_index P <= k /\ x = heap h 1 ((k - last_level_index P) / pw 1)) \/ In x s).
      { induction l as [|k l IH]; intros s x; cbn [fold_left].
        - split; auto. intros [(k & [] & _)|]; auto.
        - rewrite IH. destruct (last_level_index P <=? k) eqn:E.
          + apply Z.leb_le in E. rewrite bs_insert_In. split.
            * intros [(j & Hj & E')|[E'|Hs]]; auto.
              -- left; exists j; split; [ now right | auto ].
              -- left; exists k; split; [ now left | auto ].
            * intros [(j & [->|Hj] & E')|Hs]; auto.
              -- right; left. apply E'.
              -- left; eauto.
          + apply Z.leb_gt in E. split.
            * intros [(j & Hj & E')|Hs]; auto. left; exists j; split; [ now right | auto ].
            * intros [(j & [->|Hj] & E')|Hs]; auto; [ lia |]. left; eauto. }
      intros x. rewrite G. cbn. split.
      + intros [(k & Hk & Hl & ->)|[]]. exists (k - last_level_index P). split; auto.
        apply stored_leaves_In. unfold heap. rewrite Nat.sub_0_r, lli in *. split; [ lia |].
        replace (pw h - 1 + (k - (pw h - 1))) with k by lia. exact Hk.
      + intros (i & Hi & ->). left. apply stored_leaves_In in Hi as [H1 H2].
        exists (heap h 0 i). split; auto. rewrite lli.
        assert (Eh : heap h 0 i = pw h - 1 + i) by (unfold heap; now rewrite Nat.sub_0_r).
        rewrite Eh. split; [ lia |]. do 2 f_equal. lia.
    - intros s k Hk. apply HK in Hk. rewrite lli.
      destruct (pw h - 1 <=? k) eqn:E; cbn [andb]; auto. apply Z.leb_le in E.
      unfold is_root. assert (k =? 0 = false) as -> by (apply Z.eqb_neq; lia). cbn [negb].
      assert (Hk' : k = heap h 0 (k - (pw h - 1))) by (unfold heap; rewrite Nat.sub_0_r; lia).
      rewrite Hk' at 1. rewrite (heap_parent h Hh 0); [ reflexivity | lia |].
      unfold vpos. rewrite Nat.sub_0_r. rewrite pw_S in Hk. lia.
  Qed.

  (** A stored node whose value is the hash of its children. *)
  Definition node_good (t : tree) (L : nat) (k : Z) : Prop :=
    bm_get (t_map t) (heap h (S L) k) =
    Some (two (get_or (t_map t) (eh P L) (heap h L (2 * k)))
              (get_or (t_map t) (eh P L) (heap h L (2 * k + 1)))).

  Lemma validate_fold t L l : t_empty t = gen_empty_hashes P -> (L < h)%nat ->
    (forall x, In x l -> exists k, vpos h (S L) k /\ x = heap h (S L) k) ->
    exists b, rfold (validate_node dbg t L) l true = Ok b /\
      (b = true <-> forall k, vpos h (S L) k -> In (heap h (S L) k) l -> node_good t L k).
  Proof.
    intros He HL.
    assert (Hf : forall l, rfold (validate_node dbg t L) l false = Ok false).
    { induction l0; cbn; auto. }
    induction l as [|x l IH]; intros Hl; cbn [rfold].
    - exists true. split; auto. split; auto. intros _ k _ [].
    - destruct (Hl x (or_introl eq_refl)) as (k & Hv & ->).
      destruct (heap_children h Hh dbg L k Hv) as [Hlc Hrc].
      unfold validate_node at 1. cbn [negb]. rewrite Hlc, Hrc. cbn [rbind].
      rewrite He, nth_eh by (auto; fold h; lia). cbn [rbind unwrap].
      destruct IH as (b & IH1 & IH2); [ intros; apply Hl; now right |].
      set (hash := two _ _).
      destruct (bm_get (t_map t) (heap h (S L) k)) as [y|] eqn:Eg; cbn [rbind].
      + destruct (Feqb y hash) eqn:E.
        * exists b. split; auto. apply Feqb_eq in E. rewrite IH2. split.
          -- intros H k' Hk' [G|G]; auto.
             apply heap_inj in G as [_ <-]; auto. unfold node_good. rewrite Eg. now subst.
          -- intros H k' Hk' G. apply H; auto. now right.
        * exists false. rewrite Hf. split; auto. split; [ discriminate |].
          intros H. specialize (H k Hv (or_introl eq_refl)). unfold node_good in H.
          rewrite Eg in H. injection H as H. apply Feqb_neq in E. contradiction.
      + exists false. rewrite Hf. split; auto. split; [ discriminate |].
        intros H. specialize (H k Hv (or_introl eq_refl)). unfold node_good in H.
        rewrite Eg in H. discriminate.
  Qed.

  Lemma validate_levels_spec t : t_empty t = gen_empty_hashes P -> tree_in_range t ->
    forall n L middle, (n + L = S h)%nat -> (L <= h)%nat ->
    (forall x, In x middle <-> (L < h)%nat /\
          exists i, In i (bm_keys (stored_leaves t)) /\ x = heap h (S L) (i / pw (S L))) ->
    exists b, validate_levels dbg t n L middle = Ok b /\
      (b = true <-> forall L' i, (L <= L' < h)%nat -> In i (bm_keys (stored_leaves t)) ->
                        node_good t L' (i / pw (S L'))).
  Proof.
    intros He Ht. pose proof (stored_leaves_range t Ht) as Hr.
    induction n as [|n IH]; intros L middle Hn HL Hmid; [ lia |].
    cbn [validate_levels].
    destruct (Nat.eq_dec L h) as [->|HLh].
    - assert (n = 0)%nat by lia. subst n.
      destruct middle as [|x middle].
      + cbn. exists true; split; auto. split; auto. intros; lia.
      + exfalso. destruct (proj1 (Hmid x) (or_introl eq_refl)). lia.
    - assert (HL' : (L < h)%nat) by lia.
      destruct (validate_fold t L middle He HL') as (b & E1 & E2).
      { intros x Hx. apply Hmid in Hx as (_ & i & Hi & ->). exists (i / pw (S L)).
        split; auto. apply (anc_vpos P Hok); [ auto | fold h; lia ]. }
      assert (E2' : b = true <-> forall i, In i (bm_keys (stored_leaves t)) -> node_good t L (i / pw (S L))).
      { rewrite E2. split.
        - intros H i Hi. apply H.
          + apply (anc_vpos P Hok); [ auto | fold h; lia ].
          + apply Hmid. eauto.
        - intros H k Hk Hin. apply Hmid in Hin as (_ & i & Hi & G).
          apply heap_inj in G as [_ ->]; auto.
          apply (anc_vpos P Hok); [ auto | fold h; lia ]. }
      rewrite E1. cbn [rbind].
      destruct b.
      + assert (Hmid' : forall x, In x middle <->
                  exists i, In i (bm_keys (stored_leaves t)) /\ x = heap h (S L) (i / pw (S L))).
        { intros x; rewrite Hmid; tauto. }
        destruct (parents_spec P Hok (stored_leaves t) Hr (S L) middle ltac:(fold h; lia) Hmid') as (l' & E4 & E5).
        rewrite E4. cbn [rbind]. destruct (IH (S L) l') as (b & G1 & G2); auto; try lia.
        exists b. split; auto. rewrite G2. split.
        * intros H L' i HL1 Hi. destruct (Nat.eq_dec L' L) as [->|]; [| apply H; auto; lia ].
          apply E2'; auto.
        * intros H L' i HL1 Hi. apply H; auto; lia.
      + exists false. split; auto. split; [ discriminate |].
        intros H. apply E2'. intros i Hi. apply H; auto; lia.
  Qed.

  Theorem validate_spec t : t_empty t = gen_empty_hashes P -> tree_in_range t ->
    exists b, validate dbg P t = Ok b /\
      (b = true <-> forall L i, (L < h)%nat -> In i (bm_keys (stored_leaves t)) ->
                        node_good t L (i / pw (S L))).
  Proof.
    intros He Ht. unfold validate.
    destruct (validate_middle t Ht) as (l & E1 & E2). rewrite E1. cbn [rbind].
    destruct (validate_levels_spec t He Ht (HEIGHT P) 0 l) as (b & G1 & G2).
    - rewrite (H_h P Hok). fold h. lia.
    - lia.
    - intros x. rewrite E2. split; [ intros; split; [ lia | auto ] | tauto ].
    - exists b. split; auto. rewrite G2. split; intros H L i HL Hi; apply H; auto; lia.
  Qed.

  Theorem validate_rep t c w : Rep P t c w -> validate dbg P t = Ok true.
  Proof.
    intros HR.
    assert (Ht : tree_in_range t).
    { intros k Hk. apply bm_get_In in Hk. now apply (rep_range _ _ _ _ HR) in Hk. }
    destruct (validate_spec t (rep_empty _ _ _ _ HR) Ht) as (b & E1 & E2).
    rewrite E1. f_equal. apply E2. intros L i HL Hi.
    pose proof (stored_leaves_range t Ht i Hi) as Hr.
    apply stored_leaves_In in Hi as [_ Hi]. apply bm_get_In in Hi.
    assert (Hst : forall d, (d <= h)%nat -> bm_get (t_map t) (heap h d (i / pw d)) <> None).
    { induction d as [|d IH]; intros Hd.
      - now rewrite div_pw_0.
      - rewrite div_pw_S. apply (rep_up _ _ _ _ HR); [ fold h; lia | | apply IH; lia ].
        apply (anc_vpos P Hok); auto. fold h; lia. }
    unfold node_good. set (k := i / pw (S L)).
    assert (Hv : vpos h (S L) k) by (apply (anc_vpos P Hok); [ auto | fold h; lia ]).
    rewrite (rep_node2 _ _ _ HR L (2 * k)), (rep_node2 _ _ _ HR L (2 * k + 1)).
    2:{ apply (vpos_down h Hh L k 1); auto. }
    2:{ pose proof (vpos_down h Hh L k 0 ltac:(auto) Hv) as G. now rewrite Z.add_0_r in G. }
    pose proof (rep_node2 _ _ _ HR (S L) k Hv) as HN. unfold get_or in HN.
    specialize (Hst (S L) ltac:(lia)). fold h in HN. fold k in Hst.
    destruct (bm_get (t_map t) (heap h (S L) k)) as [y|]; [| congruence ].
    subst y. reflexivity.
  Qed.
End proofs2.

(** Proofs about the small gadgets. *)
From Coq Require Import ZArith List Bool Lia.
Import ListNotations.
From Verif Require Import Base Env Circuit SparseMTGadget Gadgets.
Open Scope Z_scope.

(** * Programs that never abort *)
Fixpoint no_abort {A} (c : circ A) : Prop :=
  match c with
  | Ret _ => True
  | Enf _ k => no_abort k
  | Wit _ k => forall b, no_abort (k b)
  | Abort => False
  end.
Lemma no_abort_bind {A B} (c : circ A) (f : A -> circ B) :
  no_abort c -> (forall a, no_abort (f a)) -> no_abort (cbind c f).
Proof. intros Hc Hf; induction c; cbn in *; auto. Qed.
Lemma no_abort_honest {A} (c : circ A) : no_abort c -> exists ok a, honest c = Some (ok, a).
Proof.
  induction c as [x|e k IH|h k IH|]; cbn; intros H; eauto; try contradiction.
  destruct (IH H) as (ok & a & ->). eauto.
Qed.
Lemma no_abort_witnesses l : no_abort (witnesses l).
Proof. induction l; cbn; auto. intros b. apply no_abort_bind; cbn; auto. Qed.
Lemma no_abort_cfold {A B} (f : B -> A -> circ B) l b :
  (forall b a, no_abort (f b a)) -> no_abort (cfold f l b).
Proof. intros H; revert b; induction l; intros b; cbn; auto. apply no_abort_bind; auto. Qed.

(** * Bits *)
Lemma le_bits_short bits : (length bits < 254)%nat -> le_bits_to_fp bits = Ret (Fof (bits_val bits)).
Proof.
  intros H. unfold le_bits_to_fp. destruct (254 <=? length bits)%nat eqn:E; auto.
  apply Nat.leb_le in E. lia.
Qed.
Lemma le_bits_sat bits v :
  sat (le_bits_to_fp bits) v <-> ((254 <= length bits)%nat -> bits_val bits < p) /\ v = Fof (bits_val bits).
Proof.
  unfold le_bits_to_fp. destruct (254 <=? length bits)%nat eqn:E; cbn.
  - apply Nat.leb_le in E. rewrite Z.ltb_lt. intuition.
  - apply Nat.leb_gt in E. split; [ intros <-; split; [ intros; exfalso; lia | reflexivity ] | intros [_ ->]; reflexivity ].
Qed.
Lemma p_254 : 2 ^ 253 < p < 2 ^ 254.
Proof. split; reflexivity. Qed.
Lemma short_bits_lt bits : (length bits < 254)%nat -> 0 <= bits_val bits < p.
Proof.
  intros H. pose proof (bits_val_bounds bits). pose proof p_254.
  assert (2 ^ Z.of_nat (length bits) <= 2 ^ 253) by (apply Z.pow_le_mono_r; lia). lia.
Qed.

Lemma to_n_bits_sat x n bits : (n <= 256)%nat ->
  sat (to_n_bits x n) bits <-> zval x < 2 ^ Z.of_nat n /\ bits = bits_le n (zval x).
Proof.
  intros Hn. unfold to_n_bits.
  replace (n <=? 256)%nat with true by (symmetry; apply Nat.leb_le; lia). cbn [cassert cbind].
  rewrite sat_bind. pose proof (F_range x) as Hx. split.
  - intros (bs & H1 & H2). rewrite sat_witnesses in H1.
    unfold bigint_bits in H1. rewrite firstn_length, bits_le_length in H1.
    rewrite sat_bind in H2. destruct H2 as (v & H2 & H3). rewrite le_bits_sat in H2.
    destruct H2 as [Hv ->]. cbn in H3. destruct H3 as [H3 <-].
    apply Feqb_eq in H3.
    assert (L : length bs = n) by lia.
    assert (B : 0 <= bits_val bs < p).
    { destruct (Nat.lt_ge_cases (length bs) 254) as [S|S]; [ now apply short_bits_lt |].
      pose proof (bits_val_bounds bs). specialize (Hv S). lia. }
    assert (E : zval x = bits_val bs) by (rewrite <- H3; now apply zval_Fof_small).
    pose proof (bits_val_bounds bs) as Hb. rewrite L in Hb. rewrite E. split; [ lia |].
    rewrite <- L. symmetry. apply bits_le_val.
  - intros [Hlt ->]. exists (bits_le n (zval x)). split.
    + rewrite sat_witnesses. unfold bigint_bits. rewrite firstn_length, !bits_le_length. lia.
    + rewrite sat_bind. exists x. split; [ rewrite le_bits_sat |].
      * rewrite bits_val_le, Z.mod_small by lia. split; [ lia |]. now rewrite Fof_zval.
      * cbn. rewrite Feqb_refl. auto.
Qed.
Lemma to_n_bits_honest x n : (n <= 256)%nat ->
  exists bits, honest (to_n_bits x n) = Some (zval x <? 2 ^ Z.of_nat n, bits) /\
               bits = bits_le n (zval x).
Proof.
  intros Hn. unfold to_n_bits.
  replace (n <=? 256)%nat with true by (symmetry; apply Nat.leb_le; lia). cbn [cassert cbind].
  rewrite honest_bind, honest_witnesses. unfold bigint_bits. rewrite bits_le_firstn by lia.
  set (bs := bits_le n (zval x)).
  assert (Hm : bits_val bs = zval x mod 2 ^ Z.of_nat n) by apply bits_val_le.
  pose proof (F_range x) as Hx.
  assert (Hle : 0 <= bits_val bs <= zval x).
  { rewrite Hm. split; [ apply Z.mod_pos_bound, Z.pow_pos_nonneg; lia |].
    apply Z.mod_le; [ lia | apply Z.pow_pos_nonneg; lia ]. }
  assert (Hlt : bits_val bs <? p = true) by (apply Z.ltb_lt; lia).
  exists bs. split; auto.
  assert (HF : Feqb (Fof (bits_val bs)) x = (zval x <? 2 ^ Z.of_nat n)).
  { destruct (zval x <? 2 ^ Z.of_nat n) eqn:E.
    - apply Z.ltb_lt in E. rewrite Hm, Z.mod_small by lia. rewrite Fof_zval. apply Feqb_refl.
    - apply Z.ltb_ge in E. apply Feqb_neq. intros H. apply (f_equal zval) in H.
      rewrite zval_Fof_small in H by lia. rewrite Hm in H.
      pose proof (Z.mod_pos_bound (zval x) (2 ^ Z.of_nat n)).
      assert (0 < 2 ^ Z.of_nat n) by (apply Z.pow_pos_nonneg; lia). lia. }
  unfold le_bits_to_fp. destruct (254 <=? length bs)%nat; cbn; rewrite ?Hlt, HF; cbn;
    now rewrite ?andb_true_r.
Qed.

(** * Comparisons *)
Lemma is_lt_sat a b r :
  sat (is_lt a b) r <-> half_ok a = true /\ half_ok b = true /\ r = (zval a <? zval b).
Proof. unfold is_lt; cbn. intuition. Qed.
Lemma enforce_le_sat a b u :
  sat (enforce_le a b) u <->
  zval a <= (p - 1) / 2 /\ zval a <= zval b /\ zval b + 1 <= (p - 1) / 2.
Proof.
  unfold enforce_le. rewrite sat_bind. pose proof (F_range a). pose proof (F_range b).
  pose proof p_bounds. pose proof p_254.
  assert (Hs : 0 <= zval b + 1 -> zval b + 1 < p -> zval (Fadd b Fone) = zval b + 1).
  { intros. rewrite zval_Fadd. replace (zval Fone) with 1 by reflexivity. now rewrite Z.mod_small by lia. }
  assert (Hw : zval b + 1 = p -> zval (Fadd b Fone) = 0).
  { intros E. rewrite zval_Fadd. replace (zval Fone) with 1 by reflexivity.
    rewrite E. apply Z.mod_same. lia. }
  assert ((p - 1) / 2 < p) by (apply Z.div_lt_upper_bound; lia).
  split.
  - intros (r & K3 & K4). rewrite is_lt_sat in K3. rewrite sat_enforce in K4. subst r.
    destruct K3 as (Ha & Hb & E). symmetry in E. unfold half_ok in *.
    apply Z.leb_le in Ha, Hb. apply Z.ltb_lt in E.
    destruct (Z.eq_dec (zval b + 1) p) as [W|W].
    + rewrite (Hw W) in *. lia.
    + rewrite Hs in * by lia. lia.
  - intros (Ha & Hab & Hb). exists true. rewrite is_lt_sat, sat_enforce. unfold half_ok.
    rewrite Hs by lia. repeat split; try apply Z.leb_le; try (symmetry; apply Z.ltb_lt); try lia.
Qed.

(** * enforce_lt *)

(** the number with digits [l] in base [B], least significant first *)
Fixpoint dval (B : Z) (l : list Z) : Z :=
  match l with [] => 0 | d :: l' => d + B * dval B l' end.

Section digits.
  Variable B : Z.
  Hypothesis HB : 0 < B.
  Definition digit (d : Z) : Prop := 0 <= d < B.

  Lemma dval_bounds l : Forall digit l -> 0 <= dval B l < B ^ Z.of_nat (length l).
  Proof.
    induction 1 as [|d l Hd HF IH]; cbn [dval length]; [ cbn; lia |].
    rewrite Nat2Z.inj_succ, Z.pow_succ_r by lia. unfold digit in Hd. nia.
  Qed.
  Lemma dval_app a b : dval B (a ++ b) = dval B a + B ^ Z.of_nat (length a) * dval B b.
  Proof.
    induction a as [|x a IH]; cbn [dval app length].
    - rewrite Z.pow_0_r. lia.
    - rewrite IH, Nat2Z.inj_succ, Z.pow_succ_r by lia. ring.
  Qed.
  Lemma dval_zeros n : dval B (repeat 0 n) = 0.
  Proof. induction n; cbn [dval repeat]; auto. rewrite IHn. lia. Qed.

  (** numbers compare like their highest differing digit *)
  Lemma dval_lt a1 b1 x y t :
    Forall digit a1 -> Forall digit b1 -> length a1 = length b1 -> x < y ->
    dval B (a1 ++ x :: t) < dval B (b1 ++ y :: t).
  Proof.
    intros Ha Hb Hl Hxy. rewrite !dval_app. cbn [dval]. rewrite Hl.
    pose proof (dval_bounds a1 Ha) as H1. pose proof (dval_bounds b1 Hb) as H2. rewrite Hl in H1.
    set (P := B ^ Z.of_nat (length b1)) in *. nia.
  Qed.
End digits.

Lemma firstn_chunk_bits w l :
  bits_val l = bits_val (firstn w l) + 2 ^ Z.of_nat w * bits_val (skipn w l).
Proof.
  rewrite <- (firstn_skipn w l) at 1. rewrite bits_val_app.
  destruct (Nat.le_gt_cases w (length l)) as [H|H].
  - now rewrite firstn_length_le.
  - rewrite skipn_all2 by lia. cbn [bits_val]. lia.
Qed.
Lemma chunks_val w l : (0 < w)%nat ->
  dval (2 ^ Z.of_nat w) (map bits_val (chunks w l)) = bits_val l /\
  Forall (fun c => length c <= w)%nat (chunks w l).
Proof.
  intros Hw. unfold chunks.
  assert (H : forall fuel (l : list bool), (length l <= fuel)%nat ->
    dval (2 ^ Z.of_nat w) (map bits_val (chunks_fuel fuel w l)) = bits_val l /\
    Forall (fun c => length c <= w)%nat (chunks_fuel fuel w l)).
  { clear l. induction fuel as [|fuel IH]; intros l Hl.
    - destruct l; [ cbn; auto | cbn in Hl; lia ].
    - destruct l as [|b l]; [ cbn; auto |].
      cbn [chunks_fuel]. set (l' := b :: l) in *.
      destruct (IH (skipn w l')) as [E Fo].
      { rewrite skipn_length. unfold l' in *. cbn [length] in *. lia. }
      cbn [map dval]. rewrite E, <- firstn_chunk_bits. split; auto. constructor; auto.
      rewrite firstn_length. lia. }
  now apply H.
Qed.

Lemma cmap_ret {A C} (f : A -> circ C) (g : A -> C) l :
  (forall x, In x l -> f x = Ret (g x)) -> cmap f l = Ret (map g l).
Proof.
  induction l as [|x l IH]; intros H; cbn; auto.
  rewrite (H x) by now left. cbn. rewrite IH by (intros; apply H; now right). reflexivity.
Qed.

Definition lt_step (cr : F * F) (bd : bool * F) : circ (F * F) :=
  let '(c, r) := cr in
  let '(b, d) := bd in
  let c := Fadd c (sel b d Fzero) in
  let! _ := enforce (Feqb (Fmul r d) Fzero) in
  Ret (c, Fadd r (Fbool b)).

Fixpoint count (l : list bool) : Z :=
  match l with [] => 0 | b :: l' => Z.b2z b + count l' end.
Lemma count_bounds l : 0 <= count l <= Z.of_nat (length l).
Proof. induction l as [|b l IH]; cbn [count length]; [ lia |]. destruct b; cbn [Z.b2z]; lia. Qed.

Lemma Fbool_b2z b : Fbool b = Fof (Z.b2z b).
Proof. destruct b; reflexivity. Qed.

Lemma lt_loop_r hb ds c0 r0 c r :
  length hb = length ds -> sat (cfold lt_step (combine hb ds) (c0, r0)) (c, r) ->
  r = Fadd r0 (Fof (count hb)).
Proof.
  revert ds c0 r0; induction hb as [|b hb IH]; intros [|d ds] c0 r0 Hl H; try discriminate.
  - cbn in H. assert (E := f_equal snd H). cbn in E. subst. cbn [count].
    change (Fof 0) with Fzero. ring.
  - cbn [combine cfold] in H. rewrite sat_bind in H. destruct H as ((c1, r1) & H1 & H2).
    cbn [lt_step cbind enforce sat] in H1. destruct H1 as [_ H1].
    apply pair_equal_spec in H1 as [_ H1]. subst r1.
    apply IH in H2; [| now injection Hl ]. subst r. cbn [count].
    rewrite Fof_add, <- Fbool_b2z. ring.
Qed.

(** once a window is selected, every later difference is zero *)
Lemma lt_loop_after hb ds c0 c :
  length hb = length ds -> Z.of_nat (length hb) + 1 < p ->
  sat (cfold lt_step (combine hb ds) (c0, Fone)) (c, Fone) ->
  Forall (fun d => d = Fzero) ds /\ c = c0.
Proof.
  revert ds c0; induction hb as [|b hb IH]; intros [|d ds] c0 Hl Hp H; try discriminate.
  - cbn in H. split; auto. now assert (E := f_equal fst H).
  - pose proof (lt_loop_r _ _ _ _ _ _ Hl H) as Hr.
    assert (Hz : count (b :: hb) = 0).
    { assert (E : Fof (count (b :: hb)) = Fof 0).
      { change (Fof 0) with Fzero.
        assert (E1 : Fof (count (b :: hb)) = Fsub (Fadd Fone (Fof (count (b :: hb)))) Fone) by ring.
        rewrite E1, <- Hr. ring. }
      pose proof (count_bounds (b :: hb)). apply Fof_inj_small in E; lia. }
    pose proof (count_bounds hb) as Hc. cbn [count] in Hz. destruct b; cbn [Z.b2z] in Hz; [ lia |].
    cbn [combine cfold] in H. rewrite sat_bind in H. destruct H as ((c1, r1) & H1 & H2).
    cbn [lt_step cbind enforce sat] in H1. destruct H1 as [H0 H1].
    apply pair_equal_spec in H1 as [Ec Er]. apply Feqb_eq in H0.
    assert (Hd : d = Fzero) by (rewrite <- H0; ring). subst d.
    assert (r1 = Fone) by (rewrite <- Er; change (Fbool false) with Fzero; ring). subst r1.
    assert (c1 = c0) by (rewrite <- Ec; cbn [sel]; ring). subst c1.
    apply IH in H2; [| now injection Hl | cbn [length] in Hp; lia ].
    destruct H2 as [H2 ->]. auto.
Qed.

Lemma lt_loop_before hb ds c0 c :
  length hb = length ds -> Z.of_nat (length hb) + 1 < p ->
  sat (cfold lt_step (combine hb ds) (c0, Fzero)) (c, Fone) ->
  exists d1 d d2, ds = d1 ++ d :: d2 /\ Forall (fun d => d = Fzero) d2 /\ c = Fadd c0 d.
Proof.
  revert ds c0; induction hb as [|b hb IH]; intros [|d ds] c0 Hl Hp H; try discriminate.
  - cbn [combine cfold] in H. rewrite sat_bind in H. destruct H as ((c1, r1) & H1 & H2).
    cbn [lt_step cbind enforce sat] in H1. destruct H1 as [_ H1].
    apply pair_equal_spec in H1 as [Ec Er].
    cbn [length] in Hp. injection Hl as Hl.
    destruct b; cbn [sel Fbool] in Ec, Er.
    + assert (r1 = Fone) by (rewrite <- Er; change (Fbool true) with Fone; ring). subst r1.
      apply lt_loop_after in H2; [| auto | lia ]. destruct H2 as [H2 ->].
      exists [], d, ds. auto.
    + assert (r1 = Fzero) by (rewrite <- Er; change (Fbool false) with Fzero; ring). subst r1.
      assert (c1 = c0) by (rewrite <- Ec; ring). subst c1.
      apply IH in H2; [| auto | lia ]. destruct H2 as (d1 & d' & d2 & -> & H3 & H4).
      exists (d :: d1), d', d2. repeat split; auto. congruence.
Qed.

(** the honest run *)
Lemma lt_loop_honest_zero ds c0 :
  Forall (fun d => d = Fzero) ds ->
  honest (cfold lt_step (combine (repeat false (length ds)) ds) (c0, Fone)) = Some (true, (c0, Fone)).
Proof.
  intros H; revert c0; induction H as [|d ds -> H IH]; intros c0; [ reflexivity |].
  cbn [length repeat combine cfold]. rewrite honest_bind. cbn [lt_step cbind enforce honest sel].
  replace (Feqb (Fmul Fone Fzero) Fzero) with true by reflexivity. cbn [andb].
  replace (Fadd c0 Fzero) with c0 by ring. change (Fbool false) with Fzero.
  replace (Fadd Fone Fzero) with Fone by ring. now rewrite IH.
Qed.
Lemma lt_loop_honest d1 d d2 c0 :
  Forall (fun d => d = Fzero) d2 ->
  honest (cfold lt_step
    (combine (repeat false (length d1) ++ true :: repeat false (length d2)) (d1 ++ d :: d2))
    (c0, Fzero)) = Some (true, (Fadd c0 d, Fone)).
Proof.
  intros H; revert c0; induction d1 as [|x d1 IH]; intros c0.
  - cbn [length repeat app combine cfold]. rewrite honest_bind.
    cbn [lt_step cbind enforce honest sel].
    replace (Fmul Fzero d) with Fzero by ring. rewrite Feqb_refl. cbn [andb].
    change (Fbool true) with Fone. replace (Fadd Fzero Fone) with Fone by ring.
    now rewrite lt_loop_honest_zero.
  - cbn [length repeat app combine cfold]. rewrite honest_bind.
    cbn [lt_step cbind enforce honest sel].
    replace (Fmul Fzero x) with Fzero by ring. rewrite Feqb_refl. cbn [andb].
    replace (Fadd c0 Fzero) with c0 by ring. change (Fbool false) with Fzero.
    replace (Fadd Fzero Fzero) with Fzero by ring. now rewrite IH.
Qed.

Definition FF (xy : Z * Z) : F * F := (Fof (fst xy), Fof (snd xy)).

Lemma repeat_snoc {A} (x : A) n : repeat x n ++ [x] = x :: repeat x n.
Proof. induction n; cbn; auto. now rewrite IHn. Qed.
Lemma rev_repeat' {A} (x : A) n : rev (repeat x n) = repeat x n.
Proof. induction n; cbn; auto. now rewrite IHn, repeat_snoc. Qed.

(** the hint computed by the code marks the highest differing digit *)
Lemma helper_spec B (zp : list (Z * Z)) :
  0 < B <= p -> Forall (fun xy => digit B (fst xy) /\ digit B (snd xy)) zp ->
  dval B (map fst zp) < dval B (map snd zp) ->
  exists p1 x y p2, zp = p1 ++ (x, y) :: p2 /\ x < y /\ Forall (fun xy => fst xy = snd xy) p2 /\
    rev (first_gt (rev (map FF zp))) = repeat false (length p1) ++ true :: repeat false (length p2).
Proof.
  intros HB. induction zp as [|[x y] zp IH] using rev_ind; intros HF Hlt; [ cbn in Hlt; lia |].
  apply Forall_app in HF as [HF Hxy]. inversion Hxy as [|? ? [Hx Hy] _]; subst. cbn [fst snd] in *.
  rewrite !map_app in *. cbn [map fst snd] in *.
  assert (Hl : length (map fst zp) = length (map snd zp)) by now rewrite !map_length.
  assert (Hfst : Forall (digit B) (map fst zp)).
  { apply Forall_map. eapply Forall_impl; [| exact HF ]. now intros ? []. }
  assert (Hsnd : Forall (digit B) (map snd zp)).
  { apply Forall_map. eapply Forall_impl; [| exact HF ]. now intros ? []. }
  rewrite rev_app_distr. cbn [rev app first_gt FF fst snd].
  assert (Zx : zval (Fof x) = x) by (apply zval_Fof_small; unfold digit in *; lia).
  assert (Zy : zval (Fof y) = y) by (apply zval_Fof_small; unfold digit in *; lia).
  unfold FF at 1. cbn [fst snd first_gt]. rewrite Zx, Zy.
  destruct (Z.lt_trichotomy x y) as [L|[L|L]].
  - rewrite (proj2 (Z.ltb_lt _ _) L). exists zp, x, y, []. repeat split; auto.
    cbn [rev repeat length]. rewrite rev_length, map_length, rev_repeat'. reflexivity.
  - subst y. rewrite Z.ltb_irrefl. cbn [rev].
    destruct IH as (p1 & x' & y' & p2 & -> & Hx' & Hp2 & E); auto.
    { rewrite !dval_app in Hlt by lia. rewrite Hl in Hlt. lia. }
    exists p1, x', y', (p2 ++ [(x, x)]). rewrite <- app_assoc. cbn [app]. repeat split; auto.
    + apply Forall_app. auto.
    + rewrite E, app_length, <- app_assoc. cbn [app length].
      rewrite Nat.add_1_r. cbn [repeat]. now rewrite repeat_snoc.
  - exfalso. pose proof (dval_lt B ltac:(lia) (map snd zp) (map fst zp) y x [] Hsnd Hfst
      ltac:(now symmetry) L). cbn in *. lia.
Qed.

Lemma nth_map_Fof l i : nth i (map Fof l) Fzero = Fof (nth i l 0).
Proof. change Fzero with (Fof 0). apply map_nth. Qed.

Lemma seq_nth_map {A} (l : list A) d n :
  map (fun i => nth i l d) (seq 0 (length l + n)) = l ++ repeat d n.
Proof.
  rewrite seq_app, map_app. f_equal.
  - apply nth_ext with (d := d) (d' := d); [ now rewrite map_length, seq_length |].
    intros i Hi. rewrite map_length, seq_length in Hi.
    rewrite nth_indep with (d' := nth 0 l d) by now rewrite map_length, seq_length.
    rewrite (map_nth (fun i => nth i l d)). now rewrite seq_nth.
  - cbn [Nat.add]. generalize (Nat.le_refl (length l)). generalize (length l) at 2 3.
    induction n as [|n IH]; intros k Hk; cbn; auto.
    rewrite nth_overflow by lia. f_equal. apply IH. lia.
Qed.

Section enforce_lt.
  Variables (W : nat) (xb yb : list bool).
  Hypothesis HW : (0 < W)%nat.
  Hypothesis Hp : 2 ^ (Z.of_nat W + 1) <= p.
  Hypothesis Hlen : Z.of_nat (Nat.max (length xb) (length yb)) + 1 < p.

  Let B := 2 ^ Z.of_nat W.
  Let zx := map bits_val (chunks W xb).
  Let zy := map bits_val (chunks W yb).
  Let len := Nat.max (length zx) (length zy).
  Let zp := map (fun i => (nth i zx 0, nth i zy 0)) (seq 0 len).
  Let delta := map (fun xy : F * F => Fsub (snd xy) (fst xy)) (map FF zp).

  Lemma W_small : (W < 253)%nat.
  Proof.
    destruct (Nat.lt_ge_cases W 253) as [H|H]; auto.
    assert (2 ^ 254 <= 2 ^ (Z.of_nat W + 1)) by (apply Z.pow_le_mono_r; lia).
    pose proof p_254. lia.
  Qed.

  Lemma digits_of l : Forall (digit B) (map bits_val (chunks W l)).
  Proof.
    apply Forall_map. destruct (chunks_val W l HW) as [_ H].
    eapply Forall_impl; [| exact H ]. intros c Hc. cbn beta in *. unfold digit.
    pose proof (bits_val_bounds c).
    assert (2 ^ Z.of_nat (length c) <= B) by (apply Z.pow_le_mono_r; lia). lia.
  Qed.
  Lemma chunk_le_bits l : cmap le_bits_to_fp (chunks W l) = Ret (map Fof (map bits_val (chunks W l))).
  Proof.
    rewrite map_map. apply cmap_ret. intros c Hc.
    destruct (chunks_val W l HW) as [_ H]. rewrite Forall_forall in H. apply H in Hc.
    pose proof W_small. apply le_bits_short. lia.
  Qed.
  Lemma B_pos : 0 < B. Proof. apply Z.pow_pos_nonneg; lia. Qed.
  Lemma B_p : 2 * B <= p.
  Proof. unfold B. rewrite <- Z.pow_succ_r by lia. replace (Z.succ (Z.of_nat W)) with (Z.of_nat W + 1) by lia. exact Hp. Qed.

  Lemma zp_digits : Forall (fun xy => digit B (fst xy) /\ digit B (snd xy)) zp.
  Proof.
    apply Forall_map, Forall_forall. intros i _. cbn [fst snd].
    assert (N : forall l, Forall (digit B) l -> digit B (nth i l 0)).
    { intros l H. destruct (Nat.lt_ge_cases i (length l)).
      - rewrite Forall_forall in H. apply H, nth_In; auto.
      - rewrite nth_overflow by auto. unfold digit. pose proof B_pos. lia. }
    split; apply N; apply digits_of.
  Qed.
  Lemma zp_fst : dval B (map fst zp) = bits_val xb.
  Proof.
    unfold zp. rewrite map_map. cbn [fst].
    replace len with (length zx + (len - length zx))%nat by (unfold len; lia).
    rewrite seq_nth_map, dval_app by apply B_pos. rewrite dval_zeros.
    destruct (chunks_val W xb HW) as [E _]. unfold zx, B. rewrite E. lia.
  Qed.
  Lemma zp_snd : dval B (map snd zp) = bits_val yb.
  Proof.
    unfold zp. rewrite map_map. cbn [snd].
    replace len with (length zy + (len - length zy))%nat by (unfold len; lia).
    rewrite seq_nth_map, dval_app by apply B_pos. rewrite dval_zeros.
    destruct (chunks_val W yb HW) as [E _]. unfold zy, B. rewrite E. lia.
  Qed.
  Lemma chunks_length_le w (l : list bool) : (length (chunks w l) <= length l)%nat.
  Proof.
    unfold chunks.
    assert (H : forall fuel (l : list bool), (length (chunks_fuel fuel w l) <= fuel)%nat).
    { induction fuel as [|f IH]; intros k; cbn; [ lia |]. destruct k; cbn; [ lia |].
      specialize (IH (skipn w (b :: k))). lia. }
    apply H.
  Qed.
  Lemma zp_length : Z.of_nat (length zp) + 1 < p.
  Proof.
    unfold zp. rewrite map_length, seq_length. unfold len, zx, zy. rewrite !map_length.
    pose proof (chunks_length_le W xb). pose proof (chunks_length_le W yb). lia.
  Qed.
  Lemma delta_length : length delta = length zp.
  Proof. unfold delta. now rewrite !map_length. Qed.

  Definition lt_body : circ unit :=
    let! helper := witnesses (rev (first_gt (rev (map FF zp)))) in
    let! (c, r) := cfold lt_step (combine helper delta) (Fzero, Fzero) in
    let c := Fsub c Fone in
    let! bits := witnesses (firstn W (bigint_bits c)) in
    let! v := le_bits_to_fp bits in
    let! _ := enforce (Feqb v c) in
    enforce (Feqb r Fone).

  Lemma enforce_lt_body : enforce_lt W xb yb = lt_body.
  Proof.
    unfold enforce_lt. pose proof W_small.
    replace ((0 <? W)%nat && (W <=? 256)%nat) with true.
    2: { symmetry. apply andb_true_iff. rewrite Nat.ltb_lt, Nat.leb_le. lia. }
    cbn [cassert cbind]. rewrite !chunk_le_bits. cbn [cbind].
    fold zx zy. rewrite !map_length. fold len.
    replace (map (fun i => (nth i (map Fof zx) Fzero, nth i (map Fof zy) Fzero)) (seq 0 len))
      with (map FF zp); [ reflexivity |].
    unfold zp. rewrite map_map. apply map_ext. intros i. unfold FF. cbn [fst snd].
    now rewrite !nth_map_Fof.
  Qed.

  Lemma first_gt_length l : length (first_gt l) = length l.
  Proof.
    induction l as [|[x y] l IH]; cbn; auto. destruct (_ <? _); cbn; auto. now rewrite repeat_length.
  Qed.

  Lemma delta_split_zero dl : forall d1 d d2,
    dl = d1 ++ d :: d2 -> Forall (fun d => d = Fzero) d2 ->
    forall zq, dl = map (fun xy : F * F => Fsub (snd xy) (fst xy)) (map FF zq) ->
    Forall (fun xy => digit B (fst xy) /\ digit B (snd xy)) zq ->
    exists p1 x y p2, zq = p1 ++ (x, y) :: p2 /\ d = Fsub (Fof y) (Fof x) /\
      Forall (fun xy => fst xy = snd xy) p2.
  Proof.
    intros d1 d d2 E Hz zq Hq HF. rewrite E in Hq. rewrite map_map in Hq.
    clear E. revert d1 Hq. induction zq as [|[x y] zq IH]; intros d1 Hq; [ destruct d1; discriminate |].
    inversion HF as [|? ? _ HF']; subst. destruct d1 as [|e d1]; cbn [app map] in Hq.
    - assert (H1 := f_equal (hd Fzero) Hq). assert (H2 := f_equal (@tl F) Hq).
      cbn [hd tl FF fst snd] in H1, H2. unfold FF in H1. cbn [fst snd] in H1.
      exists [], x, y, zq. repeat split; auto.
      rewrite H2, Forall_map in Hz. rewrite Forall_forall in Hz, HF' |- *.
      intros [a b] Hin. specialize (Hz _ Hin). specialize (HF' _ Hin). unfold FF in Hz.
      cbn [fst snd] in *. apply (proj1 (Fsub_0_eq _ _)) in Hz. symmetry in Hz.
      pose proof B_p. pose proof B_pos.
      unfold digit in HF'. apply Fof_inj_small in Hz; lia.
    - assert (H2 := f_equal (@tl F) Hq). cbn [tl] in H2.
      destruct (IH HF' d1 H2) as (p1 & x' & y' & p2 & -> & Hd & Hp2).
      exists ((x, y) :: p1), x', y', p2. auto.
  Qed.

  Lemma enforce_lt_sound : sat (enforce_lt W xb yb) tt -> bits_val xb < bits_val yb.
  Proof.
    rewrite enforce_lt_body. unfold lt_body. rewrite sat_bind. intros (hb & H1 & H2).
    rewrite sat_witnesses in H1. rewrite rev_length, first_gt_length, rev_length, map_length in H1.
    rewrite sat_bind in H2. destruct H2 as ((c, r) & H2 & H3).
    rewrite sat_bind in H3. destruct H3 as (bits & H3 & H4). rewrite sat_witnesses in H3.
    rewrite sat_bind in H4. destruct H4 as (v & H4 & H5). rewrite le_bits_sat in H4.
    destruct H4 as [_ ->]. cbn [cbind enforce sat] in H5. destruct H5 as (H5 & H6 & _).
    apply Feqb_eq in H5, H6. subst r.
    apply lt_loop_before in H2; [| now rewrite delta_length | rewrite H1; apply zp_length ].
    destruct H2 as (d1 & d & d2 & Ed & Hz & Hc).
    destruct (delta_split_zero delta d1 d d2 Ed Hz zp eq_refl zp_digits)
      as (p1 & x & y & p2 & Ep & Hd & Hp2).
    pose proof W_small.
    unfold bigint_bits in H3. rewrite firstn_length, bits_le_length in H3.
    assert (Lb : length bits = W) by lia.
    pose proof (bits_val_bounds bits) as Hb. rewrite Lb in Hb. fold B in Hb.
    pose proof zp_digits as HF. rewrite Ep in HF. apply Forall_app in HF as [HF1 HF2].
    pose proof (Forall_inv HF2) as [Hx Hy]. pose proof (Forall_inv_tail HF2) as HF3. cbn [fst snd] in Hx, Hy. unfold digit in Hx, Hy.
    (* c - 1 = y - x - 1 as field elements *)
    assert (Ec : Fof (bits_val bits) = Fof (y - x - 1)).
    { rewrite H5, Hc, Hd. rewrite !Fof_sub. change (Fof 1) with Fone. ring. }
    assert (Hxy : x < y).
    { destruct (Z.lt_ge_cases x y) as [L|L]; auto. exfalso.
      assert (E' : Fof (bits_val bits) = Fof (p + (y - x - 1))).
      { rewrite Ec. apply Fof_eq_iff. rewrite <- (Z.mod_add (y - x - 1) 1) by (pose proof p_bounds; lia).
        f_equal. lia. }
      pose proof B_p. apply Fof_inj_small in E'; lia. }
    rewrite <- zp_fst, <- zp_snd, Ep, !map_app. cbn [map fst snd].
    replace (map snd p2) with (map fst p2).
    - apply dval_lt; [ apply B_pos | | | | exact Hxy ].
      + apply Forall_map. eapply Forall_impl; [| exact HF1 ]. now intros ? [].
      + apply Forall_map. eapply Forall_impl; [| exact HF1 ]. now intros ? [].
      + now rewrite !map_length.
    - apply map_ext_in. intros a Ha. rewrite Forall_forall in Hp2. now apply Hp2.
  Qed.

  Lemma enforce_lt_complete :
    bits_val xb < bits_val yb -> honest (enforce_lt W xb yb) = Some (true, tt).
  Proof.
    intros Hlt. rewrite enforce_lt_body. unfold lt_body.
    pose proof B_pos. pose proof B_p. pose proof W_small.
    destruct (helper_spec B zp ltac:(lia) zp_digits) as (p1 & x & y & p2 & Ep & Hxy & Hp2 & Eh).
    { now rewrite zp_fst, zp_snd. }
    rewrite honest_bind, honest_witnesses, Eh.
    pose proof zp_digits as HF. rewrite Ep in HF. apply Forall_app in HF as [HF1 HF2].
    pose proof (Forall_inv HF2) as [Hx Hy]. pose proof (Forall_inv_tail HF2) as HF3. cbn [fst snd] in Hx, Hy. unfold digit in Hx, Hy.
    set (dl := fun l => map (fun xy : F * F => Fsub (snd xy) (fst xy)) (map FF l)).
    assert (Ed : delta = dl p1 ++ Fsub (Fof y) (Fof x) :: dl p2).
    { unfold delta. rewrite Ep. unfold dl. now rewrite !map_app. }
    assert (L1 : length p1 = length (dl p1)) by (unfold dl; now rewrite !map_length).
    assert (L2 : length p2 = length (dl p2)) by (unfold dl; now rewrite !map_length).
    assert (Hz : Forall (fun d => d = Fzero) (dl p2)).
    { unfold dl. rewrite map_map. apply Forall_map. eapply Forall_impl; [| exact Hp2 ].
      intros [a b]. cbn. intros ->. ring. }
    rewrite Ed, L1, L2, honest_bind, lt_loop_honest by exact Hz.
    set (c := Fsub (Fadd Fzero (Fsub (Fof y) (Fof x))) Fone).
    assert (Ec : c = Fof (y - x - 1)).
    { unfold c. rewrite !Fof_sub. change (Fof 1) with Fone. ring. }
    rewrite honest_bind, honest_witnesses. unfold bigint_bits. rewrite bits_le_firstn by lia.
    assert (Zc : zval c = y - x - 1) by (rewrite Ec; apply zval_Fof_small; lia).
    rewrite le_bits_short by (rewrite bits_le_length; lia).
    cbn [cbind enforce honest]. rewrite bits_val_le. fold B. rewrite Z.mod_small by lia.
    rewrite Fof_zval, !Feqb_refl. reflexivity.
  Qed.

  Lemma enforce_lt_no_abort : no_abort (enforce_lt W xb yb).
  Proof.
    rewrite enforce_lt_body. unfold lt_body. apply no_abort_bind; [ apply no_abort_witnesses |].
    intros hb. apply no_abort_bind.
    - apply no_abort_cfold. intros [c r] [b d]. cbn. auto.
    - intros [c r]. apply no_abort_bind; [ apply no_abort_witnesses |]. intros bits.
      unfold le_bits_to_fp. destruct (254 <=? length bits)%nat; cbn; auto.
  Qed.

  Lemma enforce_lt_honest : honest (enforce_lt W xb yb) = Some (bits_val xb <? bits_val yb, tt).
  Proof.
    destruct (no_abort_honest _ enforce_lt_no_abort) as (ok & [] & E).
    destruct (bits_val xb <? bits_val yb) eqn:L.
    - apply Z.ltb_lt in L. now apply enforce_lt_complete.
    - rewrite E. destruct ok; auto. apply honest_sat, enforce_lt_sound in E.
      apply Z.ltb_ge in L. lia.
  Qed.
  Lemma enforce_lt_sat u : sat (enforce_lt W xb yb) u <-> bits_val xb < bits_val yb.
  Proof.
    destruct u. split; [ apply enforce_lt_sound |].
    intros H. apply honest_sat. now apply enforce_lt_complete.
  Qed.
End enforce_lt.

(** C36-C39: the L1 contract. *)
From Coq Require Import ZArith List Bool Lia Permutation.
Import ListNotations.
From Verif Require Import Base Env Data DataSpec Schnorr HMap Contract ContractSpec.
Open Scope Z_scope.

Section lists.
  Context {A : Type}.
  Lemma set_nth_length' n (x : A) l : length (set_nth n x l) = length l.
  Proof. revert n; induction l as [|y l IH]; intros [|n]; cbn; auto. Qed.
  Lemma nth_error_set_nth n (x : A) l j :
    nth_error (set_nth n x l) j = if (j =? n)%nat && (n <? length l)%nat then Some x else nth_error l j.
  Proof.
    revert n j; induction l as [|y l IH]; intros [|n] [|j]; cbn; auto.
    - now rewrite andb_false_r.
    - rewrite IH. reflexivity.
  Qed.
  Lemma split_set (l : list A) n x y : (0 < n < length l)%nat ->
    set_nth 0 x (firstn n l) ++ set_nth 0 y (skipn n l) = set_nth 0 x (set_nth n y l).
  Proof.
    intros [H1 H2]. destruct l as [|a l]; cbn in H2; [ lia |]. destruct n as [|n]; [ lia |]. cbn.
    f_equal. revert n H1 H2. induction l as [|b l IH]; intros n H1 H2; cbn in H2; [ lia |].
    destruct n as [|n]; cbn; auto. f_equal. apply IH; lia.
  Qed.
  Lemma nth_error_skipn n (l : list A) : nth_error (skipn n l) 0 = nth_error l n.
  Proof. revert l; induction n as [|n IH]; intros [|a l]; try reflexivity. apply IH. Qed.
  Lemma nth_error_firstn n (l : list A) : (0 < n)%nat -> nth_error (firstn n l) 0 = nth_error l 0.
  Proof. intros H. destruct n; [ lia |]. destruct l; auto. Qed.
End lists.

Lemma zsum_set_nth (l : list Z) n x y : nth_error l n = Some y ->
  zsum (set_nth n x l) = zsum l - y + x.
Proof.
  revert n; induction l as [|a l IH]; intros [|n] H; cbn in H; try discriminate.
  - injection H as ->. change (x + zsum l = y + zsum l - y + x). lia.
  - change (a + zsum (set_nth n x l) = a + zsum l - y + x). rewrite (IH n H). lia.
Qed.
Lemma map_set_nth {A B} (f : A -> B) n x l : map f (set_nth n x l) = set_nth n (f x) (map f l).
Proof. revert n; induction l as [|a l IH]; intros [|n]; cbn; auto. now rewrite IH. Qed.

Section props.
  Context {hs : Hashes} {G : Curve} (dbg : bool).

  Lemma pt_eqb_eq' (a b : pt) : pt_eqb a b = true <-> a = b.
  Proof. apply pt_eqb_eq. Qed.

  (** Outcomes of 64-bit additions and subtractions. *)
  Lemma add64_cases {E} (a b : u64) :
    match @add64 E dbg a b with
    | Ok r => zval r = (zval a + zval b) mod two64
    | Err _ => False
    | Panic => dbg = true /\ two64 <= zval a + zval b
    end.
  Proof.
    unfold add64, uadd. pose proof (u64_range a). pose proof (u64_range b).
    destruct (Z_lt_ge_dec (zval a + zval b) two64) as [Hl|Hl].
    - rewrite wrap64_ok by (unfold is_u64; lia). cbn [rbind].
      rewrite zval_u64of_small by lia. rewrite Z.mod_small by lia. reflexivity.
    - unfold wrap64. rewrite (proj2 (andb_false_iff _ _)) by (right; apply Z.ltb_ge; lia).
      destruct dbg; cbn [rbind]; [ split; auto; lia |].
      apply zval_u64of_small. apply Z.mod_pos_bound. reflexivity.
  Qed.
  Lemma sub64_ok {E} (a b : u64) : zval b <= zval a ->
    exists r, @sub64 E dbg a b = Ok r /\ zval r = zval a - zval b.
  Proof.
    intros Hle. unfold sub64, usub. pose proof (u64_range a). pose proof (u64_range b).
    rewrite wrap64_ok by (unfold is_u64; lia). cbn [rbind].
    eexists. split; [ reflexivity |]. apply zval_u64of_small. lia.
  Qed.

  (** When an addition wraps: only without overflow checks. *)
  Definition plus64 (x a : Z) : Z := (x + a) mod two64.

  (** C36. A deposit of [a] from account [i], in a contract with one balance per key. *)
  Definition deposit_panics (c : contract) (i : nat) (a : Z) : Prop :=
    i = 0%nat \/ balance c i = None \/ (exists b, balance c i = Some b /\ b < a) \/
    (dbg = true /\ ((exists b0, balance c 0 = Some b0 /\ two64 <= b0 + a) \/
                    (exists k, key_of c i = Some k /\ two64 <= pending c k + a))).

  Lemma deposit_cases c i (a : u64) : well_formed c ->
    match deposit dbg c i a with
    | Err _ => False
    | Panic => deposit_panics c i (zval a)
    | Ok c' => exists k bi b0, (0 < i)%nat /\ key_of c i = Some k /\ balance c i = Some bi /\
        balance c 0 = Some b0 /\ zval a <= bi /\
        pks c' = pks c /\ pk_indices c' = pk_indices c /\ nonces c' = nonces c /\
        block_hashes c' = block_hashes c /\
        (exists x0 xi e, l1_accounts c' = set_nth 0 x0 (set_nth i xi (l1_accounts c)) /\
           zval x0 = plus64 b0 (zval a) /\ zval xi = bi - zval a /\
           c_deposits c' = hset pt_eqb (c_deposits c) k e /\
           zval e = plus64 (pending c k) (zval a) /\
           (hget pt_eqb (c_deposits c) k = None -> e = a)) /\
        (dbg = true -> b0 + zval a < two64 /\ pending c k + zval a < two64)
    end.
  Proof.
    intros [Hl Hn]. unfold deposit, deposit_panics, balance, key_of, pending.
    destruct (Nat.leb_spec i (length (l1_accounts c))) as [Hi|Hi]; cbn [rassert rbind].
    2:{ right; left. rewrite (proj2 (nth_error_None _ _)) by lia. reflexivity. }
    rewrite nth_error_skipn.
    destruct (nth_error (l1_accounts c) i) as [bi|] eqn:Ebi; cbn [unwrap rbind option_map]; [| tauto ].
    destruct (Nat.eq_dec i 0) as [->|Hi0]; [ left; reflexivity |].
    rewrite nth_error_firstn by lia.
    assert (Hlt : (i < length (l1_accounts c))%nat) by (apply nth_error_Some; congruence).
    destruct (nth_error (l1_accounts c) 0) as [b0|] eqn:Eb0; cbn [unwrap rbind].
    2:{ apply nth_error_None in Eb0. lia. }
    unfold transfer. destruct (Z.leb_spec (zval a) (zval bi)) as [Ha|Ha]; cbn [rassert rbind].
    2:{ right; right; left. eauto. }
    destruct (@sub64_ok no_error bi a Ha) as (xi & -> & Exi). cbn [rbind].
    pose proof (@add64_cases no_error b0 a) as H0.
    destruct (@add64 no_error dbg b0 a) as [x0|[]|] eqn:E0; cbn [rbind]; [|].
    2:{ right; right; right. split; [ tauto |]. left. cbn. eexists; split; [ reflexivity | tauto ]. }
    destruct (nth_error (pks c) i) as [k|] eqn:Ek; cbn [unwrap rbind].
    2:{ apply nth_error_None in Ek. lia. }
    assert (Hdbg0 : dbg = true -> zval b0 + zval a < two64).
    { intros Hd. unfold add64, uadd, wrap64 in E0. rewrite Hd in E0.
      destruct (Z.ltb_spec (zval b0 + zval a) two64); auto. rewrite andb_false_r in E0. discriminate. }
    rewrite split_set by lia.
    assert (Hfin : forall e c', zval e = plus64 (match hget pt_eqb (c_deposits c) k with Some e => zval e | None => 0 end) (zval a) ->
       (hget pt_eqb (c_deposits c) k = None -> e = a) ->
       (dbg = true -> (match hget pt_eqb (c_deposits c) k with Some e => zval e | None => 0 end) + zval a < two64) ->
       c' = mkContract (pks c) (pk_indices c) (set_nth 0 x0 (set_nth i xi (l1_accounts c))) (nonces c)
                       (block_hashes c) (hset pt_eqb (c_deposits c) k e) ->
       exists k0 bi0 b1, (0 < i)%nat /\ Some k = Some k0 /\ Some (zval bi) = Some bi0 /\
        Some (zval b0) = Some b1 /\ zval a <= bi0 /\
        pks c' = pks c /\ pk_indices c' = pk_indices c /\ nonces c' = nonces c /\
        block_hashes c' = block_hashes c /\
        (exists x0 xi e, l1_accounts c' = set_nth 0 x0 (set_nth i xi (l1_accounts c)) /\
           zval x0 = plus64 b1 (zval a) /\ zval xi = bi0 - zval a /\
           c_deposits c' = hset pt_eqb (c_deposits c) k0 e /\
           zval e = plus64 (match hget pt_eqb (c_deposits c) k0 with Some e => zval e | None => 0 end) (zval a) /\
           (hget pt_eqb (c_deposits c) k0 = None -> e = a)) /\
        (dbg = true -> b1 + zval a < two64 /\
           (match hget pt_eqb (c_deposits c) k0 with Some e => zval e | None => 0 end) + zval a < two64)).
    { intros e c' He Hne Hde ->. exists k, (zval bi), (zval b0). cbn [pks pk_indices nonces block_hashes l1_accounts c_deposits].
      do 9 (split; [ auto; try lia |]). split; [| auto ].
      exists x0, xi, e. auto 10. }
    destruct (hget pt_eqb (c_deposits c) k) as [e|] eqn:Ee.
    - pose proof (@add64_cases no_error e a) as H1.
      destruct (@add64 no_error dbg e a) as [e'|[]|] eqn:E1; cbn [rbind].
      + apply (Hfin e'); auto; [ discriminate |]. intros Hd.
        unfold add64, uadd, wrap64 in E1. rewrite Hd in E1.
        destruct (Z.ltb_spec (zval e + zval a) two64); auto. rewrite andb_false_r in E1. discriminate.
      + right; right; right. split; [ tauto |]. right. exists k. split; auto. rewrite Ee. tauto.
    - cbn [rbind]. pose proof (u64_range a). apply (Hfin a); auto.
      + unfold plus64. rewrite Z.mod_small; lia.
      + intros _. lia.
  Qed.

  Theorem C36_deposit_panics c i (a : u64) : well_formed c ->
    deposit dbg c i a = Panic <-> deposit_panics c i (zval a).
  Proof.
    intros Hw. pose proof (deposit_cases c i a Hw) as H. split.
    - intros E. rewrite E in H. exact H.
    - destruct (deposit dbg c i a) as [c'|e|]; auto; [| contradiction ].
      destruct H as (k & bi & b0 & Hi & Hk & Hbi & Hb0 & Ha & _ & _ & _ & _ & _ & Hd).
      intros [?|[?|[(b & Eb & Hb)|[Hdb [(b & Eb & Hb)|(k' & Ek & Hb)]]]]].
      + lia.
      + congruence.
      + assert (b = bi) by congruence. lia.
      + assert (b = b0) by congruence. specialize (Hd Hdb). lia.
      + assert (k' = k) by congruence. subst k'. specialize (Hd Hdb). lia.
  Qed.

  (** The effects; the two additions wrap only when overflow checks are off. *)
  Theorem C36_deposit c i (a : u64) c' : well_formed c -> deposit dbg c i a = Ok c' ->
    exists k bi b0,
      key_of c i = Some k /\ balance c i = Some bi /\ balance c 0 = Some b0 /\
      balance c' i = Some (bi - zval a) /\ 0 <= bi - zval a /\
      balance c' 0 = Some ((b0 + zval a) mod two64) /\
      (forall j, j <> i -> j <> 0%nat -> balance c' j = balance c j) /\
      pending c' k = (pending c k + zval a) mod two64 /\
      (forall k', k' <> k -> pending c' k' = pending c k') /\
      pks c' = pks c /\ pk_indices c' = pk_indices c /\ nonces c' = nonces c /\
      block_hashes c' = block_hashes c /\ length (l1_accounts c') = length (l1_accounts c) /\
      (dbg = true -> b0 + zval a < two64 /\ pending c k + zval a < two64) /\
      (b0 + zval a < two64 -> total_balance c' = total_balance c).
  Proof.
    intros Hw E. pose proof (deposit_cases c i a Hw) as H. rewrite E in H.
    destruct H as (k & bi & b0 & Hi & Hk & Hbi & Hb0 & Ha & Ep & Epi & En & Ebh & Hx & Hd).
    destruct Hx as (x0 & xi & e & El & Ex0 & Exi & Ed & Ee & _).
    pose proof Hbi as Hbi'. pose proof Hb0 as Hb0'. unfold balance in Hbi', Hb0'.
    destruct (nth_error (l1_accounts c) i) as [yi|] eqn:Eyi; [| discriminate ].
    destruct (nth_error (l1_accounts c) 0) as [y0|] eqn:Ey0; [| discriminate ].
    injection Hbi' as <-. injection Hb0' as <-.
    assert (Hil : (i < length (l1_accounts c))%nat) by (apply nth_error_Some; congruence).
    exists k, (zval yi), (zval y0). rewrite Hk, Hbi, Hb0.
    do 3 (split; [ reflexivity |]).
    assert (Hbal : forall j, nth_error (l1_accounts c') j =
              if (j =? 0)%nat then Some x0 else if (j =? i)%nat then Some xi else nth_error (l1_accounts c) j).
    { intros j. rewrite El, !nth_error_set_nth, set_nth_length'.
      rewrite (proj2 (Nat.ltb_lt 0 _)) by lia. rewrite (proj2 (Nat.ltb_lt i _)) by lia.
      now rewrite !andb_true_r. }
    split; [ unfold balance; rewrite Hbal, Nat.eqb_refl; destruct (Nat.eqb_spec i 0); [ lia |]; cbn [option_map]; now rewrite Exi |].
    split; [ lia |].
    split; [ unfold balance; rewrite Hbal; cbn [Nat.eqb option_map]; now rewrite Ex0 |].
    split.
    { intros j Hj Hj0. unfold balance. rewrite Hbal.
      destruct (Nat.eqb_spec j 0); [ lia |]. destruct (Nat.eqb_spec j i); [ lia |]. reflexivity. }
    split; [ unfold pending at 1; rewrite Ed, (hget_hset_same pt_eqb pt_eqb_eq'); exact Ee |].
    split; [ intros k' Hk'; unfold pending; rewrite Ed, (hget_hset_other pt_eqb pt_eqb_eq') by exact Hk'; reflexivity |].
    do 4 (split; [ assumption |]).
    split; [ rewrite El, !set_nth_length'; reflexivity |].
    split; [ exact Hd |].
    intros Hov. unfold total_balance. rewrite El, !map_set_nth.
    rewrite (zsum_set_nth _ 0 _ (zval y0)).
    2:{ rewrite nth_error_set_nth. destruct (Nat.eqb_spec 0 i); [ lia |]. cbn [andb].
        rewrite nth_error_map. exact (f_equal (option_map zval) Ey0). }
    rewrite (zsum_set_nth _ i _ (zval yi)) by (rewrite nth_error_map; exact (f_equal (option_map zval) Eyi)).
    unfold plus64 in Ex0. pose proof (u64_range y0). pose proof (u64_range a).
    rewrite Z.mod_small in Ex0 by lia. rewrite Ex0, Exi. lia.
  Qed.

  (** * Histories *)
  Lemma rfold_snoc {E A B} (f : A -> B -> res E A) l x a :
    rfold f (l ++ [x]) a = do b <- rfold f l a; f b x.
  Proof. revert a; induction l as [|y l IH]; intros a; cbn; [ destruct (f a x); reflexivity |].
    destruct (f a y); cbn; auto. Qed.
  Lemma history_snoc k0 l x c : history dbg k0 (l ++ [x]) c ->
    exists c1, history dbg k0 l c1 /\ perform dbg c1 x = Ok c.
  Proof.
    unfold history. rewrite rfold_snoc. destruct (rfold (perform dbg) l (contract_new k0)) as [c1| |]; cbn; try discriminate.
    eauto.
  Qed.

  Lemma joined_snoc l x : joined (l ++ [x]) = joined l ++ joined [x].
  Proof. unfold joined. now rewrite flat_map_app. Qed.

  Record HistInv (k0 : pt) (l : list call) (c : contract) : Prop := mkHist
    { hi_pks : pks c = k0 :: joined l;
      hi_acc : length (l1_accounts c) = length (pks c);
      hi_non : nonces c = repeat (u64of 0) (length (pks c));
      hi_idx : forall k i, hget pt_eqb (pk_indices c) k = Some i <-> last_index (pks c) k i;
      hi_hashes : block_hashes c = [] }.

  Lemma last_index_join pks0 k k1 i :
    last_index (pks0 ++ [k1]) k i <->
    (k = k1 /\ i = length pks0) \/ (k <> k1 /\ last_index pks0 k i).
  Proof.
    unfold last_index. destruct (pt_eq_dec k k1) as [->|Hk].
    - split.
      + intros [H1 H2]. left. split; auto.
        assert (nth_error (pks0 ++ [k1]) (length pks0) = Some k1).
        { rewrite nth_error_app2, Nat.sub_diag by lia. reflexivity. }
        specialize (H2 _ H).
        assert (i < length (pks0 ++ [k1]))%nat by (apply nth_error_Some; congruence).
        rewrite app_length in H0. cbn in H0. lia.
      + intros [[_ ->]|[? _]]; [| tauto ]. split.
        * rewrite nth_error_app2, Nat.sub_diag by lia. reflexivity.
        * intros j Hj. assert (j < length (pks0 ++ [k1]))%nat by (apply nth_error_Some; congruence).
          rewrite app_length in H. cbn in H. lia.
    - assert (Hj : forall j, nth_error (pks0 ++ [k1]) j = Some k <-> nth_error pks0 j = Some k).
      { intros j. destruct (Nat.lt_ge_cases j (length pks0)).
        - rewrite nth_error_app1 by lia. tauto.
        - rewrite nth_error_app2 by lia. rewrite (proj2 (nth_error_None pks0 j)) by lia.
          destruct (j - length pks0)%nat as [|[|m]]; cbn; split; try discriminate.
          intros E. injection E as E. congruence. }
      split.
      + intros [H1 H2]. right. split; auto. split; [ now apply Hj |]. intros j Hx. apply H2. now apply Hj.
      + intros [[? _]|[_ [H1 H2]]]; [ tauto |]. split; [ now apply Hj |]. intros j Hx. apply H2. now apply Hj.
  Qed.

  Lemma repeat_snoc {A} (x : A) n : repeat x n ++ [x] = repeat x (n + 1).
  Proof. induction n as [|n IH]; cbn; auto. now rewrite IH. Qed.

  Lemma hist_inv k0 l : forall c, history dbg k0 l c -> HistInv k0 l c.
  Proof.
    induction l as [|x l IH] using rev_ind; intros c H.
    - unfold history in H. cbn [rfold] in H. injection H as <-.
      constructor; try reflexivity. intros k i. cbn [contract_new join fst pk_indices pks length hset hget].
      change ((if pt_eqb k k0 then Some 0%nat else None) = Some i <-> last_index ([] ++ [k0]) k i).
      rewrite last_index_join. cbn [length]. destruct (pt_eqb k k0) eqn:E.
      + apply pt_eqb_eq in E. split; [ intros [= <-]; auto | intros [[_ ->]|[? _]]; tauto ].
      + apply pt_eqb_neq in E. split; [ discriminate |]. intros [[? _]|[_ [H _]]]; [ tauto |]. destruct i; discriminate.
    - apply history_snoc in H as (c1 & H1 & Hp). specialize (IH c1 H1). destruct IH as [I1 I2 I3 I4 I5].
      pose proof (joined_snoc l x) as Ej. destruct x as [bal k1|i a]; cbn [perform joined flat_map] in Hp, Ej.
      + injection Hp as <-. constructor; cbn [join fst pks l1_accounts nonces pk_indices block_hashes].
        * rewrite Ej, I1. reflexivity.
        * rewrite !app_length, I2. reflexivity.
        * rewrite I3, app_length. cbn [length]. apply repeat_snoc.
        * intros k i. rewrite last_index_join. destruct (pt_eq_dec k k1) as [->|Hk].
          -- rewrite (hget_hset_same pt_eqb pt_eqb_eq'). split; [ intros [= <-]; auto |].
             intros [[_ ->]|[? _]]; tauto.
          -- rewrite (hget_hset_other pt_eqb pt_eqb_eq') by exact Hk. rewrite I4. tauto.
        * exact I5.
      + cbn [app] in Ej. rewrite app_nil_r in Ej. assert (Hw : well_formed c1).
        { split; [ exact I2 | rewrite I3; apply repeat_length ]. }
        destruct (C36_deposit c1 i a c Hw Hp) as (k & bi & b0 & H).
        destruct H as (_ & _ & _ & _ & _ & _ & _ & _ & _ & E1 & E2 & E3 & E4 & E5 & _).
        constructor; rewrite ?E1, ?E2, ?E3, ?E4, ?E5, ?Ej; auto.
  Qed.

  (** C38. Any history of joins and deposits on a new contract. *)
  Theorem C38_registry k0 l c : history dbg k0 l c ->
    pks c = k0 :: joined l /\
    length (l1_accounts c) = length (pks c) /\ length (nonces c) = length (pks c) /\
    (forall k i, hget pt_eqb (pk_indices c) k = Some i <-> last_index (pks c) k i) /\
    (forall k, In k (pks c) <-> exists i, hget pt_eqb (pk_indices c) k = Some i).
  Proof.
    intros H. destruct (hist_inv k0 l c H) as [I1 I2 I3 I4 _].
    split; [ exact I1 |]. split; [ exact I2 |]. split; [ rewrite I3; apply repeat_length |].
    split; [ exact I4 |]. intros k. split.
    - intros Hin. clear - Hin I4. 
      assert (exists i, last_index (pks c) k i) as (i & Hi).
      { clear I4. revert Hin. generalize (pks c) as m. induction m as [|x m IH] using rev_ind; [ intros [] |].
        intros Hin. destruct (pt_eq_dec k x) as [->|Hk].
        - exists (length m). apply last_index_join. auto.
        - apply in_app_iff in Hin as [Hin|[->|[]]]; [| tauto ].
          destruct (IH Hin) as (i & Hi). exists i. apply last_index_join. auto. }
      exists i. now apply I4.
    - intros (i & Hi). apply I4 in Hi as [Hi _]. now apply nth_error_In in Hi.
  Qed.

  (** The index returned by a join resolves to the key from then on, also after the key joins
      again. *)
  Theorem C38_indices_persist k0 l1 l2 bal k c1 c : history dbg k0 l1 c1 ->
    history dbg k0 (l1 ++ Join bal k :: l2) c ->
    key_of c (snd (join c1 bal k)) = Some k.
  Proof.
    intros H1 H2. destruct (hist_inv _ _ _ H1) as [I1 _ _ _ _]. destruct (hist_inv _ _ _ H2) as [J1 _ _ _ _].
    unfold key_of. cbn [join snd]. rewrite J1, I1. unfold joined. rewrite flat_map_app. cbn [flat_map app].
    cbn [length nth_error]. rewrite nth_error_app2, Nat.sub_diag by lia. reflexivity.
  Qed.

  (** C37 *)
  Lemma supply_snoc l x : supply (l ++ [x]) = supply l + match x with Join bal _ => zval bal | Deposit _ _ => 0 end.
  Proof. unfold supply. rewrite map_app, zsum_app. cbn [map]. f_equal. destruct x; cbn; lia. Qed.

  Lemma zsum_nonneg l : Forall (fun z => 0 <= z) l -> 0 <= zsum l.
  Proof. induction 1 as [|x l H1 H2 IH]; [ cbn; lia |]. change (0 <= x + zsum l). lia. Qed.
  Lemma supply_nonneg l : 0 <= supply l.
  Proof.
    apply zsum_nonneg, Forall_forall. intros z Hz. apply in_map_iff in Hz as (x & <- & _).
    destruct x as [bal|]; [ pose proof (u64_range bal); lia | lia ].
  Qed.
  Lemma zsum_ge_nth l : Forall (fun z => 0 <= z) l -> forall n x, nth_error l n = Some x -> x <= zsum l.
  Proof.
    induction 1 as [|y l H1 H2 IH]; intros [|n] x H; cbn in H; try discriminate.
    - injection H as ->. pose proof (zsum_nonneg l H2). change (x <= x + zsum l). lia.
    - specialize (IH _ _ H). change (x <= y + zsum l). lia.
  Qed.
  Lemma zvals_nonneg (l : list u64) : Forall (fun z => 0 <= z) (map zval l).
  Proof. apply Forall_forall. intros z Hz. apply in_map_iff in Hz as (x & <- & _). pose proof (u64_range x). lia. Qed.
  Lemma zsum_two l i x0 xi : Forall (fun z => 0 <= z) l -> (0 < i)%nat ->
    nth_error l 0 = Some x0 -> nth_error l i = Some xi -> x0 + xi <= zsum l.
  Proof.
    intros H Hi E0 Ei. destruct l as [|y l]; [ discriminate |]. injection E0 as ->.
    destruct i as [|i]; [ lia |]. cbn in Ei. apply Forall_inv_tail in H.
    pose proof (zsum_ge_nth l H _ _ Ei). change (x0 + xi <= x0 + zsum l). lia.
  Qed.

  Lemma pending_le c k : pending c k <= total_pending c.
  Proof.
    unfold pending, total_pending. destruct (hget pt_eqb (c_deposits c) k) as [e|] eqn:E.
    - apply (hget_in pt_eqb pt_eqb_eq') in E. apply in_split in E as (m1 & m2 & ->).
      unfold hvalues. rewrite !map_app. cbn [map]. rewrite zsum_app.
      pose proof (zsum_nonneg _ (zvals_nonneg (map snd m1))). pose proof (zsum_nonneg _ (zvals_nonneg (map snd m2))).
      change (zval e <= zsum (map zval (map snd m1)) + (zval e + zsum (map zval (map snd m2)))). lia.
    - apply zsum_nonneg, zvals_nonneg.
  Qed.
  Lemma pending_hset m k (e : u64) :
    zsum (map zval (hvalues (hset pt_eqb m k e))) =
    zsum (map zval (hvalues m)) - (match hget pt_eqb m k with Some e0 => zval e0 | None => 0 end) + zval e.
  Proof.
    destruct (hget pt_eqb m k) as [e0|] eqn:E.
    - destruct (hset_split pt_eqb pt_eqb_eq' m k e e0 E) as (a & b & -> & ->).
      unfold hvalues. rewrite !map_app, !zsum_app. cbn [map].
      change (zsum (map zval (map snd a)) + (zval e + zsum (map zval (map snd b))) =
              zsum (map zval (map snd a)) + (zval e0 + zsum (map zval (map snd b))) - zval e0 + zval e). lia.
    - rewrite (hset_new pt_eqb m k e E). unfold hvalues. rewrite !map_app, !zsum_app. cbn [map].
      change (zsum (map zval (map snd m)) + (zval e + 0) = zsum (map zval (map snd m)) - 0 + zval e). lia.
  Qed.

  (** Account 0 backs all pending deposits, and L1 funds are neither created nor destroyed: with
      overflow checks always, without them as long as the funds brought by joining users stay
      below 2^64. *)
  Theorem C37_solvency k0 l c : dbg = true \/ supply l < two64 -> history dbg k0 l c ->
    balance c 0 = Some (total_pending c) /\ total_balance c = supply l /\
    (forall k, pending c k = deposited c l k).
  Proof.
    revert c. induction l as [|x l IH] using rev_ind; intros c Hov H.
    - unfold history in H. cbn [rfold] in H. injection H as <-.
      split; [ reflexivity |]. split; [| intros k; reflexivity ].
      unfold total_balance, contract_new, join. cbn [fst l1_accounts app map].
      change (zval (u64of 0) + 0 = 0). rewrite zval_u64of_small; [ reflexivity | unfold two64; lia ].
    - apply history_snoc in H as (c1 & H1 & Hp). rewrite supply_snoc in Hov |- *.
      assert (Hov1 : dbg = true \/ supply l < two64).
      { destruct Hov as [?|Hov]; auto. right. destruct x as [bal|]; [ pose proof (u64_range bal) |]; lia. }
      specialize (IH c1 Hov1 H1). destruct IH as (B0 & BT & BD).
      pose proof (hist_inv _ _ _ H1) as [I1 I2 I3 _ _].
      destruct x as [bal k1|i a]; cbn [perform] in Hp.
      + injection Hp as <-. split; [| split ].
        * unfold balance. cbn [join fst l1_accounts]. rewrite nth_error_app1.
          -- exact B0.
          -- rewrite I2, I1. cbn. lia.
        * unfold total_balance. cbn [join fst l1_accounts]. rewrite map_app, zsum_app.
          change (total_balance c1 + (zval bal + 0) = supply l + zval bal). lia.
        * intros k. transitivity (pending c1 k); [ reflexivity |]. rewrite BD.
          unfold deposited. rewrite map_app, zsum_app. cbn [map].
          change (zsum [0]) with 0. rewrite Z.add_0_r. f_equal. apply map_ext_in.
          intros [|i a] Hin; auto. f_equal.
          assert (Hi : (i < length (pks c1))%nat).
          { clear - H1 Hin I2. apply in_split in Hin as (m1 & m2 & ->).
            (* the deposit at [i] succeeded in a state with at most as many keys *)
            unfold history in H1. 
            assert (Hsplit : exists ca cb, history dbg k0 m1 ca /\ deposit dbg ca i a = Ok cb /\ rfold (perform dbg) m2 cb = Ok c1).
            { revert H1. unfold history. generalize (contract_new k0). induction m1 as [|y m1 IHm]; intros cc; cbn [app rfold].
              - cbn [perform]. destruct (deposit dbg cc i a) as [cb| |] eqn:E; cbn; try discriminate. intros H. eauto.
              - destruct (perform dbg cc y); cbn; try discriminate. apply IHm. }
            destruct Hsplit as (ca & cb & Ha & Hd & Hr).
            pose proof (hist_inv _ _ _ Ha) as [J1 J2 J3 _ _].
            assert (Hw : well_formed ca) by (split; [ exact J2 | rewrite J3; apply repeat_length ]).
            destruct (C36_deposit ca i a cb Hw Hd) as (k & bi & b0 & Hk & _).
            assert (Hlt : (i < length (pks ca))%nat) by (apply nth_error_Some; unfold key_of in Hk; congruence).
            pose proof (hist_inv _ _ _ H1) as [K1 _ _ _ _]. rewrite K1. rewrite J1 in Hlt.
            cbn [length] in *. unfold joined in *. rewrite flat_map_app, app_length. lia. }
          unfold key_of. cbn [join fst pks]. rewrite nth_error_app1 by exact Hi. reflexivity.
      + assert (Hw : well_formed c1) by (split; [ exact I2 | rewrite I3; apply repeat_length ]).
        pose proof (deposit_cases c1 i a Hw) as Hc. rewrite Hp in Hc.
        destruct Hc as (k & bi & b0 & Hi & Hk & Hbi & Hb0 & Ha & Ep & _ & _ & _ & Hx & Hd).
        destruct Hx as (x0 & xi & e & El & Ex0 & Exi & Ed & Ee & _).
        assert (Hb0' : b0 = total_pending c1) by congruence.
        pose proof (u64_range a) as Hra.
        assert (Hsum : b0 + bi <= total_balance c1).
        { unfold balance in Hb0, Hbi. apply (zsum_two _ i).
          - apply zvals_nonneg.
          - exact Hi.
          - rewrite nth_error_map. exact Hb0.
          - rewrite nth_error_map. exact Hbi. }
        assert (Hno : b0 + zval a < two64).
        { destruct Hov as [Hdb|Hov]; [ now apply Hd |]. lia. }
        pose proof (pending_le c1 k) as Hple.
        assert (Hpn : 0 <= pending c1 k).
        { unfold pending. destruct (hget _ _ _) as [e0|]; [ pose proof (u64_range e0) |]; lia. }
        assert (Hb0n : 0 <= b0).
        { rewrite Hb0'. apply zsum_nonneg, zvals_nonneg. }
        unfold plus64 in Ex0, Ee. rewrite Z.mod_small in Ex0 by lia. rewrite Z.mod_small in Ee by lia.
        destruct (C36_deposit c1 i a c Hw Hp) as (k' & bi' & b0' & Hk' & _ & Hb0'' & _ & _ & Hbc & _ & Hpk & Hpo & _ & _ & _ & _ & _ & _ & Htot).
        assert (k' = k) by congruence. assert (b0' = b0) by congruence. subst k' b0'.
        rewrite Z.mod_small in Hbc by lia.
        split; [| split ].
        * rewrite Hbc. f_equal. unfold total_pending. rewrite Ed, pending_hset.
          fold (total_pending c1). fold (pending c1 k). lia.
        * rewrite Htot by exact Hno. rewrite BT. lia.
        * intros k1. unfold deposited. rewrite map_app, zsum_app.
          assert (Hkey : forall j, key_of c j = key_of c1 j) by (intros j; unfold key_of; now rewrite Ep).
          rewrite (map_ext _ (fun x => match x with
                        | Join _ _ => 0
                        | Deposit i a => if match key_of c1 i with Some k' => pt_eqb k' k1 | None => false end
                                         then zval a else 0
                        end)) by (intros [|j b]; rewrite ?Hkey; reflexivity).
          fold (deposited c1 l k1). rewrite <- BD. cbn [map]. rewrite Hkey, Hk.
          change (zsum [if pt_eqb k k1 then zval a else 0]) with ((if pt_eqb k k1 then zval a else 0) + 0).
          destruct (pt_eqb k k1) eqn:Ek.
          -- apply pt_eqb_eq in Ek. subst k1. rewrite Hpk. rewrite Z.mod_small by lia. lia.
          -- apply pt_eqb_neq in Ek. rewrite Hpo by congruence. lia.
  Qed.
End props.

(** * Concrete cases *)
From Verif Require Import Toy.
Definition exk (n : Z) : pt := pmul n pgen.
Definition ex_calls : list call :=
  [Join (u64of 100) (exk 2); Join (u64of 50) (exk 3); Deposit 1 (u64of 30); Join (u64of 7) (exk 2);
   Deposit 3 (u64of 7); Deposit 2 (u64of 20)].
Definition ex_contract : contract :=
  match rfold (perform true) ex_calls (contract_new (exk 1)) with Ok c => c | _ => contract_new (exk 1) end.
Lemma ex_history : history true (exk 1) ex_calls ex_contract.
Proof.
  unfold history, ex_contract.
  assert (H : match rfold (perform true) ex_calls (contract_new (exk 1)) with Ok _ => true | _ => false end = true)
    by (vm_compute; reflexivity).
  destruct (rfold (perform true) ex_calls (contract_new (exk 1))); [ reflexivity | discriminate | discriminate ].
Qed.
Example ex_solvent : balance ex_contract 0 = Some 57.
Proof. vm_compute. reflexivity. Qed.
Example ex_pending_joined_twice : pending ex_contract (exk 2) = 37 /\ pending ex_contract (exk 3) = 20.
Proof. vm_compute. auto. Qed.
Example ex_last_index : hget pt_eqb (pk_indices ex_contract) (exk 2) = Some 3%nat.
Proof. vm_compute. reflexivity. Qed.
Definition panics {A} (r : res no_error A) : bool := match r with Panic => true | _ => false end.
Example ex_deposit_panics :
  panics (deposit true ex_contract 0 (u64of 1)) = true /\ panics (deposit true ex_contract 4 (u64of 1)) = true /\
  panics (deposit true ex_contract 2 (u64of 31)) = true /\ panics (deposit true ex_contract 2 (u64of 30)) = false.
Proof. vm_compute. auto. Qed.

Print Assumptions C36_deposit_panics.
Print Assumptions C36_deposit.
Print Assumptions C38_registry.
Print Assumptions C38_indices_persist.
Print Assumptions C37_solvency.

(** Properties C20-C29: encodings, hashes and transaction validity. *)
From Coq Require Import ZArith List Bool Lia.
Import ListNotations.
From Verif Require Import Base Env Circuit SparseMT SparseMTGadget SparseMTGadgetProofs Data DataSpec
  DataFacts Toy.
Open Scope Z_scope.

Section props.
  Context {hs : Hashes} {G : Curve}.

  Theorem C20_tx_encoding_injective :
    (forall t : tx, length (tx_enc t) = 40%nat) /\
    (forall t t' : tx, tx_enc t = tx_enc t' -> t = t').
  Proof. split; [ apply tx_enc_length | apply tx_enc_inj ]. Qed.

  (** [same_values]: amounts and dummy flags agree position by position. *)
  Definition same_values (a b : utxo) : Prop := amount a = amount b /\ is_dummy a = is_dummy b.

  Theorem C21_by_value_encoding :
    (forall t : tx, length (tx_enc_by_value t) = 16%nat) /\
    (forall t t' : tx, tx_enc_by_value t = tx_enc_by_value t' <->
       Forall2 same_values (a4_list (inputs t)) (a4_list (inputs t')) /\
       Forall2 same_values (a4_list (outputs t)) (a4_list (outputs t'))) /\
    (forall i o (f : pt -> pt),
       let rekey u := mkUtxo (amount u) (f (pk u)) (is_dummy u) in
       tx_enc_by_value (mkTx (a4_map rekey i) (a4_map rekey o)) = tx_enc_by_value (mkTx i o)).
  Proof.
    assert (E : forall l l' : list utxo,
      flat_map (fun u => [Fu64 (amount u); Fbool (is_dummy u)]) l =
      flat_map (fun u => [Fu64 (amount u); Fbool (is_dummy u)]) l' <-> Forall2 same_values l l').
    { induction l as [|x l IH]; intros [|y l']; cbn [flat_map app].
      - split; auto.
      - split; [ discriminate | inversion 1 ].
      - split; [ discriminate | inversion 1 ].
      - split.
        + intros H.
          assert (H1 := f_equal (fun l => nth 0 l Fzero) H).
          assert (H2 := f_equal (fun l => nth 1 l Fzero) H).
          assert (H3 := f_equal (skipn 2) H). cbn [nth skipn] in H1, H2, H3.
          constructor; [ split; [ now apply Fu64_inj | now apply Fbool_inj ] | now apply IH ].
        + inversion 1 as [|? ? ? ? [E1 E2] HF]; subst. rewrite E1, E2. do 2 f_equal. now apply IH. }
    split; [| split ].
    - intros t. unfold tx_enc_by_value. rewrite (flat_map_len _ 2); reflexivity.
    - intros t t'. unfold tx_enc_by_value. rewrite E. split.
      + intros H. apply Forall2_app_inv_l in H as (a & b & H1 & H2 & H3).
        apply app_inj_len in H3 as [-> ->]; auto.
        assert (L : forall (l l' : list utxo), Forall2 same_values l l' -> length l = length l')
          by (induction 1; cbn; auto).
        rewrite <- (L _ _ H1). reflexivity.
      + intros [H1 H2]. now apply Forall2_app.
    - intros i o f rekey. reflexivity.
  Qed.

  Theorem C22_preimages_injective :
    (forall u u' : utxo, utxo_enc u = utxo_enc u' -> u = u') /\
    (forall k k' : pt, pt_enc k = pt_enc k' -> k = k') /\
    (forall n n' : u64, [Fu64 n] = [Fu64 n'] -> n = n') /\
    (forall u u' : utxo, utxo_hash u = utxo_hash u' ->
       u = u' \/ crh_collision (utxo_enc u) (utxo_enc u')) /\
    (forall k k' : pt, pk_hash k = pk_hash k' -> k = k' \/ crh_collision (pt_enc k) (pt_enc k')) /\
    (forall n n' : u64, nonce_hash n = nonce_hash n' ->
       n = n' \/ crh_collision [Fu64 n] [Fu64 n']) /\
    (forall t t' : tx, tx_hash t = tx_hash t' -> t = t' \/ crh_collision (tx_enc t) (tx_enc t')) /\
    (** preimages of different kinds have different lengths *)
    (forall (u : utxo) (k : pt) (n : u64) (b : block) (t : tx),
       NoDup (map (@length F) [utxo_enc u; pt_enc k; [Fu64 n]; block_enc b; tx_enc t])).
  Proof.
    assert (N : forall n n' : u64, [Fu64 n] = [Fu64 n'] -> n = n').
    { intros n n' H. apply Fu64_inj. now assert (H1 := f_equal (fun l => nth 0 l Fzero) H). }
    repeat split.
    - apply utxo_enc_inj.
    - apply pt_enc_inj.
    - exact N.
    - intros u u' H. destruct (utxo_eq_dec u u'); auto. right. split; auto.
      intros E. now apply utxo_enc_inj in E.
    - intros u u' H. destruct (pt_eq_dec u u'); auto. right. split; auto.
      intros E. now apply pt_enc_inj in E.
    - intros n n' H. destruct (zeqb n n') eqn:E; [ left; now apply zeqb_eq |].
      right. split; auto. intros E'. apply N in E'. apply zeqb_eq in E'. congruence.
    - intros t t' H. destruct (list_eq_dec F_eq_dec (tx_enc t) (tx_enc t')) as [E|E].
      + left. now apply tx_enc_inj.
      + right. split; auto.
    - intros u k n b t. cbn [map]. rewrite utxo_enc_length, pt_enc_length, tx_enc_length.
      unfold block_enc. cbn [length].
      repeat (constructor; [ cbn; intros H; repeat destruct H as [H|H]; discriminate || contradiction |]).
      constructor.
  Qed.

  Theorem C23_circuit_hashes_agree :
    (forall t : tx, tx_hashV (tx_alloc t) = tx_hash t) /\
    (forall u : utxo, utxo_hashV (utxo_alloc u) = utxo_hash u) /\
    (forall k : pt, pk_hashV k = pk_hash k) /\
    (forall n : u64, nonce_hashV (nonce_alloc n) = nonce_hash n) /\
    (forall b : block, block_hashV (block_alloc b) = block_hash b).
  Proof.
    repeat split; auto.
    intros n. unfold nonce_hashV, nonce_alloc, nonce_hash. do 2 f_equal.
    rewrite bits_val_le, Z.mod_small by apply (u64_range n). reflexivity.
  Qed.

  Theorem C24_block_hash_commits_to (b b' : block) :
    (block_enc b = block_enc b' <->
       utxo_tree_root b = utxo_tree_root b' /\ tx_tree_root b = tx_tree_root b' /\
       signer_tree_root b = signer_tree_root b' /\ height b = height b') /\
    block_hash b = crh (block_enc b) /\
    (forall s d w, block_hash (mkBlock (utxo_tree_root b) (tx_tree_root b) (signer_tree_root b) s
                                       (height b) d w) = block_hash b).
  Proof.
    repeat split; auto.
    - now assert (H1 := f_equal (fun l => nth 0 l Fzero) H).
    - now assert (H1 := f_equal (fun l => nth 1 l Fzero) H).
    - now assert (H1 := f_equal (fun l => nth 2 l Fzero) H).
    - apply Fu64_inj. now assert (H1 := f_equal (fun l => nth 3 l Fzero) H).
    - intros (H1 & H2 & H3 & H4). unfold block_enc. congruence.
  Qed.

  Theorem C25_is_valid dbg (t : tx) (s : pt) :
    total_in t < two64 -> total_out t < two64 ->
    (is_valid dbg t (Some s) = Ok tt <-> owned_by s t /\ total_in t = total_out t) /\
    (is_valid dbg t (Some s) = Err InvalidPublicKey <-> ~ owned_by s t) /\
    (is_valid dbg t (Some s) = Err InvalidAmounts <-> owned_by s t /\ total_in t <> total_out t).
  Proof.
    intros Hi Ho. destruct (owned_dec s t) as [H|H].
    - rewrite is_valid_small by auto.
      destruct (total_in t =? total_out t) eqn:E;
        [ apply Z.eqb_eq in E | apply Z.eqb_neq in E ];
        repeat split; intros; auto; try discriminate; try (now destruct H0); try tauto.
    - rewrite is_valid_not_owned by auto. repeat split; intros; auto; try discriminate; tauto.
  Qed.

  Theorem C26_is_valid_overflow :
    (** overflow checks on: a total that does not fit panics, once the owners match *)
    (forall (t : tx) (s : pt), owned_by s t -> two64 <= total_in t \/ two64 <= total_out t ->
       is_valid true t (Some s) = Panic) /\
    (** overflow checks off: the totals are compared modulo 2^64 *)
    (forall (t : tx) (s : pt), is_valid false t (Some s) = Ok tt <->
       owned_by s t /\ total_in t mod two64 = total_out t mod two64) /\
    (forall s : pt, exists t, is_valid false t (Some s) = Ok tt /\ total_out t = total_in t + two64).
  Proof.
    assert (W : forall (t : tx) (s : pt), is_valid false t (Some s) = Ok tt <->
       owned_by s t /\ total_in t mod two64 = total_out t mod two64).
    { intros t s. destruct (owned_dec s t) as [H|H].
      - rewrite is_valid_owned by auto. rewrite !sum_u64_wrap. cbn [rbind].
        fold (total_in t) (total_out t).
        destruct (total_in t mod two64 =? total_out t mod two64) eqn:E;
          [ apply Z.eqb_eq in E | apply Z.eqb_neq in E ]; cbn; split; auto; try discriminate; tauto.
      - rewrite is_valid_not_owned by auto. split; [ discriminate | tauto ]. }
    split; [| split; [ exact W |] ].
    - intros t s H Ht. rewrite is_valid_owned by auto.
      destruct (Z.lt_ge_cases (total_in t) two64) as [L|L].
      + unfold total_in, total_out in *. rewrite sum_u64_ok by auto.
        destruct Ht as [Ht|Ht]; [ lia |]. cbn [rbind]. now rewrite sum_u64_panic.
      + unfold total_in in *. now rewrite sum_u64_panic.
    - intros s.
      exists (mkTx (inputs tx_default) (A4 (utxo_new s (u64of (two64 - 1))) (utxo_new s (u64of 1))
                                           utxo_dummy utxo_dummy)).
      split; [| vm_compute; reflexivity ].
      apply W. split; [| vm_compute; reflexivity ].
      intros u Hu Hd. cbn in Hu. repeat destruct Hu as [<-|Hu]; try discriminate. contradiction.
  Qed.

  Theorem C27_is_valid_without_sender dbg :
    (forall t : tx, is_valid dbg t None = is_valid dbg t (Some (pk (a4_0 (inputs t))))) /\
    (forall (t : tx) (u : utxo),
       is_dummy (a4_0 (inputs t)) = true -> In u (a4_list (inputs t)) -> is_dummy u = false ->
       pk u <> pk (a4_0 (inputs t)) -> is_valid dbg t None = Err InvalidPublicKey) /\
    (** a transaction valid for its owner and rejected without the sender argument *)
    (forall (s : pt) (a : u64), s <> pzero ->
       let t := mkTx (A4 utxo_dummy (utxo_new s a) utxo_dummy utxo_dummy)
                     (A4 (utxo_new s a) utxo_dummy utxo_dummy utxo_dummy) in
       is_valid dbg t (Some s) = Ok tt /\ is_valid dbg t None = Err InvalidPublicKey).
  Proof.
    assert (R : forall (t : tx) (u : utxo),
       is_dummy (a4_0 (inputs t)) = true -> In u (a4_list (inputs t)) -> is_dummy u = false ->
       pk u <> pk (a4_0 (inputs t)) -> is_valid dbg t None = Err InvalidPublicKey).
    { intros t u _ Hu Hd Hne. change (is_valid dbg t None) with
        (is_valid dbg t (Some (pk (a4_0 (inputs t))))).
      apply is_valid_not_owned. intros H. apply Hne. now apply H. }
    split; [ reflexivity | split; [ exact R |] ].
    intros s a Hs t. split.
    - assert (Hi : total_in t = zval a) by (unfold total_in, t; cbn [inputs a4_list total a4_0 a4_1 a4_2 a4_3 utxo_new utxo_dummy is_dummy amount]; lia).
      assert (Ho : total_out t = zval a) by (unfold total_out, t; cbn [outputs a4_list total a4_0 a4_1 a4_2 a4_3 utxo_new utxo_dummy is_dummy amount]; lia).
      pose proof (u64_range a).
      apply C25_is_valid; try lia. split; [| lia ].
      intros u Hu Hd. cbn in Hu. repeat destruct Hu as [<-|Hu]; try discriminate; auto. contradiction.
    - apply (R t (utxo_new s a)); cbn; auto.
  Qed.

  Theorem C28_enforce_valid :
    (** allocated transactions whose totals fit: same verdict as [is_valid] *)
    (forall dbg (t : tx) (s : pt), total_in t < two64 -> total_out t < two64 ->
       (sat (enforce_valid (tx_alloc t) s) tt <-> is_valid dbg t (Some s) = Ok tt)) /\
    (** arbitrary witnesses: owners agree, and totals agree modulo the characteristic *)
    (forall (t : txV) (s : pt), sat (enforce_valid t s) tt <->
       vowned_by s t /\ vtotal_in t mod p = vtotal_out t mod p) /\
    (** synthesis never aborts *)
    (forall (t : txV) (s : pt), exists b,
       honest (enforce_valid t s) = Some (b, tt) /\ (b = true <-> sat (enforce_valid t s) tt)).
  Proof.
    split; [| split ].
    - intros dbg t s Hi Ho. destruct (C25_is_valid dbg t s Hi Ho) as [H _]. rewrite H.
      pose proof two64_lt_p. apply enforce_valid_alloc; lia.
    - apply enforce_valid_sat.
    - apply enforce_valid_honest.
  Qed.

  Theorem C29_get_signer (t : txV) (s : pt) :
    sat (enforce_valid t s) tt ->
    ((exists u, In u (a4_list (v_inputs t)) /\ v_dummy u = false) -> get_signer t = s) /\
    ((forall u, In u (a4_list (v_inputs t)) -> v_dummy u = true) -> get_signer t = pzero).
  Proof.
    rewrite enforce_valid_sat. intros [Ho _].
    unfold get_signer. rewrite get_signer_fold. unfold vowned_by in Ho.
    set (l := a4_list (v_inputs t)) in *. clearbody l. split.
    - intros (u & Hu & Hd).
      assert (Hl : forall k, In k (map v_pk (filter (fun i => negb (v_dummy i)) l)) -> k = s).
      { intros k (i & <- & [Hi Hn]%filter_In)%in_map_iff. apply Ho; auto. now apply negb_true_iff. }
      assert (Hne : In s (map v_pk (filter (fun i => negb (v_dummy i)) l))).
      { apply in_map_iff. exists u. split; [ now apply Ho |]. apply filter_In. now rewrite Hd. }
      destruct (map v_pk (filter (fun i => negb (v_dummy i)) l)) as [|k ks]; [ contradiction |].
      assert (L : forall (l : list pt) d, l <> [] -> In (last l d) l).
      { clear. induction l as [|a l IH]; intros d H; [ contradiction |].
        destruct l; [ now left |]. right. now apply IH. }
      apply Hl, L. discriminate.
    - intros H. replace (filter (fun i => negb (v_dummy i)) l) with (@nil utxoV); auto.
      symmetry. clear Ho. induction l as [|x l IH]; cbn; auto.
      rewrite (H x) by now left. apply IH. intros; apply H; now right.
  Qed.

  (** What [get_signer] computes on its own, with no validity assumption. *)
  Theorem C29_get_signer_last (t : txV) :
    get_signer t = last (map v_pk (filter (fun i => negb (v_dummy i)) (a4_list (v_inputs t)))) pzero.
  Proof. apply get_signer_fold. Qed.
End props.

(** * Concrete cases *)
Definition ex_k : pt := pmul 5 pgen.
Definition ex_tx : tx :=
  mkTx (A4 (utxo_new ex_k (u64of 10)) utxo_dummy (utxo_new ex_k (u64of 7)) utxo_dummy)
       (A4 (utxo_new (pmul 9 pgen) (u64of 3)) utxo_dummy (utxo_new ex_k (u64of 14)) utxo_dummy).
(** a valid transfer, a wrong sender and wrong amounts (C25, C28) *)
Example ex_valid : is_valid true ex_tx (Some ex_k) = Ok tt.
Proof. vm_compute. reflexivity. Qed.
Example ex_valid_none : is_valid true ex_tx None = Ok tt.
Proof. vm_compute. reflexivity. Qed.
Example ex_wrong_sender : is_valid true ex_tx (Some pgen) = Err InvalidPublicKey.
Proof. vm_compute. reflexivity. Qed.
Example ex_wrong_amount :
  is_valid true (mkTx (inputs ex_tx) (inputs tx_default)) (Some ex_k) = Err InvalidAmounts.
Proof. vm_compute. reflexivity. Qed.
Example ex_totals : total_in ex_tx = 17 /\ total_out ex_tx = 17.
Proof. vm_compute. auto. Qed.
Example ex_enforce_valid : sat (enforce_valid (tx_alloc ex_tx) ex_k) tt.
Proof. apply (proj1 C28_enforce_valid true); try (vm_compute; reflexivity). Qed.
Example ex_signer : get_signer (tx_alloc ex_tx) = ex_k.
Proof.
  apply (C29_get_signer _ ex_k ex_enforce_valid).
  exists (utxo_alloc (utxo_new ex_k (u64of 10))). split; [ now left | reflexivity ].
Qed.
(** overflow (C26): two real outputs of 2^63 under overflow checks *)
Example ex_overflow :
  let big := utxo_new ex_k (u64of (2 ^ 63)) in
  let t := mkTx (inputs tx_default) (A4 big big utxo_dummy utxo_dummy) in
  is_valid true t (Some ex_k) = Panic /\ is_valid false t (Some ex_k) = Ok tt.
Proof. vm_compute. auto. Qed.
(** the by-value encoding does not see the owner (C21), the by-reference one does (C20) *)
Example ex_encodings :
  let a := mkTx (inputs tx_default) (A4 (utxo_new ex_k (u64of 3)) utxo_dummy utxo_dummy utxo_dummy) in
  let b := mkTx (inputs tx_default) (A4 (utxo_new pgen (u64of 3)) utxo_dummy utxo_dummy utxo_dummy) in
  tx_enc_by_value a = tx_enc_by_value b /\ tx_enc a <> tx_enc b.
Proof.
  intros a b. split; [ reflexivity |]. intros H. apply tx_enc_inj in H.
  apply (f_equal (fun t => pt_eqb (pk (a4_0 (outputs t))) pgen)) in H. vm_compute in H. discriminate.
Qed.

Print Assumptions C20_tx_encoding_injective.
Print Assumptions C21_by_value_encoding.
Print Assumptions C22_preimages_injective.
Print Assumptions C23_circuit_hashes_agree.
Print Assumptions C24_block_hash_commits_to.
Print Assumptions C25_is_valid.
Print Assumptions C26_is_valid_overflow.
Print Assumptions C27_is_valid_without_sender.
Print Assumptions C28_enforce_valid.
Print Assumptions C29_get_signer.

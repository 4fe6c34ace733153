(** What the aggregator circuit enforces and computes: no hint of the prover matters. *)
From Coq Require Import ZArith List Bool Lia.
Import ListNotations.
From Verif Require Import Base Env Circuit SparseMT SparseMTSpec SparseMTHeap SparseMTRep SparseMTProofs
  SparseMTGadget SparseMTGadgetProofs Data Gadgets GadgetsProofs Schnorr SchnorrProofs Contract Aggregator AggCircuit.
Open Scope Z_scope.

(** A program whose constraints and output do not depend on the hints. *)
Definition computes {A} (c : circ A) (ok : bool) (a : A) : Prop :=
  honest c = Some (ok, a) /\ forall a', sat c a' <-> ok = true /\ a' = a.

Lemma computes_ret {A} (a : A) : computes (Ret a) true a.
Proof. split; [ reflexivity |]. intros a'. cbn. intuition congruence. Qed.
Lemma computes_bind {A B} (c : circ A) (f : A -> circ B) ok a ok' b :
  computes c ok a -> computes (f a) ok' b -> computes (cbind c f) (ok && ok') b.
Proof.
  intros [H1 H2] [H3 H4]. split.
  - now rewrite honest_bind, H1, H3.
  - intros b'. rewrite sat_bind, andb_true_iff. split.
    + intros (a' & Ha & Hb). apply H2 in Ha as [? ->]. apply H4 in Hb as [? ->]. auto.
    + intros ((? & ?) & ->). exists a. split; [ now apply H2 | now apply H4 ].
Qed.
Lemma computes_enforce b : computes (enforce b) b tt.
Proof. split; [ now rewrite honest_enforce |]. intros []. rewrite sat_enforce. intuition. Qed.
Lemma computes_cond b c : computes (cond_enforce b c) (negb c || b) tt.
Proof. split; [ now rewrite honest_cond_enforce |]. intros []. rewrite sat_cond_enforce. destruct b, c; cbn; intuition. Qed.
Fixpoint ok_fold {A S} (okf : S -> A -> bool) (nextf : S -> A -> S) (l : list A) (s : S) : bool :=
  match l with
  | [] => true
  | x :: l' => okf s x && ok_fold okf nextf l' (nextf s x)
  end.
Lemma computes_cfold {A S} (f : S -> A -> circ S) okf nextf l : forall s,
  (forall s x, In x l -> computes (f s x) (okf s x) (nextf s x)) ->
  computes (cfold f l s) (ok_fold okf nextf l s) (fold_left nextf l s).
Proof.
  induction l as [|x l IH]; intros s H; cbn [cfold ok_fold fold_left]; [ apply computes_ret |].
  eapply computes_bind; [ apply H; now left |]. apply IH. intros s' x' Hx. apply H. now right.
Qed.
Lemma computes_eq {A} (c : circ A) ok a ok' a' : computes c ok a -> ok = ok' -> a = a' -> computes c ok' a'.
Proof. now intros H -> ->. Qed.

Lemma computes_to_n_bits x n : (n <= 256)%nat ->
  computes (to_n_bits x n) (zval x <? 2 ^ Z.of_nat n) (bits_le n (zval x)).
Proof.
  intros Hn. destruct (to_n_bits_honest x n Hn) as (bits & E & ->). split; [ exact E |].
  intros bits. rewrite to_n_bits_sat by auto. rewrite Z.ltb_lt. reflexivity.
Qed.

(** bytes of bits *)
Lemma bits8_bytes n : forall z, map bits_val (chunks 8 (bits_le (8 * n) z)) = bytes_le n z.
Proof.
  assert (G : forall fuel n z, (8 * n <= fuel)%nat ->
     map bits_val (chunks_fuel fuel 8 (bits_le (8 * n) z)) = bytes_le n z).
  { clear n. induction fuel as [|fuel IH]; intros n z Hf.
    - assert (n = 0)%nat as -> by lia. reflexivity.
    - destruct n as [|n]; [ reflexivity |].
      replace (8 * S n)%nat with (8 + 8 * n)%nat by lia.
      rewrite bits_le_app.
      assert (Hl : length (bits_le 8 z) = 8%nat) by apply bits_le_length.
      set (b8 := bits_le 8 z) in *.
      assert (E : chunks_fuel (S fuel) 8 (b8 ++ bits_le (8 * n) (z / 2 ^ Z.of_nat 8))
                  = b8 :: chunks_fuel fuel 8 (bits_le (8 * n) (z / 2 ^ Z.of_nat 8))).
      { assert (E1 : firstn 8 (b8 ++ bits_le (8 * n) (z / 2 ^ Z.of_nat 8)) = b8).
        { rewrite firstn_app, Hl. rewrite <- Hl at 1. now rewrite firstn_all, Nat.sub_diag, app_nil_r. }
        assert (E2 : skipn 8 (b8 ++ bits_le (8 * n) (z / 2 ^ Z.of_nat 8)) = bits_le (8 * n) (z / 2 ^ Z.of_nat 8)).
        { rewrite skipn_app, Hl. rewrite <- Hl at 1. now rewrite skipn_all, Nat.sub_diag. }
        cbn [chunks_fuel]. rewrite E1, E2.
        destruct (b8 ++ _) eqn:E0; auto. destruct b8; discriminate. }
      rewrite E. cbn [map bytes_le]. f_equal.
      + unfold b8. rewrite bits_val_le. reflexivity.
      + rewrite IH by lia. reflexivity. }
  intros z. unfold chunks. rewrite bits_le_length. apply G. lia.
Qed.
Lemma bits_bytes_64 z : bits_bytes (bits_le 64 z) = bytes_le 8 z.
Proof. exact (bits8_bytes 8 z). Qed.

Section facts.
  Context {hs : Hashes} {G : Curve}.

  Lemma utxo_cfg_ok : cfg_ok utxo_cfg. Proof. unfold cfg_ok. cbn. lia. Qed.
  Lemma tx_cfg_ok : cfg_ok tx_cfg. Proof. unfold cfg_ok. cbn. lia. Qed.
  Lemma signer_cfg_ok : cfg_ok signer_cfg. Proof. unfold cfg_ok. cbn. lia. Qed.

  Lemma computes_update (P : SparseConfig) (Pg : GadgetConfig) path lo ln idx :
    cfg_ok P -> GHEIGHT Pg = HEIGHT P -> length path = (HEIGHT P - 1)%nat ->
    computes (update_root Pg path lo ln idx) true
      (fold_sibs path (zval idx) (GLeafHash Pg lo), fold_sibs path (zval idx) (GLeafHash Pg ln)).
  Proof.
    intros Hok HH Hl.
    pose proof (update_root_honest P Pg Hok HH path lo ln idx) as Hh.
    rewrite Hl, Nat.eqb_refl in Hh. split; [ exact Hh |].
    intros a'. split.
    - intros H. split; auto. unfold update_root in H. rewrite HH in H.
      apply sat_cassert_bind in H as [_ H]. unfold to_bits_le in H.
      rewrite update_loop_eq in H by (unfold cfg_ok in Hok; lia). cbn [sat] in H. now symmetry.
    - intros [_ ->]. apply honest_sat. exact Hh.
  Qed.
  Lemma update_sat_length (P : SparseConfig) (Pg : GadgetConfig) path lo ln idx a :
    GHEIGHT Pg = HEIGHT P -> sat (update_root Pg path lo ln idx) a -> length path = (HEIGHT P - 1)%nat.
  Proof.
    intros HH H. unfold update_root in H. rewrite HH in H. apply sat_cassert_bind in H as [H _].
    now apply Nat.eqb_eq.
  Qed.

  Definition dummyV : utxoV := utxo_alloc utxo_dummy.
  Definition climb_u (pf : list F) (pos : F) (u : utxoV) : F := fold_sibs pf (zval pos) (utxo_hashV u).

  (** ** Deletions *)
  Definition del_en (sv : bool) (u : utxoV) : bool := sv && negb (v_dummy u).
  Definition del_ok (sv : bool) (root : F) (x : utxoV * list F * F) : bool :=
    let '(u, pf, pos) := x in negb (del_en sv u) || Feqb root (climb_u pf pos u).
  Definition del_next (sv : bool) (root : F) (x : utxoV * list F * F) : F :=
    let '(u, pf, pos) := x in if del_en sv u then climb_u pf pos dummyV else root.
  Lemma c_delete_computes sv root x : length (snd (fst x)) = 31%nat ->
    computes (c_delete sv root x) (del_ok sv root x) (del_next sv root x).
  Proof.
    destruct x as [[u pf] pos]. cbn [fst snd]. intros Hl. unfold c_delete, del_ok, del_next.
    eapply computes_eq.
    - eapply computes_bind.
      + apply (computes_update utxo_cfg utxo_gcfg); [ apply utxo_cfg_ok | reflexivity | exact Hl ].
      + eapply computes_bind; [ apply computes_cond | apply computes_ret ].
    - now rewrite andb_true_r.
    - reflexivity.
  Qed.
  Lemma c_delete_length sv root x r : sat (c_delete sv root x) r -> length (snd (fst x)) = 31%nat.
  Proof.
    destruct x as [[u pf] pos]. cbn [fst snd]. unfold c_delete. rewrite sat_bind. intros (a & H & _).
    now apply (update_sat_length utxo_cfg utxo_gcfg) in H.
  Qed.

  (** ** Outputs *)
  Section out.
    Variables (contract : pt) (transfer_only sc tv : bool).
    Definition out_en (u : utxoV) : bool := tv && negb (pt_eqb (v_pk u) contract) && negb (v_dummy u).
    Definition to_contract (u : utxoV) : bool := pt_eqb (v_pk u) contract && negb (v_dummy u).
    Definition entryV (k : pt) (a : F) : list Z := pt_bytesV k ++ bytes_le 8 (zval a).
    Definition out_ok (st : F * F * F) (x : utxoV * list F * F) : bool :=
      let '(root, d, w) := st in
      let '(u, pf, pos) := x in
      (transfer_only || (zval (v_amount u) <? 2 ^ 64)) &&
      (negb (out_en u) || Feqb root (climb_u pf pos dummyV)).
    Definition out_next (st : F * F * F) (x : utxoV * list F * F) : F * F * F :=
      let '(root, d, w) := st in
      let '(u, pf, pos) := x in
      (if out_en u then climb_u pf pos u else root,
       if negb transfer_only && (sc && negb (v_dummy u)) then sha_field (field_bytesV d ++ entryV (v_pk u) (v_amount u)) else d,
       Fadd w (if to_contract u then v_amount u else Fzero)).
    Lemma c_output_computes st x : length (snd (fst x)) = 31%nat ->
      computes (c_output contract transfer_only sc tv st x) (out_ok st x) (out_next st x).
    Proof.
      destruct st as [[root d] w], x as [[u pf] pos]. cbn [fst snd]. intros Hl. unfold c_output, out_ok, out_next.
      eapply computes_eq.
      - eapply computes_bind.
        + instantiate (1 := if negb transfer_only && (sc && negb (v_dummy u)) then sha_field (field_bytesV d ++ entryV (v_pk u) (v_amount u)) else d).
          instantiate (1 := transfer_only || (zval (v_amount u) <? 2 ^ 64)).
          destruct transfer_only; cbn [negb andb orb]; [ apply computes_ret |].
          eapply computes_eq.
          * eapply computes_bind; [ apply computes_to_n_bits; lia | apply computes_ret ].
          * now rewrite andb_true_r.
          * unfold sel, entryV. rewrite bits_bytes_64, app_assoc. reflexivity.
        + eapply computes_bind.
          * apply (computes_update utxo_cfg utxo_gcfg); [ apply utxo_cfg_ok | reflexivity | exact Hl ].
          * eapply computes_bind; [ apply computes_cond | apply computes_ret ].
      - now rewrite andb_true_r.
      - reflexivity.
    Qed.
    Lemma c_output_length st x r : sat (c_output contract transfer_only sc tv st x) r -> length (snd (fst x)) = 31%nat.
    Proof.
      destruct st as [[root d] w], x as [[u pf] pos]. cbn [fst snd]. unfold c_output. rewrite sat_bind. intros (a & _ & H).
      rewrite sat_bind in H. destruct H as (b & H & _).
      now apply (update_sat_length utxo_cfg utxo_gcfg) in H.
    Qed.
  End out.

  Lemma cfold_sat_all {A S} (f : S -> A -> circ S) (Q : A -> Prop) l : forall s s',
    (forall s x r, sat (f s x) r -> Q x) -> sat (cfold f l s) s' -> Forall Q l.
  Proof.
    induction l as [|x l IH]; intros s s' H Hs; [ constructor |].
    cbn [cfold] in Hs. rewrite sat_bind in Hs. destruct Hs as (a & H1 & H2). constructor; eauto.
  Qed.

  (** ** One step *)
  Definition m_of (z : zstate) (x : agg_inputsV) : list F := tx_encV (x_tx x) ++ [z_tx_final z].
  Definition hash_of (z : zstate) (x : agg_inputsV) : Z :=
    zval (challenge_hash (x_sender x) (m_of z x) (bits_val (v_s (x_sig x))) (bits_val (v_e (x_sig x)))).
  Definition signed (z : zstate) (x : agg_inputsV) : bool := hash_of z x =? bits_val (v_e (x_sig x)).
  Definition valid_tx (contract : pt) (z : zstate) (x : agg_inputsV) : bool :=
    signed z x || pt_eqb (x_sender x) contract.
  Definition dels (x : agg_inputsV) := a4_zip3 (v_inputs (x_tx x)) (x_del_proofs x) (x_del_pos x).
  Definition adds (x : agg_inputsV) := a4_zip3 (v_outputs (x_tx x)) (x_add_proofs x) (x_add_pos x).
  Definition after_dels (z : zstate) (x : agg_inputsV) : F := fold_left (del_next (signed z x)) (dels x) (z_utxo z).
  Definition after_outs (contract : pt) (to : bool) (z : zstate) (x : agg_inputsV) : F * F * F :=
    fold_left (out_next contract to (pt_eqb (x_sender x) contract) (valid_tx contract z x)) (adds x)
              (after_dels z x, z_deposit z, Fzero).
  Definition well_shaped (x : agg_inputsV) : Prop :=
    length (x_tx_proof x) = 12%nat /\ length (x_signer_proof x) = 12%nat /\
    Forall (fun y => length (snd (fst y)) = 31%nat) (dels x) /\
    Forall (fun y => length (snd (fst y)) = 31%nat) (adds x).
  Definition valid_ok (x : agg_inputsV) : bool :=
    forallb (fun i => v_dummy i || pt_eqb (v_pk i) (x_sender x)) (a4_list (v_inputs (x_tx x)))
    && Feqb (amount_diff (x_tx x)) Fzero.
  Definition step_ok (contract : pt) (to : bool) (z : zstate) (x : agg_inputsV) : bool :=
    valid_ok x &&
    Feqb (fold_sibs (x_tx_proof x) (zval (z_step z)) (tx_hashV (tx_alloc tx_default))) (z_tx z) &&
    (hash_of z x <? q) &&
    ok_fold (del_ok (signed z x)) (del_next (signed z x)) (dels x) (z_utxo z) &&
    ok_fold (out_ok contract to (valid_tx contract z x))
            (out_next contract to (pt_eqb (x_sender x) contract) (valid_tx contract z x)) (adds x)
            (after_dels z x, z_deposit z, Fzero) &&
    (negb (valid_tx contract z x) ||
     Feqb (fold_sibs (x_signer_proof x) (zval (z_step z)) (pk_hashV pzero)) (z_signer z)) &&
    (to || (zval (snd (after_outs contract to z x)) <? 2 ^ 64)).
  Definition step_next (contract : pt) (to : bool) (z : zstate) (x : agg_inputsV) : zstate :=
    let w := snd (after_outs contract to z x) in
    {| z_step := Fadd (z_step z) Fone;
       z_utxo := fst (fst (after_outs contract to z x));
       z_tx := fold_sibs (x_tx_proof x) (zval (z_step z)) (tx_hashV (x_tx x));
       z_tx_final := z_tx_final z;
       z_signer := if valid_tx contract z x
                   then fold_sibs (x_signer_proof x) (zval (z_step z)) (pk_hashV (x_sender x))
                   else z_signer z;
       z_signer_acc := sha_field (field_bytesV (z_signer_acc z)
                         ++ pt_bytesV (if valid_tx contract z x then x_sender x else pzero));
       z_deposit := snd (fst (after_outs contract to z x));
       z_withdrawal := if negb to && negb (Feqb w Fzero)
                       then sha_field (field_bytesV (z_withdrawal z) ++ entryV (x_sender x) w)
                       else z_withdrawal z |}.

  Lemma enforce_valid_computes x :
    computes (enforce_valid (x_tx x) (x_sender x)) (valid_ok x) tt.
  Proof.
    unfold enforce_valid. eapply computes_eq.
    - eapply computes_bind.
      + apply (computes_cfold _ (fun (_ : unit) i => negb (negb (v_dummy i)) || pt_eqb (v_pk i) (x_sender x)) (fun _ _ => tt)).
        intros s i _. apply computes_cond.
      + apply computes_enforce.
    - unfold valid_ok. f_equal. induction (a4_list (v_inputs (x_tx x))) as [|i l IH]; cbn [ok_fold forallb]; auto.
      now rewrite negb_involutive, IH.
    - reflexivity.
  Qed.

  Lemma W32 : (0 < 32)%nat /\ 2 ^ (Z.of_nat 32 + 1) <= p.
  Proof. split; [ lia |]. pose proof two64_lt_p. change (2 ^ (Z.of_nat 32 + 1)) with 8589934592. unfold two64 in *. lia. Qed.

  Lemma computes_sig z x : length (v_e (x_sig x)) = 254%nat ->
    computes (is_valid_gadget 32 (x_sender x) (m_of z x) (x_sig x)) (hash_of z x <? q) (signed z x).
  Proof.
    intros He. destruct W32 as [H1 H2]. split.
    - apply is_valid_gadget_honest; auto.
    - intros a'. rewrite is_valid_gadget_sat by auto. rewrite Z.ltb_lt. reflexivity.
  Qed.

  (** the end of a step, after the outputs *)
  Definition c_tail (contract : pt) (to : bool) (z : zstate) (x : agg_inputsV) (tv : bool) (tx_new : F)
    (a : F * F * F) : circ zstate :=
    let '(utxo_root, deposit_acc, withdrawal_amount) := a in
    let! (signer_old, signer_new) :=
      update_root signer_gcfg (x_signer_proof x) pzero (x_sender x) (z_step z) in
    let! _ := cond_enforce (Feqb signer_old (z_signer z)) tv in
    let! withdrawal_acc :=
      (if to then Ret (z_withdrawal z)
       else let! amount_bits := to_n_bits withdrawal_amount 64 in
            Ret (sel (Feqb withdrawal_amount Fzero) (z_withdrawal z)
                     (sha_field (field_bytesV (z_withdrawal z) ++ pt_bytesV (x_sender x) ++ bits_bytes amount_bits)))) in
    Ret {| z_step := Fadd (z_step z) Fone; z_utxo := utxo_root; z_tx := tx_new;
           z_tx_final := z_tx_final z; z_signer := sel tv signer_new (z_signer z);
           z_signer_acc := sha_field (field_bytesV (z_signer_acc z) ++ pt_bytesV (sel tv (x_sender x) pzero));
           z_deposit := deposit_acc; z_withdrawal := withdrawal_acc |}.
  Lemma tail_computes contract to z x tv tx_new a : length (x_signer_proof x) = 12%nat ->
    computes (c_tail contract to z x tv tx_new a)
      ((negb tv || Feqb (fold_sibs (x_signer_proof x) (zval (z_step z)) (pk_hashV pzero)) (z_signer z)) &&
       (to || (zval (snd a) <? 2 ^ 64)))
      {| z_step := Fadd (z_step z) Fone; z_utxo := fst (fst a); z_tx := tx_new;
         z_tx_final := z_tx_final z;
         z_signer := if tv then fold_sibs (x_signer_proof x) (zval (z_step z)) (pk_hashV (x_sender x)) else z_signer z;
         z_signer_acc := sha_field (field_bytesV (z_signer_acc z) ++ pt_bytesV (if tv then x_sender x else pzero));
         z_deposit := snd (fst a);
         z_withdrawal := if negb to && negb (Feqb (snd a) Fzero)
                         then sha_field (field_bytesV (z_withdrawal z) ++ entryV (x_sender x) (snd a))
                         else z_withdrawal z |}.
  Proof.
    intros Hs. destruct a as [[ur da] wa]. unfold c_tail. cbn [fst snd].
    eapply computes_eq.
    - eapply computes_bind; [ apply (computes_update signer_cfg signer_gcfg); [ apply signer_cfg_ok | reflexivity | exact Hs ] |].
      cbv beta iota.
      eapply computes_bind; [ apply computes_cond |].
      eapply computes_bind.
      + instantiate (1 := if negb to && negb (Feqb wa Fzero)
                          then sha_field (field_bytesV (z_withdrawal z) ++ entryV (x_sender x) wa)
                          else z_withdrawal z).
        instantiate (1 := to || (zval wa <? 2 ^ 64)).
        destruct to; cbn [negb andb orb]; [ apply computes_ret |].
        eapply computes_eq.
        * eapply computes_bind; [ apply computes_to_n_bits; lia | apply computes_ret ].
        * now rewrite andb_true_r.
        * unfold sel, entryV. rewrite bits_bytes_64, app_assoc. destruct (Feqb wa Fzero); reflexivity.
      + apply computes_ret.
    - cbn [andb]. rewrite andb_true_r. reflexivity.
    - reflexivity.
  Qed.

  Theorem step_computes contract to z x : length (v_e (x_sig x)) = 254%nat -> well_shaped x ->
    computes (c_step contract to z x) (step_ok contract to z x) (step_next contract to z x).
  Proof.
    intros He (Ht & Hs & Hd & Ha). unfold c_step.
    eapply computes_eq.
    - eapply computes_bind; [ apply enforce_valid_computes |].
      eapply computes_bind; [ apply (computes_update tx_cfg tx_gcfg); [ apply tx_cfg_ok | reflexivity | exact Ht ] |].
      cbv beta iota.
      eapply computes_bind; [ apply computes_enforce |].
      eapply computes_bind; [ apply computes_sig; exact He |].
      eapply computes_bind.
      { apply computes_cfold. intros r y Hy. apply c_delete_computes. rewrite Forall_forall in Hd. now apply Hd. }
      eapply computes_bind.
      { apply computes_cfold. intros r y Hy. apply c_output_computes. rewrite Forall_forall in Ha. now apply Ha. }
      apply (tail_computes contract). exact Hs.
    - unfold step_ok, after_dels, dels, adds, valid_tx. rewrite andb_true_l. now rewrite !andb_assoc.
    - reflexivity.
  Qed.

  Lemma step_shaped contract to z x z' : sat (c_step contract to z x) z' -> well_shaped x.
  Proof.
    unfold c_step. intros H.
    rewrite sat_bind in H; destruct H as (? & _ & H).
    rewrite sat_bind in H; destruct H as ([? ?] & Ht & H).
    apply (update_sat_length tx_cfg tx_gcfg) in Ht; [| reflexivity ].
    rewrite sat_bind in H; destruct H as (? & _ & H).
    rewrite sat_bind in H; destruct H as (sv & _ & H).
    rewrite sat_bind in H; destruct H as (? & Hd & H).
    rewrite sat_bind in H; destruct H as ([[? ?] ?] & Ha & H).
    rewrite sat_bind in H; destruct H as ([? ?] & Hs & H).
    apply (update_sat_length signer_cfg signer_gcfg) in Hs; [| reflexivity ].
    split; [ exact Ht | split; [ exact Hs | split ] ].
    - eapply cfold_sat_all; [| exact Hd ]. intros. eapply c_delete_length; eauto.
    - eapply cfold_sat_all; [| exact Ha ]. intros. eapply c_output_length; eauto.
  Qed.

  (** ** A satisfied step *)
  Theorem step_sat contract to z x z' : length (v_e (x_sig x)) = 254%nat ->
    sat (c_step contract to z x) z' <->
    well_shaped x /\ step_ok contract to z x = true /\ z' = step_next contract to z x.
  Proof.
    intros He. split.
    - intros H. pose proof (step_shaped _ _ _ _ _ H) as Hw. split; auto.
      exact (proj1 (proj2 (step_computes contract to z x He Hw) z') H).
    - intros (Hw & H). exact (proj2 (proj2 (step_computes contract to z x He Hw) z') H).
  Qed.
End facts.

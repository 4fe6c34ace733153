(** C96, C97: liveness. What honest users ask for happens. *)
From Coq Require Import ZArith List Bool Lia Permutation Sorted.
Import ListNotations.
From Verif Require Import Base Env Circuit SparseMT SparseMTSpec Data DataSpec DataFacts PropsData Schnorr SchnorrProofs PropsSchnorr
  HMap Contract ContractSpec PropsContract PropsBlock Aggregator AggSpec AggFacts AggSign AggIntake PropsIntake PropsSign
  AggCircuit AggCircuitSpec CircuitRun PropsCircuit PropsCircuit2 TruthSpec Honest PropsHonest
  Client ClientSpec ClientFacts PropsClient PropsClient2 PropsClient3 PropsClient4 PropsClient5 PropsClient6.
Open Scope Z_scope.

Section props.
  Context {hs : Hashes} {G : Curve} (dbg : bool) (contract : pt).

  (** A request: a sender and a transaction. It is fair if it spends the sender's coins only and is
      balanced, without overflow. *)
  Definition fair (w : pt * tx) : Prop :=
    owned_by (fst w) (snd w) /\ total_in (snd w) = total_out (snd w) /\ total_out (snd w) < two64.
  (** The answer to the transaction root [r]: the contract's key answers with anything, another
      sender with a signature that [sign] returned. *)
  Definition answers (r : F) (w : pt * tx) (ks : pt * option signature) : Prop :=
    fst ks = fst w /\
    (fst w = contract \/
     exists sk sg draws, fst w = public_key sk /\ snd ks = Some sg /\ sign sk (tx_enc (snd w) ++ [r]) draws = Ok (Some sg)).

  Lemma answers_authorised r w ks : answers r w ks -> authorised contract r (snd w) ks = true.
  Proof.
    intros (E & [H|(sk & sg & draws & H1 & H2 & H3)]); unfold authorised; rewrite E.
    - rewrite H, pt_eqb_refl. apply orb_true_r.
    - rewrite H2, H1. rewrite (proj1 (C30_sign_verify sk (tx_enc (snd w) ++ [r]) draws) sg H3). reflexivity.
  Qed.
  Lemma all_applied r ws l : Forall2 (answers r) ws l -> applied contract r (map snd ws) l = map snd ws.
  Proof.
    induction 1 as [|w ks ws l H HF IH]; [ reflexivity |].
    unfold applied in *. cbn [map combine flat_map fst snd]. rewrite (answers_authorised r w ks H), IH. reflexivity.
  Qed.
  Lemma ledger_exists ts : forall c rest, Permutation c (flat_map (consumes contract) ts ++ rest) ->
    ledger contract ts c (rest ++ flat_map (creates contract) ts).
  Proof.
    induction ts as [|t ts IH]; intros c rest H; cbn [flat_map] in *.
    - rewrite app_nil_r. constructor. exact H.
    - apply (ledger_cons contract t ts c (flat_map (consumes contract) ts ++ rest ++ creates contract t)).
      + exists (flat_map (consumes contract) ts ++ rest). split; [ now rewrite app_assoc | now rewrite app_assoc ].
      + rewrite (app_assoc rest). apply IH. reflexivity.
  Qed.
  Lemma fair_valid w : fair w -> is_valid dbg (snd w) (Some (fst w)) = Ok tt.
  Proof.
    intros (Ho & Ht & Hs). apply (C25_is_valid dbg (snd w) (fst w)); [ now rewrite Ht | exact Hs |].
    split; [ exact Ho | exact Ht ].
  Qed.
  Lemma answers_keys r ws l : Forall2 (answers r) ws l -> map fst l = map fst ws.
  Proof. induction 1 as [|w ks ws l (E & _) _ IH]; cbn [map]; [ reflexivity |]. now rewrite IH, E. Qed.
  Lemma f2_length {A B} (R : A -> B -> Prop) l m : Forall2 R l m -> length l = length m.
  Proof. induction 1 as [|a b l m _ _ IH]; cbn [length]; [ reflexivity |]. now rewrite IH. Qed.
  Lemma steps_mention n l s s' (P : pt -> Prop) : steps dbg contract n l s s' ->
    (forall k osg, In (k, osg) l -> P k) ->
    (forall t u, In t (a_txs s) -> In u (a4_list (outputs t)) -> is_dummy u = false -> P (pk u)) ->
    (forall k, In k (mentioned s) -> P k) -> forall k, In k (mentioned s') -> P k.
  Proof.
    induction 1 as [|n k osg l s s1 s' t r H1 H2 IH]; intros Hl Ho Hs; [ exact Hs |].
    apply IH; [ intros k0 osg0 Hin0; apply (Hl k0 osg0); now right | rewrite (so_txs _ _ _ _ _ _ _ _ _ H1); exact Ho |]. clear IH.
    pose proof (Hl k osg (or_introl eq_refl)) as HP.
    pose proof (nth_error_In _ _ (so_tx _ _ _ _ _ _ _ _ _ H1)) as Ht.
    intros k0 Hin. unfold mentioned in *.
    rewrite (so_signers _ _ _ _ _ _ _ _ _ H1), (so_deposits _ _ _ _ _ _ _ _ _ H1), (so_withdrawals _ _ _ _ _ _ _ _ _ H1) in Hin.
    rewrite !flat_map_app, !map_app, !in_app_iff in Hin.
    assert (X : forall k', In k' (flat_map (fun o : option pt => match o with Some k => [k] | None => [] end)
        (a_signers s) ++ map fst (a_deposits s) ++ map fst (a_withdrawals s)) -> P k') by exact Hs.
    destruct (authorised contract r t (k, osg)).
    - cbn [flat_map map app In] in Hin.
      assert (Y : In k0 (map fst (wd_entry k (AggSign.withdrawn contract t mod two64))) -> P k0).
      { unfold wd_entry. destruct (0 <? _); cbn [map fst In]; [| tauto ]. intros [<-|[]]. exact HP. }
      assert (Z : In k0 (map fst (new_deposits contract k (real (a4_list (outputs t))))) -> P k0).
      { unfold new_deposits. destruct (pt_eqb k contract); [| intros [] ]. rewrite map_map. cbn [fst].
        intros Hu. apply in_map_iff in Hu as (u & <- & Hu). apply filter_In in Hu as [Hu Hd].
        apply (Ho t u Ht Hu). now apply negb_true_iff in Hd. }
      destruct Hin as [[Hin|[Hin|[]]]|[[Hin|Hin]|[Hin|Hin]]]; auto; [| subst k0; exact HP | |];
        apply X; rewrite !in_app_iff; auto.
    - cbn [flat_map map app In] in Hin. apply X. rewrite !in_app_iff. tauto.
  Qed.

  (** C96. Any number of senders make fair requests that can be executed one after the other on the
      live coins. Then the batch is taken in, and once the senders have signed the transaction root
      the signature call succeeds, and afterwards the coins are those of the execution. *)
  Theorem C96_requests_granted s ws c' :
    reached dbg s -> a_txs s = [] -> Forall fair ws ->
    ledger contract (map snd ws) (coins s) c' ->
    a_index s + Z.of_nat (length (flat_map (creates contract) (map snd ws))) <= 2 ^ 31 ->
    Z.of_nat (length (a_signers s)) + Z.of_nat (length ws) + 4096 < two64 ->
    exists s1 r, process_transactions dbg s ws = MOk s1 tt /\ root (a_tx_tree s1) = Ok r /\
      forall l, Forall2 (answers r) ws l ->
        exists s2, process_signatures dbg s1 contract l = MOk s2 tt /\ Permutation (coins s2) c'.
  Proof.
    intros Hr Ht Hfair Hc Hidx Hsg.
    destruct (proj2 (C40_intake_accepts dbg s ws Hr
                ltac:(rewrite Ht; cbn [length]; lia))) as (s1 & E1).
    { apply Forall_forall. intros w Hw. rewrite Forall_forall in Hfair. exact (fair_valid w (Hfair w Hw)). }
    assert (Hr1 : reached dbg s1) by (apply (reached_intake dbg s ws s1 Hr); left; eauto).
    destruct (C40_intake dbg s ws s1 Hr Ht E1) as (Htx & _ & Hsame & _ & _).
    destruct (reach_root dbg s1 (reached_inv dbg s1 Hr1)) as (r & Hroot).
    exists s1, r. split; [ exact E1 |]. split; [ exact Hroot |]. intros l Hl.
    destruct Hsame as (S1 & S2 & S3 & S4 & S5 & S6 & S7 & _).
    assert (Ec : coins s1 = coins s) by (unfold coins, positions; now rewrite S1).
    assert (Happ : applied contract r (a_txs s1) l = map snd ws) by (rewrite Htx; apply all_applied, Hl).
    pose proof (f2_length _ _ _ Hl) as Hll.
    assert (Hfit : fits contract s1 l).
    { intros r0 E0. assert (r0 = r) by congruence. subst r0. rewrite Happ, S3. exact Hidx. }
    assert (Hno : no_overflow s1 l).
    { split; [ rewrite Htx, map_length, <- Hll; exact (le_n _) |]. rewrite S7, <- Hll. exact Hsg. }
    rewrite <- Ec in Hc.
    destruct (proj2 (proj1 (C44_succeeds_iff dbg contract s1 l r Hr1 Hfit Hno Hroot))) as (s2 & E2).
    { eexists. rewrite Happ. exact Hc. }
    exists s2. split; [ exact E2 |].
    pose proof (C44_ledger dbg contract s1 l s2 r Hr1 Hfit Hroot E2) as HL2. rewrite Happ in HL2.
    exact (ledger_det contract _ _ _ _ HL2 Hc).
  Qed.

  (** One payment: whoever owns a live coin, other than the contract, can pass it on. *)
  Corollary C96_coin_spendable s sk (u : utxo) to r0 :
    reached dbg s -> a_txs s = [] -> pk u = public_key sk -> is_dummy u = false -> pk u <> contract -> to <> contract ->
    Permutation (coins s) (u :: r0) -> a_index s < 2 ^ 31 -> Z.of_nat (length (a_signers s)) + 4097 < two64 ->
    let t := mkTx (A4 u utxo_dummy utxo_dummy utxo_dummy) (A4 (utxo_new to (amount u)) utxo_dummy utxo_dummy utxo_dummy) in
    exists s1 r, process_transactions dbg s [(pk u, t)] = MOk s1 tt /\ root (a_tx_tree s1) = Ok r /\
      forall draws sg, sign sk (tx_enc t ++ [r]) draws = Ok (Some sg) ->
        exists s2, process_signatures dbg s1 contract [(pk u, Some sg)] = MOk s2 tt /\
          Permutation (coins s2) (utxo_new to (amount u) :: r0).
  Proof.
    intros Hr Ht Hpk Hd Hnc Hto Hc Hidx Hsg t.
    assert (Ec : consumes contract t = [u]).
    { unfold consumes, t. cbn. rewrite Hd. apply pt_eqb_neq in Hnc. rewrite Hnc. reflexivity. }
    assert (Er : creates contract t = [utxo_new to (amount u)]).
    { unfold creates, t. cbn. apply pt_eqb_neq in Hto. now rewrite Hto. }
    assert (T1 : total_in t = zval (amount u) /\ total_out t = zval (amount u)).
    { unfold total_in, total_out, t. cbn [inputs outputs a4_list a4_0 a4_1 a4_2 a4_3].
      split; cbn [total utxo_dummy utxo_new is_dummy amount]; cbn; rewrite ?Hd; apply Z.add_0_r. }
    destruct (C96_requests_granted s [(pk u, t)] (r0 ++ [utxo_new to (amount u)])) as (s1 & r & E1 & E2 & H); try assumption.
    - constructor; [| constructor ]. destruct T1 as [T1 T2]. split; [| split ]; cbn [fst snd].
      + intros v Hv Hvd. cbn [t inputs a4_list a4_0 a4_1 a4_2 a4_3] in Hv. destruct Hv as [<-|[<-|[<-|[<-|[]]]]]; [ reflexivity | discriminate .. ].
      + congruence.
      + rewrite T2. exact (proj2 (u64_range (amount u))).
    - cbn [map snd]. pose proof (ledger_exists [t] (coins s) r0) as HL. cbn [flat_map] in HL. rewrite Ec, Er in HL.
      cbn [app] in HL. exact (HL Hc).
    - cbn [map snd flat_map]. rewrite Er. cbn [app length]. lia.
    - cbn [length]. lia.
    - exists s1, r. split; [ exact E1 |]. split; [ exact E2 |].
      intros draws sg Hs. destruct (H [(pk u, Some sg)]) as (s2 & E3 & P).
      { constructor; [| constructor ]. split; [ reflexivity |]. right. exists sk, sg, draws. auto. }
      exists s2. split; [ exact E3 |]. rewrite P. apply Permutation_sym, Permutation_cons_append.
  Qed.

  (** C97. The whole way, from the start of an epoch whose signer slots are blank: under the
      conditions of C96, with senders and receivers registered, and unless the contract's key signed
      a transaction with a real input, the block is produced, the recorded inputs prove it, and
      every user can credit any of these transactions that have a real input, the first one
      excepted, in one client step per block. *)
  Theorem C97_payments_arrive acc s ws c' ck kc calls c0 :
    p <= q ->
    reached dbg s -> a_txs s = [] -> a_signers s = [] -> a_deposits s = [] -> a_withdrawals s = [] -> a_ivc s = [] ->
    tree_holds dbg signer_cfg (a_signer_tree s) ck ->
    (forall i, 0 <= i < Z.of_nat (length ws) -> ck i = pzero) ->
    Forall fair ws -> Z.of_nat (length ws) <= 4096 ->
    ledger contract (map snd ws) (coins s) c' ->
    a_index s + Z.of_nat (length (flat_map (creates contract) (map snd ws))) <= 2 ^ 31 ->
    history dbg kc calls c0 -> Z.of_nat (length (pks c0)) <= 2 ^ 32 ->
    (forall k t, In (k, t) ws -> In k (pks c0) /\
       forall u, In u (a4_list (outputs t)) -> is_dummy u = false -> In (pk u) (pks c0)) ->
    exists s1 r, process_transactions dbg s ws = MOk s1 tt /\ root (a_tx_tree s1) = Ok r /\
      forall l, Forall2 (answers r) ws l ->
        (forall t o u, In (t, (contract, o)) (combine (map snd ws) l) ->
           verify_signature contract (tx_enc t ++ [r]) (osig o) = true -> In u (a4_list (inputs t)) -> is_dummy u = true) ->
        exists s2 b pi ur sr,
          process_signatures dbg s1 contract l = MOk s2 tt /\ Permutation (coins s2) c' /\
          root (a_utxo_tree s) = Ok ur /\ root (a_signer_tree s) = Ok sr /\
          produce_block s2 c0 = Ok b /\ derive_public_inputs c0 b = Ok pi /\
          (forall bs, concat bs = map inputs_alloc (ivc_inputs s2) -> ivc contract false (epoch_start ur r sr) bs pi) /\
          forall k idx us,
            (forall i, In i idx -> exists w u, nth_error ws (Z.to_nat i) = Some w /\ In u (a4_list (inputs (snd w))) /\ is_dummy u = false) ->
            StronglySorted Z.lt (0 :: idx) ->
            pk_hash k = us_pk us -> zval (us_height us) <= zval (a_height s) -> us_block us <> block_hash b ->
            exists a us',
              satisfied acc (length idx) (u_list us) (aux_alloc a) (u_list us') /\
              ux_block (aux_alloc a) = block_alloc b /\ ux_pk (aux_alloc a) = k /\
              zval (us_balance us') = (zval (us_balance us) +
                zsumm (map (fun i => gain k (tx_alloc (tx_contents (map snd ws) i))) idx)) mod p.
  Proof.
    intros Hpq Hr Ht Hsg Hdep Hwd Hivc Htree Hck Hfair Hlen Hc Hidx Hh Hsm Hreg.
    destruct (C96_requests_granted s ws c') as (s1 & r & E1 & Hroot & H); try assumption.
    { rewrite Hsg. cbn [length]. unfold two64. lia. }
    exists s1, r. split; [ exact E1 |]. split; [ exact Hroot |]. intros l Hl Hnosig.
    destruct (H l Hl) as (s2 & E2 & HP). clear H.
    assert (Hr1 : reached dbg s1) by (apply (reached_intake dbg s ws s1 Hr); left; eauto).
    destruct (C40_intake dbg s ws s1 Hr Ht E1) as (Htx & _ & Hsame & _ & _).
    destruct Hsame as (S1 & S2 & S3 & S4 & S5 & S6 & S7 & S8 & _).
    assert (Happ : applied contract r (a_txs s1) l = map snd ws) by (rewrite Htx; apply all_applied, Hl).
    assert (Hfit : fits contract s1 l).
    { intros r0 E0. assert (r0 = r) by congruence. subst r0. rewrite Happ, S3. exact Hidx. }
    pose proof (answers_keys r ws l Hl) as Hkeys.
    assert (Hat : forall i w, nth_error ws i = Some w -> exists ks, nth_error l i = Some ks /\ answers r w ks).
    { clear -Hl. induction Hl as [|w0 ks ws l H _ IH]; intros [|i] w E; cbn [nth_error] in *; try discriminate E.
      - exists ks. split; [ reflexivity |]. congruence.
      - now apply IH. }
    assert (Hin2 : forall t ks, In (t, ks) (combine (map snd ws) l) -> exists w, In w ws /\ t = snd w /\ answers r w ks).
    { clear -Hl. induction Hl as [|w0 ks0 ws l H _ IH]; intros t ks Hin; cbn [map combine] in Hin; [ destruct Hin |].
      destruct Hin as [E|Hin].
      - apply pair_equal_spec in E as [<- <-]. exists w0. split; [ now left |]. auto.
      - destruct (IH t ks Hin) as (w & Hw & X). exists w. split; [ now right | exact X ]. }
    pose proof (run_ok dbg contract s1 l s2 Hr1 Hfit E2) as Hst.
    assert (Hment : forall k, In k (mentioned s2) -> In k (pks c0)).
    { apply (steps_mention 0 l s1 s2 _ Hst).
      - intros k osg Hin. assert (Hk : In k (map fst ws)) by (rewrite <- Hkeys; apply (in_map fst l _ Hin)).
        apply in_map_iff in Hk as ([k0 t0] & <- & Hw). exact (proj1 (Hreg k0 t0 Hw)).
      - intros t u Hin Hu Hd. rewrite Htx in Hin. apply in_map_iff in Hin as ([k0 t0] & <- & Hw).
        exact (proj2 (Hreg k0 t0 Hw) u Hu Hd).
      - unfold mentioned. rewrite S4, S5, S7, Hsg, Hdep, Hwd. intros k []. }
    destruct (C53_honest_epoch dbg contract s s1 s2 ws l ck kc calls c0)
      as (b & pi & ur & tr & sr & R1 & R2 & R3 & Hb & Hpi & Hlen2 & Hiv); try assumption.
    - intros k t Hin. rewrite Forall_forall in Hfair. destruct (Hfair _ Hin) as (_ & Ei & Hs). cbn [snd] in Ei, Hs. rewrite Ei. auto.
    - intros final t ks Hf Hin. assert (final = r) by congruence. subst final.
      destruct (Hin2 t ks Hin) as (w & Hw & Et & Ha). split.
      + rewrite Et, (answers_authorised r w ks Ha). discriminate.
      + destruct ks as [k o]. cbn [fst snd]. intros -> Hv u Hu. exact (Hnosig t o u Hin Hv Hu).
    - assert (tr = r) by congruence. subst tr.
      exists s2, b, pi, ur, sr. repeat (split; [ assumption |]).
      intros k idx us Hsel Hso Hk Hheight Hblk.
      destruct (C79_epoch acc dbg contract s s1 s2 ws l ck r c0 b k idx us) as (a & us' & Ha & Hs & _ & Hbal); try assumption.
      + intros i Hi. destruct (Hsel i Hi) as ([k0 t0] & u & Hw & Hu & Hd). destruct (Hat _ _ Hw) as ([k1 osg] & Hks & Han).
        assert (k1 = k0) by exact (proj1 Han). subst k1.
        exists t0, k0, osg. split; [ exact Hw |]. split; [ exact Hks |]. split.
        * exact (answers_authorised r (k0, t0) _ Han).
        * exists u. auto.
      + exists a, us'. split; [ exact Hs |]. destruct Ha as [A1 A2 A3 A4 A5].
        split; [ unfold aux_alloc; cbn [ux_block]; now rewrite A1 |]. split; [ exact A2 |]. exact Hbal.
  Qed.
End props.

Print Assumptions C96_requests_granted.
Print Assumptions C96_coin_spendable.
Print Assumptions C97_payments_arrive.

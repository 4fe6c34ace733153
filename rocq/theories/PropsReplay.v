(** Property C107: signatures do not expire. *)
From Coq Require Import ZArith List Bool Lia Permutation.
Import ListNotations.
From Verif Require Import Base Env Circuit SparseMT SparseMTSpec Data DataSpec DataFacts PropsData Schnorr SchnorrProofs
  HMap Contract ContractSpec PropsContract PropsBlock Aggregator AggSpec AggFacts AggSign AggIntake PropsIntake PropsSign
  AggCircuit AggCircuitSpec CircuitRun PropsCircuit PropsCircuit2 TruthSpec Honest PropsHonest PropsReport
  Client ClientSpec PropsLive.
Open Scope Z_scope.

Section props.
  Context {hs : Hashes} {G : Curve} (dbg : bool) (contract : pt).

  (** Two epochs, of one aggregator or of two, that take the same pairs in: what one accepts as
      signatures the other accepts too. *)
  Theorem C107_same_signatures s l s1 r s' :
    reached dbg s -> a_txs s = [] -> Z.of_nat (length l) <= 4096 ->
    process_transactions dbg s l = MOk s1 tt -> root (a_tx_tree s1) = Ok r ->
    reached dbg s' -> a_txs s' = [] ->
    exists s1', process_transactions dbg s' l = MOk s1' tt /\ root (a_tx_tree s1') = Ok r /\
      a_txs s1' = a_txs s1 /\ coins s1' = coins s' /\
      forall answers c',
        (length answers <= length l)%nat ->
        a_index s' + Z.of_nat (length (flat_map (creates contract) (applied contract r (map snd l) answers))) <= 2 ^ 31 ->
        Z.of_nat (length (a_signers s')) + Z.of_nat (length answers) + 4096 < two64 ->
        ledger contract (applied contract r (map snd l) answers) (coins s') c' ->
        exists s2', process_signatures dbg s1' contract answers = MOk s2' tt /\ Permutation (coins s2') c'.
  Proof.
    intros Hr H0 Hlen E1 Hroot Hr' H0'.
    destruct (C40_intake dbg s l s1 Hr H0 E1) as (Ht & Hv & _ & _ & Hin). destruct (Hin Hlen) as (_ & Er & _).
    assert (Htx : r = epoch_root (map snd l) (length l)) by congruence.
    destruct (proj2 (C40_intake_accepts dbg s' l Hr' ltac:(rewrite H0'; cbn [length]; unfold two64; lia)) Hv) as (s1' & E1').
    destruct (C40_intake dbg s' l s1' Hr' H0' E1') as (Ht' & _ & Hs' & _ & Hin'). destruct (Hin' Hlen) as (_ & Er' & _).
    assert (Hroot' : root (a_tx_tree s1') = Ok r) by (rewrite Er', Htx; reflexivity).
    destruct Hs' as (S1 & S2 & S3 & S4 & S5 & S6 & S7 & _).
    assert (Ec : coins s1' = coins s') by (unfold coins, positions; now rewrite S1).
    assert (Hr1' : reached dbg s1') by (apply (reached_intake dbg s' l s1' Hr'); left; eauto).
    exists s1'. split; [ exact E1' |]. split; [ exact Hroot' |]. split; [ congruence |]. split; [ exact Ec |].
    intros ans c' Hla Hidx Hsg Hc.
    assert (Hfit : fits contract s1' ans).
    { intros r0 E0. assert (r0 = r) by congruence. subst r0. rewrite Ht', S3. exact Hidx. }
    assert (Hno : no_overflow s1' ans).
    { split; [ rewrite Ht', map_length; exact Hla |]. rewrite S7. exact Hsg. }
    rewrite <- Ec in Hc. rewrite <- Ht' in Hc.
    destruct (proj2 (proj1 (C44_succeeds_iff dbg contract s1' ans r Hr1' Hfit Hno Hroot'))) as (s2' & E2').
    { eexists. exact Hc. }
    exists s2'. split; [ exact E2' |].
    pose proof (C44_ledger dbg contract s1' ans s2' r Hr1' Hfit Hroot' E2') as HL.
    exact (ledger_det contract _ _ _ _ HL Hc).
  Qed.

  (** Whoever once signed a transaction that was taken in alone and applied, and later holds again
      coins like the ones it spends, can lose them without signing anything. *)
  Theorem C107_paid_again s k t s1 sg s2 s' rest :
    reached dbg s -> a_txs s = [] -> process_transactions dbg s [(k, t)] = MOk s1 tt ->
    fits contract s1 [(k, Some sg)] -> process_signatures dbg s1 contract [(k, Some sg)] = MOk s2 tt ->
    a_signers s2 = a_signers s1 ++ [Some k] ->
    reached dbg s' -> a_txs s' = [] -> Permutation (coins s') (consumes contract t ++ rest) ->
    a_index s' + 4 <= 2 ^ 31 -> Z.of_nat (length (a_signers s')) + 4097 < two64 ->
    exists s1' s2', process_transactions dbg s' [(k, t)] = MOk s1' tt /\
      process_signatures dbg s1' contract [(k, Some sg)] = MOk s2' tt /\
      Permutation (coins s2') (rest ++ creates contract t).
  Proof.
    intros Hr H0 E1 Hf E2 Hsign Hr' H0' Hc Hidx Hsg.
    assert (Hr1 : reached dbg s1) by (apply (reached_intake dbg s [(k, t)] s1 Hr); left; eauto).
    destruct (reach_root dbg s1 (reached_inv dbg s1 Hr1)) as (r & Hroot).
    destruct (C40_intake dbg s [(k, t)] s1 Hr H0 E1) as (Ht & _). cbn [map snd] in Ht.
    pose proof (run_ok dbg contract s1 [(k, Some sg)] s2 Hr1 Hf E2) as Hst.
    destruct (steps_logs dbg contract 0 [(k, Some sg)] s1 s2 Hst r Hroot) as (_ & _ & L). cbn [skipn] in L.
    rewrite Ht, Hsign in L. cbn [combine map fst snd] in L. apply app_inv_head in L.
    assert (Ha : authorised contract r t (k, Some sg) = true) by (destruct (authorised contract r t (k, Some sg)); [ reflexivity | discriminate L ]).
    assert (Happ : applied contract r (map snd [(k, t)]) [(k, Some sg)] = [t]).
    { unfold applied. cbn [map combine flat_map fst snd]. now rewrite Ha. }
    destruct (C107_same_signatures s [(k, t)] s1 r s' Hr H0 ltac:(cbn [length]; lia) E1 Hroot Hr' H0') as (s1' & E1' & _ & _ & _ & K).
    destruct (K [(k, Some sg)] (rest ++ creates contract t)) as (s2' & E2' & P2).
    - cbn [length]. lia.
    - rewrite Happ. cbn [flat_map]. rewrite app_nil_r.
      assert (Hle : forall (f : utxo -> bool) m, (length (filter f m) <= length m)%nat).
      { intros f m. induction m as [|y m IH]; cbn [filter length]; [ lia |]. destruct (f y); cbn [length]; lia. }
      specialize (Hle (fun u => negb (is_dummy u) && negb (pt_eqb (pk u) contract)) (a4_list (outputs t))).
      fold (creates contract t) in Hle. assert (length (a4_list (outputs t)) = 4%nat) by (destruct (outputs t); reflexivity). lia.
    - cbn [length]. lia.
    - rewrite Happ. econstructor; [ exists rest; split; [ exact Hc | reflexivity ] |]. constructor. reflexivity.
    - exists s1', s2'. auto.
  Qed.

  (** The repeated epoch can be proved like the first one, if its signer slots are blank. *)
  Theorem C107_provable_again s ws s1 r l s' c' ck kc calls c0 :
    p <= q ->
    reached dbg s -> a_txs s = [] -> process_transactions dbg s ws = MOk s1 tt -> root (a_tx_tree s1) = Ok r ->
    Forall2 (answers contract r) ws l ->
    (forall t o u, In (t, (contract, o)) (combine (map snd ws) l) ->
       verify_signature contract (tx_enc t ++ [r]) (match o with Some sg => sg | None => sig_default end) = true ->
       In u (a4_list (inputs t)) -> is_dummy u = true) ->
    reached dbg s' -> a_txs s' = [] -> a_signers s' = [] -> a_deposits s' = [] -> a_withdrawals s' = [] -> a_ivc s' = [] ->
    tree_holds dbg signer_cfg (a_signer_tree s') ck ->
    (forall i, 0 <= i < Z.of_nat (length ws) -> ck i = pzero) ->
    Forall fair ws -> Z.of_nat (length ws) <= 4096 ->
    ledger contract (map snd ws) (coins s') c' ->
    a_index s' + Z.of_nat (length (flat_map (creates contract) (map snd ws))) <= 2 ^ 31 ->
    history dbg kc calls c0 -> Z.of_nat (length (pks c0)) <= 2 ^ 32 ->
    (forall k t, In (k, t) ws -> In k (pks c0) /\
       forall u, In u (a4_list (outputs t)) -> is_dummy u = false -> In (pk u) (pks c0)) ->
    exists s1' s2' b pi ur sr, process_transactions dbg s' ws = MOk s1' tt /\
      process_signatures dbg s1' contract l = MOk s2' tt /\ Permutation (coins s2') c' /\
      root (a_utxo_tree s') = Ok ur /\ root (a_signer_tree s') = Ok sr /\
      produce_block s2' c0 = Ok b /\ derive_public_inputs c0 b = Ok pi /\
      (forall bs, concat bs = map inputs_alloc (ivc_inputs s2') -> ivc contract false (epoch_start ur r sr) bs pi).
  Proof.
    intros Hpq Hr H0 E1 Hroot Hans Hcon Hr' H0' A1 A2 A3 A4 Hck Hblank Hfair Hlen Hled Hidx Hh Hpks Hreg.
    destruct (C107_same_signatures s ws s1 r s' Hr H0 Hlen E1 Hroot Hr' H0') as (s1' & E1' & Hroot' & _).
    destruct (C97_payments_arrive dbg contract (fun a _ => a) s' ws c' ck kc calls c0 Hpq Hr' H0' A1 A2 A3 A4 Hck Hblank Hfair Hlen Hled Hidx Hh Hpks Hreg)
      as (s3 & r3 & E3 & Hroot3 & K).
    assert (s3 = s1') by congruence. subst s3. assert (r3 = r) by congruence. subst r3.
    destruct (K l Hans Hcon) as (s2 & b & pi & ur & sr & K1 & K2 & K3 & K4 & K5 & K6 & K7 & _).
    exists s1', s2, b, pi, ur, sr. repeat (split; [ assumption |]). exact K7.
  Qed.
End props.

Print Assumptions C107_same_signatures.
Print Assumptions C107_paid_again.
Print Assumptions C107_provable_again.

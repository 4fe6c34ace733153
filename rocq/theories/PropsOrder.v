(** C109: the order of the transactions within an epoch. *)
From Coq Require Import ZArith List Bool Lia Permutation.
Import ListNotations.
From Verif Require Import Base Env Circuit SparseMT SparseMTSpec Data DataSpec DataFacts PropsData Schnorr SchnorrProofs PropsSchnorr
  HMap Contract ContractSpec PropsContract PropsBlock Aggregator AggSpec AggFacts AggSign AggIntake PropsIntake PropsSign PropsLive PropsReport.
Open Scope Z_scope.

(** ** Specification *)
Section spec.
  Context {hs : Hashes} {G : Curve} (contract : pt).
  (** The payments an epoch makes: the applied transactions, each with the key that answered for it. *)
  Definition payments (r : F) (txs : list tx) (l : list (pt * option signature)) : list (pt * tx) :=
    flat_map (fun x => if authorised contract r (fst x) (snd x) then [(fst (snd x), fst x)] else []) (combine txs l).
  (** The keys in the list of signers. *)
  Definition present (l : list (option pt)) : list pt :=
    flat_map (fun o => match o with Some k => [k] | None => [] end) l.
End spec.

Section props.
  Context {hs : Hashes} {G : Curve} (dbg : bool) (contract : pt).

  Lemma payments_applied r txs l : map snd (payments contract r txs l) = applied contract r txs l.
  Proof.
    unfold payments, applied. induction (combine txs l) as [|x xs IH]; cbn [flat_map map]; [ reflexivity |].
    rewrite map_app, IH. now destruct (authorised contract r (fst x) (snd x)).
  Qed.
  Lemma flat_map_perm {A B} (f : A -> list B) l m : Permutation l m -> Permutation (flat_map f l) (flat_map f m).
  Proof.
    induction 1 as [|x l m H IH|x y l|l m n _ IH1 _ IH2]; cbn [flat_map].
    - constructor.
    - now apply Permutation_app_head.
    - rewrite !app_assoc. apply Permutation_app_tail, Permutation_app_comm.
    - now transitivity (flat_map f m).
  Qed.
  Lemma ledger_sum ts : forall c c', ledger contract ts c c' ->
    Permutation (flat_map (consumes contract) ts ++ c') (c ++ flat_map (creates contract) ts).
  Proof.
    induction ts as [|t ts IH]; intros c c' H; inversion H; subst; cbn [flat_map].
    - cbn [app]. rewrite app_nil_r. now symmetry.
    - match goal with X : apply_tx _ _ _ ?m |- _ => destruct X as (rest & A1 & A2); assert (HI := IH m c') end.
      assert (HL := HI ltac:(assumption)). clear HI.
      rewrite <- app_assoc, HL, A2, A1, <- !app_assoc. reflexivity.
  Qed.
  (** The same payments in any order lead to the same coins. *)
  Lemma ledger_any_order ts us c d c' d' : Permutation ts us -> Permutation c d ->
    ledger contract ts c c' -> ledger contract us d d' -> Permutation c' d'.
  Proof.
    intros Hp Hc H1 H2. apply ledger_sum in H1, H2.
    apply (Permutation_app_inv_l (flat_map (consumes contract) ts)).
    rewrite H1, Hc, (flat_map_perm (consumes contract) _ _ Hp), H2.
    now apply Permutation_app_head, flat_map_perm.
  Qed.

  Definition dep_of (w : pt * tx) : list (pt * Z) :=
    if pt_eqb (fst w) contract then map (fun u => (pk u, zval (amount u))) (real (a4_list (outputs (snd w)))) else [].
  Definition wd_of (w : pt * tx) : list (pt * Z) :=
    if negb (given_back contract (snd w) mod two64 =? 0) then [(fst w, given_back contract (snd w) mod two64)] else [].
  Lemma logs_payments r txs l :
    flat_map (deposits_of contract) (combine txs l) = flat_map dep_of (payments contract r txs l) /\
    flat_map (withdrawals_of contract r) (combine txs l) = flat_map wd_of (payments contract r txs l) /\
    present (map (fun x => if authorised contract r (fst x) (snd x) then Some (fst (snd x)) else None) (combine txs l))
      = map fst (payments contract r txs l).
  Proof.
    unfold payments, present. induction (combine txs l) as [|[t [k o]] xs (I1 & I2 & I3)]; [ repeat split |].
    cbn [flat_map map fst snd]. rewrite !flat_map_app, map_app, I1, I2, I3.
    unfold deposits_of at 1, withdrawals_of at 1. destruct (authorised contract r t (k, o)) eqn:Ea; cbn [flat_map app map fst].
    - rewrite !app_nil_r. repeat split.
    - unfold authorised in Ea. apply orb_false_elim in Ea as [_ Ea]. cbn [fst] in Ea. rewrite Ea. repeat split.
  Qed.
  Lemma as_z_perm a b : Permutation (map as_z a) (map as_z b) -> Permutation a b.
  Proof.
    intros H. apply Permutation_map_inv in H as (c & E & H). rewrite H. clear H.
    assert (X : forall a b : list (pt * u64), map as_z a = map as_z b -> a = b).
    { clear. induction a as [|[k x] a IH]; intros [|[m y] b] E; try discriminate E; [ reflexivity |].
      cbn [map] in E. unfold as_z at 1 3 in E. cbn [fst snd] in E.
      assert (k = m) by congruence. assert (zval x = zval y) by congruence. subst m. f_equal; [| apply IH; congruence ].
      f_equal. now apply zval_inj. }
    now rewrite (X _ _ E).
  Qed.

  (** C109. Two epochs, of one aggregator or of two, start with the same coins and make the same payments, in
      whatever order and among whatever other transactions. If both succeed, then both end with the same coins,
      the same deposits and withdrawals and the same signers, up to order. *)
  Theorem C109_same_payments s l s' r t m t' q :
    reached dbg s -> fits contract s l -> root (a_tx_tree s) = Ok r -> process_signatures dbg s contract l = MOk s' tt ->
    reached dbg t -> fits contract t m -> root (a_tx_tree t) = Ok q -> process_signatures dbg t contract m = MOk t' tt ->
    Permutation (coins s) (coins t) ->
    Permutation (a_deposits s) (a_deposits t) -> Permutation (a_withdrawals s) (a_withdrawals t) ->
    Permutation (present (a_signers s)) (present (a_signers t)) ->
    Permutation (payments contract r (a_txs s) l) (payments contract q (a_txs t) m) ->
    Permutation (coins s') (coins t') /\
    Permutation (a_deposits s') (a_deposits t') /\ Permutation (a_withdrawals s') (a_withdrawals t') /\
    Permutation (present (a_signers s')) (present (a_signers t')).
  Proof.
    intros Rs Fs Hs Es Rt Ft Ht Et Hc Hd Hw Hsg Hp.
    pose proof (C44_ledger dbg contract s l s' r Rs Fs Hs Es) as Ls.
    pose proof (C44_ledger dbg contract t m t' q Rt Ft Ht Et) as Lt.
    split.
    { refine (ledger_any_order _ _ _ _ _ _ _ Hc Ls Lt). rewrite <- !payments_applied. now apply Permutation_map. }
    destruct (steps_logs dbg contract 0 l s s' (run_ok dbg contract s l s' Rs Fs Es) r Hs) as (A1 & A2 & A3).
    destruct (steps_logs dbg contract 0 m t t' (run_ok dbg contract t m t' Rt Ft Et) q Ht) as (B1 & B2 & B3).
    cbn [skipn] in *.
    destruct (logs_payments r (a_txs s) l) as (P1 & P2 & P3). destruct (logs_payments q (a_txs t) m) as (Q1 & Q2 & Q3).
    split; [| split ].
    - apply as_z_perm. rewrite A1, B1, P1, Q1. apply Permutation_app; [ now apply Permutation_map | now apply flat_map_perm ].
    - apply as_z_perm. rewrite A2, B2, P2, Q2. apply Permutation_app; [ now apply Permutation_map | now apply flat_map_perm ].
    - rewrite A3, B3. unfold present in *. rewrite !flat_map_app, P3, Q3.
      apply Permutation_app; [ exact Hsg | now apply Permutation_map ].
  Qed.

  (** If the coins to be spent all exist at the start, every order succeeds, with the same coins at the end. *)
  Theorem C109_independent s ws rest :
    reached dbg s -> a_txs s = [] -> Forall fair ws ->
    Permutation (coins s) (flat_map (consumes contract) (map snd ws) ++ rest) ->
    a_index s + Z.of_nat (length (flat_map (creates contract) (map snd ws))) <= 2 ^ 31 ->
    Z.of_nat (length (a_signers s)) + Z.of_nat (length ws) + 4096 < two64 ->
    forall vs, Permutation ws vs ->
    exists s1 r, process_transactions dbg s vs = MOk s1 tt /\ root (a_tx_tree s1) = Ok r /\
      forall l, Forall2 (answers contract r) vs l ->
        exists s2, process_signatures dbg s1 contract l = MOk s2 tt /\
          Permutation (coins s2) (rest ++ flat_map (creates contract) (map snd ws)).
  Proof.
    intros Hr Ht Hf Hc Hi Hsg vs Hp.
    assert (Hm : Permutation (map snd ws) (map snd vs)) by now apply Permutation_map.
    assert (HL : ledger contract (map snd vs) (coins s) (rest ++ flat_map (creates contract) (map snd vs))).
    { apply ledger_exists. rewrite Hc. apply Permutation_app_tail. now apply flat_map_perm. }
    destruct (C96_requests_granted dbg contract s vs (rest ++ flat_map (creates contract) (map snd vs)) Hr Ht) as (s1 & r & E1 & E2 & H).
    - rewrite Forall_forall in *. intros w Hw. apply Hf. eapply Permutation_in; [ symmetry; exact Hp | exact Hw ].
    - exact HL.
    - rewrite <- (Permutation_length (flat_map_perm (creates contract) _ _ Hm)). exact Hi.
    - rewrite <- (Permutation_length Hp). exact Hsg.
    - exists s1, r. split; [ exact E1 |]. split; [ exact E2 |]. intros l Hl.
      destruct (H l Hl) as (s2 & E3 & P). exists s2. split; [ exact E3 |]. rewrite P.
      apply Permutation_app_head. symmetry. now apply flat_map_perm.
  Qed.

  (** Otherwise the order matters: a payment placed before the one that creates a coin it spends makes the
      whole call fail, if both are signed. *)
  Theorem C109_too_early s l r ts t us u :
    reached dbg s -> fits contract s l -> no_overflow s l -> root (a_tx_tree s) = Ok r ->
    applied contract r (a_txs s) l = ts ++ t :: us ->
    In u (consumes contract t) -> ~ In u (coins s) -> (forall x, In x ts -> ~ In u (creates contract x)) ->
    exists s' e, process_signatures dbg s contract l = MErr s' e.
  Proof.
    intros Hr Hf Hno Hroot Ea Hu Hn Hts.
    apply (proj2 (C44_succeeds_iff dbg contract s l r Hr Hf Hno Hroot)).
    rewrite Ea. intros (c' & HL). apply ledger_app in HL as (c & L1 & L2). inversion L2; subst.
    match goal with X : apply_tx _ _ _ _ |- _ => destruct X as (rest & A1 & _) end.
    assert (Hin : In u c) by (eapply Permutation_in; [ symmetry; exact A1 |]; apply in_or_app; now left).
    apply ledger_sum in L1.
    assert (Hin' : In u (coins s ++ flat_map (creates contract) ts)).
    { eapply Permutation_in; [ exact L1 |]. apply in_or_app. now right. }
    apply in_app_or in Hin' as [X|X]; [ exact (Hn X) |]. apply in_flat_map in X as (x & X1 & X2). exact (Hts x X1 X2).
  Qed.
End props.

Print Assumptions C109_same_payments.
Print Assumptions C109_independent.
Print Assumptions C109_too_early.

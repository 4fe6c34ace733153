(** C110: an epoch can be padded with default transactions, and taken in piece by piece. *)
From Coq Require Import ZArith List Bool Lia Permutation.
Import ListNotations.
From Verif Require Import Base Env Circuit SparseMT SparseMTSpec Data DataSpec DataFacts PropsData Schnorr SchnorrProofs PropsSchnorr
  HMap Contract ContractSpec PropsContract PropsBlock Aggregator AggSpec AggFacts AggSign AggIntake PropsIntake PropsSign
  AggCircuit AggCircuitSpec CircuitRun PropsCircuit PropsCircuit2 Honest PropsHonest PropsReport.
Open Scope Z_scope.

Section props.
  Context {hs : Hashes} {G : Curve} (dbg : bool) (contract : pt).

  (** The same state with another transaction list, tree and list of update proofs. *)
  Definition with_epoch (txs : list tx) (tr : tree) (ps : list (list F)) (s : agg) : agg :=
    {| a_utxos := a_utxos s; a_utxo_tree := a_utxo_tree s; a_index := a_index s;
       a_txs := txs; a_tx_tree := tr; a_deposits := a_deposits s;
       a_withdrawals := a_withdrawals s; a_signer_tree := a_signer_tree s;
       a_signers := a_signers s; a_height := a_height s; a_acc_signer := a_acc_signer s;
       a_acc_pk := a_acc_pk s; a_tx_proofs := ps; a_ivc := a_ivc s |}.
  Definition over {E A} (f : agg -> agg) (r : mres agg E A) : mres agg E A :=
    match r with MOk s a => MOk (f s) a | MErr s e => MErr (f s) e | MPanic => MPanic end.

  Section sim.
    Variables (txs : list tx) (tr : tree) (ps : list (list F)).
    Let f := with_epoch txs tr ps.
    Lemma over_bind {E A B} (m m' : mres agg E A) (k k' : agg -> A -> mres agg E B) :
      m' = over f m -> (forall s a, m = MOk s a -> k' (f s) a = over f (k s a)) -> mbind m' k' = over f (mbind m k).
    Proof. intros -> H. destruct m as [s a|s e|]; cbn [over mbind]; auto. Qed.
    Lemma over_fold {E A B} (g : agg -> A -> B -> mres agg E A) :
      (forall s a x, g (f s) a x = over f (g s a x)) -> forall l s a, mfold g l (f s) a = over f (mfold g l s a).
    Proof.
      intros H. induction l as [|x l IH]; intros s a; cbn [mfold]; [ reflexivity |].
      apply over_bind; [ apply H | intros; apply IH ].
    Qed.
    Lemma over_lift {E E' A} s (e : E) (r : res E' A) : mlift (f s) e r = over f (mlift s e r).
    Proof. now destruct r. Qed.
    Lemma over_delete s a ju : delete_one dbg contract (f s) a ju = over f (delete_one dbg contract s a ju).
    Proof.
      destruct ju as [j u]. unfold delete_one. destruct (negb (pt_eqb (pk u) contract)); [| reflexivity ].
      change (a_utxos (f s)) with (a_utxos s). change (a_utxo_tree (f s)) with (a_utxo_tree s). change (a_index (f s)) with (a_index s).
      destruct (hget utxo_eqb (a_utxos s) u) as [v|]; [| reflexivity ]. destruct (rev v) as [|i v']; [ reflexivity |].
      cbv zeta. change (a_utxo_tree (with_coins (f s) (hset utxo_eqb (a_utxos s) u (rev v')) (a_utxo_tree s) (a_index s)))
        with (a_utxo_tree (with_coins s (hset utxo_eqb (a_utxos s) u (rev v')) (a_utxo_tree s) (a_index s))).
      apply over_bind; [ apply (over_lift (with_coins s (hset utxo_eqb (a_utxos s) u (rev v')) (a_utxo_tree s) (a_index s))) |].
      intros s1 tp _. reflexivity.
    Qed.
    Lemma over_add k s a ju : add_one dbg contract k (f s) a ju = over f (add_one dbg contract k s a ju).
    Proof.
      destruct ju as [j u]. destruct a as [[pos pf] w]. unfold add_one. cbv zeta.
      set (s0 := if pt_eqb k contract then with_logs s (a_deposits s ++ [(pk u, amount u)]) (a_withdrawals s) else s).
      assert (E0 : (if pt_eqb k contract then with_logs (f s) (a_deposits (f s) ++ [(pk u, amount u)]) (a_withdrawals (f s)) else f s) = f s0)
        by (unfold s0; now destruct (pt_eqb k contract)).
      rewrite E0. clearbody s0. clear E0 s.
      destruct (negb (pt_eqb (pk u) contract)).
      - change (a_utxos (f s0)) with (a_utxos s0). change (a_utxo_tree (f s0)) with (a_utxo_tree s0). change (a_index (f s0)) with (a_index s0).
        set (v := match hget utxo_eqb (a_utxos s0) u with Some v => v | None => [] end). clearbody v.
        set (s1 := with_coins s0 (hset utxo_eqb (a_utxos s0) u (v ++ [a_index s0])) (a_utxo_tree s0) (a_index s0)).
        apply over_bind; [ apply (over_lift s1) |].
        intros s2 tp _. destruct (@uadd no_error dbg (a_index s0) 1); reflexivity.
      - destruct (@add64 no_error dbg w (amount u)); reflexivity.
    Qed.
    Lemma delete_keeps s a ju s' a' : delete_one dbg contract s a ju = MOk s' a' -> a_tx_proofs s' = a_tx_proofs s /\ a_txs s' = a_txs s /\ a_tx_tree s' = a_tx_tree s.
    Proof.
      destruct ju as [j u]. unfold delete_one. destruct (negb (pt_eqb (pk u) contract)); [| intros H; assert (s' = s) by congruence; now subst ].
      destruct (hget utxo_eqb (a_utxos s) u) as [v|]; [| discriminate ]. destruct (rev v) as [|i v']; [ discriminate |].
      cbv zeta. cbn [a_utxo_tree with_coins]. destruct (update_and_prove dbg utxo_cfg (a_utxo_tree s) i utxo_dummy) as [tp|e|]; cbn [mlift mbind]; intros H; try discriminate H.
      match type of H with MOk ?x _ = _ => assert (E : s' = x) by congruence end. subst s'. repeat split.
    Qed.
    Lemma add_keeps k s a ju s' a' : add_one dbg contract k s a ju = MOk s' a' -> a_tx_proofs s' = a_tx_proofs s /\ a_txs s' = a_txs s /\ a_tx_tree s' = a_tx_tree s.
    Proof.
      destruct ju as [j u]. destruct a as [[pos pf] w]. unfold add_one. cbv zeta.
      set (s0 := if pt_eqb k contract then with_logs s (a_deposits s ++ [(pk u, amount u)]) (a_withdrawals s) else s).
      assert (E0 : a_tx_proofs s0 = a_tx_proofs s /\ a_txs s0 = a_txs s /\ a_tx_tree s0 = a_tx_tree s) by (unfold s0; now destruct (pt_eqb k contract)).
      destruct E0 as (<- & <- & <-). clearbody s0. clear s.
      destruct (negb (pt_eqb (pk u) contract)).
      - cbn [a_utxo_tree with_coins]. destruct (update_and_prove dbg utxo_cfg (a_utxo_tree s0) (a_index s0) u) as [tp|e|]; cbn [mlift mbind]; intros H; try discriminate H.
        destruct (@uadd no_error dbg (a_index s0) 1) as [i'|e|]; try discriminate H.
        match type of H with MOk ?x _ = _ => assert (E : s' = x) by congruence end. subst s'. repeat split.
      - destruct (@add64 no_error dbg w (amount u)); intros H; try discriminate H. assert (s' = s0) by congruence. now subst.
    Qed.
    Lemma fold_keeps {E A B} (g : agg -> A -> B -> mres agg E A) :
      (forall s a x s' a', g s a x = MOk s' a' -> a_tx_proofs s' = a_tx_proofs s /\ a_txs s' = a_txs s /\ a_tx_tree s' = a_tx_tree s) ->
      forall l s a s' a', mfold g l s a = MOk s' a' -> a_tx_proofs s' = a_tx_proofs s /\ a_txs s' = a_txs s /\ a_tx_tree s' = a_tx_tree s.
    Proof.
      intros Hg. induction l as [|x l IH]; intros s a s' a' H; cbn [mfold] in H.
      - assert (s' = s) by congruence. now subst.
      - destruct (g s a x) as [s1 a1|s1 e|] eqn:E1; cbn [mbind] in H; try discriminate H.
        apply IH in H as (-> & -> & ->). now apply Hg in E1.
    Qed.

    Lemma over_sign s i ks : nth_error txs i = nth_error (a_txs s) i -> root tr = root (a_tx_tree s) ->
      nth_error ps i = nth_error (a_tx_proofs s) i ->
      sign_one dbg contract (f s) tt (i, ks) = over f (sign_one dbg contract s tt (i, ks)).
    Proof.
      intros E1 E2 E3. destruct ks as [k osg]. unfold sign_one. cbn [f with_epoch a_txs a_tx_tree].
      fold (with_epoch txs tr ps s). fold f. change (with_epoch txs tr ps s) with (f s). rewrite E1, E2. clear E1 E2.
      destruct (nth_error (a_txs s) i) as [t|]; [| reflexivity ]. destruct (root (a_tx_tree s)) as [r| |]; [| reflexivity .. ].
      cbv zeta.
      apply over_bind.
      - destruct (accepts contract r t k _); [| reflexivity ].
        apply over_bind; [ apply (over_lift s) |]. intros s1 tp _.
        apply over_bind; [ apply (over_fold (delete_one dbg contract) over_delete _ (with_signer s1 (fst tp) (Some k))) |].
        intros s2 del _.
        apply over_bind; [ apply (over_fold (add_one dbg contract k) (over_add k)) |].
        intros s3 [[pos pf] w] _. destruct (0 <? zval w); reflexivity.
      - intros s4 [[sp [dpos dpf]] [apos apf]] H4. cbn [f with_epoch a_tx_proofs]. rewrite E3.
        assert (E4 : a_tx_proofs s4 = a_tx_proofs s).
        { destruct (accepts contract r t k _).
          - destruct (update_and_prove dbg signer_cfg (a_signer_tree s) (Z.of_nat (length (a_signers s))) k) as [tp|e|]; cbn [mlift mbind] in H4; try discriminate H4.
            destruct (mfold (delete_one dbg contract) _ _ _) as [s2 del|s2 e|] eqn:Ed; cbn [mbind] in H4; try discriminate H4.
            destruct (mfold (add_one dbg contract k) _ _ _) as [s3 [[pos pf] w]|s3 e|] eqn:Ea; cbn [mbind] in H4; try discriminate H4.
            apply (fold_keeps (delete_one dbg contract) delete_keeps) in Ed as (Ed & _).
            apply (fold_keeps (add_one dbg contract k) (add_keeps k)) in Ea as (Ea & _).
            cbn [with_signer a_tx_proofs] in Ed. rewrite <- Ed, <- Ea.
            match type of H4 with MOk ?x _ = _ => assert (E : s4 = x) by congruence end. subst s4. now destruct (0 <? zval w).
          - match type of H4 with MOk ?x _ = _ => assert (E : s4 = x) by congruence end. subst s4. reflexivity. }
        rewrite E4. destruct (nth_error (a_tx_proofs s) i); reflexivity.
    Qed.
  End sim.

  Definition keeps (s s' : agg) : Prop := a_tx_proofs s' = a_tx_proofs s /\ a_txs s' = a_txs s /\ a_tx_tree s' = a_tx_tree s.
  Lemma sign_keeps s x s' : sign_one dbg contract s tt x = MOk s' tt -> keeps s s'.
  Proof.
    destruct x as [i [k osg]]. unfold sign_one, keeps. destruct (nth_error (a_txs s) i) as [t|]; [| discriminate ].
    destruct (root (a_tx_tree s)) as [r| |]; [| discriminate .. ]. cbv zeta. intros H.
    match type of H with mbind ?m _ = _ => destruct m as [s4 [[sp [dpos dpf]] [apos apf]]|s4 e|] eqn:H4; cbn [mbind] in H; try discriminate H end.
    assert (E4 : a_tx_proofs s4 = a_tx_proofs s /\ a_txs s4 = a_txs s /\ a_tx_tree s4 = a_tx_tree s).
    { destruct (accepts contract r t k _).
      - destruct (update_and_prove dbg signer_cfg (a_signer_tree s) (Z.of_nat (length (a_signers s))) k) as [tp|e|]; cbn [mlift mbind] in H4; try discriminate H4.
        destruct (mfold (delete_one dbg contract) _ _ _) as [s2 del|s2 e|] eqn:Ed; cbn [mbind] in H4; try discriminate H4.
        destruct (mfold (add_one dbg contract k) _ _ _) as [s3 [[pos pf] w]|s3 e|] eqn:Ea; cbn [mbind] in H4; try discriminate H4.
        apply (fold_keeps (delete_one dbg contract) delete_keeps) in Ed as (D1 & D2 & D3).
        apply (fold_keeps (add_one dbg contract k) (add_keeps k)) in Ea as (A1 & A2 & A3).
        cbn [with_signer a_tx_proofs a_txs a_tx_tree] in D1, D2, D3. rewrite <- D1, <- D2, <- D3, <- A1, <- A2, <- A3.
        match type of H4 with MOk ?x _ = _ => assert (E : s4 = x) by congruence end. subst s4. now destruct (0 <? zval w).
      - match type of H4 with MOk ?x _ = _ => assert (E : s4 = x) by congruence end. subst s4. repeat split. }
    destruct (nth_error (a_tx_proofs s4) i) as [tpf|]; [| discriminate H ].
    match type of H with MOk ?x _ = _ => assert (E : s' = x) by congruence end. subst s'. exact E4.
  Qed.

  Lemma run_longer mt mp tr l : forall n s s', root tr = root (a_tx_tree s) -> length (a_tx_proofs s) = length (a_txs s) ->
    (n + length l <= length (a_txs s))%nat ->
    mfold (sign_one dbg contract) (combine (seq n (length l)) l) s tt = MOk s' tt ->
    keeps s s' /\
    mfold (sign_one dbg contract) (combine (seq n (length l)) l) (with_epoch (a_txs s ++ mt) tr (a_tx_proofs s ++ mp) s) tt
      = MOk (with_epoch (a_txs s ++ mt) tr (a_tx_proofs s ++ mp) s') tt.
  Proof.
    induction l as [|ks l IH]; intros n s s' Hr Hlp Hn H; cbn [length seq combine mfold] in *.
    - assert (s' = s) by congruence. subst s'. split; [ repeat split | reflexivity ].
    - destruct (sign_one dbg contract s tt (n, ks)) as [s1 []|s1 e|] eqn:E1; cbn [mbind] in H; try discriminate H.
      pose proof (sign_keeps _ _ _ E1) as (K1 & K2 & K3).
      rewrite over_sign; [ | now rewrite nth_error_app1 by lia | exact Hr | now rewrite nth_error_app1 by lia ].
      rewrite E1. cbn [over mbind].
      destruct (IH (S n) s1 s') as ((J1 & J2 & J3) & J4); [ now rewrite K3 | now rewrite K1, K2 | rewrite K2; lia | exact H |].
      split; [ unfold keeps; now rewrite J1, J2, J3, K1, K2, K3 |].
      rewrite K1, K2 in J4. exact J4.
  Qed.

  Lemma intake_app s l m : process_transactions dbg s (l ++ m) =
    mbind (process_transactions dbg s l) (fun s1 _ => process_transactions dbg s1 m).
  Proof.
    unfold process_transactions. rewrite mfold_app. destruct (mfold (intake_one dbg) l s tt) as [s1 []|s1 e|]; reflexivity.
  Qed.
  Lemma intake_extends l : forall s s', process_transactions dbg s l = MOk s' tt ->
    exists mp, s' = with_epoch (a_txs s ++ map snd l) (a_tx_tree s') (a_tx_proofs s ++ mp) s /\ length mp = length l.
  Proof.
    unfold process_transactions. induction l as [|[k x] l IH]; intros s s' H; cbn [mfold] in H.
    - assert (s' = s) by congruence. subst s'. exists []. cbn [map]. rewrite !app_nil_r. split; [ now destruct s | reflexivity ].
    - unfold intake_one at 1 in H. destruct (is_valid dbg x (Some k)) as [u|e|]; cbn [mbind] in H; try discriminate H.
      destruct (update_and_prove dbg tx_cfg (a_tx_tree s) (Z.of_nat (length (a_txs s))) x) as [[t pf]|e|]; cbn [mlift mbind fst snd] in H; try discriminate H.
      apply IH in H as (mp & E & Hl). exists (pf :: mp). split; [| cbn [length]; now rewrite Hl ].
      cbn [map]. rewrite E at 1. unfold with_epoch. cbn [with_tx a_txs a_tx_proofs a_utxos a_utxo_tree a_index a_deposits a_withdrawals
        a_signer_tree a_signers a_height a_acc_signer a_acc_pk a_ivc]. rewrite <- !app_assoc. reflexivity.
  Qed.

  (** ** C110 *)
  (** Taking a batch in at once or in pieces is the same. *)
  Theorem C110_pieces s l m s1 : process_transactions dbg s l = MOk s1 tt ->
    process_transactions dbg s (l ++ m) = process_transactions dbg s1 m.
  Proof. intros H. now rewrite intake_app, H. Qed.

  Lemma default_valid k : is_valid dbg tx_default (Some k) = Ok tt.
  Proof.
    apply (C25_is_valid dbg tx_default k); [ reflexivity .. |]. split; [| reflexivity ].
    intros u Hu Hd. cbn in Hu. destruct Hu as [<-|[<-|[<-|[<-|[]]]]]; discriminate Hd.
  Qed.
  Lemma map_snd_repeat {A B} (a : A) (b : B) n : map snd (repeat (a, b) n) = repeat b n.
  Proof. induction n as [|n IH]; cbn [repeat map]; [ reflexivity |]. now rewrite IH. Qed.
  Lemma nth_repeat' {A} (d : A) l n i : nth i (l ++ repeat d n) d = nth i l d.
  Proof.
    destruct (Nat.lt_ge_cases i (length l)) as [H|H]; [ now rewrite app_nth1 |].
    rewrite app_nth2, (nth_overflow l) by exact H. apply nth_repeat.
  Qed.
  Lemma padded_root s txs n tr tr' : EpochInv dbg s ->
    tree_holds dbg tx_cfg tr (tx_contents txs) -> tree_holds dbg tx_cfg tr' (tx_contents (txs ++ repeat tx_default n)) ->
    root tr' = root tr.
  Proof.
    intros _ H H'. rewrite (tree_holds_root dbg tx_cfg AggFacts.tx_cfg_ok _ _ H), (tree_holds_root dbg tx_cfg AggFacts.tx_cfg_ok _ _ H').
    f_equal. apply root_ext. intros i _. unfold tx_contents. destruct (i <? 0); [ reflexivity |]. apply nth_repeat'.
  Qed.

  (** [n] further steps that apply nothing *)
  Definition with_pads (n : nat) (new : list agg_inputs) (s : agg) : agg :=
    {| a_utxos := a_utxos s; a_utxo_tree := a_utxo_tree s; a_index := a_index s;
       a_txs := a_txs s; a_tx_tree := a_tx_tree s; a_deposits := a_deposits s;
       a_withdrawals := a_withdrawals s; a_signer_tree := a_signer_tree s;
       a_signers := a_signers s ++ repeat None n; a_height := a_height s; a_acc_signer := a_acc_signer s;
       a_acc_pk := a_acc_pk s; a_tx_proofs := a_tx_proofs s; a_ivc := a_ivc s ++ new |}.
  Lemma pads_run k o r n : authorised contract r tx_default (k, o) = false -> forall i s,
    root (a_tx_tree s) = Ok r -> (forall j, (i <= j < i + n)%nat -> nth_error (a_txs s) j = Some tx_default) ->
    (i + n <= length (a_tx_proofs s))%nat ->
    exists new, mfold (sign_one dbg contract) (combine (seq i n) (repeat (k, o) n)) s tt = MOk (with_pads n new s) tt.
  Proof.
    intros Ha. induction n as [|n IH]; intros i s Hr Ht Hp; cbn [seq repeat combine mfold].
    - exists []. unfold with_pads. cbn [repeat]. rewrite !app_nil_r. now destruct s.
    - unfold sign_one at 1. rewrite (Ht i) by lia. rewrite Hr.
      change (accepts contract r tx_default k (match o with Some sg => sg | None => sig_default end)) with (authorised contract r tx_default (k, o)).
      rewrite Ha. cbn [mbind with_signer a_tx_proofs].
      destruct (nth_error (a_tx_proofs s) i) as [tpf|] eqn:Ep; [| apply nth_error_None in Ep; lia ]. cbn [mbind].
      match goal with |- context [mfold _ _ ?x tt] => set (s1 := x) end.
      destruct (IH (S i) s1) as (new & E); [ exact Hr | intros j Hj; apply (Ht j); lia | cbn [s1 with_ivc with_signer a_tx_proofs]; lia |].
      eexists. rewrite E. unfold s1, with_pads, with_ivc, with_signer. cbn [a_utxos a_utxo_tree a_index a_txs a_tx_tree a_deposits a_withdrawals
        a_signer_tree a_signers a_height a_acc_signer a_acc_pk a_tx_proofs a_ivc]. rewrite <- !app_assoc. reflexivity.
  Qed.
  Lemma combine_seq_app {A} (l m : list A) : forall n, combine (seq n (length (l ++ m))) (l ++ m) =
    combine (seq n (length l)) l ++ combine (seq (n + length l) (length m)) m.
  Proof.
    induction l as [|x l IH]; intros n; cbn [app length seq combine]; [ now rewrite Nat.add_0_r |].
    rewrite IH. cbn [app]. now rewrite Nat.add_succ_r.
  Qed.
  Lemma keeps_pad s' n new c : produce_block (with_pads n new s') c =
    match produce_block s' c with
    | Ok b => Ok {| utxo_tree_root := utxo_tree_root b; tx_tree_root := tx_tree_root b; signer_tree_root := signer_tree_root b;
                    b_signers := b_signers b ++ repeat None n; height := height b; b_deposits := b_deposits b;
                    b_withdrawals := b_withdrawals b |}
    | r => r end.
  Proof.
    unfold produce_block. cbn [with_pads a_utxo_tree a_tx_tree a_signer_tree a_signers a_deposits a_withdrawals a_height].
    destruct (root (a_utxo_tree s')); [| reflexivity .. ]. destruct (root (a_tx_tree s')); [| reflexivity .. ].
    destruct (root (a_signer_tree s')); [| reflexivity .. ].
    set (f := fun o : option pt => match o with Some k => do i <- index_u32 c k; Ok (Some i) | None => Ok None end).
    assert (X : rmap f (a_signers s' ++ repeat None n) = (do m <- rmap f (a_signers s'); Ok (m ++ repeat None n))).
    { induction (a_signers s') as [|x l IH]; cbn [app rmap rbind].
      - induction n as [|n IHn]; cbn [repeat rmap]; [ reflexivity |]. cbn [f rbind]. rewrite IHn. reflexivity.
      - destruct (f x); cbn [rbind]; [| reflexivity .. ]. rewrite IH. now destruct (rmap f l). }
    rewrite X. destruct (rmap f (a_signers s')); cbn [rbind]; [| reflexivity .. ].
    destruct (rmap _ (a_deposits s')); cbn [rbind]; [| reflexivity .. ].
    destruct (rmap _ (a_withdrawals s')); cbn [rbind]; reflexivity.
  Qed.

  (** Default transactions, from whatever sender, can be added at the end of an epoch: they are taken in and the
      transaction root, and with it every signature, stays. Left unsigned, they are not applied: the call
      succeeds if it did without them, everything it leaves is the same, except that the block lists as
      many more positions without a signer. *)
  Theorem C110_padding s ws s1 r l s2 n k o :
    reached dbg s -> a_txs s = [] -> Z.of_nat (length ws + n) <= 4096 ->
    process_transactions dbg s ws = MOk s1 tt -> root (a_tx_tree s1) = Ok r ->
    length l = length ws -> process_signatures dbg s1 contract l = MOk s2 tt ->
    authorised contract r tx_default (k, o) = false ->
    exists s1' s2', process_transactions dbg s (ws ++ repeat (k, tx_default) n) = MOk s1' tt /\ root (a_tx_tree s1') = Ok r /\
      process_signatures dbg s1' contract (l ++ repeat (k, o) n) = MOk s2' tt /\
      a_utxos s2' = a_utxos s2 /\ a_utxo_tree s2' = a_utxo_tree s2 /\ a_index s2' = a_index s2 /\
      a_deposits s2' = a_deposits s2 /\ a_withdrawals s2' = a_withdrawals s2 /\ a_signer_tree s2' = a_signer_tree s2 /\
      a_height s2' = a_height s2 /\ a_signers s2' = a_signers s2 ++ repeat None n /\
      forall c, produce_block s2' c =
        match produce_block s2 c with
        | Ok b => Ok {| utxo_tree_root := utxo_tree_root b; tx_tree_root := tx_tree_root b; signer_tree_root := signer_tree_root b;
                        b_signers := b_signers b ++ repeat None n; height := height b; b_deposits := b_deposits b;
                        b_withdrawals := b_withdrawals b |}
        | x => x end.
  Proof.
    intros Hr Ht Hlen E1 Hroot Hll E2 Ha.
    destruct (C40_intake dbg s ws s1 Hr Ht E1) as (T1 & V1 & S1 & L1 & H1).
    assert (Hw : Z.of_nat (length ws) <= 4096) by lia. destruct (H1 Hw) as (Th & _). clear H1 Hw.
    assert (Hr1 : reached dbg s1) by (eapply reached_intake; [ exact Hr |]; left; eauto).
    destruct (proj2 (C40_intake_accepts dbg s1 (repeat (k, tx_default) n) Hr1
      ltac:(rewrite T1, map_length, repeat_length; unfold two64; lia))) as (s1' & E1').
    { apply Forall_forall. intros w Hw. apply repeat_spec in Hw. subst w. exact (default_valid k). }
    pose proof (intake_app s ws (repeat (k, tx_default) n)) as Eapp. rewrite E1 in Eapp. cbn [mbind] in Eapp. rewrite E1' in Eapp.
    destruct (C40_intake dbg s _ s1' Hr Ht Eapp) as (T1' & _ & _ & _ & H1').
    assert (Hw : Z.of_nat (length (ws ++ repeat (k, tx_default) n)) <= 4096) by (rewrite app_length, repeat_length; exact Hlen).
    destruct (H1' Hw) as (Th' & _). clear H1' Hw. rewrite map_app, map_snd_repeat in T1', Th'.
    assert (Hroot' : root (a_tx_tree s1') = root (a_tx_tree s1)).
    { refine (padded_root s1 (map snd ws) n _ _ (ri_epoch _ _ (reached_inv dbg s1 Hr1)) Th Th'). }
    destruct (intake_extends _ _ _ E1') as (mp & Es1' & Lmp). rewrite map_snd_repeat in Es1'.
    assert (Hlp : length (a_tx_proofs s1) = length (a_txs s1)) by (rewrite L1, T1, map_length; reflexivity).
    assert (Hn : (0 + length l <= length (a_txs s1))%nat) by (rewrite T1, map_length, Hll; apply le_n).
    unfold process_signatures, enum in E2.
    destruct (run_longer (repeat tx_default n) mp (a_tx_tree s1') l 0 s1 s2 Hroot' Hlp Hn E2) as ((K1 & K2 & K3) & E3).
    rewrite <- Es1' in E3.
    set (s2p := with_epoch (a_txs s1 ++ repeat tx_default n) (a_tx_tree s1') (a_tx_proofs s1 ++ mp) s2) in *.
    destruct (pads_run k o r n Ha (length l) s2p) as (new & E4).
    { cbn [s2p with_epoch a_tx_tree]. now rewrite Hroot'. }
    { intros j Hj. cbn [s2p with_epoch a_txs]. rewrite T1, nth_error_app2 by (rewrite map_length; lia).
      rewrite map_length, <- Hll. assert (Hx : (j - length l < n)%nat) by lia. revert Hx. clear.
      generalize (j - length l)%nat as m. induction n as [|n IH]; intros m Hm; [ lia |]. destruct m; cbn [repeat nth_error]; [ reflexivity |].
      apply IH. lia. }
    { cbn [s2p with_epoch a_tx_proofs]. rewrite app_length, Lmp, repeat_length, L1, Hll. apply le_n. }
    exists s1', (with_pads n new s2p). split; [ exact Eapp |]. split; [ congruence |]. split.
    { unfold process_signatures, enum. rewrite combine_seq_app, mfold_app, E3. rewrite repeat_length. cbn [Nat.add]. exact E4. }
    do 8 (split; [ reflexivity |]). intros c. rewrite keeps_pad.
    assert (Eb : produce_block s2p c = produce_block s2 c).
    { unfold produce_block. cbn [s2p with_epoch a_utxo_tree a_tx_tree a_signer_tree a_signers a_deposits a_withdrawals a_height].
      rewrite Hroot', K3. reflexivity. }
    rewrite Eb. reflexivity.
  Qed.

  (** If the epoch without them could be proved (the conditions of C53), so can the padded one, provided the
      signer slots of the added positions are blank too. *)
  Theorem C110_provable s ws s1 s2 l r n k o ck kc calls c0 :
    p <= q ->
    reached dbg s -> a_txs s = [] -> a_signers s = [] -> a_deposits s = [] -> a_withdrawals s = [] -> a_ivc s = [] ->
    tree_holds dbg signer_cfg (a_signer_tree s) ck ->
    (forall i, 0 <= i < Z.of_nat (length ws + n) -> ck i = pzero) ->
    process_transactions dbg s ws = MOk s1 tt -> Z.of_nat (length ws + n) <= 4096 -> root (a_tx_tree s1) = Ok r ->
    process_signatures dbg s1 contract l = MOk s2 tt -> fits contract s1 l ->
    map fst l = map fst ws ->
    (forall k t, In (k, t) ws -> total_in t < two64 /\ total_out t < two64) ->
    (forall t ks, In (t, ks) (combine (map snd ws) l) ->
       (authorised contract r t ks = false ->
          forall u, In u (a4_list (outputs t)) -> is_dummy u = false -> pk u = contract -> zval (amount u) = 0) /\
       (fst ks = contract -> verify_signature (fst ks) (tx_enc t ++ [r]) (osig (snd ks)) = true ->
          forall u, In u (a4_list (inputs t)) -> is_dummy u = true)) ->
    history dbg kc calls c0 -> Z.of_nat (length (pks c0)) <= 2 ^ 32 -> (forall k, In k (mentioned s2) -> In k (pks c0)) ->
    authorised contract r tx_default (k, o) = false ->
    exists s1' s2' b pi ur sr,
      process_transactions dbg s (ws ++ repeat (k, tx_default) n) = MOk s1' tt /\
      process_signatures dbg s1' contract (l ++ repeat (k, o) n) = MOk s2' tt /\
      root (a_utxo_tree s) = Ok ur /\ root (a_signer_tree s) = Ok sr /\
      produce_block s2' c0 = Ok b /\ derive_public_inputs c0 b = Ok pi /\
      length (ivc_inputs s2') = (length ws + n)%nat /\
      forall bs, concat bs = map inputs_alloc (ivc_inputs s2') -> ivc contract false (epoch_start ur r sr) bs pi.
  Proof.
    intros Hpq Hr H0 G0 D0 W0 I0 HK Hck E1 Hlen Hroot E2 Hfit Hfst Hov Hcond Hh Hpks Hment Ha.
    assert (Hll : length l = length ws) by (rewrite <- (map_length fst l), Hfst; apply map_length).
    destruct (C110_padding s ws s1 r l s2 n k o Hr H0 Hlen E1 Hroot Hll E2 Ha)
      as (s1' & s2' & P1 & P2 & P3 & _ & _ & _ & P4 & P5 & _ & _ & P6 & _).
    destruct (C40_intake dbg s ws s1 Hr H0 E1) as (T1 & _ & S1 & _ & _).
    destruct (C40_intake dbg s _ s1' Hr H0 P1) as (T1' & _ & S1' & _ & _).
    assert (Lw : length (ws ++ repeat (k, tx_default) n) = (length ws + n)%nat) by (rewrite app_length, repeat_length; reflexivity).
    assert (Hpad : forall ts m, applied contract r (ts ++ repeat tx_default n) (m ++ repeat (k, o) n) = applied contract r ts m \/ length m <> length ts).
    { intros ts m. destruct (Nat.eq_dec (length m) (length ts)) as [E|E]; [ left | now right ].
      unfold applied. revert m E. induction ts as [|t ts IH]; intros [|x m] E; try discriminate E.
      - cbn [app combine flat_map]. clear -Ha. induction n as [|n' IH]; cbn [repeat combine flat_map fst snd]; [ reflexivity |].
        rewrite Ha. exact IH.
      - cbn [app combine flat_map]. f_equal. apply IH. cbn [length] in E. lia. }
    assert (Hfit' : fits contract s1' (l ++ repeat (k, o) n)).
    { intros r0 E0. assert (r0 = r) by congruence. subst r0. specialize (Hfit r Hroot).
      rewrite T1', map_app, map_snd_repeat. destruct (Hpad (map snd ws) l) as [X|X]; [| exfalso; apply X; now rewrite map_length ].
      rewrite X. rewrite T1 in Hfit. destruct S1 as (_ & _ & S1 & _). destruct S1' as (_ & _ & S1' & _).
      rewrite S1'. rewrite S1 in Hfit. exact Hfit. }
    destruct (C53_honest_epoch dbg contract s s1' s2' (ws ++ repeat (k, tx_default) n) (l ++ repeat (k, o) n) ck kc calls c0 Hpq
      Hr H0 G0 D0 W0 I0 HK) as (b & pi & ur & tr & sr & Q1 & Q2 & Q3 & Q4 & Q5 & Q6 & Q7).
    - rewrite Lw. exact Hck.
    - exact P1.
    - rewrite Lw. exact Hlen.
    - exact P3.
    - exact Hfit'.
    - rewrite !map_app, Hfst. f_equal. clear. induction n as [|n IH]; cbn [repeat map fst]; [ reflexivity |]. now rewrite IH.
    - intros k0 t Hin. apply in_app_or in Hin as [Hin|Hin]; [ exact (Hov k0 t Hin) |].
      apply repeat_spec in Hin. assert (t = tx_default) by congruence. subst t. split; reflexivity.
    - intros final t ks E0 Hin. assert (final = r) by congruence. subst final. clear E0.
      assert (Hin' : In (t, ks) (combine (map snd ws) l) \/ (t, ks) = (tx_default, (k, o))).
      { rewrite map_app, map_snd_repeat in Hin. revert Hin.
        assert (E : length l = length (map snd ws)) by now rewrite map_length.
        clear -E. revert l E. induction (map snd ws) as [|t0 ts IH]; intros [|x m] E; try discriminate E.
        - cbn [app combine]. intros H. right. induction n as [|n' IHn]; cbn [repeat combine] in H; [ destruct H |].
          destruct H as [H|H]; [ now symmetry | exact (IHn H) ].
        - cbn [app combine In]. intros [H|H]; [ now left; left |]. destruct (IH m) as [X|X]; [ cbn [length] in E; lia | exact H | now left; right | now right ]. }
      destruct Hin' as [Hin'|E]; [ exact (Hcond t ks Hin') |].
      assert (t = tx_default) by congruence. assert (ks = (k, o)) by congruence. subst t ks. split.
      + intros _ u Hu Hd. cbn in Hu. destruct Hu as [<-|[<-|[<-|[<-|[]]]]]; discriminate Hd.
      + intros _ _ u Hu. cbn in Hu. destruct Hu as [<-|[<-|[<-|[<-|[]]]]]; reflexivity.
    - exact Hh.
    - exact Hpks.
    - intros k0 Hk. apply Hment. unfold mentioned in *. rewrite P4, P5, P6, flat_map_app in Hk.
      assert (X : flat_map (fun o : option pt => match o with Some k => [k] | None => [] end) (repeat None n) = []).
      { clear. induction n as [|n IH]; cbn [repeat flat_map]; [ reflexivity | exact IH ]. }
      rewrite X, app_nil_r in Hk. exact Hk.
    - exists s1', s2', b, pi, ur, sr. assert (tr = r) by congruence. subst tr.
      split; [ exact P1 |]. split; [ exact P3 |]. split; [ exact Q1 |]. split; [ exact Q3 |]. split; [ exact Q4 |]. split; [ exact Q5 |].
      split; [ unfold ivc_inputs; rewrite Q6, Lw; reflexivity | exact Q7 ].
  Qed.
End props.

Print Assumptions C110_pieces.
Print Assumptions C110_padding.
Print Assumptions C110_provable.

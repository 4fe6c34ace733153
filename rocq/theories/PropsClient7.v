(** Property C84: blocks an aggregator really produces can be alternated, and a transaction
    credited any number of times. *)
From Coq Require Import ZArith List Bool Lia Sorted.
Import ListNotations.
From Verif Require Import Base Env Circuit SparseMT SparseMTSpec Data DataSpec DataFacts Schnorr Contract Aggregator AggSpec
  PropsIntake AggCircuit AggCircuitSpec Client ClientSpec ClientFacts PropsClient PropsClient2 PropsClient3.
Open Scope Z_scope.

Section props.
  Context {hs : Hashes} {G : Curve} (dbg : bool).
  Variables (acc : accumulator) (N : nat).

  (** the step [a] once, then [n] times a step [w] and [a] again *)
  Fixpoint alternate (n : nat) (a w : user_auxV) : list user_auxV :=
    match n with O => [a] | S n' => a :: w :: alternate n' a w end.

  Lemma urun_two z a z1 w z2 l z' : satisfied acc N z a z1 -> satisfied acc N z1 w z2 -> urun acc N z2 l z' ->
    urun acc N z (a :: w :: l) z'.
  Proof. intros H1 H2 H3. econstructor; [ exact H1 |]. econstructor; [ exact H2 | exact H3 ]. Qed.
  Lemma alternating blk a n : forall s z1,
    satisfied acc N (u_list s) a z1 -> vb_height blk = vb_height (ux_block a) -> block_hashV blk <> step_block a ->
    exists s', urun acc N (u_list s) (alternate n a (idle_on N blk (ux_pk a))) (u_list s') /\
      zval (us_balance s') = (zval (us_balance s) + (Z.of_nat n + 1) * step_gain a) mod p.
  Proof.
    induction n as [|n IH]; intros s z1 H Hh Hb.
    - apply satisfied_state in H as [C ->]. exists (step_result acc s a). split.
      + econstructor; [| constructor ]. apply satisfied_state. split; [ exact C | reflexivity ].
      + change (us_balance (step_result acc s a)) with (Fof (zval (us_balance s) + step_gain a)). rewrite zval_Fof. f_equal. lia.
    - destruct (C69_replay acc N s a z1 blk H Hh Hb) as (s1 & s2 & s3 & E1 & Hw & Ha & _).
      destruct (IH s2 _ Ha Hh Hb) as (s' & Hr & Ev). exists s'. split.
      + cbn [alternate]. subst z1. exact (urun_two _ _ _ _ _ _ _ H Hw Hr).
      + rewrite Ev. apply satisfied_state in H as [_ E]. assert (s1 = step_result acc s a) by (apply u_list_inj; congruence).
        apply satisfied_state in Hw as [_ E2]. apply u_list_inj in E2.
        assert (Eb : zval (us_balance s2) = (zval (us_balance s) + step_gain a) mod p).
        { rewrite E2. change (us_balance (step_result acc s1 (idle_on N blk (ux_pk a))))
            with (Fof (zval (us_balance s1) + step_gain (idle_on N blk (ux_pk a)))). rewrite idle_gain, Z.add_0_r, Fof_zval.
          subst s1. change (us_balance (step_result acc s a)) with (Fof (zval (us_balance s) + step_gain a)). apply zval_Fof. }
        rewrite Eb, Z.add_mod_idemp_l by (pose proof p_bounds; lia). f_equal. lia.
  Qed.

  (** ** C84 *)
  Theorem C84_unbounded_replay s1 s2 c1 c2 b b' s a z1 :
    (* two blocks that aggregators produced *)
    reached dbg s1 -> produce_block s1 c1 = Ok b -> reached dbg s2 -> produce_block s2 c2 = Ok b' ->
    block_hash b <> block_hash b' ->
    (* a step accepted on the first *)
    ux_block a = block_alloc b -> satisfied acc N (u_list s) a z1 ->
    (* can be repeated n more times, between steps that process nothing of the second *)
    forall n, exists s',
      urun acc N (u_list s) (alternate n a (idle_on N (block_alloc b') (ux_pk a))) (u_list s') /\
      zval (us_balance s') = (zval (us_balance s) + (Z.of_nat n + 1) * step_gain a) mod p.
  Proof.
    intros H1 B1 H2 B2 Hb Ea Hs n. apply (alternating (block_alloc b') a n s z1 Hs).
    - rewrite Ea. unfold block_alloc. cbn [vb_height]. apply zval_inj. rewrite !zval_Fu64.
      rewrite (C50_height dbg s1 c1 b H1 B1), (C50_height dbg s2 c2 b' H2 B2). reflexivity.
    - unfold step_block. rewrite Ea. intros E. apply Hb. symmetry. exact E.
  Qed.
End props.

Print Assumptions C84_unbounded_replay.

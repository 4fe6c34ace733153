(** Instances of C112: a sender with a balance of 100 spends it, and can still prove 100. *)
From Coq Require Import ZArith List Bool Lia.
Import ListNotations.
From Verif Require Import Base Env Toy Circuit Data DataSpec Contract Aggregator ExamplesAgg AggCircuit AggCircuitSpec
  ExamplesCircuit Client ClientSpec ClientFacts PropsClient ExamplesClient PropsOmit.
Open Scope Z_scope.

Example omit_instance : exists a s' b t',
  urun poseidon_acc 1 (u_list (newcomer k2 100)) [a] (u_list s') /\ zval (us_balance s') = 0 /\
  urun poseidon_acc 1 (u_list (newcomer k2 100)) [b] (u_list t') /\ zval (us_balance t') = 100 /\
  us_block t' = us_block s' /\ us_acc t' = us_acc s'.
Proof.
  destruct (credited k2 100) as (a & s' & H & Hpk & _ & Htx & E).
  assert (R : urun poseidon_acc 1 (u_list (newcomer k2 100)) [a] (u_list s')) by (econstructor; [ exact H | constructor ]).
  destruct (C112_received poseidon_acc 1 [a] (newcomer k2 100) (u_list s') R)
    as (l' & s1 & t' & E1 & T & R' & _ & Ha & Hb & _ & B & _).
  apply u_list_inj in E1. subst s1. inversion T as [|? b ? l0 Tb Tl]; subst. inversion Tl; subst.
  exists a, s', b, t'. split; [ exact R |]. split; [ rewrite E, (proj1 (proj2 gains)); reflexivity |].
  split; [ exact R' |]. split; [| split; [ exact Hb | exact Ha ] ].
  rewrite B. cbn [map zsumm]. unfold step_received, transactions. rewrite Htx, Hpk. cbn [map fst zsumm].
  rewrite (proj1 (proj2 gains)). reflexivity.
Qed.

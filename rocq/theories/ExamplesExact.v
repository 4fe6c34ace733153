(** Instances of C106 and C108: the epoch of ExamplesCircuit.v and the client of ExamplesClient.v are accepted. *)
From Coq Require Import ZArith List Bool Lia.
Import ListNotations.
From Verif Require Import Base Env Toy Circuit Data DataSpec Gadgets Schnorr HMap Contract
  Aggregator ExamplesAgg AggCircuit AggCircuitSpec PropsCircuit ExamplesCircuit Client ClientSpec ClientFacts PropsClient
  ExamplesClient ExactSpec PropsExact PropsBlind.
Open Scope Z_scope.

Example exact_instance :
  (exists z', length (concat bsP) = 3%nat /\ all_accepted kC false zP (concat bsP) z') /\
  (exists a s', client_accepts poseidon_acc 1 (newcomer k3 0) a s' /\ zval (us_balance s') = 60).
Proof.
  split.
  - destruct epoch_provable as (L & b & z' & _ & _ & H). exists z'. split.
    + rewrite bsP_xs. exact L.
    + apply C106_aggregator_proof in H as (z2 & E & H). apply z_list_inj in E. subst z2. exact H.
  - destruct receiver_is_credited as (a & s' & H & E). exists a, s'. split; [| exact E ].
    apply satisfied_state in H as [C Es]. apply client_step_iff. split; [ exact C | now apply u_list_inj ].
Qed.

(** C108: the same two steps, with a balance and a nonce out of nowhere *)
Example blind_instance : exists l t', length l = 3%nat /\
  urun poseidon_acc 1 (u_list (mkU (Fof 7777) (Fof 99) (pk_hash k3) (Fof 5) Fzero Fzero Fzero)) l (u_list t').
Proof.
  destruct alternation_instance as (a & us' & H & _).
  assert (P : same_place (newcomer k3 0) (mkU (Fof 7777) (Fof 99) (pk_hash k3) (Fof 5) Fzero Fzero Fzero)) by (repeat split).
  destruct (C108_client_blind poseidon_acc 1 _ (newcomer k3 0) (mkU (Fof 7777) (Fof 99) (pk_hash k3) (Fof 5) Fzero Fzero Fzero) _
              P H) as (s' & t' & _ & R & _).
  eexists. exists t'. split; [| exact R ]. reflexivity.
Qed.



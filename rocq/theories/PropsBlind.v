(** Property C108: nonces and balances are recorded, never consulted. *)
From Coq Require Import ZArith List Bool Lia Sorted.
Import ListNotations.
From Verif Require Import Base Env Circuit SparseMT SparseMTSpec Data DataSpec Contract ContractSpec PropsContract
  AggCircuit AggCircuitSpec Client ClientSpec ClientFacts PropsClient ExactSpec PropsExact.
Open Scope Z_scope.

Section props.
  Context {hs : Hashes} {G : Curve}.

  (** states that agree on the key, the last block, its height and the last index *)
  Definition same_place (s t : ustate) : Prop :=
    us_pk t = us_pk s /\ us_block t = us_block s /\ us_height t = us_height s /\ us_index t = us_index s.

  Theorem C108_client_blind acc N l : forall s t z',
    same_place s t -> urun acc N (u_list s) l z' ->
    exists s' t', z' = u_list s' /\ urun acc N (u_list t) l (u_list t') /\ same_place s' t' /\
      zval (us_balance t') = (zval (us_balance t) + zsumm (map step_gain l)) mod p /\
      zval (us_nonce t') = (zval (us_nonce t) + zsumm (map step_signed l)) mod p.
  Proof.
    induction l as [|a l IH]; intros s t z' P H.
    - apply urun_nil_inv in H as ->. exists s, t. split; [ reflexivity |]. split; [ constructor |]. split; [ exact P |].
      cbn [map zsumm]. rewrite !Z.add_0_r, !Z.mod_small by apply F_range. auto.
    - apply urun_inv in H as [C H]. destruct P as (P1 & P2 & P3 & P4).
      assert (Es : start_index t a = start_index s a) by (unfold start_index; now rewrite P2, P4).
      assert (C2 : step_conditions N t a).
      { destruct C as (L & H1 & H2 & H2' & H3 & H4 & H5). unfold step_conditions. rewrite P1, P3, Es.
        exact (conj L (conj H1 (conj H2 (conj H2' (conj H3 (conj H4 H5)))))). }
      assert (P' : same_place (step_result acc s a) (step_result acc t a)).
      { unfold same_place, step_result. cbn [us_pk us_block us_height us_index]. rewrite P1, Es. auto. }
      destruct (IH _ _ _ P' H) as (s' & t' & -> & R & Q & B & M). exists s', t'. split; [ reflexivity |].
      split; [ econstructor; [ apply satisfied_state; split; [ exact C2 | reflexivity ] | exact R ] |].
      split; [ exact Q |]. unfold step_result in B, M. cbn [us_balance us_nonce] in B, M.
      rewrite zval_Fof, Zplus_mod_idemp_l in B, M. cbn [map zsumm]. rewrite B, M. split; f_equal; lia.
  Qed.

  (** the nonces of the contract never move *)
  Theorem C108_contract_nonces dbg k0 l c : history dbg k0 l c ->
    length (nonces c) = length (pks c) /\ Forall (fun n => zval n = 0) (nonces c).
  Proof.
    intros H. destruct (hist_inv dbg k0 l c H) as [I1 I2 I3 I4 _]. rewrite I3. split; [ apply repeat_length |].
    apply Forall_forall. intros n Hn. apply repeat_spec in Hn. subst n. reflexivity.
  Qed.
End props.

Print Assumptions C108_client_blind.
Print Assumptions C108_contract_nonces.

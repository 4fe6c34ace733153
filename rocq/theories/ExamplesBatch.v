(** Instances of C119 and C120. *)
From Coq Require Import ZArith List Bool Lia Permutation.
Import ListNotations.
From Verif Require Import Base Env Toy Circuit SparseMT SparseMTSpec Data DataSpec Schnorr HMap Contract ContractSpec
  PropsContract Aggregator AggSpec User ExamplesAgg PropsHash PropsBatch PropsBooks.
Open Scope Z_scope.

Definition two_users : contract := fst (join (fst (join (contract_new (exk 1)) (u64of 100) (exk 2))) (u64of 7) (exk 3)).
Definition batch1 : list (nat * u64) := [(1%nat, u64of 30); (2%nat, u64of 7); (1%nat, u64of 50)].
Lemma two_users_wf : well_formed two_users. Proof. split; reflexivity. Qed.
(** three deposits from two accounts are covered ... *)
Example batch_instance :
  match deposit_all true two_users batch1 with
  | Ok c => (ContractSpec.balance c 0, ContractSpec.balance c 1, ContractSpec.balance c 2, pending c (exk 2), pending c (exk 3)) = (Some 87, Some 20, Some 0, 80, 7)
  | _ => False
  end.
Proof. vm_compute. reflexivity. Qed.
Definition went {A} (r : res no_error A) : bool := match r with Ok _ => true | _ => false end.
Lemma went_ok {A} (r : res no_error A) : went r = true -> exists a, r = Ok a.
Proof. destruct r as [a|e|]; cbn [went]; [ eauto | discriminate | discriminate ]. Qed.
Example covered_instance : covered true two_users batch1.
Proof.
  pose proof (C119_batch true two_users batch1 two_users_wf) as H. destruct (went_ok (deposit_all true two_users batch1)) as [c E]; [ vm_compute; reflexivity |]. rewrite E in H. exact (proj1 H).
Qed.
(** ... two that the account covers one by one, but not together, are not, in either order *)
Definition batch2 : list (nat * u64) := [(1%nat, u64of 60); (1%nat, u64of 50)].
Definition stopped {A} (r : res no_error A) : bool := match r with Panic => true | _ => false end.
Example uncovered_instance :
  (stopped (deposit_all true two_users batch2), stopped (deposit_all true two_users (rev batch2)),
   stopped (deposit true two_users 1 (u64of 60)), stopped (deposit true two_users 1 (u64of 50))) = (true, true, false, false).
Proof. vm_compute. reflexivity. Qed.
Example order_instance : alike_result (deposit_all true two_users batch1) (deposit_all true two_users (rev batch1)).
Proof. apply C119_order; [ exact two_users_wf | apply Permutation_rev ]. Qed.
(** the maps of pending deposits may differ in their arrangement *)
Example order_visible :
  match deposit_all true two_users batch1, deposit_all true two_users [(2%nat, u64of 7); (1%nat, u64of 30); (1%nat, u64of 50)] with
  | Ok c, Ok c' => (map (fun kv => zval (snd kv)) (c_deposits c), map (fun kv => zval (snd kv)) (c_deposits c'))
  | _, _ => ([], [])
  end = ([80; 7], [7; 80]).
Proof. vm_compute. reflexivity. Qed.
(** a history with deposits between the joins, and the one with the joins first *)
Definition mixed : list call :=
  [Join (u64of 100) (exk 2); Deposit 1 (u64of 30); Join (u64of 7) (exk 3); Deposit 2 (u64of 7); Deposit 1 (u64of 50)].
Example history_instance : exists c c', history true (exk 1) mixed c /\
  history true (exk 1) ([Join (u64of 100) (exk 2); Join (u64of 7) (exk 3); Deposit 1 (u64of 50); Deposit 2 (u64of 7); Deposit 1 (u64of 30)]) c' /\
  alike_contract c c'.
Proof.
  assert (H : exists c, history true (exk 1) mixed c) by (apply went_ok; vm_compute; reflexivity).
  destruct H as [c H]. destruct (C119_joins_first true (exk 1) mixed c (rev (deposits_of mixed)) H (Permutation_rev _)) as (c' & H1 & H2).
  exists c, c'. split; [ exact H |]. split; [ exact H1 | exact H2 ].
Qed.

(** C120: a user with 50 receives 60 + 40 and spends 100 (the dummies carry nothing) *)
Definition userB (b n : Z) : user := mkUser sk2 k2 (u64of b) (u64of n) (scalar_of 0) 1.
Definition view (r : res no_error user) : option (Z * Z) :=
  match r with Ok u => Some (zval (User.balance u), zval (nonce u)) | _ => None end.
Example books_instance :
  (view (books true (userB 50 7) [Receive tx1; Spend tx1]), view (books true (userB 50 7) [Spend tx1; Receive tx1]),
   view (books false (userB 50 7) [Spend tx1; Receive tx1]), view (books true (userB 50 (two64 - 1)) [Receive tx1; Spend tx1]))
  = (Some (50, 8), None, Some (50, 8), None).
Proof. vm_compute. reflexivity. Qed.
Example receipts_first_instance :
  view (books true (userB 150 7) (receipts_first [Spend tx1; Receive tx1; Spend tx1])) = Some (50, 9).
Proof.
  assert (H : exists v, books true (userB 150 7) [Spend tx1; Receive tx1; Spend tx1] = Ok v) by (apply went_ok; vm_compute; reflexivity).
  destruct H as [v H]. destruct (C120_receipts_first true _ _ v H) as [_ E]; [ vm_compute; reflexivity |]. rewrite E, <- H. vm_compute. reflexivity.
Qed.

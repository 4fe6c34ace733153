(** The repository's own unit tests, run on the model: the same scenarios, with the instance of the dependencies of
    Toy.v. They are tests of the model, not properties. Each example names the test it follows. *)
From Coq Require Import ZArith List Bool Lia.
Import ListNotations.
From Verif Require Import Base Env Toy Circuit SparseMT SparseMTSpec Data DataSpec Schnorr HMap Contract ContractSpec
  Aggregator AggSpec ExamplesAgg SparseMTGadget Gadgets AggCircuit User Client ClientSpec.
Open Scope Z_scope.

(** * aggregator/src/lib.rs, tests *)

(** lines 271-336: advance_epoch; [None] where the test would panic. The users are given by their secret keys. *)
Definition user_pk (n : Z) : pt := public_key (scalar_of (n + 10)).
Definition advance_epoch (c : contract) (s : agg) (users : list Z) (txs : list tx) : option (agg * block) :=
  let rollup := user_pk 0 in
  match process_transactions true s (map (fun ut => (user_pk (fst ut), snd ut)) (combine users txs)) with
  | MOk s1 _ =>
    match prove_transactions true s1, root (a_tx_tree s1) with
    | Ok paths, Ok r =>
      if forallb (fun ip => match verify_with_index true tx_cfg (snd (snd ip)) r (fst (snd ip)) (Z.of_nat (fst ip)) with
                            | Ok _ => true | _ => false end) (enum (combine txs paths))
      then
        let inputs := map (fun ut =>
            (user_pk (fst ut),
             if pt_eqb (user_pk (fst ut)) rollup then None
             else match sign (scalar_of (fst ut + 10)) (tx_enc (snd ut) ++ [r]) [scalar_of (fst ut + 1234)] with
                  | Ok o => o | _ => None end)) (combine users txs) in
        match process_signatures true s1 rollup inputs with
        | MOk s2 _ => match produce_block s2 c with Ok b => Some (s2, b) | _ => None end
        | _ => None
        end
      else None
    | _, _ => None
    end
  | _ => None
  end.
(** lines 338-386: aggregator_setup *)
Definition setup (n_users : nat) : contract :=
  fold_left (fun c i => fst (join c (u64of (if (i =? 1)%nat then 100 else 0)) (user_pk (Z.of_nat i))))
            (seq 1 (n_users - 1)) (contract_new (user_pk 0)).
Definition four (l : list (Z * Z)) : arr4 utxo :=
  match map (fun x => mkUtxo (u64of (snd x)) (user_pk (fst x)) false) l with
  | a :: b :: c :: d :: _ => A4 a b c d
  | [a; b; c] => A4 a b c utxo_dummy
  | [a; b] => A4 a b utxo_dummy utxo_dummy
  | [a] => A4 a utxo_dummy utxo_dummy utxo_dummy
  | [] => a4_const utxo_dummy
  end.
Definition txn (i o : list (Z * Z)) : tx := mkTx (four i) (four o).
(** lines 396-473 *)
Definition test_txs : list tx :=
  [ txn [(0, 80); (0, 20)] [(1, 100)];
    txn [(1, 100)] [(2, 30); (3, 40); (1, 30)];
    txn [(2, 30)] [(3, 10); (4, 20)];
    txn [(3, 40); (3, 10)] [(4, 20); (3, 30)];
    txn [(4, 20); (4, 20)] [(0, 30); (0, 10)] ].
(** test_aggregator_native_valid: two epochs of the same transactions *)
Example aggregator_native_valid :
  match advance_epoch (setup 5) agg_new [0; 1; 2; 3; 4] test_txs with
  | Some (s1, b1) =>
    match advance_epoch (setup 5) (reset_for_new_epoch s1) [0; 1; 2; 3; 4] test_txs with
    | Some (s2, b2) =>
      (live_value s1, live_value s2, b_signers b1, b_signers b2,
       map (fun d => (fst d, zval (snd d))) (b_deposits b2), map (fun d => (fst d, zval (snd d))) (b_withdrawals b2))
      = (60, 120, map Some [0; 1; 2; 3; 4], map Some [0; 1; 2; 3; 4], [(1, 100)], [(4, 40)])
    | None => False
    end
  | None => False
  end.
Proof. vm_compute. reflexivity. Qed.
(** test_aggregator_native_invalid_utxo (should panic): the epoch is taken in, the signature call fails *)
Definition invalid_utxo : list tx :=
  [ txn [(0, 80); (0, 20)] [(1, 100)]; txn [(1, 110)] [(2, 30); (3, 40); (1, 40)]; txn [(2, 30)] [(3, 10); (3, 20)] ].
Example aggregator_native_invalid_utxo :
  match advance_epoch (setup 4) agg_new [0; 1; 2] invalid_utxo with Some _ => false | None => true end = true /\
  is_mok (process_transactions true agg_new (combine (map user_pk [0; 1; 2]) invalid_utxo)) = true.
Proof. vm_compute. auto. Qed.
(** test_aggregator_native_invalid_sum (should panic): the intake fails with InvalidAmounts *)
Definition invalid_sum : list tx :=
  [ txn [(0, 80); (0, 20)] [(1, 100)]; txn [(1, 100)] [(2, 30); (3, 10); (1, 10)]; txn [(2, 30)] [(3, 10); (3, 20)] ].
Example aggregator_native_invalid_sum :
  match process_transactions true agg_new (combine (map user_pk [0; 1; 2]) invalid_sum) with
  | MErr s InvalidAmounts => (length (a_txs s) =? 1)%nat
  | _ => false
  end = true.
Proof. vm_compute. reflexivity. Qed.

(** * plasma-fold/src/primitives/sparsemt/mod.rs, tests *)

Definition leaf_of (a : Z) : utxo := mkUtxo (u64of a) pzero false.
Definition leaves_upto (n : nat) (f : Z -> Z) : bmap utxo := map (fun i => (Z.of_nat i, leaf_of (f (Z.of_nat i)))) (seq 1 n).
Definition is_true (r : R bool) : bool := match r with Ok b => b | _ => false end.
(** lines 652-673 *)
Definition test_membership (leaves : bmap utxo) (bad_root : option F) : bool :=
  match new true utxo_cfg leaves with
  | Ok t =>
    let r := match bad_root with Some r => r | None => match root t with Ok r => r | _ => Fzero end end in
    forallb (fun il => match generate_proof true utxo_cfg t (fst il) (snd il) with
                       | Ok pf => is_true (verify utxo_cfg pf r (snd il)) && is_true (verify_with_index true utxo_cfg pf r (snd il) (fst il))
                       | _ => false
                       end) leaves && is_true (validate true utxo_cfg t)
  | _ => false
  end.
(** good_root_membership_test *)
Example good_root_membership : test_membership (leaves_upto 9 (fun i => i)) None = true /\ test_membership (leaves_upto 99 (fun i => i)) None = true.
Proof. vm_compute. auto. Qed.
(** bad_root_membership_test (should panic) *)
Example bad_root_membership : test_membership (leaves_upto 99 (fun i => i)) (Some Fzero) = false.
Proof. vm_compute. reflexivity. Qed.
(** lines 729-822 *)
Fixpoint test_update (old : bmap utxo) (new : bmap utxo) (t : tree) : bool :=
  match new with
  | [] => true
  | (i, l) :: new =>
    let prove t l := match generate_proof true utxo_cfg t i l with Ok pf => pf | _ => [] end in
    let check pf r l := is_true (verify_with_index true utxo_cfg pf r l i) in
    let root_of t := match root t with Ok r => r | _ => Fzero end in
    match update_and_prove true utxo_cfg t i l with
    | Ok (t', up) =>
      (match bm_get old i with
       | Some o => check (prove t o) (root_of t) o && negb (check (prove t o) (root_of t') o) &&
                   check (prove t' l) (root_of t') l && negb (check (prove t' l) (root_of t') o) &&
                   is_true (verify_update true utxo_cfg up (root_of t) (root_of t') o l i)
       | None => check (prove t' l) (root_of t') l &&
                 is_true (verify_update true utxo_cfg up (root_of t) (root_of t') utxo_dummy l i)
       end) && test_update old new t'
    | _ => false
    end
  end.
(** good_root_update_test *)
Example good_root_update :
  match new true utxo_cfg (leaves_upto 9 (fun i => i)) with
  | Ok t => test_update (leaves_upto 9 (fun i => i)) (leaves_upto 19 (fun i => i * 3)) t
  | _ => false
  end = true.
Proof. vm_compute. reflexivity. Qed.

(** * plasma-fold/src/datastructures/transaction/mod.rs, tests *)
Definition honest_ok {A} (c : circ A) : bool := match honest c with Some (ok, _) => ok | None => false end.
(** test_transaction_tree: 1024 default transactions, and a membership circuit for the first *)
Example transaction_tree :
  match new true tx_cfg (map (fun i => (Z.of_nat i, tx_default)) (seq 0 (Z.to_nat 1024))) with
  | Ok t => match generate_proof true tx_cfg t 0 tx_default, root t with
            | Ok pf, Ok r => honest_ok (check_membership_with_index tx_gcfg pf r (tx_alloc tx_default) Fzero)
            | _, _ => false
            end
  | _ => false
  end = true.
Proof. vm_compute. reflexivity. Qed.
(** test_tx_signature_verification_circuit, and schnorr.rs: test_schnorr_signature_native, _circuit *)
Example tx_signature_circuit :
  match sign (scalar_of 77) (tx_enc tx_default) [scalar_of 1000003] with
  | Ok (Some sg) => verify_signature (public_key (scalar_of 77)) (tx_enc tx_default) sg &&
                    honest_ok (verify_gadget 32 (public_key (scalar_of 77)) (tx_encV (tx_alloc tx_default)) (sig_alloc sg))
  | _ => false
  end = true.
Proof. vm_compute. reflexivity. Qed.
(** test_initialize_blank_tx_tree_and_update: default leaves are overwritten one by one, natively and in circuits *)
Definition tx_ten : tx := mkTx (a4_const (leaf_of 10)) (a4_const (leaf_of 10)).
Fixpoint tx_updates (idx : list nat) (t : tree) : bool :=
  match idx with
  | [] => true
  | i :: idx =>
    match update_and_prove true tx_cfg t (Z.of_nat i) tx_ten with
    | Ok (t', up) =>
      match root t, root t' with
      | Ok r, Ok r' => is_true (verify_update true tx_cfg up r r' tx_default tx_ten (Z.of_nat i)) &&
                       honest_ok (check_update tx_gcfg up r r' (tx_alloc tx_default) (tx_alloc tx_ten) (Fof (Z.of_nat i))) &&
                       tx_updates idx t'
      | _, _ => false
      end
    | _ => false
    end
  end.
Example blank_tx_tree_and_update :
  match new true tx_cfg (map (fun i => (Z.of_nat i, tx_default)) (seq 0 8)) with
  | Ok t => tx_updates (seq 0 8) t
  | _ => false
  end = true.
Proof. vm_compute. reflexivity. Qed.

(** * plasma-fold/src/primitives/sparsemt/constraints.rs, tests *)
Definition gadget_membership (leaves : bmap utxo) (bad : bool) : bool :=
  match new true utxo_cfg leaves with
  | Ok t =>
    match root t with
    | Ok r =>
      forallb (fun il => match generate_proof true utxo_cfg t (fst il) (snd il) with
                         | Ok pf => let r' := if bad then Fzero else r in
                                    is_true (verify utxo_cfg pf r (snd il)) &&
                                    honest_ok (check_membership utxo_gcfg pf r' (utxo_alloc (snd il))) &&
                                    honest_ok (check_membership_with_index utxo_gcfg pf r' (utxo_alloc (snd il)) (Fof (fst il)))
                         | _ => false
                         end) leaves
    | _ => false
    end
  | _ => false
  end.
(** good_root_membership_test, bad_root_membership_test (should panic) *)
Example gadget_good_root : gadget_membership (leaves_upto 9 (fun i => i * 10)) false = true.
Proof. vm_compute. reflexivity. Qed.
Example gadget_bad_root : gadget_membership (leaves_upto 9 (fun i => i * 10)) true = false.
Proof. vm_compute. reflexivity. Qed.
(** good_root_update_test *)
Fixpoint gadget_updates (old new : bmap utxo) (t : tree) : bool :=
  match new with
  | [] => true
  | (i, l) :: new =>
    match update_and_prove true utxo_cfg t i l, bm_get old i with
    | Ok (t', up), Some o =>
      match root t, root t', generate_proof true utxo_cfg t' i l with
      | Ok r, Ok r', Ok pf => is_true (verify_update true utxo_cfg up r r' o l i) && is_true (verify_with_index true utxo_cfg pf r' l i) &&
                       honest_ok (check_update utxo_gcfg up r r' (utxo_alloc o) (utxo_alloc l) (Fof i)) &&
                       honest_ok (check_membership_with_index utxo_gcfg pf r' (utxo_alloc l) (Fof i)) &&
                       gadget_updates old new t'
      | _, _, _ => false
      end
    | _, _ => false
    end
  end.
Example gadget_good_update :
  match new true utxo_cfg (leaves_upto 3 (fun i => i * 10)) with
  | Ok t => gadget_updates (leaves_upto 3 (fun i => i * 10)) (leaves_upto 3 (fun i => i * 100)) t
  | _ => false
  end = true.
Proof. vm_compute. reflexivity. Qed.

(** * plasma-fold/src/datastructures/noncemap/mod.rs: test_nonce_map_circuit *)
Definition some_nonce (i : Z) : u64 := u64of (i * 987654321987654321 + 5).
Example nonce_map_circuit :
  match new true nonce_cfg (map (fun i => (Z.of_nat i, some_nonce (Z.of_nat i))) (seq 0 16)) with
  | Ok t =>
    match root t with
    | Ok r => forallb (fun i => match generate_proof true nonce_cfg t (Z.of_nat i) (some_nonce (Z.of_nat i)) with
                                | Ok pf => honest_ok (check_membership_with_index nonce_gcfg pf r (nonce_alloc (some_nonce (Z.of_nat i)))
                                                        (Fof (Z.of_nat i)))
                                | _ => false
                                end) (seq 0 16)
    | _ => false
    end
  | _ => false
  end = true.
Proof. vm_compute. reflexivity. Qed.

(** * client/tests/web.rs *)
Definition make_tx (sender receiver : Z) : tx := txn [(sender, 80); (sender, 20)] [(receiver, 100)].
Definition pad (n : nat) (l : list (tx * Z)) : list (tx * Z) := l ++ repeat (tx_default, 0) (n - length l).
Definition tree_of {V} (P : SparseConfig) (cast : V -> Leaf P) (l : list (V * Z)) : tree :=
  match new true P (fold_left (fun m x => bm_insert m (snd x) (cast (fst x))) l []) with Ok t => t | _ => blank P end.
Definition root_of (t : tree) : F := match root t with Ok r => r | _ => Fzero end.
Definition tx_tree_of : list (tx * Z) -> tree := tree_of tx_cfg (fun t => t).
(** the sender has identifier 42 *)
Definition signer_tree_of (sender : Z) : tree := tree_of signer_cfg (fun k => k) [(user_pk sender, 42)].
Definition block_of (sender : Z) (l : list (tx * Z)) (h : Z) : block :=
  mkBlock Fzero (root_of (tx_tree_of l)) (root_of (signer_tree_of sender)) [Some 42] (u64of h) [] [].
Definition aux_of (user sender : Z) (l : list (tx * Z)) (h : Z) : user_aux :=
  mkAux (map (fun x => match generate_proof true tx_cfg (tx_tree_of l) (snd x) (fst x) with Ok pf => pf | _ => [] end) l)
        (map (fun _ => match generate_proof true signer_cfg (signer_tree_of sender) 42 (user_pk sender) with Ok pf => pf | _ => [] end) l)
        (block_of sender l h) (map (fun x => (fst x, u64of (snd x))) l) (user_pk user).
Definition state_for (user balance h : Z) : list F := [Fof balance; Fzero; pk_hash (user_pk user); Fzero; Fzero; Fof h; Fzero].
Definition client (n : nat) (z : list F) (user sender : Z) (l : list (tx * Z)) (h : Z) : option (bool * list F) :=
  honest (client_poseidon n z (aux_alloc (aux_of user sender (pad n l) h))).
(** test_send_and_receive_transaction: balances 0 and 200, nonces 1 and 0, the block's hash and height, index 2 *)
Definition send_receive_ok (user balance new_balance new_nonce : Z) : bool :=
  match client 5 (state_for user balance 0) user 1 [(make_tx 1 2, 2)] 1 with
  | Some (true, [b; n; k; a; h; ht; i]) =>
    Feqb b (Fof new_balance) && Feqb n (Fof new_nonce) && Feqb k (pk_hash (user_pk user)) && negb (Feqb a Fzero) &&
    Feqb h (block_hash (block_of 1 (pad 5 [(make_tx 1 2, 2)]) 1)) && Feqb ht Fone && Feqb i (Fof 2)
  | _ => false
  end.
Example send_and_receive : send_receive_ok 1 100 0 1 = true /\ send_receive_ok 2 100 200 0 = true.
Proof. vm_compute. auto. Qed.
(** test_lower_block_number: the previous height is 10, the block's is 1 *)
Example lower_block_number :
  match client 2 (state_for 1 1000 10) 1 1 [(make_tx 1 2, 2)] 1 with Some (ok, _) => ok | None => true end = false.
Proof. vm_compute. reflexivity. Qed.
(** test_lower_transaction_index: index 10 before index 2 *)
Example lower_transaction_index :
  match client 2 (state_for 1 1000 0) 1 1 [(make_tx 1 2, 10); (make_tx 1 2, 2)] 1 with Some (ok, _) => ok | None => true end = false.
Proof. vm_compute. reflexivity. Qed.
(** test_stricly_lower_transaction_index: the receiver replays the block *)
Example replay_rejected :
  match client 4 (state_for 2 100 0) 2 1 [(make_tx 1 2, 2)] 1 with
  | Some (true, z) => Feqb (nth 0 z Fzero) (Fof 200) &&
                      match client 4 z 2 1 [(make_tx 1 2, 2)] 1 with Some (false, _) => true | _ => false end
  | _ => false
  end = true.
Proof. vm_compute. reflexivity. Qed.
(** test_run_fold_steps, test_run_fold_steps_sha: ten steps over blocks of increasing height *)
Definition fold_steps (step : nat -> list F -> user_auxV -> circ (list F)) (n : nat) : option (list F) :=
  fold_left (fun o i => match o with
    | Some z => match honest (step 5%nat z (aux_alloc (aux_of 1 1 (pad 5 [(make_tx 1 (Z.of_nat i + 1), Z.of_nat i)]) (Z.of_nat i)))) with
                | Some (true, z') => Some z' | _ => None end
    | None => None end) (seq 1 n) (Some (state_for 1 2000 0)).
Example run_fold_steps :
  match fold_steps client_poseidon 10, fold_steps client_sha 10 with
  | Some z, Some z' => Feqb (nth 0 z Fzero) (Fof 1000) && Feqb (nth 1 z Fzero) (Fof 10) && Feqb (nth 0 z' Fzero) (Fof 1000)
  | _, _ => false
  end = true.
Proof. vm_compute. reflexivity. Qed.

(** * aggregator/src/circuit.rs, tests *)
(** test_aggregator_circuit_full_mode: the epoch of the native test is proved, one transaction per step, and the final state is
    what the contract derives from the block *)
Definition zeqb_list (a b : list F) : bool := (length a =? length b)%nat && forallb (fun xy => Feqb (fst xy) (snd xy)) (combine a b).
Definition prove_steps (transfer_only : bool) (l : list agg_inputs) (z : list F) : option (bool * list F) :=
  fold_left (fun o i => match o with
    | Some (ok, z) => match honest (generate_step_constraints (user_pk 0) transfer_only z [inputs_alloc i]) with
                      | Some (ok', z') => Some (ok && ok', z') | None => None end
    | None => None end) l (Some (true, z)).
Example aggregator_circuit_full_mode :
  match advance_epoch (setup 5) agg_new [0; 1; 2; 3; 4] test_txs with
  | Some (s, b) =>
    match prove_steps false (ivc_inputs s)
            [Fzero; root_of (blank utxo_cfg); root_of (blank tx_cfg); root_of (a_tx_tree s); root_of (blank signer_cfg); Fzero; Fzero; Fzero],
          derive_public_inputs (setup 5) b with
    | Some (true, z), Ok z' => (length (ivc_inputs s) =? 5)%nat && zeqb_list z z'
    | _, _ => false
    end
  | None => false
  end = true.
Proof. vm_compute. reflexivity. Qed.
(** test_num_constraints_transfer_only_mode, _full_mode: a step on default inputs synthesises (its constraints need not hold) *)
Example default_step_synthesises :
  match honest (generate_step_constraints pzero true (repeat Fzero 8) [inputs_alloc inputs_default]),
        honest (generate_step_constraints pzero false (repeat Fzero 8) [inputs_alloc inputs_default]) with
  | Some _, Some _ => true
  | _, _ => false
  end = true.
Proof. vm_compute. reflexivity. Qed.

(** * plasma-fold/src/datastructures/publickeymap/mod.rs: test_public_key_tree_circuit, for all 1024 positions *)
Example public_key_tree_circuit :
  forallb (fun i => honest_ok (compute_id_from_path_and_check (path_var_of 10 (Z.of_nat i)) (Fof (Z.of_nat i)))) (seq 0 (Z.to_nat 1024)) = true.
Proof. vm_compute. reflexivity. Qed.
(** * plasma-fold/src/primitives/crh/mod.rs: test_public_key_crh, test_transaction_crh *)
Example crh_tests :
  forallb (fun n => let k := public_key (scalar_of n) in
                    Feqb (pk_hash k) (pk_hashV k) && negb (Feqb (pk_hash k) (pk_hash (public_key (scalar_of (n + 1))))))
          [0; 1; 2; 3; 1000; 123456789] &&
  negb (Feqb (tx_hash (make_tx 1 2)) (tx_hash (make_tx 1 3))) &&
  Feqb (tx_hashV (tx_alloc (make_tx 1 2))) (tx_hash (make_tx 1 2)) && Feqb (tx_hashV (tx_alloc (make_tx 1 3))) (tx_hash (make_tx 1 3)) = true.
Proof. vm_compute. reflexivity. Qed.

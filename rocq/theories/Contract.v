(** Model of mock-contract/src/lib.rs: the L1 contract. Line numbers refer to that file. *)
From Coq Require Import ZArith List Bool Lia.
Import ListNotations.
From Verif Require Import Base Env Data Schnorr HMap.
Open Scope Z_scope.

(** [a + b] and [a - b] on [u64] *)
Definition add64 {E} (dbg : bool) (a b : u64) : res E u64 :=
  do z <- uadd dbg (zval a) (zval b); Ok (u64of z).
Definition sub64 {E} (dbg : bool) (a b : u64) : res E u64 :=
  do z <- usub dbg (zval a) (zval b); Ok (u64of z).

Section contract.
  Context {hs : Hashes} {G : Curve} (dbg : bool).

  (** lines 9-12: an [L1Account] is its balance. Lines 26-36: the contract. *)
  Record contract := mkContract
    { pks : list pt;
      pk_indices : hmap pt nat;
      l1_accounts : list u64;
      nonces : list u64;
      block_hashes : list F;
      c_deposits : hmap pt u64 }.

  (** lines 53-61 *)
  Definition join (c : contract) (l1_account : u64) (k : pt) : contract * nat :=
    let index := length (pks c) in
    (mkContract (pks c ++ [k]) (hset pt_eqb (pk_indices c) k index)
                (l1_accounts c ++ [l1_account]) (nonces c ++ [u64of 0])
                (block_hashes c) (c_deposits c),
     index).

  (** lines 39-51 *)
  Definition contract_new (contract_pk : pt) : contract :=
    fst (join (mkContract [] [] [] [] [] []) (u64of 0) contract_pk).

  (** lines 19-23: the new balances of [self] and [other] *)
  Definition transfer (self other : u64) (a : u64) : res no_error (u64 * u64) :=
    do _ <- rassert (zval a <=? zval self);
    do self' <- sub64 dbg self a;
    do other' <- add64 dbg other a;
    Ok (self', other').

  (** lines 63-71. [split_at_mut(index)] panics when [index > len]; [r] then is the part from
      [index] on and [l] the part before. Simplification: a panic leaves no state (the code may
      have written the sender's balance before it panics on the addition). *)
  Definition deposit (c : contract) (index : nat) (a : u64) : res no_error contract :=
    do _ <- rassert (index <=? length (l1_accounts c))%nat;
    let l := firstn index (l1_accounts c) in
    let r := skipn index (l1_accounts c) in
    do r0 <- unwrap (nth_error r 0);
    do l0 <- unwrap (nth_error l 0);
    do bal <- transfer r0 l0 a;
    let '(r0', l0') := bal in
    let accounts := set_nth 0 l0' l ++ set_nth 0 r0' r in
    do k <- unwrap (nth_error (pks c) index);
    do e <- match hget pt_eqb (c_deposits c) k with
            | Some e => add64 dbg e a
            | None => Ok a
            end;
    Ok (mkContract (pks c) (pk_indices c) accounts (nonces c) (block_hashes c)
                   (hset pt_eqb (c_deposits c) k e)).

  (** [x.into_bigint().to_bytes_le()]: the four 64-bit limbs *)
  Definition field_bytes (x : F) : list Z := bytes_le 32 (zval x).
  (** lines 94-100: [x()] and [y()] of the identity are [None] *)
  Definition pt_bytes (k : pt) : list Z :=
    match affine k with
    | Some (x, y) => field_bytes x ++ field_bytes y ++ [0]
    | None => field_bytes Fzero ++ field_bytes Fzero ++ [1]
    end.
  (** [amount.to_le_bytes()] *)
  Definition u64_bytes (a : u64) : list Z := bytes_le 8 (zval a).

  (** lines 87-106 *)
  Definition signer_acc (c : contract) (signers : list (option Z)) : res no_error F :=
    rfold (fun acc (index : option Z) =>
             do k <- match index with
                     | Some i => unwrap (nth_error (pks c) (Z.to_nat i))
                     | None => Ok pzero
                     end;
             Ok (sha_field (field_bytes acc ++ pt_bytes k))) signers Fzero.
  (** lines 108-124 and, for the withdrawals, 125-141 *)
  Definition amount_acc (c : contract) (l : list (Z * u64)) : res no_error F :=
    rfold (fun acc (ia : Z * u64) =>
             do k <- unwrap (nth_error (pks c) (Z.to_nat (fst ia)));
             Ok (sha_field (field_bytes acc ++ pt_bytes k ++ u64_bytes (snd ia)))) l Fzero.
  (** lines 77-153 *)
  Definition derive_public_inputs (c : contract) (b : block) : res no_error (list F) :=
    do s <- signer_acc c (b_signers b);
    do d <- amount_acc c (b_deposits b);
    do w <- amount_acc c (b_withdrawals b);
    Ok [Fof (Z.of_nat (length (b_signers b))); utxo_tree_root b; tx_tree_root b; tx_tree_root b;
        signer_tree_root b; s; d; w].
End contract.

(** Model of plasma-fold/src/primitives/schnorr.rs and the signature types of
    plasma-fold/src/datastructures/keypair. Line numbers refer to schnorr.rs unless another
    file is named. *)
From Coq Require Import ZArith List Bool Lia.
Import ListNotations.
From Verif Require Import Base Env Circuit SparseMTGadget Data Gadgets.
Open Scope Z_scope.

(** Errors of the hash; modelled hashes do not fail. *)
Inductive no_error : Set := .

Section schnorr.
  Context {hs : Hashes} {G : Curve}.

  (** elements of [C::ScalarField] *)
  Definition scalar : Set := zmod q_pos.
  Definition scalar_of : Z -> scalar := of_Z q_pos.

  (** keypair/mod.rs:55-59 *)
  Record signature := mkSig { sig_s : scalar; sig_e : scalar }.
  (** derived [Default] (keypair/mod.rs:55) *)
  Definition sig_default : signature := mkSig (scalar_of 0) (scalar_of 0).

  (** [C::ScalarField::from_bigint] *)
  Definition from_bigint (h : Z) : option scalar := if h <? q then Some (scalar_of h) else None.
  (** [BigInt::from_bits_le] of the first [n] bits of the 256-bit representation (lines 45-47,
      67-69); it does not exceed 256 bits *)
  Definition truncated (n : nat) (h : F) : Z := bits_val (firstn n (bigint_bits h)).

  (** lines 27-32, keypair/mod.rs:47-50: the key of a secret scalar *)
  Definition public_key (sk : scalar) : pt := pmul (zval sk) pgen.

  (** lines 34-53; the draws of the generator are given as a list. [Ok None]: the loop has not
      returned after these draws. [MODULUS_BIT_SIZE + 1 = 255]. *)
  Fixpoint sign (sk : scalar) (m : list F) (draws : list scalar) : res no_error (option signature) :=
    match draws with
    | [] => Ok None
    | k :: draws' =>
      match affine (pmul (zval k) pgen) with
      | None => Panic
      | Some (x, y) =>
        let h := crh ([x; y] ++ m) in
        match from_bigint (truncated 255 h) with
        | Some e => Ok (Some (mkSig (zsub k (zmul sk e)) e))
        | None => sign sk m draws'
        end
      end
    end.

  (** [into_affine().xy().unwrap_or_default()] *)
  Definition xy_or_default (r : pt) : list F :=
    match affine r with Some (x, y) => [x; y] | None => [Fzero; Fzero] end.

  (** the hash whose truncation is compared with [e] (lines 61-66) *)
  Definition challenge_hash (k : pt) (m : list F) (s e : Z) : F :=
    crh (xy_or_default (padd (pmul s pgen) (pmul e k)) ++ m).

  (** lines 55-72 and keypair/mod.rs:62-69 *)
  Definition verify_signature (k : pt) (m : list F) (sg : signature) : bool :=
    let h := challenge_hash k m (zval (sig_s sg)) (zval (sig_e sg)) in
    match from_bigint (truncated 254 h) with
    | Some e => zeqb e (sig_e sg)
    | None => false
    end.

  (** keypair/constraints.rs:62-66: bits of [s] and [e] *)
  Record sigV := mkSigV { v_s : list bool; v_e : list bool }.
  (** keypair/constraints.rs:68-83: the low [MODULUS_BIT_SIZE = 254] of 256 bits *)
  Definition sig_alloc (sg : signature) : sigV :=
    mkSigV (firstn 254 (bits_le 256 (zval (sig_s sg)))) (firstn 254 (bits_le 256 (zval (sig_e sg)))).

  (** lines 178-185 (and 143-150). [scalar_mul_le] multiplies by the number given by the bits. *)
  Definition gadget_hash (k : pt) (m : list F) (sg : sigV) : F :=
    let r := padd (pmul (bits_val (v_s sg)) pgen) (pmul (bits_val (v_e sg)) k) in
    (* [to_constraint_field] then [pop] *)
    crh (removelast (pt_encV r) ++ m).

  (** lines 131-164, keypair/constraints.rs:88-95 *)
  Definition verify_gadget (W : nat) (k : pt) (m : list F) (sg : sigV) : circ unit :=
    let h_bits := firstn 254 (to_bits_le (gadget_hash k m sg)) in
    let! _ := enforce_lt W h_bits (firstn 254 (bits_le 256 q)) in
    let! _ := cassert (254 <=? length (v_e sg))%nat in
    let! a := le_bits_to_fp (firstn 253 h_bits) in
    let! b := le_bits_to_fp (firstn 253 (v_e sg)) in
    let! _ := enforce (Feqb a b) in
    enforce (Bool.eqb (nth 253 h_bits false) (nth 253 (v_e sg) false)).

  (** lines 166-197, keypair/constraints.rs:97-104 *)
  Definition is_valid_gadget (W : nat) (k : pt) (m : list F) (sg : sigV) : circ bool :=
    let h_bits := firstn 254 (to_bits_le (gadget_hash k m sg)) in
    let! _ := enforce_lt W h_bits (firstn 254 (bits_le 256 q)) in
    let! _ := cassert (254 <=? length (v_e sg))%nat in
    let! a := le_bits_to_fp (firstn 253 h_bits) in
    let! b := le_bits_to_fp (firstn 253 (v_e sg)) in
    Ret (Feqb a b && Bool.eqb (nth 253 h_bits false) (nth 253 (v_e sg) false)).
End schnorr.

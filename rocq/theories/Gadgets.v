(** Small circuit gadgets: bit recomposition, range checks, comparisons, [enforce_lt]. *)
From Coq Require Import ZArith List Bool Lia.
Import ListNotations.
From Verif Require Import Base Env Circuit SparseMTGadget.
Open Scope Z_scope.

Fixpoint cmap {A B} (f : A -> circ B) (l : list A) : circ (list B) :=
  match l with
  | [] => Ret []
  | x :: l' => let! y := f x in let! ys := cmap f l' in Ret (y :: ys)
  end.

(** [Boolean::le_bits_to_fp]: the weighted sum of the bits; arkworks additionally enforces that
    the number is below the modulus when there are at least [MODULUS_BIT_SIZE = 254] bits. *)
Definition le_bits_to_fp (bits : list bool) : circ F :=
  let! _ := (if (254 <=? length bits)%nat then enforce (bits_val bits <? p) else Ret tt) in
  Ret (Fof (bits_val bits)).

(** [x.value().into_bigint().to_bits_le()]: the four 64-bit limbs *)
Definition bigint_bits (x : F) : list bool := bits_le 256 (zval x).

(** aggregator/src/circuit.rs:46-58: [to_n_bits]. Simplification: the bits are always allocated
    as witnesses, as they are when the value is not a constant. *)
Definition to_n_bits (x : F) (n : nat) : circ (list bool) :=
  let! _ := cassert (n <=? 256)%nat in
  let! bits := witnesses (firstn n (bigint_bits x)) in
  let! v := le_bits_to_fp bits in
  let! _ := enforce (Feqb v x) in
  Ret bits.

(** arkworks [enforce_smaller_or_equal_than_mod_minus_one_div_two] *)
Definition half_ok (x : F) : bool := zval x <=? (p - 1) / 2.
(** arkworks [FpVar::is_cmp(other, Less, false)]: both operands are enforced to be at most
    (p-1)/2; the result is then the integer comparison. *)
Definition is_lt (a b : F) : circ bool :=
  let! _ := enforce (half_ok a) in
  let! _ := enforce (half_ok b) in
  Ret (zval a <? zval b).
(** arkworks [FpVar::enforce_cmp(other, Less, true)]: [a < b + 1] with a field addition *)
Definition enforce_le (a b : F) : circ unit :=
  let! r := is_lt a (Fadd b Fone) in
  enforce r.

(** [slice.chunks(w)] for [w > 0]; the fuel is the length *)
Fixpoint chunks_fuel {A} (fuel w : nat) (l : list A) : list (list A) :=
  match fuel with
  | O => []
  | S fuel' =>
    match l with
    | [] => []
    | _ => firstn w l :: chunks_fuel fuel' w (skipn w l)
    end
  end.
Definition chunks {A} (w : nat) (l : list A) : list (list A) := chunks_fuel (length l) w l.

(** plasma-fold/src/primitives/schnorr.rs:96-106: scanning from the last window, mark the first
    one where [y > x]; argument: the pairs in scanning order. *)
Fixpoint first_gt (l : list (F * F)) : list bool :=
  match l with
  | [] => []
  | (x, y) :: l' => if zval x <? zval y then true :: repeat false (length l')
                    else false :: first_gt l'
  end.

(** plasma-fold/src/primitives/schnorr.rs:75-126. [W = 0] panics in [chunks], [W > 256] when
    slicing. Simplification: hints are allocated as witnesses (both operands constant would make
    them constants). *)
Definition enforce_lt (W : nat) (xb yb : list bool) : circ unit :=
  let! _ := cassert ((0 <? W)%nat && (W <=? 256)%nat) in
  let! x := cmap le_bits_to_fp (chunks W xb) in
  let! y := cmap le_bits_to_fp (chunks W yb) in
  let len := Nat.max (length x) (length y) in
  let pairs := map (fun i => (nth i x Fzero, nth i y Fzero)) (seq 0 len) in
  let delta := map (fun xy => Fsub (snd xy) (fst xy)) pairs in
  let! helper := witnesses (rev (first_gt (rev pairs))) in
  let! (c, r) := cfold (fun (cr : F * F) (bd : bool * F) =>
                          let '(c, r) := cr in
                          let '(b, d) := bd in
                          let c := Fadd c (sel b d Fzero) in
                          let! _ := enforce (Feqb (Fmul r d) Fzero) in
                          Ret (c, Fadd r (Fbool b)))
                       (combine helper delta) (Fzero, Fzero) in
  let c := Fsub c Fone in
  let! bits := witnesses (firstn W (bigint_bits c)) in
  let! v := le_bits_to_fp bits in
  let! _ := enforce (Feqb v c) in
  enforce (Feqb r Fone).

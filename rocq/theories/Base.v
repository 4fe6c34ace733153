(** Basic notions shared by the whole model: Rust results, 64-bit arithmetic in
    both build modes, prime-field style canonical residues, bits and bytes. *)
From Coq Require Import ZArith Znumtheory List Bool Lia Eqdep_dec Ring.
Import ListNotations.
Open Scope Z_scope.

(** * Rust outcomes *)

(** The outcome of a Rust call: [Ok], [Err], or a panic (failed [assert!], [unwrap] on
    [None], out-of-bounds index, arithmetic overflow with overflow checks on). *)
Inductive res (E A : Type) : Type :=
| Ok (a : A)
| Err (e : E)
| Panic.
Arguments Ok {E A} a.
Arguments Err {E A} e.
Arguments Panic {E A}.

Definition rbind {E A B} (x : res E A) (f : A -> res E B) : res E B :=
  match x with
  | Ok a => f a
  | Err e => Err e
  | Panic => Panic
  end.
Notation "'do' x <- c ; k" := (rbind c (fun x => k))
  (at level 200, x pattern, c at level 100, k at level 200, right associativity).

(** [Option::unwrap] *)
Definition unwrap {E A} (o : option A) : res E A :=
  match o with Some a => Ok a | None => Panic end.

(** [assert!] *)
Definition rassert {E} (b : bool) : res E unit := if b then Ok tt else Panic.

(** The outcome of a call on [&mut self]: the state left behind is visible after [Ok] and
    after [Err]. *)
Inductive mres (S E A : Type) : Type :=
| MOk (s : S) (a : A)
| MErr (s : S) (e : E)
| MPanic.
Arguments MOk {S E A} s a.
Arguments MErr {S E A} s e.
Arguments MPanic {S E A}.

(** Run [f] on each element in order, threading the state; stop at the first failure. *)
Fixpoint rfold {E A B} (f : B -> A -> res E B) (l : list A) (b : B) : res E B :=
  match l with
  | [] => Ok b
  | x :: l' => do b' <- f b x; rfold f l' b'
  end.

Fixpoint rmap {E A B} (f : A -> res E B) (l : list A) : res E (list B) :=
  match l with
  | [] => Ok []
  | x :: l' => do y <- f x; do ys <- rmap f l'; Ok (y :: ys)
  end.

(** * 64-bit machine arithmetic *)

Definition two64 : Z := 2 ^ 64.
Definition is_u64 (z : Z) : Prop := 0 <= z < two64.

(** [a + b], [a - b], [a * b] on [u64]/[usize]: with overflow checks on ([dbg = true]) an
    overflow panics, otherwise the result wraps modulo 2^64. *)
Definition wrap64 {E} (dbg : bool) (z : Z) : res E Z :=
  if (0 <=? z) && (z <? two64) then Ok z
  else if dbg then Panic else Ok (z mod two64).
Definition uadd {E} (dbg : bool) (a b : Z) : res E Z := wrap64 dbg (a + b).
Definition usub {E} (dbg : bool) (a b : Z) : res E Z := wrap64 dbg (a - b).
Definition umul {E} (dbg : bool) (a b : Z) : res E Z := wrap64 dbg (a * b).

Lemma wrap64_ok {E} dbg z : is_u64 z -> @wrap64 E dbg z = Ok z.
Proof.
  unfold wrap64, is_u64; intros [H1 H2].
  apply Z.leb_le in H1; apply Z.ltb_lt in H2; now rewrite H1, H2.
Qed.
Lemma wrap64_over {E} dbg z : ~ is_u64 z ->
  @wrap64 E dbg z = if dbg then Panic else Ok (z mod two64).
Proof.
  unfold wrap64, is_u64; intros H.
  destruct (0 <=? z) eqn:A; destruct (z <? two64) eqn:B; cbn; try reflexivity.
  apply Z.leb_le in A; apply Z.ltb_lt in B; exfalso; auto.
Qed.
Lemma wrap64_inv {E} dbg z r : @wrap64 E dbg z = Ok r -> is_u64 r /\ r = z mod two64.
Proof.
  unfold wrap64; destruct (0 <=? z) eqn:A; destruct (z <? two64) eqn:B; cbn;
    try (destruct dbg); intros H; inversion H; subst; clear H;
    try (split; [ unfold is_u64; apply Z.mod_pos_bound; reflexivity | reflexivity]).
  all: apply Z.leb_le in A; apply Z.ltb_lt in B;
    (split; [ now split | symmetry; now apply Z.mod_small ]).
Qed.
Lemma uadd_ok {E} dbg a b : is_u64 (a + b) -> @uadd E dbg a b = Ok (a + b).
Proof. apply wrap64_ok. Qed.
Lemma usub_ok {E} dbg a b : is_u64 (a - b) -> @usub E dbg a b = Ok (a - b).
Proof. apply wrap64_ok. Qed.
Lemma umul_ok {E} dbg a b : is_u64 (a * b) -> @umul E dbg a b = Ok (a * b).
Proof. apply wrap64_ok. Qed.

(** * Canonical residues *)

(** Integers modulo [m], as canonical representatives with a Boolean range proof, so that
    Leibniz equality is equality of representatives. *)
Record zmod (m : positive) : Set := mkzmod
  { zval : Z; zval_ok : ((0 <=? zval) && (zval <? Zpos m))%bool = true }.
Arguments mkzmod {m}.
Arguments zval {m}.
Arguments zval_ok {m}.

Lemma zval_range {m} (x : zmod m) : 0 <= zval x < Zpos m.
Proof.
  destruct x as [z H]; cbn.
  apply andb_prop in H as [H1 H2].
  apply Z.leb_le in H1; apply Z.ltb_lt in H2; now split.
Qed.

Lemma zval_inj {m} (x y : zmod m) : zval x = zval y -> x = y.
Proof.
  destruct x as [z Hz], y as [w Hw]; cbn; intros ->.
  f_equal; apply UIP_dec, Bool.bool_dec.
Qed.

Lemma of_Z_ok m z :
  ((0 <=? z mod Zpos m) && (z mod Zpos m <? Zpos m))%bool = true.
Proof.
  pose proof (Z.mod_pos_bound z (Zpos m) eq_refl) as [H1 H2].
  apply Z.leb_le in H1; apply Z.ltb_lt in H2; now rewrite H1, H2.
Qed.

(** Reduction of an integer modulo [m]. *)
Definition of_Z (m : positive) (z : Z) : zmod m := mkzmod (z mod Zpos m) (of_Z_ok m z).

Lemma zval_of_Z m z : zval (of_Z m z) = z mod Zpos m.
Proof. reflexivity. Qed.
Lemma zval_of_Z_small m z : 0 <= z < Zpos m -> zval (of_Z m z) = z.
Proof. intros; rewrite zval_of_Z; now apply Z.mod_small. Qed.
Lemma of_Z_zval {m} (x : zmod m) : of_Z m (zval x) = x.
Proof. apply zval_inj, zval_of_Z_small, zval_range. Qed.
Lemma of_Z_eq m a b : a mod Zpos m = b mod Zpos m -> of_Z m a = of_Z m b.
Proof. intros; now apply zval_inj. Qed.
Lemma of_Z_eq_iff m a b : of_Z m a = of_Z m b <-> a mod Zpos m = b mod Zpos m.
Proof.
  split; [ intros H; apply (f_equal zval) in H; exact H | apply of_Z_eq ].
Qed.
Lemma of_Z_inj_small m a b :
  0 <= a < Zpos m -> 0 <= b < Zpos m -> of_Z m a = of_Z m b -> a = b.
Proof.
  intros Ha Hb H; apply (f_equal zval) in H.
  now rewrite !zval_of_Z_small in H.
Qed.

Definition zeqb {m} (x y : zmod m) : bool := zval x =? zval y.
Lemma zeqb_eq {m} (x y : zmod m) : zeqb x y = true <-> x = y.
Proof.
  unfold zeqb; rewrite Z.eqb_eq; split; [ apply zval_inj | now intros -> ].
Qed.
Lemma zeqb_refl {m} (x : zmod m) : zeqb x x = true.
Proof. now apply zeqb_eq. Qed.
Lemma zeqb_neq {m} (x y : zmod m) : zeqb x y = false <-> x <> y.
Proof.
  rewrite <- Bool.not_true_iff_false, zeqb_eq; tauto.
Qed.
Lemma zmod_eq_dec {m} (x y : zmod m) : {x = y} + {x <> y}.
Proof.
  destruct (zeqb x y) eqn:E; [ left; now apply zeqb_eq | right; now apply zeqb_neq ].
Defined.

Definition zadd {m} (x y : zmod m) : zmod m := of_Z m (zval x + zval y).
Definition zsub {m} (x y : zmod m) : zmod m := of_Z m (zval x - zval y).
Definition zmul {m} (x y : zmod m) : zmod m := of_Z m (zval x * zval y).
Definition zopp {m} (x : zmod m) : zmod m := of_Z m (- zval x).

Lemma of_Z_add m a b : of_Z m (a + b) = zadd (of_Z m a) (of_Z m b).
Proof. apply of_Z_eq; cbn; apply Zplus_mod. Qed.
Lemma of_Z_mul m a b : of_Z m (a * b) = zmul (of_Z m a) (of_Z m b).
Proof. apply of_Z_eq; cbn; apply Zmult_mod. Qed.
Lemma of_Z_sub m a b : of_Z m (a - b) = zsub (of_Z m a) (of_Z m b).
Proof. apply of_Z_eq; cbn; apply Zminus_mod. Qed.
Lemma of_Z_opp m a : of_Z m (- a) = zopp (of_Z m a).
Proof.
  apply of_Z_eq; cbn.
  pose proof (Zminus_mod 0 a (Zpos m)) as H1.
  pose proof (Zminus_mod 0 (a mod Zpos m) (Zpos m)) as H2.
  rewrite Zmod_mod in H2. cbn [Z.sub Z.add] in *.
  change (0 - a) with (- a) in *. rewrite <- H1 in H2.
  change (0 - a mod Zpos m) with (- (a mod Zpos m)) in H2. now symmetry.
Qed.

Lemma zadd_of_Z {m} (x y : zmod m) : zadd x y = of_Z m (zval x + zval y).
Proof. reflexivity. Qed.

Section ring.
  Context (m : positive).
  Let z0 : zmod m := of_Z m 0.
  Let z1 : zmod m := of_Z m 1.
  Local Ltac toZ := intros;
    repeat match goal with
           | x : zmod m |- _ =>
             rewrite <- (of_Z_zval x); generalize (zval x); clear x; intros x
           end;
    repeat (rewrite <- of_Z_add || rewrite <- of_Z_mul || rewrite <- of_Z_sub
            || rewrite <- of_Z_opp); f_equal; ring.

  Lemma zmod_ring : ring_theory z0 z1 (@zadd m) (@zmul m) (@zsub m) (@zopp m) eq.
  Proof. unfold z0, z1; constructor; toZ. Qed.
End ring.

(** * The field of the circuits *)

(** The base field of Grumpkin = scalar field of BN254 ([ark_bn254::Fr]), used by every
    circuit (aggregator/src/circuit.rs:443-445, client tests use the same). *)
Definition p_pos : positive :=
  21888242871839275222246405745257275088548364400416034343698204186575808495617.
Definition F := zmod p_pos.
Definition p : Z := Zpos p_pos.

Definition Fof (z : Z) : F := of_Z p_pos z.
Definition Fzero : F := Fof 0.
Definition Fone : F := Fof 1.
Definition Fadd : F -> F -> F := @zadd p_pos.
Definition Fsub : F -> F -> F := @zsub p_pos.
Definition Fmul : F -> F -> F := @zmul p_pos.
Definition Fopp : F -> F := @zopp p_pos.
Definition Feqb : F -> F -> bool := @zeqb p_pos.
Definition Fbool (b : bool) : F := if b then Fone else Fzero.

Lemma F_ring : ring_theory Fzero Fone Fadd Fmul Fsub Fopp eq.
Proof. exact (zmod_ring p_pos). Qed.
Add Ring Fring : F_ring.

Lemma Feqb_eq x y : Feqb x y = true <-> x = y.
Proof. apply zeqb_eq. Qed.
Lemma Feqb_neq x y : Feqb x y = false <-> x <> y.
Proof. apply zeqb_neq. Qed.
Lemma Feqb_refl x : Feqb x x = true.
Proof. apply zeqb_refl. Qed.
Lemma Feqb_sym x y : Feqb x y = Feqb y x.
Proof. unfold Feqb, zeqb; apply Z.eqb_sym. Qed.
Definition F_eq_dec (x y : F) : {x = y} + {x <> y} := zmod_eq_dec x y.

Lemma p_bounds : 2 ^ 253 < p < 2 ^ 254.
Proof. split; reflexivity. Qed.
Lemma p_odd : p mod 2 = 1.
Proof. reflexivity. Qed.
Lemma p_pos_lt : 0 < p.
Proof. reflexivity. Qed.
Lemma F_range (x : F) : 0 <= zval x < p.
Proof. exact (zval_range x). Qed.
Lemma zval_Fof z : zval (Fof z) = z mod p.
Proof. reflexivity. Qed.
Lemma zval_Fof_small z : 0 <= z < p -> zval (Fof z) = z.
Proof. apply zval_of_Z_small. Qed.
Lemma Fof_zval (x : F) : Fof (zval x) = x.
Proof. apply of_Z_zval. Qed.
Lemma zval_F0 : zval Fzero = 0.
Proof. reflexivity. Qed.
Lemma zval_F1 : zval Fone = 1.
Proof. reflexivity. Qed.
Lemma F1_neq_F0 : Fone <> Fzero.
Proof. intros H; apply (f_equal zval) in H; discriminate H. Qed.
Lemma zval_F (x y : F) : zval x = zval y -> x = y.
Proof. apply zval_inj. Qed.
Lemma Fof_add a b : Fof (a + b) = Fadd (Fof a) (Fof b).
Proof. apply of_Z_add. Qed.
Lemma Fof_sub a b : Fof (a - b) = Fsub (Fof a) (Fof b).
Proof. apply of_Z_sub. Qed.
Lemma Fof_mul a b : Fof (a * b) = Fmul (Fof a) (Fof b).
Proof. apply of_Z_mul. Qed.
Lemma zval_Fadd x y : zval (Fadd x y) = (zval x + zval y) mod p.
Proof. reflexivity. Qed.
Lemma zval_Fsub x y : zval (Fsub x y) = (zval x - zval y) mod p.
Proof. reflexivity. Qed.
Lemma zval_Fmul x y : zval (Fmul x y) = (zval x * zval y) mod p.
Proof. reflexivity. Qed.
Lemma Fof_inj_small a b : 0 <= a < p -> 0 <= b < p -> Fof a = Fof b -> a = b.
Proof. apply of_Z_inj_small. Qed.
Lemma Fof_eq_iff a b : Fof a = Fof b <-> a mod p = b mod p.
Proof. apply of_Z_eq_iff. Qed.
Lemma Fbool_inj a b : Fbool a = Fbool b -> a = b.
Proof.
  destruct a, b; cbn; auto; intros H; exfalso;
    [ now apply F1_neq_F0 | symmetry in H; now apply F1_neq_F0 ].
Qed.
Lemma Fsub_0_eq x y : Fsub x y = Fzero <-> x = y.
Proof.
  split; intros H.
  - replace x with (Fadd (Fsub x y) y) by ring. rewrite H; ring.
  - subst; ring.
Qed.

#[global] Opaque Fadd Fsub Fmul Fopp.

(** Rust's [u64] values (amounts, nonces). *)
Definition u64 := zmod (2 ^ 64).
Definition u64of (z : Z) : u64 := of_Z (2 ^ 64) z.
Lemma u64_range (x : u64) : 0 <= zval x < two64.
Proof. exact (zval_range x). Qed.
Lemma two64_lt_p : two64 < p.
Proof. reflexivity. Qed.
Lemma zval_u64of_small z : 0 <= z < two64 -> zval (u64of z) = z.
Proof. apply zval_of_Z_small. Qed.
(** [F::from(x: u64)] *)
Definition Fu64 (x : u64) : F := Fof (zval x).
Lemma zval_Fu64 x : zval (Fu64 x) = zval x.
Proof.
  unfold Fu64; apply zval_Fof_small.
  pose proof (u64_range x); pose proof two64_lt_p; lia.
Qed.
Lemma Fu64_inj x y : Fu64 x = Fu64 y -> x = y.
Proof. intros H; apply (f_equal zval) in H; rewrite !zval_Fu64 in H; now apply zval_inj. Qed.

(** * Bits and bytes *)

(** The low [n] bits of [z], least significant first. *)
Fixpoint bits_le (n : nat) (z : Z) : list bool :=
  match n with
  | O => []
  | S n' => Z.odd z :: bits_le n' (Z.div2 z)
  end.
(** The number denoted by bits, least significant first. *)
Fixpoint bits_val (l : list bool) : Z :=
  match l with
  | [] => 0
  | b :: l' => Z.b2z b + 2 * bits_val l'
  end.

Lemma bits_le_length n z : length (bits_le n z) = n.
Proof. revert z; induction n; cbn; intros; auto. Qed.
Lemma bits_val_bounds l : 0 <= bits_val l < 2 ^ Z.of_nat (length l).
Proof.
  induction l as [|b l IH]; [ cbn; lia |].
  cbn [bits_val length]. rewrite Nat2Z.inj_succ, Z.pow_succ_r by lia.
  destruct b; cbn [Z.b2z]; lia.
Qed.
Lemma bits_val_le n z : bits_val (bits_le n z) = z mod 2 ^ Z.of_nat n.
Proof.
  revert z; induction n as [|n IH]; intros z; [ cbn; now rewrite Z.mod_1_r |].
  cbn [bits_le bits_val]. rewrite IH, Nat2Z.inj_succ, Z.pow_succ_r by lia.
  rewrite Z.div2_div. set (k := 2 ^ Z.of_nat n).
  assert (0 < k) by (apply Z.pow_pos_nonneg; lia).
  rewrite Z.rem_mul_r by lia.
  rewrite (Zmod_odd z). destruct (Z.odd z); cbn [Z.b2z]; lia.
Qed.
Lemma bits_le_val l : bits_le (length l) (bits_val l) = l.
Proof.
  induction l as [|b l IH]; cbn [bits_val length bits_le]; auto.
  f_equal.
  - rewrite Z.odd_add, Z.odd_mul; cbn; destruct b; reflexivity.
  - transitivity (bits_le (length l) (bits_val l)); [ f_equal | exact IH ].
    rewrite Z.div2_div, Z.mul_comm, Z.div_add by lia. destruct b; reflexivity.
Qed.
Lemma bits_val_inj l l' : length l = length l' -> bits_val l = bits_val l' -> l = l'.
Proof.
  intros Hl Hv; rewrite <- (bits_le_val l), <- (bits_le_val l'), Hl, Hv; reflexivity.
Qed.
Lemma bits_val_app a b :
  bits_val (a ++ b) = bits_val a + 2 ^ Z.of_nat (length a) * bits_val b.
Proof.
  induction a as [|x a IH]; cbn [bits_val app length].
  - cbn; destruct (bits_val b); reflexivity.
  - rewrite IH, Nat2Z.inj_succ, Z.pow_succ_r by lia; lia.
Qed.
Lemma bits_le_app n k z : bits_le (n + k) z = bits_le n z ++ bits_le k (z / 2 ^ Z.of_nat n).
Proof.
  revert z; induction n as [|n IH]; intros z.
  - cbn [Nat.add bits_le app]. now rewrite Z.div_1_r.
  - cbn [Nat.add bits_le app]. f_equal. rewrite IH. f_equal. f_equal.
    rewrite Nat2Z.inj_succ, Z.pow_succ_r, Z.div2_div, Z.div_div; try lia.
Qed.
Lemma bits_le_mod n k z : (n <= k)%nat -> bits_le n (z mod 2 ^ Z.of_nat k) = bits_le n z.
Proof.
  intros H. apply bits_val_inj; [ now rewrite !bits_le_length |].
  rewrite !bits_val_le.
  symmetry; apply Zmod_div_mod; try (apply Z.pow_pos_nonneg; lia).
  exists (2 ^ (Z.of_nat k - Z.of_nat n)). rewrite <- Z.pow_add_r by lia. f_equal; lia.
Qed.
Lemma bits_le_firstn n k z : (n <= k)%nat -> firstn n (bits_le k z) = bits_le n z.
Proof.
  revert k z; induction n as [|n IH]; intros k z H; [ reflexivity |].
  destruct k as [|k]; [ lia |]. cbn [bits_le firstn]. now rewrite IH by lia.
Qed.
Lemma bits_le_inj n a b :
  0 <= a < 2 ^ Z.of_nat n -> 0 <= b < 2 ^ Z.of_nat n -> bits_le n a = bits_le n b -> a = b.
Proof.
  intros Ha Hb H. apply (f_equal bits_val) in H. rewrite !bits_val_le in H.
  now rewrite !Z.mod_small in H.
Qed.

(** The low [n] bytes of [z], little endian ([to_bytes_le], [to_le_bytes]). *)
Fixpoint bytes_le (n : nat) (z : Z) : list Z :=
  match n with
  | O => []
  | S n' => z mod 256 :: bytes_le n' (z / 256)
  end.
Fixpoint bytes_val (l : list Z) : Z :=
  match l with
  | [] => 0
  | b :: l' => b + 256 * bytes_val l'
  end.
Lemma bytes_le_length n z : length (bytes_le n z) = n.
Proof. revert z; induction n; cbn; intros; auto. Qed.
Lemma bytes_val_le n z : bytes_val (bytes_le n z) = z mod 256 ^ Z.of_nat n.
Proof.
  revert z; induction n as [|n IH]; intros z; [ cbn; now rewrite Z.mod_1_r |].
  cbn [bytes_le bytes_val]. rewrite IH, Nat2Z.inj_succ, Z.pow_succ_r by lia.
  assert (0 < 256 ^ Z.of_nat n) by (apply Z.pow_pos_nonneg; lia).
  rewrite Z.rem_mul_r by lia. lia.
Qed.
Lemma bytes_le_inj n a b :
  0 <= a < 256 ^ Z.of_nat n -> 0 <= b < 256 ^ Z.of_nat n ->
  bytes_le n a = bytes_le n b -> a = b.
Proof.
  intros Ha Hb H. apply (f_equal bytes_val) in H. rewrite !bytes_val_le in H.
  now rewrite !Z.mod_small in H.
Qed.

(** * Small list helpers *)

Definition nth_opt {A} (l : list A) (i : nat) : option A := nth_error l i.

(** [v[i] = x] on a fixed-size array *)
Fixpoint set_nth {A} (i : nat) (x : A) (l : list A) : list A :=
  match l, i with
  | [], _ => []
  | _ :: l', O => x :: l'
  | y :: l', S i' => y :: set_nth i' x l'
  end.
Lemma set_nth_length {A} i (x : A) l : length (set_nth i x l) = length l.
Proof. revert i; induction l; destruct i; cbn; auto. Qed.
Lemma nth_set_nth {A} i j (x d : A) l :
  nth j (set_nth i x l) d = if (Nat.eqb i j && (j <? length l)%nat)%bool then x else nth j l d.
Proof.
  revert i j; induction l as [|y l IH]; intros i j.
  - destruct i, j; cbn; auto; now rewrite andb_false_r.
  - destruct i, j; cbn [set_nth nth length Nat.eqb andb]; auto.
    rewrite IH. reflexivity.
Qed.

Definition zsum (l : list Z) : Z := fold_right Z.add 0 l.
Lemma zsum_app a b : zsum (a ++ b) = zsum a + zsum b.
Proof. induction a; cbn; [ reflexivity |]. unfold zsum in *; cbn; lia. Qed.

(** IEEE-754 numbers with Rust's operators.

    Models the primitive types [f64] and [f32] used everywhere in /repo/src
    (no file of /repo defines them).  We use Flocq's [binary_float] with a
    single NaN, so every theorem about [f64] covers NaN, infinities, signed
    zeros and subnormals.  All arithmetic rounds to nearest even.
    Simplification: NaN sign and payload are not represented. *)
From Coq Require Import ZArith Bool List.
From Flocq Require Import Core BinarySingleNaN.

(** [f64] has 53 bits *)
Definition prec64 : Prec_gt_0 53 := eq_refl.
(** [f64] goes to 2^1024 *)
Definition emax64 : Prec_lt_emax 53 1024 := eq_refl.
(** [f32] has 24 bits *)
Definition prec32 : Prec_gt_0 24 := eq_refl.
(** [f32] goes to 2^128 *)
Definition emax32 : Prec_lt_emax 24 128 := eq_refl.
#[global] Existing Instances prec64 emax64 prec32 emax32.

Notation f64 := (binary_float 53 1024).
Notation f32 := (binary_float 24 128).

(** Rust operators [+ - * /], unary [-], [f64::abs]. *)
Definition fadd : f64 -> f64 -> f64 := Bplus mode_NE.
(** [a - b] *)
Definition fsub : f64 -> f64 -> f64 := Bminus mode_NE.
(** [a * b] *)
Definition fmul : f64 -> f64 -> f64 := Bmult mode_NE.
(** [a / b] *)
Definition fdiv : f64 -> f64 -> f64 := Bdiv mode_NE.
(** [- a] *)
Definition fneg : f64 -> f64 := Bopp.
(** [f64::abs] *)
Definition fabs : f64 -> f64 := Babs.

(** Rust comparisons [==], [<], [<=]; all false when an operand is NaN
    ([!=] is the negation of [==], [>] and [>=] swap the operands). *)
Definition feqb : f64 -> f64 -> bool := Beqb.
(** [a < b] *)
Definition fltb : f64 -> f64 -> bool := Bltb.
(** [a <= b] *)
Definition fleb : f64 -> f64 -> bool := Bleb.

(** [m * 2^e] correctly rounded. *)
Definition fnorm (m e : Z) : f64 := binary_normalize 53 1024 _ _ mode_NE m e false.
(** Rust's [n as f64] for an integer [n]. *)
Definition f_of_Z (z : Z) : f64 := fnorm z 0.

(** [0.0] *)
Definition f0 : f64 := B754_zero false.
(** [1.0] *)
Definition f1 : f64 := f_of_Z 1.
(** [100.0] *)
Definition f100 : f64 := f_of_Z 100.
(** [f64::NAN] *)
Definition fnan : f64 := B754_nan.

(** Decimal literals [n / 10^k]: both operands are exact binary64 numbers
    for all literals of the crate, so the rounded quotient is the literal. *)
Definition flit (num den : Z) : f64 := fdiv (f_of_Z num) (f_of_Z den).
(** [1e-9] *)
Definition f_1em9 : f64 := flit 1 1000000000.
(** [1e-6] *)
Definition f_1em6 : f64 := flit 1 1000000.
(** [1e-12] *)
Definition f_1em12 : f64 := flit 1 1000000000000.
(** [0.5] *)
Definition f_half : f64 := flit 1 2.
(** [0.1] *)

(** [std::f64::consts::{PI, TAU, FRAC_PI_2}] *)
Definition f_pi : f64 := fnorm 7074237752028440 (-51).
(** [TAU] *)
Definition f_tau : f64 := fnorm 7074237752028440 (-50).
(** [FRAC_PI_2] *)
Definition f_frac_pi_2 : f64 := fnorm 7074237752028440 (-52).

(** [f64::to_radians]: [self * (PI / 180.0)] *)
Definition to_radians (x : f64) : f64 := fmul x (fdiv f_pi (f_of_Z 180)).

(** [f64::max] / [f64::min]: a NaN operand is ignored. *)
Definition fmax (x y : f64) : f64 :=
  if is_nan x then y else if is_nan y then x else if fltb x y then y else x.
(** [f64::min] *)
Definition fmin (x y : f64) : f64 :=
  if is_nan x then y else if is_nan y then x else if fltb y x then y else x.

(** [f64::clamp(lo, hi)] (NaN stays NaN). *)
Definition fclamp (lo hi x : f64) : f64 :=
  let x := if fltb x lo then lo else x in
  if fltb hi x then hi else x.

(** [f64::round]: nearest integer, halves away from zero. *)
Definition fround (x : f64) : f64 := Bnearbyint mode_NA x.

(** [x as usize] on a 64-bit target: truncate, saturate, NaN to 0. *)
Definition usize_max : Z := 18446744073709551615.
(** [x as usize] *)
Definition f_to_usize (x : f64) : Z :=
  match x with
  | B754_nan => 0
  | B754_infinity s => if s then 0 else usize_max
  | _ => Z.max 0 (Z.min usize_max (Btrunc x))
  end.

(** The [%] operator (C [fmod]). *)
Definition frem (x y : f64) : f64 :=
  match x, y with
  | B754_nan, _ | _, B754_nan => B754_nan
  | B754_infinity _, _ => B754_nan
  | _, B754_zero _ => B754_nan
  | _, B754_infinity _ => x
  | B754_zero _, _ => x
  | B754_finite s m1 e1 _, B754_finite _ m2 e2 _ =>
      let e := Z.min e1 e2 in
      let a := (Zpos m1 * 2 ^ (e1 - e))%Z in
      let b := (Zpos m2 * 2 ^ (e2 - e))%Z in
      binary_normalize 53 1024 _ _ mode_NE (cond_Zopp s (Z.rem a b)) e s
  end.

(** [f64::rem_euclid] *)
Definition rem_euclid (x y : f64) : f64 :=
  let r := frem x y in
  if fltb r f0 then fadd r (fabs y) else r.

(** [x as f32] and [x as f64] (from [f32]). *)
Definition f64_to_f32 (x : f64) : f32 :=
  match x with
  | B754_nan => B754_nan
  | B754_infinity s => B754_infinity s
  | B754_zero s => B754_zero s
  | B754_finite s m e _ => binary_normalize 24 128 _ _ mode_NE (cond_Zopp s (Zpos m)) e s
  end.
(** [x as f64] for an [f32] *)
Definition f32_to_f64 (x : f32) : f64 :=
  match x with
  | B754_nan => B754_nan
  | B754_infinity s => B754_infinity s
  | B754_zero s => B754_zero s
  | B754_finite s m e _ => binary_normalize 53 1024 _ _ mode_NE (cond_Zopp s (Zpos m)) e s
  end.

(** Sanity checks (tests, not proofs): Rust's behaviour on a few literals. *)
Example rem_euclid_neg : B2SF (rem_euclid (f_of_Z (-30)) f100) = B2SF (f_of_Z 70).
Proof. vm_compute. reflexivity. Qed.
Example round_half : B2SF (fround (flit 5 2)) = B2SF (f_of_Z 3).
Proof. vm_compute. reflexivity. Qed.
Example cast_sat : f_to_usize (f_of_Z (-7)) = 0%Z /\ f_to_usize (flit 79 10) = 7%Z.
Proof. vm_compute. split; reflexivity. Qed.

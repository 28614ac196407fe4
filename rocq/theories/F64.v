(** IEEE 754 binary64 numbers as used by Python floats and numpy float64:
    Flocq's [BinarySingleNaN.binary_float 53 1024], round to nearest even.
    NaN payloads are not represented (the code never inspects them). *)
From Coq Require Import ZArith Reals.
From Flocq Require Export Core BinarySingleNaN.
Open Scope Z_scope.

Definition prec64 : Z := 53.
Definition emax64 : Z := 1024.

Global Instance prec64_gt_0 : Prec_gt_0 prec64. Proof. reflexivity. Qed.
Global Instance prec64_lt_emax64 : Prec_lt_emax prec64 emax64. Proof. reflexivity. Qed.

Definition f64 := binary_float prec64 emax64.

Definition f0 : f64 := B754_zero false.
Definition fnan : f64 := B754_nan.
Definition finf : f64 := B754_infinity false.
Definition fninf : f64 := B754_infinity true.

Definition fadd : f64 -> f64 -> f64 := Bplus mode_NE.
Definition fsub : f64 -> f64 -> f64 := Bminus mode_NE.
Definition fmul : f64 -> f64 -> f64 := Bmult mode_NE.
Definition fdiv : f64 -> f64 -> f64 := Bdiv mode_NE.
Definition fsqrt : f64 -> f64 := Bsqrt mode_NE.
Definition fopp : f64 -> f64 := @Bopp prec64 emax64.
Definition fabs : f64 -> f64 := @Babs prec64 emax64.
Definition feqb : f64 -> f64 -> bool := @Beqb prec64 emax64.
Definition fltb : f64 -> f64 -> bool := @Bltb prec64 emax64.
Definition fleb : f64 -> f64 -> bool := @Bleb prec64 emax64.
Definition fisnan : f64 -> bool := @is_nan prec64 emax64.
Definition fisfin : f64 -> bool := @is_finite prec64 emax64.

(** [np.ceil], [np.floor], [int(x)] (truncation) and
    [np.nextafter(x, np.inf)]. *)
Definition fceil : f64 -> f64 := Bnearbyint mode_UP.
Definition ffloor : f64 -> f64 := Bnearbyint mode_DN.
Definition ftruncZ : f64 -> Z := @Btrunc prec64 emax64.
Definition fsucc : f64 -> f64 := Bsucc.

(** numpy's [minimum], [maximum]: NaN operands win (numpy 1.15:
    [(a <= b || isnan(a)) ? a : b], and dually). *)
Definition fmin (a b : f64) : f64 := if orb (fleb a b) (fisnan a) then a else b.
Definition fmax (a b : f64) : f64 := if orb (fleb b a) (fisnan a) then a else b.

(** Conversion of an integer to the nearest double ([float(n)]). *)
Definition f_of_Z (n : Z) : f64 := binary_normalize prec64 emax64 _ _ mode_NE n 0 false.

(** [m * 2^e], rounded to nearest: a way to write literals. *)
Definition f_of_me (m e : Z) : f64 := binary_normalize prec64 emax64 _ _ mode_NE m e false.

(** Quotient literal: the double nearest to [n/d] for |n|,d < 2^53, e.g.
    [f_lit 1 10] is the Python literal 0.1. *)
Definition f_lit (n d : Z) : f64 := fdiv (f_of_Z n) (f_of_Z d).

Notation B2R64 := (@B2R prec64 emax64).

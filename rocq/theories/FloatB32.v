(** The float record at IEEE-754 binary32, using the standard library's
    executable specification [SpecFloat] (precision 24, emax 128).  NaN payloads
    are not represented.  [exp], [ln], [powf] are arguments: their results are
    not specified by IEEE-754 and the theorems hold for every choice. *)
From Coq Require Import ZArith NArith Bool Lia.
From Coq Require Import Floats.SpecFloat.
From Verif Require Import Base FloatOps.

Definition b32 := spec_float.
Definition b_add : b32 -> b32 -> b32 := SFadd 24 128.
Definition b_sub : b32 -> b32 -> b32 := SFsub 24 128.
Definition b_mul : b32 -> b32 -> b32 := SFmul 24 128.
Definition b_div : b32 -> b32 -> b32 := SFdiv 24 128.
Definition b_sqrt : b32 -> b32 := SFsqrt 24 128.
(** [z as f32], rounded to nearest even. *)
Definition b_of_Z (z : Z) : b32 := binary_normalize 24 128 z 0 false.
(** A literal num/den; num and den are below 2^24 in the code, so the quotient is
    the correctly rounded literal. *)
Definition b_lit (n : Z) (d : positive) : b32 :=
  match d with xH => b_of_Z n | _ => b_div (b_of_Z n) (b_of_Z (Zpos d)) end.
Definition b_isnan (a : b32) : bool := match a with S754_nan => true | _ => false end.
Definition b_isinf (a : b32) : bool := match a with S754_infinity _ => true | _ => false end.
Definition b_signum (a : b32) : b32 :=
  match a with
  | S754_nan => S754_nan
  | S754_zero s | S754_infinity s | S754_finite s _ _ => if s then b_of_Z (-1) else b_of_Z 1
  end.
(** [as u32]: truncate toward zero, saturate, NaN gives 0. *)
Definition b_to_u32 (a : b32) : N :=
  match a with
  | S754_nan | S754_zero _ => 0
  | S754_infinity s => if s then 0 else 4294967295
  | S754_finite s m e =>
      if s then 0 else N.min 4294967295 (N.of_nat 0 + Z.to_N (if (0 <=? e)%Z then Zpos m * 2 ^ e else Zpos m / 2 ^ (- e)))
  end%N.

Definition BF (bexp bln : b32 -> b32) (bpow : b32 -> b32 -> b32) : FOps := {|
  F := b32;
  f_lit := b_lit;
  f_add := b_add; f_sub := b_sub; f_mul := b_mul; f_div := b_div;
  f_neg := SFopp; f_abs := SFabs; f_sqrt := b_sqrt;
  f_exp := bexp; f_ln := bln; f_pow := bpow;
  f_eqb := SFeqb; f_ltb := SFltb; f_leb := SFleb;
  f_isnan := b_isnan; f_isinf := b_isinf;
  f_signum := b_signum; f_to_u32 := b_to_u32
|}.

Example b_lit_one : b_lit 1 1 = S754_finite false 8388608 (-23).
Proof. reflexivity. Qed.
Example b_lit_0999 : b_lit 999 1000 = S754_finite false 16760439 (-24).
Proof. vm_compute. reflexivity. Qed.
Example b_to_u32_ex : b_to_u32 (b_lit 7 2) = 3%N.
Proof. vm_compute. reflexivity. Qed.

(** A concrete instance for examples and witnesses ([exp] etc. are irrelevant there). *)
Definition BF0 : FOps := BF (fun x => x) (fun x => x) (fun x _ => x).

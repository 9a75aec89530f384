(** The float record at exactly the IEEE-754 binary32 floats (NaN payloads left out): the
    values of [SpecFloat] whose mantissa is normalised and whose exponent is in range.
    The operations are those of [FloatB32]; that they stay within the floats is proved in
    Proof_FloatSqrt.  [exp], [ln], [powf] are arguments. *)
From Coq Require Import ZArith NArith Bool Eqdep_dec.
From Coq Require Import Floats.SpecFloat.
From Verif Require Import Base FloatOps FloatB32 Spec_FloatReal Proof_FloatRound Proof_FloatSqrt.

Definition v32 : Type := { x : b32 | bok x }.
Definition un (x : v32) : b32 := proj1_sig x.
Definition v_lit (n : Z) (d : positive) : v32 := exist _ (b_lit n d) (lit_ok n d).
Definition v_add (a b : v32) : v32 := exist _ (b_add (un a) (un b)) (add_ok _ _ (proj2_sig a) (proj2_sig b)).
Definition v_sub (a b : v32) : v32 := exist _ (b_sub (un a) (un b)) (sub_ok _ _ (proj2_sig a) (proj2_sig b)).
Definition v_mul (a b : v32) : v32 := exist _ (b_mul (un a) (un b)) (mul_ok _ _ (proj2_sig a) (proj2_sig b)).
Definition v_div (a b : v32) : v32 := exist _ (b_div (un a) (un b)) (div_ok _ _ (proj2_sig a) (proj2_sig b)).
Definition v_neg (a : v32) : v32 := exist _ (SFopp (un a)) (opp_ok _ (proj2_sig a)).
Definition v_abs (a : v32) : v32 := exist _ (SFabs (un a)) (abs_ok _ (proj2_sig a)).
Definition v_sqrt (a : v32) : v32 := exist _ (b_sqrt (un a)) (sqrt_ok _ (proj2_sig a)).
Definition v_signum (a : v32) : v32 := exist _ (b_signum (un a)) (signum_ok _ (proj2_sig a)).

Definition VF (vexp vln : v32 -> v32) (vpow : v32 -> v32 -> v32) : FOps := {|
  F := v32;
  f_lit := v_lit;
  f_add := v_add; f_sub := v_sub; f_mul := v_mul; f_div := v_div;
  f_neg := v_neg; f_abs := v_abs; f_sqrt := v_sqrt;
  f_exp := vexp; f_ln := vln; f_pow := vpow;
  f_eqb := fun a b => SFeqb (un a) (un b); f_ltb := fun a b => SFltb (un a) (un b); f_leb := fun a b => SFleb (un a) (un b);
  f_isnan := fun a => b_isnan (un a); f_isinf := fun a => b_isinf (un a);
  f_signum := v_signum; f_to_u32 := fun a => b_to_u32 (un a)
|}.

(** two floats with the same value are the same *)
Lemma un_inj : forall a b : v32, un a = un b -> a = b.
Proof.
  intros (a & Ha) (b & Hb) E. cbn in E. subst b. f_equal. apply UIP_dec. decide equality.
Qed.

(** A concrete instance for examples and witnesses. *)
Definition VF0 : FOps := VF (fun x => x) (fun x => x) (fun x _ => x).

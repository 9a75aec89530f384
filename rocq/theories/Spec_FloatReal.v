(** The numbers that single precision floats stand for, and distributions given by them. *)
From Coq Require Import List NArith ZArith Bool Reals.
From Coq Require Import Floats.SpecFloat.
From Verif Require Import FloatB32 Spec_Explore.
Import ListNotations.
Open Scope Z_scope.

(** 2^e *)
Definition p2 (e : Z) : R := powerRZ 2 e.
(** sign *)
Definition bsgn (s : bool) : R := if s then (-1)%R else 1%R.
(** the number; 0 for what is not a number *)
Definition bval (x : b32) : R := match x with S754_finite s m e => (bsgn s * (IZR (Zpos m) * p2 e))%R | _ => 0%R end.
(** neither infinite nor NaN *)
Definition bfin (x : b32) : bool := match x with S754_finite _ _ _ | S754_zero _ => true | _ => false end.
(** the standard library's condition for being one of the 2^32 floats: the mantissa is
    normalised and the exponent in range *)
Definition bok (x : b32) : Prop := valid_binary 24 128 x = true.
(** a finite float with its number *)
Definition bnum (x : b32) : Prop := bok x /\ bfin x = true.

(** sum of the numbers, without rounding *)
Definition fsum (l : list (N * b32)) : R := total (map (fun e => (fst e, bval (snd e))) l).
(** all values are finite and not negative *)
Definition fnonneg (l : list (N * b32)) : Prop := forall a p, In (a, p) l -> bnum p /\ (0 <= bval p)%R.
(** a distribution up to an error in the sum *)
Definition fdist (l : list (N * b32)) (err : R) : Prop := fnonneg l /\ (Rabs (fsum l - 1) <= err)%R.
(** all numbers are finite *)
Definition fnumbers (l : list (N * b32)) : Prop := forall a p, In (a, p) l -> bnum p.
(** the numbers are less than 2^127 apart *)
Definition fclose (l : list (N * b32)) : Prop :=
  forall a p b q, In (a, p) l -> In (b, q) l -> (bval p - bval q < p2 127)%R.
(** What is asked of the exponential function: at zero it is one, and below zero
    (including minus infinity) it is a number in [0,1]. *)
Definition exp_unit (bexp : b32 -> b32) : Prop :=
  (forall s, bexp (S754_zero s) = b_of_Z 1) /\
  (forall x, bok x -> (exists m e, x = S754_finite true m e) \/ x = S754_infinity true ->
     bnum (bexp x) /\ (0 <= bval (bexp x) <= 1)%R).
(** the scale of an exploration: finite and not negative; if it is zero the scores must be
    close enough for their differences not to overflow *)
Definition factor (g : b32) (l : list (N * b32)) : Prop := bnum g /\ (0 <= bval g)%R /\ ((0 < bval g)%R \/ fclose l).
(** a rate between 0 and 1 *)
Definition rate (e : b32) : Prop := bnum e /\ (0 <= bval e <= 1)%R.
(** the list with the numbers in place of the floats *)
Definition vals (l : list (N * b32)) : list (N * R) := map (fun e => (fst e, bval (snd e))) l.

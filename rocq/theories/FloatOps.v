(** The f32 operations used by the code, as an ordinary record passed to the
    model functions.  No law is assumed; [FloatR] and [FloatB32] give instances. *)
From Coq Require Import List NArith ZArith Bool.
From Verif Require Import Base.

Record FOps : Type := mkFOps {
  F :> Type;
  f_lit : Z -> positive -> F;        (* decimal literal num/den, and [n as f32] *)
  f_add : F -> F -> F;
  f_sub : F -> F -> F;
  f_mul : F -> F -> F;
  f_div : F -> F -> F;
  f_neg : F -> F;
  f_abs : F -> F;
  f_sqrt : F -> F;
  f_exp : F -> F;
  f_ln : F -> F;
  f_pow : F -> F -> F;
  f_eqb : F -> F -> bool;            (* ==, false on NaN *)
  f_ltb : F -> F -> bool;            (* <, false on NaN *)
  f_leb : F -> F -> bool;            (* <=, false on NaN *)
  f_isnan : F -> bool;
  f_isinf : F -> bool;
  f_signum : F -> F;
  f_to_u32 : F -> N                  (* saturating [as u32] *)
}.

Section Derived.
  Context (O : FOps).
  Definition fl (n : Z) : O := f_lit O n 1.
  Definition f0 : O := fl 0.
  Definition f1 : O := fl 1.
  (** [usize as f32] *)
  Definition f_of_N (n : N) : O := fl (Z.of_N n).
  Definition f_of_nat (n : nat) : O := fl (Z.of_nat n).
  Definition f_gtb (a b : O) : bool := f_ltb O b a.
  Definition f_geb (a b : O) : bool := f_leb O b a.
  (** f32::min / f32::max: a NaN operand is ignored.  For two zeros of opposite
      sign Rust leaves the result open; here the receiver is returned. *)
  Definition f_min (a b : O) : O :=
    if f_isnan O a then b else if f_isnan O b then a else if f_ltb O b a then b else a.
  Definition f_max (a b : O) : O :=
    if f_isnan O a then b else if f_isnan O b then a else if f_ltb O a b then b else a.
  (** f32::clamp: panics unless min <= max (so also on NaN bounds). *)
  Definition f_clamp (x lo hi : O) : out O :=
    if f_leb O lo hi then
      Ok (let x := if f_ltb O x lo then lo else x in
          if f_ltb O hi x then hi else x)
    else Pn PNaN.
  (** f32::partial_cmp *)
  Definition f_pcmp (a b : O) : option comparison :=
    if f_isnan O a || f_isnan O b then None
    else Some (if f_ltb O a b then Lt else if f_ltb O b a then Gt else Eq).
  (** f32 as approx::AbsDiffEq (approx 0.5 abs_diff_eq.rs): equal, or both finite
      and |a-b| <= eps. *)
  Definition f_absdiffeq (eps a b : O) : bool :=
    if f_eqb O a b then true
    else if f_isinf O a || f_isinf O b then false
    else f_leb O (f_abs O (f_sub O a b)) eps.
End Derived.
Arguments fl {O}. Arguments f0 {O}. Arguments f1 {O}.
Arguments f_of_N {O}. Arguments f_of_nat {O}.
Arguments f_gtb {O}. Arguments f_geb {O}. Arguments f_min {O}. Arguments f_max {O}.
Arguments f_clamp {O}. Arguments f_pcmp {O}. Arguments f_absdiffeq {O}.

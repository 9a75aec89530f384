(** Metrics: /repo/reductionml-core/src/metrics/*.rs.
    The u64 counters are unbounded here (they would wrap after 2^64 examples or
    features); names for display and the rendering as text are left out. *)
From Coq Require Import List NArith ZArith Bool.
From Verif Require Import Base FloatOps Model_Hash Model_Features Model_Types.
Import ListNotations.
Open Scope N_scope.

(** metric.rs:12-17 [MetricValue], the variants that occur *)
Inductive mvalue (A : Type) : Type := MVFloat (x : A) | MVInt (z : Z).
Arguments MVFloat {A}. Arguments MVInt {A}.

(** mean_squared_error.rs:5-8, ips.rs:5-8, parsed_features.rs:5-7, example_number.rs:5-7 *)
Inductive metric (A : Type) : Type :=
| MMse (value : A) (count : N)
| MIps (count : N) (reward : A)
| MParsed (count : N)
| MExample (count : N).
Arguments MMse {A}. Arguments MIps {A}. Arguments MParsed {A}. Arguments MExample {A}.

(** [u64 as i32]: the low 32 bits, as a signed number *)
Definition as_i32 (n : N) : Z :=
  let m := n mod u32_mod in
  if m <? 2147483648 then Z.of_N m else (Z.of_N m - 4294967296)%Z.
(** i32 subtraction *)
Definition sub_i32 (dbg : bool) (a b : Z) : out Z :=
  let r := (a - b)%Z in
  if ((-2147483648 <=? r) && (r <=? 2147483647))%Z then Ok r
  else if dbg then Pn POverflow else Ok ((r + 2147483648) mod 4294967296 - 2147483648)%Z.

Section Metrics.
Context (O : FOps).

(** parsed_features.rs:28-54: the number of features of an example *)
Definition feature_count (f : features O) : N :=
  match f with
  | FtsSimple s => N.of_nat (length (sf_all s))
  | FtsCb sh acts =>
      N.of_nat (match sh with Some s => length (sf_all s) | None => 0%nat end)
      + fold_left (fun n a => n + N.of_nat (length (sf_all a))) acts 0
  end.

(** types.rs [as_inner] for action probabilities *)
Definition as_probs (p : prediction O) : out (list (N * O)) :=
  match p with PrProbs l => Ok l | _ => Pn PType end.

(** [add_point]: mean_squared_error.rs:26-36, ips.rs:26-47, parsed_features.rs:22-55,
    example_number.rs:22-29 *)
Definition metric_add (m : metric O) (f : features O) (lb : label O) (p : prediction O) : out (metric O) :=
  match m with
  | MMse v c =>
      let* l := as_simple_label lb in
      let* s := as_scalar p in
      let d := f_sub O (fst l) (fst s) in
      Ok (MMse (f_add O v (f_mul O d d)) (c + 1))
  | MIps c r =>
      let* l := as_cb_label lb in
      let '(a, cost, plog) := l in
      let* ps := as_probs p in
      let* x := opt_or PNone (find (fun q => fst q =? a) ps) in
      let w := f_div O (snd x) plog in
      Ok (MIps (c + 1) (f_add O r (f_mul O (f_mul O (f_neg O f1) cost) w)))
  | MParsed c => Ok (MParsed (c + feature_count f))
  | MExample c => Ok (MExample (c + 1))
  end.

(** [get_value]: mean_squared_error.rs:38-40, ips.rs:49-51, parsed_features.rs:56-58,
    example_number.rs:31-36 *)
Definition metric_value (dbg : bool) (m : metric O) : out (mvalue O) :=
  match m with
  | MMse v c => Ok (MVFloat (f_div O v (f_of_N c)))
  | MIps c r => Ok (MVFloat (f_div O r (f_of_N c)))
  | MParsed c => if c <? 2147483648 then Ok (MVInt (Z.of_N c)) else Pn PErr
  | MExample c =>
      if c =? 0 then Pn PTodo
      else let* z := sub_i32 dbg (as_i32 c) 1 in Ok (MVInt z)
  end.

(** [new] *)
Definition mse_new : metric O := MMse f0 0.
Definition ips_new : metric O := MIps 0 f0.
Definition parsed_new : metric O := MParsed 0.
Definition example_new : metric O := MExample 0.

(** metric_registry.rs:5-13 [get_metric]; names as code points *)
Definition name_mse : str := [109; 115; 101].
Definition name_ips : str := [105; 112; 115].
Definition name_parsed : str := [112; 97; 114; 115; 101; 100; 95; 102; 101; 97; 116; 117; 114; 101; 115].
Definition name_example : str := [101; 120; 97; 109; 112; 108; 101; 95; 110; 117; 109; 98; 101; 114].
Definition get_metric (name : str) : option (metric O) :=
  if str_eqb name name_mse then Some mse_new
  else if str_eqb name name_ips then Some ips_new
  else if str_eqb name name_parsed then Some parsed_new
  else if str_eqb name name_example then Some example_new
  else None.
End Metrics.
Arguments feature_count {O}. Arguments as_probs {O}. Arguments metric_add {O}. Arguments metric_value {O}.
Arguments mse_new {O}. Arguments ips_new {O}. Arguments parsed_new {O}. Arguments example_new {O}.
Arguments get_metric {O}.

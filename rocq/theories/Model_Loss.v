(** Loss functions: /repo/reductionml-core/src/loss_function.rs,
    loss_function/squared_loss.rs, loss_function/logistic_loss.rs. *)
From Coq Require Import List NArith ZArith Bool.
From Verif Require Import Base FloatOps.
Open Scope Z_scope.

(** loss_function.rs:27-30 [LossFunction]; logistic_loss.rs:8-13 the label range. *)
Inductive loss (A : Type) : Type :=
| LossSquared
| LossLogistic (mn mx : A).
Arguments LossSquared {A}. Arguments LossLogistic {A}.

Section Loss.
Context (O : FOps).
Local Notation "a +. b" := (f_add O a b) (at level 50, left associativity).
Local Notation "a -. b" := (f_sub O a b) (at level 50, left associativity).
Local Notation "a *. b" := (f_mul O a b) (at level 40, left associativity).
Local Notation "a /. b" := (f_div O a b) (at level 40, left associativity).
Local Notation "a <. b" := (f_ltb O a b) (at level 70).
Local Notation "a <=. b" := (f_leb O a b) (at level 70).
Local Notation f2 := (@fl O 2).

(** squared_loss.rs:16-32 *)
Definition sq_loss (mn mx p l : O) : O :=
  if (p <=. mx) && (mn <=. p) then (p -. l) *. (p -. l)
  else if p <. mn then
    if f_eqb O l mn then f0
    else (l -. mn) *. (l -. mn) +. f2 *. (l -. mn) *. (mn -. p)
  else if f_eqb O l mx then f0
  else (mx -. l) *. (mx -. l) +. f2 *. (mx -. l) *. (p -. mx).

(** squared_loss.rs:34-51 *)
Definition sq_update (p l scale ppu : O) : O :=
  if scale *. ppu <. f_lit O 1 1000000 then f2 *. (l -. p) *. scale
  else (l -. p) *. (f1 -. f_exp O (f_neg O f2 *. scale *. ppu)) /. ppu.

(** squared_loss.rs:53-55 *)
Definition sq_unsafe_update (p l scale : O) : O := f2 *. (l -. p) *. scale.
(** squared_loss.rs:57-59 *)
Definition sq_square_grad (p l : O) : O := fl 4 *. (p -. l) *. (p -. l).
(** squared_loss.rs:61-71 *)
Definition sq_d1 (mn mx p l : O) : O :=
  let pred := if p <. mn then mn else if f_gtb p mx then mx else p in
  f2 *. (pred -. l).
(** squared_loss.rs:73-85 *)
Definition sq_d2 (mn mx p l : O) : O :=
  if (p <=. mx) && (mn <=. p) then f2 else f0.

(** logistic_loss.rs:22-25; the debug_assert holds at both call sites (label is the
    literal 1.0 or -1.0) and is left out. *)
Definition lg_loss_sub (p l : O) : O := f_ln O (f1 +. f_exp O (f_neg O l *. p)).
(** logistic_loss.rs:63-66 *)
Definition lg_unsafe_update_sub (p l scale : O) : O :=
  l *. scale /. (f1 +. f_exp O (l *. p)).
(** logistic_loss.rs:68-70 *)
Definition lg_d1_sub (p l : O) : O := f_neg O l /. (f1 +. f_exp O (l *. p)).
(** logistic_loss.rs:72-75 *)
Definition lg_d2_sub (p l : O) : O :=
  let q := f1 /. (f1 +. f_exp O (l *. p)) in q *. (f1 -. q).

Definition fm1 : O := f_neg O f1.
(** logistic_loss.rs:89, 101, 107, 124, 136 *)
Definition std_label (mn mx l : O) : O := (l -. mn) /. (mx -. mn).
Definition lg_mix (mn mx l a b : O) : O :=
  std_label mn mx l *. a +. (f1 -. std_label mn mx l) *. b.

(** logistic_loss.rs:87-92 *)
Definition lg_loss (dbg : bool) (mn mx p l : O) : out O :=
  if dbg && negb ((mn <=. l) && (l <=. mx)) then Pn PAssert
  else Ok (lg_mix mn mx l (lg_loss_sub p f1) (lg_loss_sub p fm1)).
(** logistic_loss.rs:106-110 *)
Definition lg_unsafe_update (mn mx p l scale : O) : O :=
  lg_mix mn mx l (lg_unsafe_update_sub p f1 scale) (lg_unsafe_update_sub p fm1 scale).
(** logistic_loss.rs:117-127 *)
Definition lg_d1 (mn mx p l : O) : O := lg_mix mn mx l (lg_d1_sub p f1) (lg_d1_sub p fm1).
(** logistic_loss.rs:112-115 *)
Definition lg_square_grad (mn mx p l : O) : O := let d := lg_d1 mn mx p l in d *. d.
(** logistic_loss.rs:129-139 *)
Definition lg_d2 (mn mx p l : O) : O := lg_mix mn mx l (lg_d2_sub p f1) (lg_d2_sub p fm1).

(** logistic_loss.rs:28-61, 94-104: [wexpmx] computes in f64.  [D] is the f64
    record, [up] and [down] the casts. *)
Section Double.
Context (D : FOps) (up : O -> D) (down : D -> O).
Definition wexpmx (x0 : O) : O :=
  let x := up x0 in
  let ge1 := f_leb D f1 x in
  let w := if ge1 then f_add D (f_mul D (f_lit D 86 100) x) (f_lit D 1 100)
           else f_exp D (f_add D (f_neg D (f_lit D 65 100)) (f_mul D (f_lit D 8 10) x)) in
  let r := if ge1 then f_sub D (f_sub D x (f_ln D w)) w
           else f_sub D (f_add D (f_mul D (f_lit D 2 10) x) (f_lit D 65 100)) w in
  let t := f_add D f1 w in
  let u := f_mul D (f_mul D (fl 2) t)
                   (f_add D t (f_div D (f_mul D (fl 2) r) (fl 3))) in
  down (f_sub D
    (f_mul D w (f_add D f1
       (f_div D (f_mul D (f_div D r t) (f_sub D u r)) (f_sub D u (f_mul D (fl 2) r))))) x).

(** logistic_loss.rs:50-61 [get_update_sub] *)
Definition lg_update_sub (p l scale ppu : O) : O :=
  let d := f_exp O (l *. p) in
  if scale *. ppu <. f_lit O 1 1000000 then l *. scale /. (f1 +. d)
  else
    let x := scale *. ppu +. l *. p +. d in
    f_neg O (l *. wexpmx x +. p) /. ppu.

(** logistic_loss.rs:94-104 [get_update] *)
Definition lg_update (mn mx p l scale ppu : O) : O :=
  lg_mix mn mx l (lg_update_sub p f1 scale ppu) (lg_update_sub p fm1 scale ppu).
End Double.

(** loss_function.rs:66-72 *)
Definition loss_get (dbg : bool) (k : loss O) (mn mx p l : O) : out O :=
  match k with
  | LossSquared => Ok (sq_loss mn mx p l)
  | LossLogistic a b => lg_loss dbg a b p l
  end.
(** loss_function.rs:91-96 *)
Definition loss_unsafe_update (k : loss O) (p l scale : O) : O :=
  match k with
  | LossSquared => sq_unsafe_update p l scale
  | LossLogistic a b => lg_unsafe_update a b p l scale
  end.
(** loss_function.rs:98-103 *)
Definition loss_square_grad (k : loss O) (p l : O) : O :=
  match k with
  | LossSquared => sq_square_grad p l
  | LossLogistic a b => lg_square_grad a b p l
  end.
(** loss_function.rs:105-114 *)
Definition loss_d1 (k : loss O) (mn mx p l : O) : O :=
  match k with
  | LossSquared => sq_d1 mn mx p l
  | LossLogistic a b => lg_d1 a b p l
  end.
(** loss_function.rs:116-131 *)
Definition loss_d2 (k : loss O) (mn mx p l : O) : O :=
  match k with
  | LossSquared => sq_d2 mn mx p l
  | LossLogistic a b => lg_d2 a b p l
  end.
End Loss.
Arguments sq_loss {O}. Arguments sq_update {O}. Arguments sq_unsafe_update {O}.
Arguments sq_square_grad {O}. Arguments sq_d1 {O}. Arguments sq_d2 {O}.
Arguments lg_loss_sub {O}. Arguments lg_unsafe_update_sub {O}. Arguments lg_d1_sub {O}. Arguments lg_d2_sub {O}.
Arguments fm1 {O}. Arguments std_label {O}. Arguments lg_mix {O}. Arguments lg_loss {O}.
Arguments lg_unsafe_update {O}. Arguments lg_d1 {O}. Arguments lg_square_grad {O}. Arguments lg_d2 {O}.
Arguments wexpmx {O}. Arguments lg_update_sub {O}. Arguments lg_update {O}.
Arguments loss_get {O}. Arguments loss_unsafe_update {O}. Arguments loss_square_grad {O}.
Arguments loss_d1 {O}. Arguments loss_d2 {O}.

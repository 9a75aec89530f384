(** Specification of a weight table: a function from (feature, model) to a state. *)
From Coq Require Import List NArith ZArith Bool.
From Verif Require Import Base FloatOps Model_Weights.
Import ListNotations.
Open Scope N_scope.

Section Spec.
Context {O : FOps}.

(** a write of a whole state *)
Definition wop : Type := (N * N * list O)%type.

(** in range for a table with [f] features, [m] models, [s] values per state *)
Definition wop_ok (f m s : N) (o : wop) : Prop :=
  let '(fi, mi, st) := o in fi < f /\ mi < m /\ length st = N.to_nat s.

(** the state of (fi, mi): the last one written, zeros at first *)
Definition last_write (s : N) (ops : list wop) (fi mi : N) : list O :=
  fold_left (fun acc o => let '(fi', mi', st) := o in
               if (fi' =? fi) && (mi' =? mi) then st else acc)
            ops (repeat f0 (N.to_nat s)).

(** the write on the modelled table *)
Definition wop_run (dbg : bool) (w : dweights O) (o : wop) : out (dweights O) :=
  let '(fi, mi, st) := o in dw_state_upd dbg w fi mi (fun _ => Ok st).

(** [y] is [x], up to replacing a zero by the positive zero *)
Definition zero_same (x y : O) : Prop := y = x \/ (f_eqb O x f0 = true /\ y = f0).

Definition same_shape (a b : dweights O) : Prop :=
  dw_fsize a = dw_fsize b /\ dw_msize a = dw_msize b /\ dw_ssize a = dw_ssize b /\
  dw_mshift a = dw_mshift b /\ dw_sshift a = dw_sshift b.

End Spec.
Arguments wop : clear implicits.

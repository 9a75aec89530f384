(** Exploring stacks over their lifetime, on exactly the single precision floats. *)
From Coq Require Import List NArith ZArith Bool Reals.
From Coq Require Import Floats.SpecFloat.
From Verif Require Import Base FloatOps FloatB32 FloatV32 Model_Types Model_Explore Model_Stack Model_Factory Spec_FloatReal.
Import ListNotations.
Open Scope N_scope.

Section Spec.
Context {O : FOps}.
(** the exploration a configuration asks for, through debug reductions *)
Fixpoint explorer_of (c : rcfg O) : option (kind O) :=
  match c with
  | CDebug c' => explorer_of c'
  | CGreedy eps _ => Some (KGreedy eps)
  | CSoftmax ueps la _ => Some (KSoftmax ueps la 0)
  | CSquareCb ueps gs ge _ => Some (KSquareCb ueps gs ge 0)
  | _ => None
  end.
(** the same exploration; counters may differ *)
Definition same_explorer (k k' : kind O) : Prop :=
  match k, k' with
  | KGreedy e, KGreedy e' => e = e'
  | KSoftmax u l _, KSoftmax u' l' _ => u = u' /\ l = l'
  | KSquareCb u g x _, KSquareCb u' g' x' _ => u = u' /\ g = g' /\ x = x'
  | _, _ => False
  end.
(** [k] is the topmost reduction of the stack [r] apart from debug reductions, and [ch]
    the stack below it *)
Inductive topmost : forall n, red O n -> kind O -> forall m, red O m -> Prop :=
| top_here : forall n w k (ch : red O n), topmost (S n) ((w, k, ch) : red O (S n)) k n ch
| top_debug : forall n w (ch : red O n) k m x, topmost n ch k m x -> topmost (S n) ((w, KDebug, ch) : red O (S n)) k m x.
End Spec.

(** the values of a list of floats *)
Definition unl (l : list (N * v32)) : list (N * b32) := map (fun e => (fst e, un (snd e))) l.
(** no number is infinite *)
Definition no_inf (l : list (N * v32)) : Prop := forall a s, In (a, s) l -> b_isinf (un s) = false.
(** what is asked of the exponential function, see [exp_unit] *)
Definition vexp_unit (vexp : v32 -> v32) : Prop :=
  (forall x s, un x = S754_zero s -> un (vexp x) = b_of_Z 1) /\
  (forall x, (exists m e, un x = S754_finite true m e) \/ un x = S754_infinity true ->
     bfin (un (vexp x)) = true /\ (0 <= bval (un (vexp x)) <= 1)%R).
(** the parameters are in range, and for softmax and SquareCB no score is infinite *)
Definition settled (vexp vln : v32 -> v32) (vpow : v32 -> v32 -> v32) (k : kind (VF vexp vln vpow)) (sc : list (N * v32)) : Prop :=
  match k with
  | KGreedy eps => rate (un eps)
  | KSoftmax ueps la _ => rate (un ueps) /\ factor (un la) (unl sc) /\ no_inf sc /\ vexp_unit vexp
  | KSquareCb ueps gs ge counter =>
      rate (un ueps) /\ factor (un (v_mul gs (vpow (v_lit (Z.of_N counter) 1) ge))) (unl sc) /\ no_inf sc
  | _ => False
  end.

(** What the statements about progressive validation talk about (C63). *)
From Coq Require Import List NArith Bool.
From Verif Require Import Base FloatOps Model_Hash Model_Features Model_Types Model_Stack Model_Factory Model_Metrics Model_Train Spec_Metrics.
Import ListNotations.

Section S.
Context {O : FOps}.
Definition example : Type := (features O * label O)%type.

(** The model [r'] is what learning from the examples, in order, makes of [r]. *)
Inductive learned (dbg : bool) {n} : red O n -> list example -> red O n -> Prop :=
| learned_nil : forall r, learned dbg r [] r
| learned_cons : forall r f lb r1 f' l r', ws_learn dbg r f lb = Ok (r1, f') -> learned dbg r1 l r' ->
    learned dbg r ((f, lb) :: l) r'.

(** The predictions [ps]: each example is predicted with the model that has learned from
    the examples before it and from no other. *)
Inductive progressive (dbg : bool) {n} : red O n -> list example -> list (prediction O) -> Prop :=
| progressive_nil : forall r, progressive dbg r [] []
| progressive_cons : forall r f lb p f1 r1 f2 l ps,
    ws_predict dbg r f = Ok (p, f1) -> ws_learn dbg r f lb = Ok (r1, f2) -> progressive dbg r1 l ps ->
    progressive dbg r ((f, lb) :: l) (p :: ps).

(** The points given to the metrics. *)
Definition points_of (l : list example) (ps : list (prediction O)) : list (point O) :=
  map (fun x => mkPt (fst (fst x)) (snd (fst x)) (snd x)) (combine l ps).

(** A row of the table: the value of each metric over the first [k] points. *)
Definition row_after (dbg : bool) (names : list str) (pts : list (point O)) (k : nat) (row : list (mvalue O)) : Prop :=
  Forall2 (fun name v => exists m0 m, get_metric name = Some m0 /\ add_points m0 (firstn k pts) = Ok m /\
                           metric_value dbg m = Ok v) names row.

(** After how many examples, counted on from [k], an answer is "yes". *)
Fixpoint answered (k : nat) (bs : list bool) : list nat :=
  match bs with
  | [] => []
  | b :: bs => (if b then [S k] else []) ++ answered (S k) bs
  end.
End S.
Arguments example O : clear implicits.

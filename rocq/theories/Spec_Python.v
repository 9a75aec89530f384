(** The Python module as its users think of it: no pool, every feature object is new. *)
From Coq Require Import List NArith Bool.
From Verif Require Import Base FloatOps Model_Hash Model_Features Model_Types Model_Stack Model_Factory Model_Text Model_Train Model_Json Model_Python Spec_Json Spec_Reductions Spec_Total.
Import ListNotations.

Section Spec.
Context {O : FOps} (H : hasher) (dbg : bool) (pf : str -> option O) (rd : str -> option (json O)) (al : alloc).

(** parsing into new objects *)
Definition new_ps (fm : pyformat) (ft : feat_type) (lt : label_type) (seed nb : N) (s : str) : out (features O * option (label O)) :=
  match fm with
  | FVwText => parse_chunk H pf dbg seed nb ft lt [] s
  | FJson => json_example O H dbg seed nb al rd ft lt [] s
  | FDsJson => ds_chunk O H dbg seed nb rd [] s
  end.
(** a run; the orders of hash maps are given *)
Fixpoint new_run (ops : list (pyord O * pyop O)) (h : list (option (pyobj O))) : list (pyres O) :=
  match ops with
  | [] => []
  | (ord, op) :: ops =>
      match py_call H dbg sf_new new_ps ord h op with
      | None => []
      | Some (r, None) => [r]
      | Some (r, Some h') => r :: new_run ops h'
      end
  end.
End Spec.
(** a call that parses *)
Definition is_parse {O} (op : pyop O) : Prop := exists p s, op = Parse p s.
(** no JSON document given to a parser contains a list of strings as a namespace *)
Definition no_string_lists {O : FOps} (rd : str -> option (json O)) (ops : list (pyop O)) : Prop :=
  forall p s v ft, In (Parse p s) ops -> rd s = Some v -> Forall no_lists (json_parts ft v).
(** the feature objects a program holds *)
Definition held {O} (h : list (option (pyobj O))) : nat :=
  list_sum (map (fun o => match o with Some (OFeats f) => length (parts f) | _ => 0%nat end) h).
(** the reduction that answers is Binary, perhaps below Debug layers *)
Fixpoint binary_top {O : FOps} (n : nat) : red O n -> Prop :=
  match n with
  | 0%nat => fun _ => False
  | S m => fun r => match snd (fst r) with KBinary => True | KDebug => binary_top m (snd r) | _ => False end
  end.
(** the call gave nothing but an exception *)
Definition raised {O} (r : pyres O) : Prop :=
  match r with RTypeError | RPanic _ | RError _ => True | _ => False end.
(** calls in a row, none of them fatal, all states with a property *)
Inductive steps {O : FOps} (H : hasher) (dbg : bool) (pf : str -> option O) (rd : str -> option (json O)) (P : pystate -> Prop) : pystate -> pystate -> Prop :=
| steps_nil : forall st, P st -> steps H dbg pf rd P st st
| steps_cons : forall st w op r st' st'', P st -> py_exec H dbg pf rd w st op = Some (r, Some st') -> steps H dbg pf rd P st' st'' ->
    steps H dbg pf rd P st st''.
(** no workspace uses the element-wise reduction *)
Definition no_elem {O : FOps} (st : pystate (O := O)) : Prop :=
  forall i gc ex R, py_get (py_heap st) i = Some (OWs gc ex R) -> uses_elem (projT2 R) = false.
(** what a workspace needs to predict, and to learn, besides features of its kind: there
    is a Python class for its predictions; no softmax, no SquareCB; an action to explore;
    the right kind of label; for the mtr cost type shared features and an existing action *)
Definition can_predict {O : FOps} {n} (r : red O n) (x : features O) : Prop :=
  td_out_pred (red_types r) <> PTBinary /\ uses_weighted r = false /\ (td_out_pred (red_types r) = PTProbs -> num_actions x <> 0%N).
Definition can_learn {O : FOps} {n} (r : red O n) (x : features O) (lb : label O) : Prop :=
  label_type_of lb = td_in_label (red_types r) /\ (uses_mtr r = true -> mtr_example x lb).

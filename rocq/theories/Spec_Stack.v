(** What the statements about reduction stacks talk about. *)
From Coq Require Import List NArith ZArith Bool.
From Verif Require Import Base FloatOps Model_Hash Model_Features Model_Weights Model_Types Model_Explore
  Model_Coin Model_Stack Spec_Features.
Import ListNotations.

Section Spec.
Context {O : FOps}.

(** A feature object built with the public interface. *)
Definition built (m : sfeats O) : Prop :=
  exists dbg h st i, fops_run dbg h fstore0 = Ok st /\ m = st i.

(** It holds no visible namespace of the kind the element-wise reduction inserts
    temporarily (parsers never create one). *)
Definition no_composite (m : sfeats O) : Prop :=
  forall h s, fm_get (NsRawHash h) m = Some s -> sfn_active s = false /\ sfn_iter s = [].

(** Every namespace active in [b] has a proper entry in [a] (see C01). *)
Definition separable (a b : sfeats O) : Prop :=
  forall k, sf_get k b <> None -> proper_entry k a.

Definition tidy (f : features O) : Prop :=
  match f with
  | FtsSimple a => no_composite a
  | FtsCb s x =>
      (forall a, In a x -> no_composite a) /\
      match s with
      | None => True
      | Some sh => no_composite sh /\ forall a, In a x -> separable a sh /\ separable sh a
      end
  end.
Definition built_fts (f : features O) : Prop :=
  match f with
  | FtsSimple a => built a
  | FtsCb s x => (forall a, In a x -> built a) /\ match s with None => True | Some sh => built sh end
  end.
Definition plain (f : features O) : Prop := built_fts f /\ tidy f.

(** No namespace holds features while it counts as absent.  (No operation of a parser
    makes one like that.) *)
Definition no_hidden (m : sfeats O) : Prop :=
  forall k s, fm_get k m = Some s -> sfn_iter s <> [] -> sfn_active s = true.

(** Contextual bandit features with nothing more than that, in particular with any
    empty namespaces; any simple features. *)
Definition loose (f : features O) : Prop :=
  match f with
  | FtsSimple _ => True
  | FtsCb s x =>
      (forall a, In a x -> no_composite a /\ no_hidden a) /\
      match s with None => True | Some sh => no_composite sh /\ no_hidden sh end
  end.

(** Both look the same to an observer. *)
Definition fts_same (f g : features O) : Prop :=
  match f, g with
  | FtsSimple a, FtsSimple b => same_view a b
  | FtsCb s x, FtsCb t y =>
      (match s, t with Some a, Some b => same_view a b | None, None => True | _, _ => False end) /\
      Forall2 same_view x y
  | _, _ => False
  end.

(** The states a workspace can get into. *)
Inductive reach (dbg : bool) {n : nat} (r0 : red O n) : red O n -> Prop :=
| reach_refl : reach dbg r0 r0
| reach_learn : forall r f lb r' f', reach dbg r0 r -> ws_learn dbg r f lb = Ok (r', f') -> reach dbg r0 r'
| reach_ptl : forall r f lb p r' f', reach dbg r0 r -> ws_ptl dbg r f lb = Ok (p, r', f') -> reach dbg r0 r'.

(** Programs that build features and use a workspace.  A selector says which of the
    numbered feature objects make up the features of a call. *)
Inductive sel : Type := SelS (i : nat) | SelCb (s : option nat) (xs : list nat).
Definition fts_of (st : fstore O) (l : sel) : features O :=
  match l with
  | SelS i => FtsSimple (st i)
  | SelCb s xs => FtsCb (option_map st s) (map st xs)
  end.
Fixpoint put_list (st : fstore O) (xs : list nat) (ys : list (sfeats O)) : fstore O :=
  match xs, ys with
  | i :: xs, m :: ys => put_list (st_upd st i m) xs ys
  | _, _ => st
  end.
Definition put_back (st : fstore O) (l : sel) (f : features O) : fstore O :=
  match l, f with
  | SelS i, FtsSimple m => st_upd st i m
  | SelCb s xs, FtsCb t ys =>
      put_list (match s, t with Some i, Some m => st_upd st i m | _, _ => st end) xs ys
  | _, _ => st
  end.

Inductive pop : Type :=
| PF (o : fop O)
| PPredict (l : sel)
| PLearn (l : sel) (lb : label O)
| PPtl (l : sel) (lb : label O).

(** Feature objects, the model, results of predict_then_learn and of predict so far. *)
Record pstate (n : nat) : Type := mkPs {
  ps_store : fstore O;
  ps_red : red O n;
  ps_ptl : list (prediction O);
  ps_pred : list (prediction O)
}.

Definition pop_run (dbg : bool) {n} (s : pstate n) (o : pop) : out (pstate n) :=
  let '(mkPs _ st r pt pp) := s in
  match o with
  | PF o => let* st' := fop_run dbg st o in Ok (mkPs n st' r pt pp)
  | PPredict l =>
      let* x := ws_predict dbg r (fts_of st l) in
      let '(p, f') := x in Ok (mkPs n (put_back st l f') r pt (pp ++ [p]))
  | PLearn l lb =>
      let* x := ws_learn dbg r (fts_of st l) lb in
      let '(r', f') := x in Ok (mkPs n (put_back st l f') r' pt pp)
  | PPtl l lb =>
      let* x := ws_ptl dbg r (fts_of st l) lb in
      let '(p, r', f') := x in Ok (mkPs n (put_back st l f') r' (pt ++ [p]) pp)
  end.
Definition pops_run (dbg : bool) {n} (h : list pop) (s : pstate n) : out (pstate n) := foldm (pop_run dbg) h s.

(** Same model and results, and every feature object looks and compares the same. *)
Definition ps_same {n} (s t : pstate n) : Prop :=
  (forall i, same_view (ps_store n s i) (ps_store n t i) /\ same_compare (ps_store n s i) (ps_store n t i)) /\
  ps_red n s = ps_red n t /\ ps_ptl n s = ps_ptl n t /\ ps_pred n s = ps_pred n t.

Definition is_predict (o : pop) : bool := match o with PPredict _ => true | _ => false end.
(** the program without its predict calls *)
Definition erase (h : list pop) : list pop := filter (fun o => negb (is_predict o)) h.

(** Every predict call of a run is made with tidy features. *)
Fixpoint predicts_tidy (dbg : bool) {n} (h : list pop) (s : pstate n) : Prop :=
  match h with
  | [] => True
  | o :: h' =>
      (match o with PPredict l => tidy (fts_of (ps_store n s) l) | _ => True end) /\
      forall s', pop_run dbg s o = Ok s' -> predicts_tidy dbg h' s'
  end.

End Spec.
Arguments pop : clear implicits.
Arguments pstate O n : clear implicits.
Arguments mkPs {O n}. Arguments ps_store {O n}. Arguments ps_red {O n}. Arguments ps_ptl {O n}. Arguments ps_pred {O n}.

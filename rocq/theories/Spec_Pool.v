(** What a pool has to do, said about the events of a run only. *)
From Coq Require Import List.
From Verif Require Import Model_Pool.
Import ListNotations.

(** Between two times an object is handed out it was returned. *)
Definition never_twice (tr : list pevent) : Prop :=
  forall t1 c x t2 d t3, tr = t1 ++ Handed c x :: t2 ++ Handed d x :: t3 -> exists e, In (Returned e x) t2.

(** Returned, and not handed out since. *)
Definition available (tr : list pevent) (x : obj) : Prop :=
  exists t1 c t2, tr = t1 ++ Returned c x :: t2 /\ forall d, ~ In (Handed d x) t2.

(** Handed out or created, and not returned since. *)
Definition outside (tr : list pevent) (x : obj) : Prop :=
  exists t1 c t2, (tr = t1 ++ Handed c x :: t2 \/ tr = t1 ++ Made c x :: t2) /\ forall d, ~ In (Returned d x) t2.

(** Last in, first out: replaying the events on a stack. *)
Fixpoint replay (tr : list pevent) (st : list obj) : option (list obj) :=
  match tr with
  | [] => Some st
  | Handed _ x :: tr =>
      match st with
      | [] => replay tr []
      | y :: st => if Nat.eqb x y then replay tr st else None
      end
  | Returned _ x :: tr => replay tr (x :: st)
  | Length _ k :: tr => if Nat.eqb k (length st) then replay tr st else None
  | _ :: tr => replay tr st
  end.

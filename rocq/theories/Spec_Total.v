(** When calls are expected to return (C24), stated on inputs only. *)
From Coq Require Import List NArith ZArith Bool.
From Verif Require Import Base FloatOps Model_Hash Model_Features Model_Weights Model_Types Model_Explore
  Model_Coin Model_Stack Spec_Coin Spec_Reductions.
Import ListNotations.
Open Scope N_scope.

(** A property of some reduction in the stack. *)
Fixpoint some_kind {A} (p : kind A -> bool) (n : nat) : red A n -> bool :=
  match n with
  | 0%nat => fun _ => false
  | S m => fun r => p (snd (fst r)) || some_kind p m (snd r)
  end.
Definition uses_mtr {A} {n : nat} (r : red A n) : bool :=
  some_kind (fun k => match k with KCbAdf Mtr _ _ => true | _ => false end) n r.
Definition uses_elem {A} {n : nat} (r : red A n) : bool :=
  some_kind (fun k => match k with KElem _ _ _ _ => true | _ => false end) n r.
(** exploration that compares scores with [partial_cmp(..).unwrap()] or divides by sums *)
Definition uses_weighted {A} {n : nat} (r : red A n) : bool :=
  some_kind (fun k => match k with KSoftmax _ _ _ | KSquareCb _ _ _ _ => true | _ => false end) n r.

(** The 64 bit counters of a stack. *)
Fixpoint counters {A} (n : nat) : red A n -> list N :=
  match n with
  | 0%nat => fun _ => []
  | S m => fun r =>
      match snd (fst r) with
      | KCbAdf Mtr a e => [a; e]
      | KSquareCb _ _ _ c => [c]
      | _ => []
      end ++ counters m (snd r)
  end.

Section Spec.
Context {O : FOps}.

(** the simple feature objects of an example *)
Definition parts (f : features O) : list (sfeats O) :=
  match f with
  | FtsSimple a => [a]
  | FtsCb (Some s) x => s :: x
  | FtsCb None x => x
  end.
(** all indices lie below [n] *)
Definition all_below (n : N) (f : features O) : Prop := forall a, In a (parts f) -> below n a.
(** all values satisfy [P] *)
Definition all_values (P : O -> Prop) (f : features O) : Prop :=
  forall a i v, In a (parts f) -> In (i, v) (sf_all a) -> P v.

(** what a label has to satisfy when the mtr cost type is used: there are shared
    features and the action exists *)
Definition mtr_example (f : features O) (lb : label O) : Prop :=
  exists sh x a c p, f = FtsCb (Some sh) x /\ lb = LbCb a c p /\ (N.to_nat a < length x)%nat.
(** the probability is greater than zero *)
Definition prob_pos (lb : label O) : Prop :=
  match lb with LbCb _ _ p => f_gtb p f0 = true | _ => True end.
(** no counter overflows *)
Definition has_room (n : N) (cs : list N) : Prop := forall c, In c cs -> c + n + 1 < u64_mod.

End Spec.

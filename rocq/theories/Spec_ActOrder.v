(** What C89 talks about: the same actions in another order. *)
From Coq Require Import List NArith ZArith Bool Reals.
From Verif Require Import Base FloatOps FloatR Model_Features Model_Types Model_Coin Model_Stack.
Import ListNotations.

(** [y] is [x] with the element at position [i] moved to position [pi i] *)
Definition moved {A} (pi : nat -> nat) (x y : list A) : Prop :=
  length y = length x /\
  (forall i, (i < length x)%nat -> (pi i < length x)%nat) /\
  (forall i j, (i < length x)%nat -> (j < length x)%nat -> pi i = pi j -> i = j) /\
  (forall i, (i < length x)%nat -> nth_error y (pi i) = nth_error x i).
(** the same context, the actions moved *)
Definition moved_fts {O : FOps} (pi : nat -> nat) (f g : features O) : Prop :=
  match f, g with
  | FtsCb s x, FtsCb t y => s = t /\ moved pi x y
  | _, _ => False
  end.
(** what is predicted for an action moves with it, the actions being numbered from 0 on *)
Definition moved_pred {A} (pi : nat -> nat) (l l' : list (N * A)) : Prop :=
  moved pi (map snd l) (map snd l') /\
  map fst l = map N.of_nat (seq 0 (length l)) /\ map fst l' = map N.of_nat (seq 0 (length l)).
(** the same label, naming the action at its new position *)
Definition moved_label {A} (pi : nat -> nat) (lb : label A) : label A :=
  match lb with
  | LbCb a c p => LbCb (N.of_nat (pi (N.to_nat a))) c p
  | _ => lb
  end.
(** no contextual bandit reduction of the stack learns with inverse propensity scores *)
Fixpoint no_ips {O : FOps} (n : nat) : red O n -> Prop :=
  match n with
  | 0%nat => fun _ => True
  | S m => fun r => match snd (fst r) with KCbAdf Ips _ _ => False | _ => True end /\ no_ips m (snd r)
  end.
(** one action has the lowest score *)
Definition unique_min (sc : list (N * R)) : Prop :=
  exists i a v, nth_error sc i = Some (a, v) /\ forall j b w, nth_error sc j = Some (b, w) -> j <> i -> (v < w)%R.
Definition is_softmax {A} (k : kind A) : Prop := match k with KSoftmax _ _ _ => True | _ => False end.
Definition is_explorer {A} (k : kind A) : Prop := match k with KSoftmax _ _ _ | KGreedy _ | KSquareCb _ _ _ _ => True | _ => False end.

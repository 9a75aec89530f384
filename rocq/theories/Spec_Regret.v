(** What an online learner is measured by: the loss it suffers on a sequence of examples, against the loss of a
    fixed linear predictor.  Exact arithmetic. *)
From Coq Require Import List NArith Reals.
From Verif Require Import Base FloatOps FloatR Model_Hash Model_Features Model_Weights Model_Interactions Model_Types
  Model_Coin Spec_Coin.
Import ListNotations.
Open Scope R_scope.

(** the inner product of the weights [u] with an enumerated feature vector *)
Definition dot (u : N -> R) (l : list (N * RF)) : R := fold_right (fun iv a => u (fst iv) * snd iv + a) 0 l.
(** the sum of [f] over a list of indices *)
Definition sum_of (f : N -> R) (l : list N) : R := fold_right (fun i a => f i + a) 0 l.

(** The prediction the regressor makes for an example while it learns it, and the normaliser it divides by. *)
Definition announced (dbg : bool) (c : coin RF) (e : example RF) : out (R * R) :=
  let* pc := coin_betting_predict dbg (coin_range c (ex_y e)) (ex_f e) (ex_w e) in
  Ok (fst pc : R, co_avg (snd pc) : R).

(** The loss on one example in excess of the loss of the weights [u], whose prediction is divided by the same
    normaliser; an example counts with its importance weight times the normaliser. *)
Definition excess1 (u : N -> R) (l : list (N * RF)) (p avg y w : R) : R :=
  w * avg * ((p - y) * (p - y) - (dot u l / avg - y) * (dot u l / avg - y)).
Fixpoint excess (dbg : bool) (u : N -> R) (h : list (example RF)) (c : coin RF) : out R :=
  match h with
  | [] => Ok 0
  | e :: h =>
      let* l := coin_feats dbg c (ex_f e) in
      let* pa := announced dbg c e in
      let* c' := coin_learn dbg c (ex_f e) (ex_y e) (ex_w e) in
      let* r := excess dbg u h c' in
      Ok (excess1 u l (fst pa) (snd pa) (ex_y e) (ex_w e) + r)
  end.

(** An example whose features are distinct indices among [idx] below [n] with values that are zero or of magnitude
    between [xi] and [xmax], whose label lies between [lo] and [hi] and whose weight is positive and at most [wmax]. *)
Definition tame (dbg : bool) (c : coin RF) (n : N) (idx : list N) (xi xmax lo hi wmax : R) (e : example RF) : Prop :=
  below n (ex_f e) /\ lo <= ex_y e <= hi /\ 0 < ex_w e <= wmax /\
  exists l, coin_feats dbg c (ex_f e) = Ok l /\ NoDup (map fst l) /\
    forall i v, In (i, v) l -> In i idx /\ ((v : R) = 0 \/ xi <= Rabs v) /\ Rabs v <= xmax.

(** every value of an example's features is zero or of magnitude at least [xi] *)
Definition resolved (dbg : bool) (c : coin RF) (xi : R) (e : example RF) : Prop :=
  forall l i v, coin_feats dbg c (ex_f e) = Ok l -> In (i, v) l -> (v : R) = 0 \/ xi <= Rabs v.

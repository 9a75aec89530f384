(** What training on consistently good and bad examples leads to (C84).  Exact arithmetic. *)
From Coq Require Import List NArith Reals Permutation.
From Verif Require Import Base FloatOps FloatR Model_Hash Model_Features Model_Weights Model_Interactions Model_Types Model_Coin Model_Stack
  Spec_Coin Spec_Reductions Spec_Metrics Spec_OffPolicy Spec_Unbiased.
Import ListNotations.
Open Scope R_scope.

(** An example with label between [lo] and [hi], positive weight and indices below [n]. *)
Definition fine (n : N) (lo hi : R) (e : example RF) : Prop := below n (ex_f e) /\ lo <= ex_y e <= hi /\ 0 < ex_w e.

(** Every example of the run that has the feature [i] has label [y], and a nonnegative value for it. *)
Definition only_with (dbg : bool) (c : coin RF) (h : list (example RF)) (i : N) (y : R) : Prop :=
  forall e l v, In e h -> coin_feats dbg c (ex_f e) = Ok l -> In (i, v) l -> 0 <= (v : R) /\ ex_y e = y.

(** The first example of the run with a label other than 0 has the feature [i], with a positive value, and a later
    example has it again. *)
Definition noticed (dbg : bool) (c : coin RF) (h : list (example RF)) (i : N) : Prop :=
  exists h1 e1 h2 e2 h3 l1 l2 v1 v2, h = h1 ++ e1 :: h2 ++ e2 :: h3 /\
    Forall (fun e => ex_y e = 0) h1 /\ ex_y e1 <> 0 /\
    coin_feats dbg c (ex_f e1) = Ok l1 /\ In (i, v1) l1 /\ 0 < (v1 : R) /\
    coin_feats dbg c (ex_f e2) = Ok l2 /\ In (i, v2) l2.

(** Two enumerated feature vectors agree but for features [a] of the first, which only examples of the run with label
    [lo] have, and [b] of the second, which only examples with label [hi] have. *)
Definition told_apart (dbg : bool) (c : coin RF) (h : list (example RF)) (lo hi : R) (lf lg a b : list (N * RF)) : Prop :=
  (exists common, Permutation lf (common ++ a) /\ Permutation lg (common ++ b)) /\
  (forall i v, In (i, v) a -> 0 <= (v : R) /\ only_with dbg c h i lo) /\
  (forall i v, In (i, v) b -> 0 <= (v : R) /\ only_with dbg c h i hi).
Definition some_noticed (dbg : bool) (c : coin RF) (h : list (example RF)) (l : list (N * RF)) : Prop :=
  exists i v, In (i, v) l /\ 0 < (v : R) /\ noticed dbg c h i.

(** The same for the actions [i] and [j] of a bandit example, whose features are those of the action followed by the
    shared ones. *)
Definition actions_apart (dbg : bool) (c : coin RF) (h : list (example RF)) (lo hi : R) (f : features RF) (i j : nat) (a b : list (N * RF)) : Prop :=
  exists fi fj lf lg, nth_error (seen_ips f) i = Some fi /\ nth_error (seen_ips f) j = Some fj /\
    coin_feats dbg c fi = Ok lf /\ coin_feats dbg c fj = Ok lg /\ told_apart dbg c h lo hi lf lg a b.

(** The 64 bit counts of rounds and of actions do not overflow. *)
Definition countable (l : list (point RF)) : Prop :=
  (N.of_nat (length l) < u64_mod)%N /\ (fold_right (fun p acc => num_actions (pt_feats p) + acc) 0 l < u64_mod)%N.

(** The log as it reaches the bandit reduction: SquareCB drops the probabilities. *)
Definition handed_down (k : kind RF) (l : list (point RF)) : list (point RF) :=
  match k with KSquareCb _ _ _ _ => map certain l | _ => l end.
(** Exploration reductions with sensible parameters. *)
Definition sensible (k : kind RF) : Prop :=
  match k with
  | KGreedy eps => 0 <= (eps : R) <= 1
  | KSoftmax ue la _ => 0 <= (ue : R) <= 1 /\ 0 <= (la : R)
  | KSquareCb ue gs ge _ => 0 <= (ue : R) <= 1 /\ 0 <= (gs : R) /\ 0 <= (ge : R)
  | _ => False
  end.

(** A log of rounds with the same features, in which action 0 always costs [lo] and action 1 always costs [hi]. *)
Definition settled_costs (f : features RF) (lo hi : R) (l : list (point RF)) : Prop :=
  forall p, In p l -> pt_feats p = f /\ exists a c q, pt_label p = LbCb a c q /\ 0 < (q : R) /\
    (a = 0%N /\ (c : R) = lo \/ a = 1%N /\ (c : R) = hi).
Definition drawn (a : N) (p : point RF) : Prop := exists c q, pt_label p = LbCb a c q.
Definition drawn_twice (a : N) (l : list (point RF)) : Prop :=
  exists l1 p1 l2 p2 l3, l = l1 ++ p1 :: l2 ++ p2 :: l3 /\ drawn a p1 /\ drawn a p2.
(** [own] are features that occur in [l] and not in [l'], one of them with a positive value. *)
Definition own_features (own l l' : list (N * RF)) : Prop :=
  (forall i v, In (i, v) own -> 0 <= (v : R) /\ (forall v', ~ In (i, v') l') /\ forall v', In (i, v') l -> 0 <= (v' : R)) /\
  exists i v v', In (i, v) own /\ 0 < (v : R) /\ In (i, v') l /\ 0 < (v' : R).

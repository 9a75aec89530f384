(** What contextual bandit learning makes of a log, and what that is worth on average (C83).  Exact arithmetic. *)
From Coq Require Import List NArith Reals.
From Verif Require Import Base FloatOps FloatR Model_Hash Model_Features Model_Weights Model_Types Model_Explore
  Model_Coin Model_Stack Spec_Coin Spec_Explore Spec_Reductions Spec_Metrics Spec_OffPolicy.
Import ListNotations.
Open Scope R_scope.

(** [r'] results from learning the points of a log one after the other. *)
Inductive taught (dbg : bool) {n : nat} : red RF n -> list (point RF) -> red RF n -> Prop :=
| tg_nil : forall r, taught dbg r [] r
| tg_cons : forall r p l r1 g r', ws_learn dbg r (pt_feats p) (pt_label p) = Ok (r1, g) ->
    taught dbg r1 l r' -> taught dbg r (p :: l) r'.

(** [r'] results from learning regression examples one after the other. *)
Inductive fed (dbg : bool) {n : nat} : red RF n -> list (example RF) -> red RF n -> Prop :=
| fd_nil : forall r, fed dbg r [] r
| fd_cons : forall r e l r1 g r', ws_learn dbg r (FtsSimple (ex_f e)) (LbSimple (ex_y e) (ex_w e)) = Ok (r1, g) ->
    fed dbg r1 l r' -> fed dbg r (e :: l) r'.

Definition joined_to (a b : sfeats RF) : sfeats RF := match sf_append a b with Ok x => x | _ => a end.

(** The features of each action together with the shared ones: with mtr the action's features are added to the
    shared ones, with ips it is the other way round. *)
Definition seen_mtr (f : features RF) : list (sfeats RF) :=
  match f with FtsCb (Some s) acts => map (fun a => joined_to s a) acts | _ => [] end.
Definition seen_ips (f : features RF) : list (sfeats RF) :=
  match f with
  | FtsCb (Some s) acts => map (fun a => joined_to a s) acts
  | FtsCb None acts => acts
  | _ => []
  end.

(** The regression examples made of a log under mtr: the drawn action only, with importance weight 1/probability
    times events/actions, both counted from the start; [k] and [m] are the counts before. *)
Fixpoint mtr_examples (k m : N) (l : list (point RF)) : list (example RF) :=
  match l with
  | [] => []
  | p :: l =>
      let k := (k + 1)%N in
      let m := (m + num_actions (pt_feats p))%N in
      match pt_label p with
      | LbCb a c q => [mkEx (nth (N.to_nat a) (seen_mtr (pt_feats p)) []) c (/ q * (INR (N.to_nat k) / INR (N.to_nat m)))]
      | _ => []
      end ++ mtr_examples k m l
  end.

(** The same under ips: every action, with cost/probability for the drawn one and 0 for the others. *)
Fixpoint ips_round (a : N) (y : R) (i : N) (xs : list (sfeats RF)) : list (example RF) :=
  match xs with
  | [] => []
  | x :: xs => mkEx x (if N.eqb i a then y else 0) 1 :: ips_round a y (i + 1) xs
  end.
Fixpoint ips_examples (l : list (point RF)) : list (example RF) :=
  match l with
  | [] => []
  | p :: l =>
      match pt_label p with
      | LbCb a c q => ips_round a (c / q) 0 (seen_ips (pt_feats p))
      | _ => []
      end ++ ips_examples l
  end.

(** The same point with probability 1. *)
Definition certain (p : point RF) : point RF :=
  match pt_label p with LbCb a c _ => mkPt (pt_feats p) (LbCb a c 1) (pt_pred p) | _ => p end.

(** The weighted squared loss of a predictor on regression examples. *)
Definition weighted_loss (P : sfeats RF -> R) (l : list (example RF)) : R :=
  fold_right (fun e acc => ex_w e * ((P (ex_f e) - ex_y e) * (P (ex_f e) - ex_y e)) + acc) 0 l.

(** The squared loss of a predictor on all actions of a round, from number [i] on, drawn or not. *)
Fixpoint all_loss (P : sfeats RF -> R) (cost : N -> R) (i : N) (xs : list (sfeats RF)) : R :=
  match xs with
  | [] => 0
  | x :: xs => (P x - cost i) * (P x - cost i) + all_loss P cost (i + 1) xs
  end.

(** Its expected sum over the rounds.  A round counts with a factor [rate k m], given the numbers of rounds and of actions so far including the round; the costs may
    be replaced by [target], given the probabilities and the costs of the round. *)
Fixpoint full_loss (seen : features RF -> list (sfeats RF)) (rate : N -> N -> R)
    (target : list (N * R) -> (N -> R) -> N -> R) (P : sfeats RF -> R) (k m : N) (g : game) : R :=
  match g with
  | Over => 0
  | Round f logging cost _ next =>
      let k := (k + 1)%N in
      let m := (m + num_actions f)%N in
      rate k m * all_loss P (target logging cost) 0 (seen f)
      + fold_right (fun e acc => snd e * full_loss seen rate target P k m (next (fst e)) + acc) 0 logging
  end.
Definition per_action (k m : N) : R := INR (N.to_nat k) / INR (N.to_nat m).
Definition constant (k m : N) : R := 1.
Definition true_costs (logging : list (N * R)) (cost : N -> R) : N -> R := cost.
(** each cost times the probability that its action is drawn *)
Definition shrunk_costs (logging : list (N * R)) (cost : N -> R) : N -> R :=
  fun i => fold_right (fun e acc => if N.eqb (fst e) i then snd e * cost i + acc else acc) 0 logging.

(** The loss on the drawn actions only, as expected: each action weighted with the probability that it is drawn. *)
Fixpoint drawn_loss (P : sfeats RF -> R) (k m : N) (g : game) : R :=
  match g with
  | Over => 0
  | Round f logging cost _ next =>
      let k := (k + 1)%N in
      let m := (m + num_actions f)%N in
      per_action k m * fold_right (fun e acc =>
        let x := nth (N.to_nat (fst e)) (seen_mtr f) [] in
        snd e * ((P x - cost (fst e)) * (P x - cost (fst e))) + acc) 0 logging
      + fold_right (fun e acc => snd e * drawn_loss P k m (next (fst e)) + acc) 0 logging
  end.

(** In every round exactly the actions of the example can be drawn, and the 64 bit counts do not overflow; with
    [shared] there are shared features. *)
Inductive covered (shared : bool) : N -> N -> game -> Prop :=
| cv_over : forall k m, covered shared k m Over
| cv_round : forall k m f logging cost pred next,
    (forall a p, In (a, p) logging -> 0 < p) -> total logging = 1 -> NoDup (map fst logging) ->
    (forall a, In a (map fst logging) <-> (a < num_actions f)%N) ->
    (k + 1 < u64_mod)%N -> (m + num_actions f < u64_mod)%N ->
    match f with FtsCb (Some _) _ => True | FtsCb None _ => shared = false | _ => False end ->
    (forall a, In a (map fst logging) -> covered shared (k + 1) (m + num_actions f) (next a)) ->
    covered shared k m (Round f logging cost pred next).

(** How well a trained regressor fits the examples it has just learned (C82).  Exact arithmetic. *)
From Coq Require Import List NArith Reals.
From Verif Require Import Base FloatOps FloatR Model_Hash Model_Features Model_Weights Model_Interactions Model_Types
  Model_Explore Model_Coin Model_Stack Spec_Coin Spec_Regret.
Import ListNotations.
Open Scope R_scope.

(** Learn the examples one after the other; after each, predict for its features.  The sum of the squared errors of
    those predictions, each times the importance weight of the example. *)
Fixpoint fit_loss (dbg : bool) (h : list (example RF)) (c : coin RF) : out R :=
  match h with
  | [] => Ok 0
  | e :: h =>
      let* c' := coin_learn dbg c (ex_f e) (ex_y e) (ex_w e) in
      let* p := coin_predict dbg c' (ex_f e) in
      match p with
      | PrScalar q _ => let* r := fit_loss dbg h c' in Ok (ex_w e * ((q - ex_y e) * (q - ex_y e)) + r)
      | _ => Pn PAssert
      end
  end.

(** The same for the linear predictor with weights [u], on the feature vectors [ls]. *)
Fixpoint linear_loss (u : N -> R) (h : list (example RF)) (ls : list (list (N * RF))) : R :=
  match h, ls with
  | e :: h, l :: ls => ex_w e * ((dot u l - ex_y e) * (dot u l - ex_y e)) + linear_loss u h ls
  | _, _ => 0
  end.

(** [l] is the feature vector of the example; it has [k] entries; a feature has the same magnitude [m i] whenever it
    occurs. *)
Definition regular (dbg : bool) (c : coin RF) (k : nat) (m : N -> R) (e : example RF) (l : list (N * RF)) : Prop :=
  coin_feats dbg c (ex_f e) = Ok l /\ length l = k /\ forall i v, In (i, v) l -> Rabs v = m i.

(** What the fit can lose against a linear predictor [u] on [t] examples. *)
Definition fit_gap (alpha beta xi xmax lo hi wmin wmax : R) (k : nat) (u : N -> R) (idx : list N) (t : R) : R :=
  let y := Rmax (Rabs lo) (Rabs hi) in
  (sum_of (fun i => alpha + Rabs (INR k * u i) * (beta * xmax *
     sqrt (2 * t * ln (1 + exp 1 * Rabs (INR k * u i) * t * (t + 1) * (beta * (xmax * xmax)) / (alpha * xi))))) idx
   + / 1000000 * (y * y) * (1 + ln (1 + t * wmax / wmin))) / INR k.

(** The same through the entry points of a workspace (release build). *)
Fixpoint ws_fit_loss {n : nat} (h : list (example RF)) (r : red RF n) : out R :=
  match h with
  | [] => Ok 0
  | e :: h =>
      let* rf := ws_learn false r (FtsSimple (ex_f e)) (LbSimple (ex_y e) (ex_w e)) in
      let* pf := ws_predict false (fst rf) (snd rf) in
      match fst pf with
      | PrScalar q _ => let* s := ws_fit_loss h (fst rf) in Ok (ex_w e * ((q - ex_y e) * (q - ex_y e)) + s)
      | _ => Pn PAssert
      end
  end.

(** What C100 talks about: actions the model has no reason to tell apart. *)
From Coq Require Import List NArith ZArith Reals.
From Verif Require Import Base FloatOps FloatR Model_Hash Model_Features Model_Weights Model_Types Model_Coin Model_Stack Model_Factory
  Spec_Features Spec_Coin Spec_Stack Spec_Empty Spec_Merge Spec_Unseen.
Import ListNotations.

(** together with the context [s], the actions [a] and [b] have the same total value at all
    indices in [P] *)
Definition alike (c : coin RF) (P : N -> Prop) (s : option (sfeats RF)) (a b : sfeats RF) : Prop :=
  forall u v, with_context a s = Ok u -> with_context b s = Ok v -> like c P u v.
(** positions [i] and [j] of a list of numbered values hold the same value *)
Definition tied {A} (l : list (N * A)) (i j : nat) : Prop :=
  exists v, nth_error l i = Some (N.of_nat i, v) /\ nth_error l j = Some (N.of_nat j, v).
(** the same probability for each of the actions 0, 1, 2, ... *)
Definition even (q : list (N * R)) (n : nat) : Prop := q = map (fun i => (N.of_nat i, (1 / INR n)%R)) (seq 0 n).
(** [1 - eps] for action 0; the rest is shared by all actions *)
Definition first_favoured (eps : R) (q : list (N * R)) (n : nat) : Prop :=
  q = map (fun i => (N.of_nat i, (eps / INR n + if Nat.eqb i 0 then 1 - eps else 0)%R)) (seq 0 n).
(** an exploration reduction on top, with parameters in the usual ranges *)
Definition sane (c : rcfg RF) : Prop :=
  match c with
  | CGreedy _ _ => True
  | CSoftmax ue la _ => (0 <= ue <= 1 /\ 0 <= la)%R
  | CSquareCb ue gs ge _ => (0 <= ue <= 1 /\ 0 <= gs /\ 0 <= ge)%R
  | _ => False
  end.

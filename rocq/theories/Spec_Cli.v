(** What the statements about the text of the command-line program talk about (C76, C77). *)
From Coq Require Import List NArith Bool.
From Verif Require Import Base FloatOps Model_Hash Model_Features Model_Types Model_Interactions Model_Weights Model_Loss Model_Explore Model_Coin
  Model_Stack Model_Factory Model_Text Model_Metrics Model_Train Model_Json Model_JsonTrain Model_Save Model_Command Spec_Export.
Import ListNotations.
Open Scope N_scope.

(** A number in decimal digits, leading zeros allowed. *)
Inductive decimal : str -> N -> Prop :=
| decimal_one : forall d, d < 10 -> decimal [48 + d] d
| decimal_more : forall s n d, decimal s n -> d < 10 -> decimal (s ++ [48 + d]) (10 * n + d).
(** A number that fits 32 bits, with or without a plus sign. *)
Inductive number : str -> N -> Prop :=
| number_plain : forall s n, decimal s n -> n < 2 ^ 32 -> number s n
| number_plus : forall s n, decimal s n -> n < 2 ^ 32 -> number (43 :: s) n.
(** The texts the progress option is meant to have: a number, + and a number, * and a
    floating-point number. *)
Inductive period_text {A} (pf : str -> option A) : str -> period A -> Prop :=
| pt_number : forall s n, number s n -> period_text pf s (Additive n)
| pt_plus : forall s n, number s n -> period_text pf (43 :: s) (Additive n)
| pt_times : forall s x, pf s = Some x -> period_text pf (42 :: s) (Multiplicative x).

Section S.
Context {O : FOps}.
(** All numbers of a prediction are finite. *)
Definition finite_pred (p : prediction O) : Prop :=
  match p with
  | PrScalar a b => finite a /\ finite b
  | PrBinary _ => True
  | PrScores l | PrProbs l => forall a x, In (a, x) l -> finite x
  end.
(** Characters of a JSON number: digits, + - . E e *)
Definition number_char (c : N) : Prop := 48 <= c <= 57 \/ In c [43; 45; 46; 69; 101].
(** A way to print finite numbers so that they can be read again. *)
Definition prints (pr : O -> str) : Prop :=
  (forall x, finite x -> Forall number_char (pr x)) /\
  (forall x y, finite x -> finite y -> pr x = pr y -> x = y).
(** The kind of predictions a source makes. *)
Definition predicts (H : hasher) (dbg : bool) (s : source O) (t : pred_type) : Prop :=
  exists gc R, open_source H dbg s = Ok (gc, R) /\ td_out_pred (red_types (projT2 R)) = t.
End S.

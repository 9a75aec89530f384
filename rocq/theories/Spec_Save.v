(** What a user of a workspace can observe. *)
From Coq Require Import List NArith.
From Verif Require Import Base FloatOps Model_Types Model_Stack.
Import ListNotations.

(** The calls a workspace takes. *)
Inductive call (O : FOps) : Type :=
| AskPredict (f : features O)
| AskLearn (f : features O) (lb : label O)
| AskBoth (f : features O) (lb : label O)
| AskSensitivity (f : features O).
Arguments AskPredict {O}. Arguments AskLearn {O}. Arguments AskBoth {O}. Arguments AskSensitivity {O}.

(** What comes back from one: a prediction, a number, and the features as left behind; or
    an error or a panic. *)
Inductive answer (O : FOps) : Type :=
| AnsFeatures (p : option (prediction O)) (f : features O)
| AnsNumber (x : O)
| AnsEr (e : error)
| AnsPn (p : panic).
Arguments AnsFeatures {O}. Arguments AnsNumber {O}. Arguments AnsEr {O}. Arguments AnsPn {O}.

(** The answers to a sequence of calls; a panic ends it. *)
Fixpoint answers {O : FOps} (dbg : bool) {n : nat} (r : red O n) (cs : list (call O)) : list (answer O) :=
  match cs with
  | [] => []
  | AskPredict f :: cs' =>
      match ws_predict dbg r f with
      | Ok (p, f') => AnsFeatures (Some p) f' :: answers dbg r cs'
      | Er e => [AnsEr e]
      | Pn p => [AnsPn p]
      end
  | AskLearn f lb :: cs' =>
      match ws_learn dbg r f lb with
      | Ok (r', f') => AnsFeatures None f' :: answers dbg r' cs'
      | Er e => [AnsEr e]
      | Pn p => [AnsPn p]
      end
  | AskBoth f lb :: cs' =>
      match ws_ptl dbg r f lb with
      | Ok (p, r', f') => AnsFeatures (Some p) f' :: answers dbg r' cs'
      | Er e => [AnsEr e]
      | Pn p => [AnsPn p]
      end
  | AskSensitivity f :: cs' =>
      match sensitivity dbg n r f with
      | Ok x => AnsNumber x :: answers dbg r cs'
      | Er e => [AnsEr e]
      | Pn p => [AnsPn p]
      end
  end.

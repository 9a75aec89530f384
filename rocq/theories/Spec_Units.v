(** What C91 and C92 talk about: the same examples with other units for the values and
    other indices for the features. *)
From Coq Require Import List NArith ZArith.
From Verif Require Import Base FloatOps Model_Hash Model_Features Model_Types Model_Interactions Model_Coin Model_Stack Spec_Save.
Import ListNotations.
Open Scope N_scope.

Section Units.
Context {O : FOps}.
(** The feature with index [i] and value [x] is told as the feature with index [ix i] and
    value [va i x]. *)
Definition retell_ns (ix : N -> N) (va : N -> O -> O) (s : sfn O) : sfn O :=
  mkSfn (sfn_ns s) (map ix (sfn_idx s)) (map (fun p => va (fst p) (snd p)) (combine (sfn_idx s) (sfn_val s))) (sfn_active s).
Definition retell (ix : N -> N) (va : N -> O -> O) (a : sfeats O) : sfeats O := map (fun kv => (fst kv, retell_ns ix va (snd kv))) a.
Definition retell_fts (ix : N -> N) (va : N -> O -> O) (f : features O) : features O :=
  match f with
  | FtsSimple a => FtsSimple (retell ix va a)
  | FtsCb s x => FtsCb (option_map (retell ix va) s) (map (retell ix va) x)
  end.
Definition retell_call (ix : N -> N) (va : N -> O -> O) (c : call O) : call O :=
  match c with
  | AskPredict f => AskPredict (retell_fts ix va f)
  | AskLearn f lb => AskLearn (retell_fts ix va f) lb
  | AskBoth f lb => AskBoth (retell_fts ix va f) lb
  | AskSensitivity f => AskSensitivity (retell_fts ix va f)
  end.
(** the answer with the features left behind told in the same way, and the same prediction *)
Definition retell_answer (ix : N -> N) (va : N -> O -> O) (x : answer O) : answer O :=
  match x with AnsFeatures p f => AnsFeatures p (retell_fts ix va f) | _ => x end.

(** every namespace has as many indices as values *)
Definition paired (a : sfeats O) : Prop := forall k s, In (k, s) a -> length (sfn_idx s) = length (sfn_val s).
Definition paired_fts (f : features O) : Prop :=
  match f with
  | FtsSimple a => paired a
  | FtsCb s x => (forall a, In a x -> paired a) /\ match s with None => True | Some sh => paired sh end
  end.
(** calls with such features, other than for the sensitivity *)
Definition paired_call (c : call O) : Prop :=
  match c with
  | AskPredict f => paired_fts f
  | AskLearn f _ => paired_fts f
  | AskBoth f _ => paired_fts f
  | AskSensitivity _ => False
  end.
(** such calls, and any for the sensitivity *)
Definition paired_any (c : call O) : Prop := match c with AskSensitivity f => paired_fts f | _ => paired_call c end.

(** other indices: no two features become one, the table has room for the same ones, and
    the constant feature stays where it is *)
Definition renaming (gc : gconfig) (ix : N -> N) : Prop :=
  (forall i j, ix i = ix j -> i = j) /\ (forall i, ix i < 2 ^ gc_bits gc <-> i < 2 ^ gc_bits gc) /\
  (gc_const gc = true -> ix (2 ^ gc_bits gc / 2) = 2 ^ gc_bits gc / 2).
End Units.

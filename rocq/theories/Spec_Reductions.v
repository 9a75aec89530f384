(** Vocabulary for the statements about single reductions on top of a stack. *)
From Coq Require Import List NArith ZArith Bool.
From Verif Require Import Base FloatOps Model_Hash Model_Features Model_Weights Model_Types Model_Explore
  Model_Coin Model_Stack.
Import ListNotations.

Section Spec.
Context {O : FOps}.

(** The features of namespace [k] an observer sees. *)
Definition feats_in (k : namespace) (m : sfeats O) : list (N * O) :=
  match sf_get k m with Some s => sfn_iter s | None => [] end.

(** [c] has, in every namespace, the features of [a] followed by those of [b]. *)
Definition combines (a : sfeats O) (b : option (sfeats O)) (c : sfeats O) : Prop :=
  forall k, feats_in k c = feats_in k a ++ match b with Some m => feats_in k m | None => [] end.

(** 0, 1, 2, ... *)
Definition numbered {A} (l : list (N * A)) : Prop :=
  forall i x, nth_error l i = Some x -> fst x = N.of_nat i.

(** The regressor [ch'] results from learning the actions one after the other, from
    number [i] on: cost/probability for the labelled one and 0 for the others. *)
Inductive ips_seq (dbg : bool) {n : nat} (action : N) (cost prob : O) (shared : option (sfeats O))
  : N -> list (sfeats O) -> red O n -> red O n -> Prop :=
| ips_nil : forall i ch, ips_seq dbg action cost prob shared i [] ch ch
| ips_cons : forall i a rest ch a1 g ch1 ch',
    match shared with Some s => sf_append a s = Ok a1 | None => a1 = a end ->
    ws_learn dbg ch (FtsSimple a1) (LbSimple (if N.eqb i action then f_div O cost prob else f0) f1) = Ok (ch1, g) ->
    ips_seq dbg action cost prob shared (i + 1) rest ch1 ch' ->
    ips_seq dbg action cost prob shared i (a :: rest) ch ch'.

Definition num_actions (f : features O) : N :=
  match f with FtsCb _ x => N.of_nat (length x) | FtsSimple _ => 0%N end.

(** The states after training on examples; the list has the number of actions of each
    example, newest first. *)
Inductive trained (dbg : bool) {n : nat} (r0 : red O n) : list N -> red O n -> Prop :=
| tr_refl : trained dbg r0 [] r0
| tr_learn : forall h r f lb r' f', trained dbg r0 h r -> ws_learn dbg r f lb = Ok (r', f') ->
    trained dbg r0 (num_actions f :: h) r'
| tr_ptl : forall h r f lb p r' f', trained dbg r0 h r -> ws_ptl dbg r f lb = Ok (p, r', f') ->
    trained dbg r0 (num_actions f :: h) r'.

End Spec.

(** The regressor at the bottom of a stack. *)
Fixpoint bottom {A} (n : nat) : red A n -> coin A :=
  match n with
  | 0%nat => fun r => snd r
  | S m => fun r => bottom m (snd r)
  end.

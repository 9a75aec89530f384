(** Answers without a panic. *)
From Coq Require Import List.
From Verif Require Import Base FloatOps Model_Types Spec_Save.
Import ListNotations.

Definition calm {O : FOps} (l : list (answer O)) : Prop := forall p, ~ In (AnsPn p) l.

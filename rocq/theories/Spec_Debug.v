(** Leaving out the Debug layers of a configuration or of a stack. *)
From Coq Require Import List NArith Bool.
From Verif Require Import Base FloatOps Model_Hash Model_Features Model_Types Model_Stack Model_Factory.

Section Spec.
Context {A : Type}.
Fixpoint without_debug (c : rcfg A) : rcfg A :=
  match c with
  | CCoin cfg => CCoin cfg
  | CBinary c => CBinary (without_debug c)
  | CCbAdf ty c => CCbAdf ty (without_debug c)
  | CGreedy e c => CGreedy e (without_debug c)
  | CSoftmax u l c => CSoftmax u l (without_debug c)
  | CSquareCb u s e c => CSquareCb u s e (without_debug c)
  | CElem one two keep c => CElem one two keep (without_debug c)
  | CDebug c => without_debug c
  | CBad e => CBad e
  end.

Fixpoint strip (n : nat) : red A n -> anyred A :=
  match n with
  | 0%nat => fun r => existT (red A) 0%nat r
  | S m => fun r =>
      let '(w, k, ch) := r in
      match k with
      | KDebug => strip m ch
      | _ => existT (red A) (S (projT1 (strip m ch))) ((w, k), projT2 (strip m ch))
      end
  end.

(** No SquareCb directly on top of a contextual bandit learner with ips. *)
Fixpoint square_on_mtr (c : rcfg A) : Prop :=
  match c with
  | CCoin _ | CBad _ => True
  | CSquareCb _ _ _ (CCbAdf Ips _) => False
  | CBinary c | CCbAdf _ c | CGreedy _ c | CSoftmax _ _ c | CSquareCb _ _ _ c | CElem _ _ _ c | CDebug c => square_on_mtr c
  end.
End Spec.

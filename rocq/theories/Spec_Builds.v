(** Debug builds and release builds. *)
From Verif Require Import Base.

(** Unless the debug build [d] panics, the release build [r] does the same. *)
Definition agree {A : Type} (d r : out A) : Prop :=
  match d with
  | Pn _ => True
  | Ok a => r = Ok a
  | Er e => r = Er e
  end.

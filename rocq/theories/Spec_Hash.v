(** Interaction index in plain b-bit arithmetic: start from the first term,
    multiply by the FNV prime and xor with the next term, modulo 2^b throughout. *)
From Coq Require Import List NArith.
Import ListNotations.
Open Scope N_scope.

Definition mix_step (b h t : N) : N := N.lxor ((16777619 * h) mod 2 ^ b) t.

Definition mix (b : N) (ts : list N) : N :=
  match ts with
  | [] => 0
  | t0 :: r => fold_left (mix_step b) (map (fun t => t mod 2 ^ b) r) (t0 mod 2 ^ b)
  end.

(** Saving and loading a model: /repo/reductionml-core/src/workspace.rs:140-151
    [create_from_model], [serialize_model], and dense_weights.rs:16-22, 141-189.
    The derived serde implementations and the flexbuffers format are taken to write and
    read every field unchanged; the only hand-written part is the sparse form of the
    weights.  The global configuration is kept next to the stack and the features pool
    is not saved (workspace.rs:23), neither influences a stack once created. *)
From Coq Require Import List NArith ZArith Bool.
From Verif Require Import Base FloatOps Model_Hash Model_Features Model_Weights Model_Types
  Model_Interactions Model_Coin Model_Stack.
Import ListNotations.
Open Scope N_scope.

(** A saved regressor: the weights in sparse form, and the other fields (the weight
    list inside is empty). *)
Definition scoin (A : Type) : Type := (sparse_vec A * coin A)%type.
(** A saved stack *)
Fixpoint sred (A : Type) (n : nat) : Type :=
  match n with
  | 0%nat => (winfo * scoin A)%type
  | S m => (winfo * kind A * sred A m)%type
  end.

Section Save.
Context (O : FOps).

Definition with_list (c : coin O) (l : list O) : coin O :=
  let w := co_w c in
  mkCoin (mkDw l (dw_fsize w) (dw_msize w) (dw_ssize w) (dw_mshift w) (dw_sshift w))
         (co_cfg c) (co_states c) (co_avg c) (co_min c) (co_max c) (co_loss c)
         (co_pairs c) (co_triples c) (co_bits c) (co_const c).

(** dense_weights.rs:171-180 [serialize_sparse_f32_vec] *)
Definition coin_save (c : coin O) : scoin O := (sv_from_dense (dw_w (co_w c)), with_list c []).
(** dense_weights.rs:182-189 [deserialize_sparse_f32_vec] *)
Definition coin_load (s : scoin O) : out (coin O) :=
  let* l := sv_to_dense (fst s) in Ok (with_list (snd s) l).

(** workspace.rs:146-151 *)
Fixpoint ws_save (n : nat) : red O n -> sred O n :=
  match n with
  | 0%nat => fun r => (fst r, coin_save (snd r))
  | S m => fun r => (fst r, ws_save m (snd r))
  end.
(** workspace.rs:140-144 *)
Fixpoint ws_load (n : nat) : sred O n -> out (red O n) :=
  match n with
  | 0%nat => fun s => let* c := coin_load (snd s) in Ok (fst s, c)
  | S m => fun s => let* r := ws_load m (snd s) in Ok (fst s, r)
  end.
End Save.
Arguments with_list {O}. Arguments coin_save {O}. Arguments coin_load {O}.
Arguments ws_save {O}. Arguments ws_load {O}.

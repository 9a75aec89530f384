(** Which models have a JSON form. *)
From Coq Require Import List NArith Bool String Permutation.
From Verif Require Import Base FloatOps Model_Hash Model_Features Model_Weights Model_Loss Model_Types Model_Interactions Model_Explore
  Model_Coin Model_Stack Model_Factory Model_Json Model_Config Model_Export Spec_Reductions.
Import ListNotations.
Open Scope N_scope.

Section Spec.
Context {O : FOps}.
Local Notation json := (json O).

(** JSON has no infinities and no NaN. *)
Definition finite (x : O) : Prop := f_isnan O x = false /\ f_isinf O x = false.

(** All weights of a model are finite. *)
Definition finite_weights {n} (r : red O n) : Prop := forall x, In x (dw_w (co_w (bottom n r))) -> finite x.

(** The other numbers of a model. *)
Definition loss_numbers (l : loss O) : list O := match l with LossSquared => [] | LossLogistic a b => [a; b] end.
Definition coin_numbers (c : coin O) : list O :=
  [cc_alpha (co_cfg c); cc_beta (co_cfg c); cc_l1 (co_cfg c); cc_l2 (co_cfg c)] ++ loss_numbers (cc_loss (co_cfg c)) ++
  flat_map (fun s => [fst s; snd s]) (co_states c) ++ [co_avg c; co_min c; co_max c] ++ loss_numbers (co_loss c).
Definition kind_numbers (k : kind O) : list O :=
  match k with
  | KGreedy e => [e]
  | KSoftmax u l _ => [u; l]
  | KSquareCb u s e _ => [u; s; e]
  | KBinary | KCbAdf _ _ _ | KElem _ _ _ _ | KDebug => []
  end.
Fixpoint numbers (n : nat) : red O n -> list O :=
  match n with
  | 0%nat => fun r => coin_numbers (snd r)
  | S m => fun r => kind_numbers (snd (fst r)) ++ numbers m (snd r)
  end.
Definition finite_numbers {n} (r : red O n) : Prop := forall x, In x (numbers n r) -> finite x.

(** An object with the keys of a weight table, or a value containing one. *)
Definition table_keys : list string :=
  ["weights"; "feature_index_size"; "model_index_size"; "feature_state_size"; "model_index_size_shift"; "feature_state_size_shift"]%string.
Inductive holds_table : json -> Prop :=
| ht_here : forall l, (forall k, In k table_keys -> In (lit k) (map fst l)) -> holds_table (JObj l)
| ht_field : forall l k v, In (k, v) l -> holds_table v -> holds_table (JObj l)
| ht_item : forall l v, In v l -> holds_table v -> holds_table (JArr l).

(** What a stack keeps of its configuration contains no such object. *)
Definition plain (ex : nat -> extra O) : Prop :=
  forall n, x_indent (ex n) < 2 ^ 64 /\ forall v, snd (x_child (ex n)) = Some v -> ~ holds_table v.

(** The order in which a hash map is visited. *)
Definition any_order (ord : list (N * list (list O)) -> list (N * list (list O))) : Prop := forall l, Permutation (ord l) l.
End Spec.

(** What the coin regressor is expected to do, stated without its internals. *)
From Coq Require Import List NArith ZArith Bool.
From Verif Require Import Base FloatOps Model_Hash Model_Features Model_Weights Model_Loss
  Model_Interactions Model_Types Model_Coin.
Import ListNotations.
Open Scope N_scope.

Section SpecCoin.
Context {O : FOps}.

(** a training example: features, label and importance weight *)
Record example : Type := mkEx { ex_f : sfeats O; ex_y : O; ex_w : O }.

(** a training run *)
Definition train (dbg : bool) (h : list example) (c : coin O) : out (coin O) :=
  foldm (fun c e => coin_learn dbg c (ex_f e) (ex_y e) (ex_w e)) h c.

(** every index of the features lies below [n] *)
Definition below (n : N) (f : sfeats O) : Prop := forall i v, In (i, v) (sf_all f) -> i < n.

(** [p] lies between two members of the lists [lo] and [hi] *)
Definition between (p : O) (lo hi : list O) : Prop :=
  exists m M, In m lo /\ In M hi /\ f_leb O m p = true /\ f_leb O p M = true.

(** the starting range: the bounds [CoinRegressor::new] chooses by the configured loss *)
Definition lo0 (cfg : coin_config O) : O :=
  match cc_loss cfg with LossSquared => f0 | LossLogistic _ _ => f_neg O (fl 50) end.
Definition hi0 (cfg : coin_config O) : O :=
  match cc_loss cfg with LossSquared => f0 | LossLogistic _ _ => fl 50 end.

(** the six numbers stored for feature index [i] *)
Definition stored (dbg : bool) (c : coin O) (i : N) : out (list O) := dw_state_at dbg (co_w c) i 0.

(** the index [i] is used by the features [f] *)
Definition uses (dbg : bool) (c : coin O) (f : sfeats O) (i : N) : Prop :=
  exists l v, fe_list dbg f (co_pairs c) (co_triples c) (co_bits c) (co_const c) = Ok l /\ In (i, v) l.

End SpecCoin.
Arguments example O : clear implicits.

(** Training with labels in another unit. *)
From Coq Require Import List NArith ZArith Bool Reals.
From Verif Require Import Base FloatOps FloatR Model_Hash Model_Features Model_Loss Model_Types Model_Coin Model_Stack Spec_Coin Spec_Metrics.
Import ListNotations.
Open Scope R_scope.

(** the configuration for labels multiplied by [s] *)
Definition scaled_cfg (s : R) (cfg : coin_config RF) : coin_config RF :=
  mkCoinCfg ((s * s * cc_alpha cfg)%R : RF) ((Rabs s * cc_beta cfg)%R : RF) (cc_l1 cfg) (cc_l2 cfg) (cc_loss cfg) (cc_link cfg).
(** the example with the label multiplied by [s] *)
Definition scaled_ex (s : R) (e : example RF) : example RF := mkEx (ex_f e) ((s * ex_y e)%R : RF) (ex_w e).
(** the logged decision with the cost multiplied by [s] *)
Definition scaled_point (s : R) (p : point RF) : point RF :=
  match pt_label p with
  | LbCb a c q => mkPt (pt_feats p) (LbCb a ((s * c)%R : RF) q) (pt_pred p)
  | _ => p
  end.
(** the exploration for costs multiplied by [s] *)
Definition scaled_kind (s : R) (k : kind RF) : kind RF :=
  match k with
  | KSoftmax ue la c => KSoftmax ue ((la / s)%R : RF) c
  | KSquareCb ue gs ge c => KSquareCb ue ((gs / s)%R : RF) ge c
  | k => k
  end.

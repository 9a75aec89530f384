(** Creating a reduction stack from a configuration: the [create] functions of
    /repo/reductionml-core/src/reductions/*.rs, reduction_factory.rs:181-209 and
    workspace.rs:125-138.
    A configuration is modelled after its JSON has been turned into typed fields (serde
    does that); a sub-configuration that does not parse (unknown type name, bad JSON)
    is [CBad] with the error returned. *)
From Coq Require Import List NArith ZArith Bool.
From Verif Require Import Base FloatOps Model_Hash Model_Features Model_Weights Model_Loss
  Model_Interactions Model_Types Model_Explore Model_Coin Model_Stack.
Import ListNotations.
Open Scope N_scope.

Inductive rcfg (A : Type) : Type :=
| CCoin (cfg : coin_config A)                               (* coin.rs:38-59 *)
| CBinary (regressor : rcfg A)                              (* binary.rs:23-27 *)
| CCbAdf (ty : cbtype) (regressor : rcfg A)                 (* cb_adf.rs:30-36 *)
| CGreedy (eps : A) (cb_adf : rcfg A)                       (* cb_explore_adf_greedy.rs:23-30 *)
| CSoftmax (ueps lambda : A) (cb_adf : rcfg A)              (* cb_explore_adf_softmax.rs:24-34 *)
| CSquareCb (ueps gscale gexp : A) (cb_adf : rcfg A)        (* cb_explore_adf_squarecb.rs:26-39 *)
| CElem (one two : nsdef) (keep : bool) (regressor : rcfg A)(* elementwise_interaction.rs:25-40 *)
| CDebug (next : rcfg A)                                    (* debug.rs:21-35 *)
| CBad (e : error).
Arguments CCoin {A}. Arguments CBinary {A}. Arguments CCbAdf {A}. Arguments CGreedy {A}.
Arguments CSoftmax {A}. Arguments CSquareCb {A}. Arguments CElem {A}. Arguments CDebug {A}.
Arguments CBad {A}.

(** A stack of any height. *)
Definition anyred (A : Type) : Type := {n : nat & red A n}.
Definition any_types {A} (r : anyred A) : tdesc := red_types (projT2 r).

(** the common end of the [create] functions: check the types, wrap *)
Definition add_level {A} (nma : N) (td : tdesc) (k : kind A) (ch : anyred A) : out (anyred A) :=
  if td_bad td (any_types ch) then Er EInvalidArgument
  else Ok (existT (red A) (S (projT1 ch)) ((mkW td nma, k), projT2 ch)).

(** cb_adf.rs:96-104 *)
Definition td_cb_adf : tdesc :=
  mkTd LTCb (Some LTSimple) FTCb (Some FTSimple) (Some PTScalar) PTScores.
(** cb_explore_adf_greedy.rs:76-84, softmax.rs:85-93, squarecb.rs:104-112 *)
Definition td_explore : tdesc :=
  mkTd LTCb (Some LTCb) FTCb (Some FTCb) (Some PTScores) PTProbs.

Section Factory.
Context (O : FOps).
Local Notation rcfg := (rcfg O).

Fixpoint create (H : hasher) (dbg : bool) (gc : gconfig) (nma : N) (c : rcfg) : out (anyred O) :=
  match c with
  | CBad e => Er e
  | CCoin cfg =>                                            (* coin.rs:156-184 *)
      let* co := coin_new H dbg cfg gc nma in
      Ok (existT (red O) 0%nat (mkW (mkTd LTSimple None FTSimple None None PTScalar) nma, co))
  | CBinary c' =>                                           (* binary.rs:56-93 *)
      let* ch := create H dbg gc nma c' in
      let t := any_types ch in
      add_level nma (mkTd LTBinary (Some LTSimple) (td_in_feats t) (Some (td_in_feats t))
                          (Some PTScalar) PTBinary) KBinary ch
  | CCbAdf ty c' =>                                         (* cb_adf.rs:85-123 *)
      let* ch := create H dbg gc nma c' in
      add_level nma td_cb_adf (KCbAdf ty 0 0) ch
  | CGreedy eps c' =>                                       (* cb_explore_adf_greedy.rs:62-102 *)
      let* ch := create H dbg gc nma c' in
      add_level nma td_explore (KGreedy eps) ch
  | CSoftmax ue la c' =>                                    (* cb_explore_adf_softmax.rs:71-112 *)
      let* ch := create H dbg gc nma c' in
      add_level nma td_explore (KSoftmax ue la 0) ch
  | CSquareCb ue gs ge c' =>                                (* cb_explore_adf_squarecb.rs:80-131 *)
      match c' with
      | CCbAdf Ips _ => Er EInvalidArgument
      | _ =>
        let* ch := create H dbg gc nma c' in
        add_level nma td_explore (KSquareCb ue gs ge 0) ch
      end
  | CElem one two keep c' =>                                (* elementwise_interaction.rs:76-123 *)
      let* ch := create H dbg gc nma c' in
      let t := any_types ch in
      add_level nma (mkTd (td_in_label t) (Some (td_in_label t)) FTSimple (Some FTSimple)
                          (Some (td_out_pred t)) (td_out_pred t))
                (KElem (nsdef_namespace H (gc_seed gc) one) (nsdef_namespace H (gc_seed gc) two)
                       keep (gc_bits gc)) ch
  | CDebug c' =>                                            (* debug.rs:79-121 *)
      let* ch := create H dbg gc nma c' in
      let t := any_types ch in
      add_level nma (mkTd (td_in_label t) (Some (td_in_label t)) (td_in_feats t) (Some (td_in_feats t))
                          (Some (td_out_pred t)) (td_out_pred t)) KDebug ch
  end.

(** workspace.rs:125-138 [Workspace::new]: the top of the stack is created with 1 *)
Definition ws_new (H : hasher) (dbg : bool) (gc : gconfig) (c : rcfg) : out (anyred O) :=
  create H dbg gc 1 c.
End Factory.
Arguments create {O}. Arguments ws_new {O}.

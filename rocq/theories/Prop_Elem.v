(** C36: the element-wise interaction. *)
From Coq Require Import List NArith ZArith Bool.
From Verif Require Import Base FloatOps FloatB32 Model_Hash Model_Features Model_Types Model_Interactions
  Model_Stack Model_Factory Spec_Stack Spec_Elem Proof_Elem.
Import ListNotations.
Open Scope N_scope.

(** The composite namespace holds exactly the products of the components at the positions
    present in both vectors, laid out from the masked composite hash on. *)
Theorem C36_products : forall (O : FOps) dbg nb (s : sfeats O) one two (v w : vec O),
  nb < 32 -> holds nb s one v -> holds nb s two w -> increasing v -> increasing w ->
  Forall (fun p => ns_hash (composite one two) mod 2 ^ nb + fst p < 2 ^ 32) v ->
  elem_multiply dbg nb s one two = Ok (prod_ns nb one two v w).
Proof. exact multiply_products. Qed.
Print Assumptions C36_products.

(** The reduction below is called, in predict and in learn, on exactly that view of the
    features; what it answers is passed on; and when it leaves the features as it got them
    every namespace is afterwards what it was before. *)
Theorem C36_child_input : forall (O : FOps) dbg nb (s : sfeats O) one two keep (v w : vec O),
  in_order s -> nb < 32 -> nameable one -> nameable two -> (keep = false -> one <> two) ->
  holds nb s one v -> holds nb s two w -> increasing v -> increasing w ->
  Forall (fun p => ns_hash (composite one two) mod 2 ^ nb + fst p < 2 ^ 32) v ->
  fm_get (composite one two) s = None ->
  exists t, in_order t /\ (forall k, fm_get k t = view nb s one two keep v w k) /\
    (forall child d mo p u d',
       child (FtsSimple t) d 0 = Ok (p, FtsSimple u, d') ->
       in_order u -> (forall k, fm_get k u = fm_get k t) ->
       exists s', kind_predict dbg (KElem one two keep nb) child (FtsSimple s) d mo
                    = Ok (p, FtsSimple s', d') /\ forall k, fm_get k s' = fm_get k s) /\
    (forall X (learn : X -> features O -> label O -> N -> N -> out (pres O X)) ch lb d mo ch' u d',
       learn ch (FtsSimple t) lb d 0 = Ok (ch', FtsSimple u, d') ->
       in_order u -> (forall k, fm_get k u = fm_get k t) ->
       exists s', kind_learn dbg (KElem one two keep nb) learn ch (FtsSimple s) lb d mo
                    = Ok ((KElem one two keep nb, ch'), FtsSimple s', d') /\
                  forall k, fm_get k s' = fm_get k s).
Proof. exact child_input. Qed.
Print Assumptions C36_child_input.

Example C36_example :
  in_order el_s /\ nameable el_a /\ nameable el_b /\ el_a <> el_b /\
  holds 18 el_s el_a el_v /\ holds 18 el_s el_b el_w /\ increasing el_v /\ increasing el_w /\
  Forall (fun p : N * BF0 => ns_hash (composite el_a el_b) mod 2 ^ 18 + fst p < 2 ^ 32) el_v /\
  fm_get (composite el_a el_b) el_s = None /\
  products el_v el_w = [(0, fl 20%Z); (3, fl 700%Z)].
Proof. exact el_ok. Qed.
Print Assumptions C36_example.

(** A namespace that is not there is a panic. *)
Theorem C36_missing_panics : forall (O : FOps) X dbg nb s one two keep (call : features O -> out (pres O X)),
  nb < 32 -> sf_get one s = None \/ sf_get two s = None ->
  elem_frame dbg one two keep nb call (FtsSimple s) = Pn PNone.
Proof. exact missing. Qed.
Print Assumptions C36_missing_panics.

(** The same namespace twice without keeping the originals, which is the default
    configuration: no simple example can ever be predicted on or learnt from. *)
Theorem C36_same_twice_panics : forall (O : FOps) H dbg gc (d : nsdef) (c : rcfg O) R r s,
  ws_new H dbg gc (CElem d d false c) = Ok R -> reach dbg (projT2 R) r -> in_order s ->
  (exists p, ws_predict dbg r (FtsSimple s) = Pn p) /\
  (forall lb, exists p, ws_learn dbg r (FtsSimple s) lb = Pn p) /\
  (forall lb, exists p, ws_ptl dbg r (FtsSimple s) lb = Pn p).
Proof. exact never_predicts. Qed.
Print Assumptions C36_same_twice_panics.

(** An index below the masked base, as produced by wrapping around, panics when overflow
    checks are on ... *)
Theorem C36_below_base_panics : forall (O : FOps) nb s one two x1 x2 i1 a r1 i2 b r2 X keep
    (call : features O -> out (pres O X)),
  nb < 32 -> sf_get one s = Some x1 -> sf_get two s = Some x2 ->
  sfn_iter x1 = (i1, a) :: r1 -> sfn_iter x2 = (i2, b) :: r2 ->
  i1 < ns_hash one mod 2 ^ nb \/ i2 < ns_hash two mod 2 ^ nb ->
  elem_frame true one two keep nb call (FtsSimple s) = Pn POverflow.
Proof. exact below_base. Qed.
Print Assumptions C36_below_base_panics.

(** ... and loses components when they are off. *)
Theorem C36_wrap_around_refuted :
  map (fun i => i mod 2 ^ 2) [3 + 0; 3 + 1] = [3; 0] /\
  (exists r, elem_multiply false 2 el_x (NsNamed 3) (NsNamed 4) = Ok r /\ sfn_val r = [fl 20%Z]) /\
  elem_multiply true 2 el_x (NsNamed 3) (NsNamed 4) = Pn POverflow.
Proof. exact el_wrap. Qed.
Print Assumptions C36_wrap_around_refuted.

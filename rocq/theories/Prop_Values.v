(** C74: property theorems: what Python programs compute. *)
From Coq Require Import List NArith Bool.
From Verif Require Import Base FloatOps FloatB32 Model_Hash Model_Features Model_Types Model_Stack Model_Factory Model_Text Model_Train Model_Json Model_Python
  Spec_Json Spec_Stack Spec_Python Spec_Empty Spec_Values Proof_StackProps Proof_TextChunk Proof_Train Proof_Release Proof_JsonTrain Proof_PythonEx Proof_Values Proof_ValuesEx.
Import ListNotations.
Open Scope N_scope.

(** C74.  A Python program gets the results it would get if its objects were values:
    features, labels, predictions and parsers never change, a workspace is what it was
    made as together with the examples it has learned from, in order, and every prediction
    is the prediction of the workspace that has learned from exactly these.  Without lists
    of strings in JSON (see C42); in a release build either the features must be tidy (see
    C02) or the workspaces without element-wise layers. *)
Theorem C74_objects_are_values :
  forall (O : FOps) (H : hasher) dbg (pf : str -> option O) rd al (ops : list (pyworld * pyop O)),
  let calls := map (fun x => (pw_ord (fst x), snd x)) ops in
  no_string_lists rd (map snd ops) -> during H dbg pf rd al (named_ws H dbg) calls [] ->
  dbg = true \/ during H dbg pf rd al all_tidy calls [] \/ during H dbg pf rd al no_elems calls [] ->
  fst (py_run H dbg pf rd ops py_start) = value_run H dbg pf rd al calls [].
Proof. exact objects_are_values. Qed.
Print Assumptions C74_objects_are_values.

(** Two workspaces, one of them trained on features both predict on; then parsing into
    recycled objects.  The features are tidy. *)
Example C74_example : no_string_lists ex_rd (map snd (vx_prog vx_chunk)) /\ during ex_hash false ex_pf ex_rd ex_al (named_ws ex_hash false) (vx_ords vx_chunk) [] /\
  during ex_hash false ex_pf ex_rd ex_al all_tidy (vx_ords vx_chunk) [] /\ vx_sees false vx_chunk = vx_all /\
  let rs := vx_scores false vx_chunk in nth 8 rs None <> nth 9 rs None /\ nth 8 rs None <> None /\ nth 9 rs None <> None.
Proof. exact vx_ok. Qed.
(** The same in a debug build; *)
Example C74_debug_example : no_string_lists ex_rd (map snd (vx_prog vx_chunk)) /\
  during ex_hash true ex_pf ex_rd ex_al (named_ws ex_hash true) (vx_ords vx_chunk) [] /\ vx_sees true vx_chunk = vx_all.
Proof. exact vx_debug_ok. Qed.
(** with features that have empty namespaces in the wrong places. *)
Example C74_loose_example : no_string_lists ex_rd (map snd (vx_prog vx_loose)) /\
  during ex_hash false ex_pf ex_rd ex_al (named_ws ex_hash false) (vx_ords vx_loose) [] /\
  during ex_hash false ex_pf ex_rd ex_al no_elems (vx_ords vx_loose) [] /\ vx_sees false vx_loose = vx_all.
Proof. exact vx_loose_ok. Qed.

(** The last condition is needed: with an element-wise layer and an empty namespace in the
    shared features, learning takes the namespace away, and predicting on the same features
    panics where the values would give a prediction. *)
Theorem C74_untidy_refuted : no_string_lists ex_rd (map snd ux_prog) /\
  during ex_hash false ex_pf ex_rd ex_al (named_ws ex_hash false) ux_ords [] /\
  map see (fst (py_run ex_hash false ex_pf ex_rd ux_prog py_start)) = [Object 0; Object 1; Parsed 2 (Some 3%nat); Nothing; Panicked PNone] /\
  map see (value_run ex_hash false ex_pf ex_rd ex_al ux_ords []) = [Object 0; Object 1; Parsed 2 (Some 3%nat); Nothing; Object 4].
Proof. exact ux_differ. Qed.
Print Assumptions C74_untidy_refuted.

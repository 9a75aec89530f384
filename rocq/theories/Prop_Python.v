(** C59 to C62: property theorems: programs that use the Python module. *)
From Coq Require Import List NArith Bool.
From Verif Require Import Base FloatOps FloatB32 Model_Hash Model_Features Model_Types Model_Stack Model_Factory Model_Text Model_Train Model_Json Model_Python Proof_FloatOrder
  Spec_Json Spec_Stack Spec_Reductions Spec_Total Spec_Python Proof_StackProps Proof_TextChunk Proof_Train Proof_Release Proof_JsonTrain Proof_Python Proof_PythonPool Proof_PythonFits Proof_PythonEx.
Import ListNotations.
Open Scope N_scope.

(** C59.  The pool of the Python module cannot be observed: any program gets the same
    results as one whose feature objects are all new.  The only exception is the capacity
    bug of JSON string lists (C42): the first difference, if there is one, is a parse call
    that panics in one of the two runs. *)
Theorem C59_pool_invisible :
  forall (O : FOps) (H : hasher) dbg (pf : str -> option O) rd al (ops : list (pyworld * pyop O)),
  let rs := fst (py_run H dbg pf rd ops py_start) in
  let rs' := new_run H dbg pf rd al (map (fun x => (pw_ord (fst x), snd x)) ops) [] in
  rs = rs' \/
  exists pre w op post, ops = pre ++ (w, op) :: post /\ is_parse op /\ firstn (length pre) rs = firstn (length pre) rs' /\
    exists r r', nth_error rs (length pre) = Some r /\ nth_error rs' (length pre) = Some r' /\
      (r = RPanic (badcap dbg) \/ r' = RPanic (badcap dbg)).
Proof. exact (@pool_invisible). Qed.
Print Assumptions C59_pool_invisible.

(** With text and DsJson data, and JSON data without lists of strings, there is no
    difference at all. *)
Theorem C59_pool_invisible_without_lists :
  forall (O : FOps) (H : hasher) dbg (pf : str -> option O) rd al (ops : list (pyworld * pyop O)),
  no_string_lists rd (map snd ops) ->
  fst (py_run H dbg pf rd ops py_start) = new_run H dbg pf rd al (map (fun x => (pw_ord (fst x), snd x)) ops) [].
Proof. exact (@pool_invisible_no_lists). Qed.
Print Assumptions C59_pool_invisible_without_lists.

(** A program that parses into recycled objects, learns and predicts. *)
Example C59_example : no_string_lists ex_rd (map snd py_prog) /\
  map see (fst (py_run ex_hash false ex_pf ex_rd py_prog py_start)) =
    [Object 0; Object 1; Parsed 2 (Some 3%nat); Nothing; Parsed 4 (Some 5%nat); Nothing; Object 6; Nothing; WrongType] /\
  length (py_pool (snd (py_run ex_hash false ex_pf ex_rd (firstn 4 py_prog) py_start))) = 3%nat.
Proof. exact (conj py_prog_new py_prog_runs). Qed.
(** The exception does occur. *)
Example C59_example_lists : map see (fst (py_run ex_hash false ex_pf py_rd py_lists py_start)) = [Object 0; Object 1; Parsed 2 None; Nothing; Panicked PAlloc] /\
  map see (new_run ex_hash false ex_pf py_rd ex_al (map (fun x => (pw_ord (fst x), snd x)) py_lists) []) = [Object 0; Object 1; Parsed 2 None; Nothing; Parsed 3 None].
Proof. exact py_lists_panic. Qed.

(** C60.  Release build, binary32.  A program makes a workspace from a configuration, makes
    a parser from the workspace, and parses an example with it; any calls may come in
    between and afterwards (no workspace uses the element-wise reduction).  Then the parsed
    label has the label type of the workspace, and predict, learn and predict_then_learn
    on that workspace and these features return normally whenever [can_predict] and
    [can_learn] hold for the workspace as created and the features as parsed. *)
Theorem C60_parsed_examples_are_accepted :
  forall e l q, let O := BF e l q in
  forall (H : hasher) (pf : str -> option O) rd gc ex (c : rcfg O) R st0 w1 w st1 st2 w2 fm p st3 st4 w3 s f lb st5 st6 x,
  ws_new H false gc c = Ok R ->
  steps H false pf rd no_elem py_start st0 -> py_exec H false pf rd w1 st0 (FromConfig gc ex c) = Some (RNew w, Some st1) ->
  steps H false pf rd no_elem st1 st2 -> py_exec H false pf rd w2 st2 (ParserOf w fm) = Some (RNew p, Some st3) ->
  steps H false pf rd no_elem st3 st4 -> py_exec H false pf rd w3 st4 (Parse p s) = Some (RParsed f lb, Some st5) ->
  steps H false pf rd no_elem st5 st6 ->
  py_get (py_heap st5) f = Some (OFeats x) ->
  (forall j, lb = Some j -> exists lab, py_get (py_heap st5) j = Some (OLabel lab) /\ label_type_of lab = td_in_label (red_types (projT2 R))) /\
  (forall w4 r o, py_exec H false pf rd w4 st6 (Predict w f) = Some (r, o) -> can_predict (projT2 R) x ->
     exists j st', r = RNew j /\ o = Some st') /\
  (forall w4 l lab r o, py_exec H false pf rd w4 st6 (Learn w f l) = Some (r, o) -> py_get (py_heap st6) l = Some (OLabel lab) -> can_learn (projT2 R) x lab ->
     exists st', r = RNone /\ o = Some st') /\
  (forall w4 l lab r o, py_exec H false pf rd w4 st6 (PredictThenLearn w f l) = Some (r, o) -> py_get (py_heap st6) l = Some (OLabel lab) ->
     can_predict (projT2 R) x -> can_learn (projT2 R) x lab -> exists j st', r = RNew j /\ o = Some st').
Proof. exact (fun e l q => accepted (BF_ford e l q)). Qed.
Print Assumptions C60_parsed_examples_are_accepted.

(** The workspace of C58's example; after parsing, the program learns and makes an object. *)
Example C60_example : exists R st1 st3 st5 st6 x lab,
  ws_new ex_hash false ex_gc mtr_greedy_cfg = Ok R /\
  steps ex_hash false ex_pf ex_rd no_elem py_start py_start /\
  py_exec ex_hash false ex_pf ex_rd py_w py_start (FromConfig ex_gc py_ex mtr_greedy_cfg) = Some (RNew 0, Some st1) /\
  steps ex_hash false ex_pf ex_rd no_elem st1 st1 /\
  py_exec ex_hash false ex_pf ex_rd py_w st1 (ParserOf 0 FVwText) = Some (RNew 1, Some st3) /\
  steps ex_hash false ex_pf ex_rd no_elem st3 st3 /\
  py_exec ex_hash false ex_pf ex_rd py_w st3 (Parse 1 ex_chunk) = Some (RParsed 2 (Some 3%nat), Some st5) /\
  steps ex_hash false ex_pf ex_rd no_elem st5 st6 /\ st6 <> st5 /\
  py_get (py_heap st5) 2 = Some (OFeats x) /\ py_get (py_heap st6) 3 = Some (OLabel lab) /\
  can_predict (projT2 R) x /\ can_learn (projT2 R) x lab.
Proof. exact py_accepted. Qed.

(** C61.  A workspace whose top reduction is Binary (perhaps below Debug layers) cannot be
    used from Python: in every state a program can reach, predict, learn and
    predict_then_learn raise an exception, and the workspace is as before if the program
    goes on. *)
Theorem C61_binary_unusable :
  forall (O : FOps) (H : hasher) dbg (pf : str -> option O) rd ops w gc ex R op wd r s,
  let st := snd (py_run H dbg pf rd ops py_start) in
  py_get (py_heap st) w = Some (OWs gc ex R) -> binary_top (projT1 R) (projT2 R) ->
  (exists f, op = Predict w f) \/ (exists f l, op = Learn w f l \/ op = PredictThenLearn w f l) ->
  py_exec H dbg pf rd wd st op = Some (r, s) ->
  raised r /\ forall st', s = Some st' -> py_get (py_heap st') w = Some (OWs gc ex R).
Proof. exact (@binary_unusable). Qed.
Print Assumptions C61_binary_unusable.

Example C61_example : exists R, let st := snd (py_run ex_hash false ex_pf ex_rd py_binary py_start) in
  py_get (py_heap st) 0 = Some (OWs ex_gc py_ex R) /\ binary_top (projT1 R) (projT2 R) /\
  map see (fst (py_run ex_hash false ex_pf ex_rd [(py_w, Predict 0 1)] st)) = [Panicked PTodo] /\
  map see (fst (py_run ex_hash false ex_pf ex_rd [(py_w, Learn 0 1 2)] st)) = [Panicked PType].
Proof. exact py_binary_state. Qed.

(** C62.  The pool and the objects in use never exceed the largest number of feature
    objects a program held at one time. *)
Theorem C62_pool_bounded :
  forall (O : FOps) (H : hasher) dbg (pf : str -> option O) rd (ops : list (pyworld * pyop O)),
  exists pre post, ops = pre ++ post /\
    let st := snd (py_run H dbg pf rd ops py_start) in
    (length (py_pool st) + held (py_heap st) <= held (py_heap (snd (py_run H dbg pf rd pre py_start))))%nat.
Proof. exact (@pool_bounded). Qed.
Print Assumptions C62_pool_bounded.

(** Two parse calls and two drops: three objects in the pool, as many as in use at most. *)
Example C62_example :
  length (py_pool (snd (py_run ex_hash false ex_pf ex_rd py_prog py_start))) = 3%nat /\
  map (fun k => held (py_heap (snd (py_run ex_hash false ex_pf ex_rd (firstn k py_prog) py_start)))) (seq 0 10) = [0; 0; 0; 3; 0; 3; 3; 3; 0; 0]%nat.
Proof. exact py_prog_pool. Qed.

(** C75: property theorems: empty namespaces. *)
From Coq Require Import List NArith Bool.
From Verif Require Import Base FloatOps FloatB32 Model_Hash Model_Features Model_Types Model_Stack Model_Factory Model_Text Model_Train
  Spec_Stack Spec_Text Spec_Progress Spec_Values Spec_Empty Proof_StackProps Proof_TextParse Proof_TextChunk Proof_Train Proof_EmptyProps.
Import ListNotations.
Open Scope N_scope.

(** C75.  In a release build a stack without element-wise reductions does not distinguish
    features with an empty namespace from features without it: every call has the same
    outcome. *)
Theorem C75_empty_namespaces : forall (O : FOps) n (r : red O n) (f g : features O) (lb : label O),
  elem_free n r -> sound_fts f -> sound_fts g -> same_contents f g ->
  alike (ws_predict false r f) (ws_predict false r g) /\ alike (ws_learn false r f lb) (ws_learn false r g lb) /\
  alike (ws_ptl false r f lb) (ws_ptl false r g lb).
Proof. exact @empty_namespaces. Qed.
Print Assumptions C75_empty_namespaces.

(** Training on such examples gives the same model, or fails in the same way. *)
Theorem C75_training : forall (O : FOps) n (r : red O n) (exs exs' : list (features O * label O)),
  elem_free n r -> Forall2 same_example exs exs' -> now false r exs = now false r exs'.
Proof. exact @empty_training. Qed.
Print Assumptions C75_training.

(** The features a call leaves have the content of the features it was given (see C02 for
    when they are the same also in their empty namespaces). *)
Theorem C75_restored : forall (O : FOps) n (r : red O n) (f : features O) (lb : label O),
  elem_free n r -> sound_fts f ->
  (forall p f', ws_predict false r f = Ok (p, f') -> same_contents f f') /\
  (forall r' f', ws_learn false r f lb = Ok (r', f') -> same_contents f f') /\
  (forall p r' f', ws_ptl false r f lb = Ok (p, r', f') -> same_contents f f').
Proof. exact @contents_restored. Qed.
Print Assumptions C75_restored.

(** Lines of text that differ in namespaces without features only. *)
Theorem C75_text : forall (O : FOps) (H : hasher) (pf : str -> option O) (seed nb : N) (ft : feat_type)
    (ds : list (sfeats O)) (initial : str) (ns ns' : list tns) (ws : list str) s,
  nb < 32 -> Forall pooled ds -> ~ In 124 initial -> label_words initial ws -> simple_label pf ws s ->
  Forall (tn_ok pf) ns -> Forall (tn_ok pf) ns' -> with_feats ns = with_feats ns' ->
  exists f g lb, parse_chunk H pf false seed nb ft LTSimple ds (line_text initial ns) = Ok (f, lb) /\
    parse_chunk H pf false seed nb ft LTSimple ds (line_text initial ns') = Ok (g, lb) /\
    forall n (r : red O n) l, elem_free n r ->
      alike (ws_predict false r f) (ws_predict false r g) /\ alike (ws_learn false r f l) (ws_learn false r g l) /\
      alike (ws_ptl false r f l) (ws_ptl false r g l).
Proof. exact @empty_text. Qed.
Print Assumptions C75_text.

(** An action with an empty namespace, and the same without it; a stack for them. *)
Example C75_satisfiable : sound_fts ex_fts /\ sound_fts ex_fts_empty /\ same_contents ex_fts ex_fts_empty /\ ex_fts <> ex_fts_empty /\
  exists R, ws_new ex_hash false ex_gc ex_cfg = Ok R /\ elem_free (projT1 R) (projT2 R) /\
    ok_of (ws_predict false (projT2 R) ex_fts) = true /\ ok_of (now false (projT2 R) [(ex_fts, ex_lb); (ex_fts, ex_lb)]) = true.
Proof. split; [exact ex_sound|]. split; [exact ex_sound_empty|]. split; [apply ex_same_contents|]. split; [apply ex_same_contents|exact ex_free]. Qed.

(** "1 |a x:2  :3| y|a:4<tab>z:q " with and without "|a" at the end *)
Example C75_text_satisfiable : Forall (tn_ok ex_pf) ex_ns /\ Forall (tn_ok ex_pf) (ex_ns ++ [empty_ns]) /\
  with_feats ex_ns = with_feats (ex_ns ++ [empty_ns]) /\ label_words [49; 32] [[49]] /\
  simple_label ex_pf [[49]] (Some (@f_of_N BF0 1, None)).
Proof.
  split; [exact ex_ns_ok|]. split; [apply Forall_app; split; [exact ex_ns_ok|repeat constructor; discriminate]|].
  split; [reflexivity|]. split; [apply label_words_tokens; reflexivity|constructor; reflexivity].
Qed.

(** Both conditions are needed.  In a debug build the check after the call fails for the
    features with the empty namespace. *)
Theorem C75_debug_refuted : same_contents ex_fts ex_fts_empty /\
  exists R, ws_new ex_hash true ex_gc ex_cfg = Ok R /\ elem_free (projT1 R) (projT2 R) /\
    ok_of (ws_predict true (projT2 R) ex_fts) = true /\ ws_predict true (projT2 R) ex_fts_empty = Pn PAssert.
Proof. split; [apply ex_same_contents|exact debug_differs]. Qed.
Print Assumptions C75_debug_refuted.

(** The element-wise reduction needs both its namespaces, empty or not. *)
Theorem C75_elementwise_refuted : sound_fts (el_fts true) /\ sound_fts (el_fts false) /\ same_contents (el_fts true) (el_fts false) /\
  exists R, ws_new ex_hash false ex_gc ex_raw_cfg = Ok R /\
  ok_of (ws_predict false (projT2 R) (el_fts true)) = true /\ ws_predict false (projT2 R) (el_fts false) = Pn PNone.
Proof. exact elem_differs. Qed.
Print Assumptions C75_elementwise_refuted.

(** C03 (parsing), C26, C27, C28, C29: property theorems about the text format. *)
From Coq Require Import List NArith Bool.
From Verif Require Import Base FloatOps FloatB32 Model_Hash Model_Types Model_Features Model_Text Spec_Features Spec_Stack Spec_Text
  Proof_TextRead Proof_TextParse Proof_TextFeats Proof_TextChunk.
Import ListNotations.
Open Scope N_scope.

(** C26.  Every text has lines and maximal runs of non-blank lines; reading chunk by
    chunk stops, and gives for each run, in order, the chunk of its trimmed lines. *)
Theorem C26_multi_line : forall text : str,
  (exists ls bs, lines_are text ls /\ blocks ls bs) /\
  forall ls bs, lines_are text ls -> blocks ls bs ->
  exists cs, all_chunks (S (length text)) true text = Some cs /\ Forall2 chunk_of bs cs.
Proof. exact chunks_multi_all. Qed.
Print Assumptions C26_multi_line.

(** C26, single-line examples: one chunk per non-blank line. *)
Theorem C26_single_line : forall text : str,
  (exists ls bs, lines_are text ls /\ non_blank ls bs) /\
  forall ls bs, lines_are text ls -> non_blank ls bs ->
  exists cs, all_chunks (S (length text)) false text = Some cs /\ Forall2 trimmed bs cs.
Proof. exact chunks_single_all. Qed.
Print Assumptions C26_single_line.

(** a blank line, two lines, an empty line, one line without newline at the end *)
Example C26_satisfiable :
  all_chunks 100 true [32; 10; 97; 32; 10; 98; 13; 10; 10; 99] = Some [[97; 10; 98]; [99]] /\
  all_chunks 100 false [32; 10; 97; 32; 10; 98; 13; 10; 10; 99] = Some [[97]; [98]; [99]].
Proof. split; reflexivity. Qed.

(** C27 is false: whatever the hash function, number parser and build profile, a
    namespace without a name, three label words, an unknown label, and a contextual
    bandit label for single-line features panic. *)
Theorem C27_total_refuted : forall (O : FOps) (H : hasher) (pf : str -> option O) (dbg : bool) (seed nb : N) (dests : list (sfeats O)),
  parse_chunk H pf dbg seed nb FTSimple LTSimple dests [124] = Pn PNone /\
  parse_chunk H pf dbg seed nb FTSimple LTSimple dests [49; 32; 49; 32; 49; 32; 124; 32; 97] = Pn PTodo /\
  parse_chunk H pf dbg seed nb FTCb LTCb dests [120; 32; 124; 32; 97] = Pn PErr /\
  parse_chunk H pf dbg seed nb FTSimple LTCb dests [] = Pn PTodo.
Proof. intros O H pf dbg seed nb dests. repeat split. Qed.
Print Assumptions C27_total_refuted.

(** What holds instead, in release builds: a line of a simple example returns a result
    exactly if it is [line_fine] (label words and namespace values are numbers, at most
    two label words, every namespace starts with a space or has a name), otherwise it
    panics; it never returns an error. *)
Theorem C27_simple_lines : forall (O : FOps) (H : hasher) (pf : str -> option O) (seed nb : N) (ft : feat_type)
    (dests : list (sfeats O)) (chunk : str),
  let r := parse_chunk H pf false seed nb ft LTSimple dests chunk in
  (line_fine pf LTSimple chunk -> exists x, r = Ok x) /\ (~ line_fine pf LTSimple chunk -> exists p, r = Pn p).
Proof. exact @chunk_simple_release. Qed.
Print Assumptions C27_simple_lines.

(** The same for contextual bandit examples; here an error is possible. *)
Theorem C27_multi_lines : forall (O : FOps) (H : hasher) (pf : str -> option O) (seed nb : N)
    (dests : list (sfeats O)) (chunk : str),
  let r := parse_chunk H pf false seed nb FTCb LTCb dests chunk in
  (Forall (line_fine pf LTCb) (str_lines chunk) -> (exists x, r = Ok x) \/ r = Er EInvalidArgument) /\
  (~ Forall (line_fine pf LTCb) (str_lines chunk) -> exists p, r = Pn p).
Proof. exact @chunk_cb_release. Qed.
Print Assumptions C27_multi_lines.

(** "1 2 |a x:2": a fine line. *)
Example C27_satisfiable : line_fine ex_pf LTSimple [49; 32; 50; 32; 124; 97; 32; 120; 58; 50].
Proof.
  exists [49; 32; 50; 32], [[97; 32; 120; 58; 50]], [[49]; [50]]. split; [apply cut_split; reflexivity|].
  split; [apply label_words_tokens; reflexivity|]. split; [eexists; apply sl_weight; reflexivity|].
  constructor; [|constructor]. right. exists [97], [[120; 58; 50]]. split; [apply words_by; reflexivity|].
  intros a v r Hc. apply cut_split in Hc. discriminate.
Qed.

(** C28.  Whenever a multi-line chunk parses: every line has a mark (shared, no label, or
    label), the label of the example is the one labelled action line's, with its position
    among the actions, and there is none if no action line is labelled; there is one
    action per line except for a shared first line, in order. *)
Theorem C28_label : forall (O : FOps) (H : hasher) (pf : str -> option O) (seed nb : N) (dbg : bool)
    (dests : list (sfeats O)) (chunk : str) (f : features O) (lb : option (label O)),
  parse_chunk H pf dbg seed nb FTCb LTCb dests chunk = Ok (f, lb) ->
  exists ms l, Forall2 (line_mark pf) (str_lines chunk) ms /\ lb = lb_of l /\ label_is (action_marks ms) l /\
    exists sh acts, f = FtsCb sh acts /\
      Forall2 (line_feats H pf seed nb dbg dests) (str_lines chunk) (match sh with Some s => [s] | None => [] end ++ acts) /\
      (sh <> None <-> exists r, ms = MShared :: r).
Proof. exact @multi_ok. Qed.
Print Assumptions C28_label.

(** Two labelled action lines: an error. *)
Theorem C28_two_labels : forall (O : FOps) (H : hasher) (pf : str -> option O) (seed nb : N) (dbg : bool)
    (dests : list (sfeats O)) (chunk : str) rs (ms : list (mark O)),
  parse_lines H pf dbg seed nb LTCb (str_lines chunk) dests = Ok rs ->
  Forall2 (line_mark pf) (str_lines chunk) ms -> two_labels (action_marks ms) ->
  parse_chunk H pf dbg seed nb FTCb LTCb dests chunk = Er EInvalidArgument.
Proof. exact @two_labels_error. Qed.
Print Assumptions C28_two_labels.

(** "shared | s", "| a", "0:1:2 | b": the label is action 1; with another label on the
    second line an error. *)
Example C28_satisfiable :
  (exists f, parse_chunk ex_h ex_pf true 0 4 FTCb LTCb []
    [115;104;97;114;101;100;32;124;32;115;10;124;32;97;10;48;58;49;58;50;32;124;32;98] =
    Ok (f, Some (LbCb 1 (@f_of_N BF0 1) (@f_of_N BF0 2)))) /\
  (exists rs, parse_lines ex_h ex_pf true 0 4 LTCb (str_lines [48;58;49;58;50;32;124;32;97;10;48;58;49;58;50;32;124;32;98]) [] = Ok rs) /\
  parse_chunk ex_h ex_pf true 0 4 FTCb LTCb [] [48;58;49;58;50;32;124;32;97;10;48;58;49;58;50;32;124;32;98] = Er EInvalidArgument.
Proof. split; [eexists; reflexivity|]. split; [eexists; reflexivity|reflexivity]. Qed.

(** C29, single-line examples.  For every line in the documented form, whatever object
    the pool hands out: the result has the label and weight of the line and exactly the
    features of its namespaces, in order. *)
Theorem C29_simple : forall (O : FOps) (H : hasher) (pf : str -> option O) (seed nb : N) (dbg : bool) (ft : feat_type)
    (dests : list (sfeats O)) (initial : str) (ns : list tns) (ws : list str) s,
  nb < 32 -> Forall pooled dests -> ~ In 124 initial ->
  label_words initial ws -> simple_label pf ws s ->
  Forall (tn_ok pf) ns -> (dbg = true -> Forall (anon_fits H seed) ns) ->
  exists d, parse_chunk H pf dbg seed nb ft LTSimple dests (line_text initial ns) =
      Ok (FtsSimple d, match s with
                       | Some (x, Some w) => Some (LbSimple x w)
                       | Some (x, None) => Some (LbSimple x f1)
                       | None => None
                       end) /\
    forall k, sf_get k d = as_sfn k (line_content H pf seed nb ns k).
Proof. exact @chunk_simple_ok. Qed.
Print Assumptions C29_simple.

(** C29 with C28, contextual bandit examples in the documented form. *)
Theorem C29_contextual_bandit : forall (O : FOps) (H : hasher) (pf : str -> option O) (seed nb : N) (dbg : bool)
    (dests : list (sfeats O)) (ls : list (cline O)) (chunk : str),
  nb < 32 -> Forall pooled dests -> Forall (cl_ok pf) ls -> ls <> [] ->
  str_lines chunk = map cl_text ls ->
  (dbg = true -> Forall (fun l => Forall (anon_fits H seed) (cl_ns l)) ls) ->
  ~ two_labels (action_marks (map cl_mark ls)) ->
  exists sh acts lb, parse_chunk H pf dbg seed nb FTCb LTCb dests chunk = Ok (FtsCb sh acts, lb_of lb) /\
    Forall2 (holds_line H pf seed nb) ls (match sh with Some s => [s] | None => [] end ++ acts) /\
    (sh <> None <-> exists r, map cl_mark ls = MShared :: r) /\
    label_is (action_marks (map cl_mark ls)) lb.
Proof. exact @chunk_cb_ok. Qed.
Print Assumptions C29_contextual_bandit.

(** "1 |a x:2  :3| y|a:4<tab>z:q " *)
Example C29_satisfiable : Forall (tn_ok ex_pf) ex_ns /\ label_words [49; 32] [[49]] /\
  simple_label ex_pf [[49]] (Some (@f_of_N BF0 1, None)) /\ (true = true -> Forall (anon_fits ex_h 0) ex_ns) /\
  line_content ex_h ex_pf 0 4 ex_ns (NsNamed 314) =
    Some [(7, @f_of_N BF0 2); (10, @f_of_N BF0 3); (1, @f_of_N BF0 4)] /\
  exists l, cl_ok ex_pf l /\ cl_mark l = MLabel 0 (@f_of_N BF0 1) (@f_of_N BF0 2) /\ cl_ns l = ex_ns.
Proof.
  split; [exact ex_ns_ok|]. split; [apply label_words_tokens; reflexivity|]. split; [constructor; reflexivity|].
  split; [intros _; repeat constructor|]. split; [vm_compute; reflexivity|].
  exists (mkCline [48;58;49;58;50;32] [[48;58;49;58;50]] (MLabel 0 (@f_of_N BF0 1) (@f_of_N BF0 2)) ex_ns).
  split; [|split; reflexivity]. split; [vm_compute; intuition discriminate|]. split; [apply label_words_tokens; reflexivity|].
  split; [|exact ex_ns_ok]. eapply mk_label; [apply cut_split; reflexivity|reflexivity..].
Qed.

(** C03, parsing: whatever objects the pool hands out, parsing has the same outcome (also
    the same error or panic) and gives the same label and features that look the same. *)
Theorem C03_parsing : forall (O : FOps) (H : hasher) (pf : str -> option O) (seed nb : N) (dbg : bool) (ft : feat_type)
    (lt : label_type) (chunk : str) (ds es : list (sfeats O)),
  Forall pooled ds -> Forall pooled es ->
  orel (fun x y => fts_same (fst x) (fst y) /\ snd x = snd y)
    (parse_chunk H pf dbg seed nb ft lt ds chunk) (parse_chunk H pf dbg seed nb ft lt es chunk).
Proof. exact @chunk_recycled. Qed.
Print Assumptions C03_parsing.

Example C03_parsing_satisfiable : Forall (@pooled BF0) [sf_clear (sf_upd_ns (NsNamed 3) (sfn_add 1 f1) sf_new)].
Proof.
  constructor; [|constructor]. right. eexists. split; [|reflexivity].
  exists true, [FAdd 0 (NsNamed 3) 1 (@f1 BF0)]. eexists. exists 0%nat. split; reflexivity.
Qed.

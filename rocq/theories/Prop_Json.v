(** C40, C41 and C42, and C32, C33 and C34 for these formats: property theorems about the
    JSON formats. *)
From Coq Require Import List NArith Bool.
From Verif Require Import Base FloatOps FloatB32 Model_Hash Model_Features Model_Interactions Model_Weights Model_Loss Model_Explore Model_Coin
  Model_Types Model_Stack Model_Factory Model_Text Model_Metrics Model_Train Model_Pipeline Model_Json Model_JsonTrain
  Spec_Features Spec_Stack Spec_Text Spec_Pipeline Spec_Json
  Proof_StackProps Proof_TextChunk Proof_Train Proof_PipeTrain Proof_Json Proof_JsonChunk Proof_DsJson Proof_JsonTrain.
Import ListNotations.
Open Scope N_scope.

(** C40.  Whatever object the pool hands out: if the parser accepts a document, the stack
    is empty again and the object holds exactly the features of the document: those at the
    leaves with no underscore key on the way, in document order, each in the namespace of
    the innermost enclosing key. *)
Theorem C40_features : forall (O : FOps) (H : hasher) (dbg : bool) (seed nb : N) (v : json O) (f f' : sfeats O) st,
  nb < 32 -> pooled f -> ds_handle O H dbg seed nb v str_space f [] = Ok (f', st) ->
  st = [] /\ forall k, sf_get k f' = as_sfn k (ds_content H seed nb v k).
Proof. exact @root_ok. Qed.
Print Assumptions C40_features.

(** It accepts exactly these documents. *)
Theorem C40_accepts : forall (O : FOps) (H : hasher) (dbg : bool) (seed nb : N) (v : json O) (f : sfeats O),
  nb < 32 -> (dbg = true -> ds_fits H seed [PKey str_space] v) ->
  ((exists f' st', ds_handle O H dbg seed nb v str_space f [] = Ok (f', st')) <-> ds_fine str_space v /\ ds_root v).
Proof. exact @root_accepts. Qed.
Print Assumptions C40_accepts.

(** Removing everything below underscore keys changes nothing, also for documents that are
    refused. *)
Theorem C40_underscore : forall (O : FOps) (H : hasher) (dbg : bool) (seed nb : N) (v : json O) key (f : sfeats O) st,
  ds_handle O H dbg seed nb (prune v) key f st = ds_handle O H dbg seed nb v key f st.
Proof. exact @handle_prune. Qed.
Print Assumptions C40_underscore.

(** Whole examples: the context, the actions, the label. *)
Theorem C40_whole_example : forall (O : FOps) (H : hasher) (dbg : bool) (seed nb : N) rd (ds : list (sfeats O)) chunk f lb,
  nb < 32 -> Forall pooled ds -> ds_chunk O H dbg seed nb rd ds chunk = Ok (f, lb) ->
  exists v acts sh fs, rd chunk = Some v /\ jget s_multi (jget s_c v) = JArr acts /\ f = FtsCb (Some sh) fs /\
    (forall k, sf_get k sh = as_sfn k (ds_content H seed nb (jget s_c v) k)) /\
    Forall2 (fun a x => forall k, sf_get k x = as_sfn k (ds_content H seed nb a k)) acts fs /\
    match lb with
    | None => jget s_label_cost v = JNull /\ jget s_label_prob v = JNull /\ jget s_label_index v = JNull
    | Some l => exists c p a i, jget s_label_cost v = JNum c /\ jget s_label_prob v = JNum p /\ jget s_label_index v = JNum a /\
        jn_u64 a = Some i /\ l = LbCb i (jn_f64 c) (jn_f64 p)
    end.
Proof. exact @ds_chunk_ok. Qed.
Print Assumptions C40_whole_example.

(** {"a": {"x": 1, "_y": {"z": 2}}, "t": true, "l": [3, null, {"u": 4}]}: one feature in
    the default namespace, one in a, two in l, none in _y. *)
Example C40_example :
  (ds_fits ex_hash 0 [PKey str_space] (JObj ex_context) /\ ds_fine str_space (JObj ex_context) /\ ds_root (JObj ex_context)) /\
  exists f, ds_handle BF0 ex_hash true 0 18 (JObj ex_context) str_space sf_new [] = Ok (f, []) /\
  map (fun k => option_map (fun s => length (sfn_idx s)) (sf_get k f))
    [NsDefault; NsNamed (hash_bytes ex_hash [97] 0); NsNamed (hash_bytes ex_hash [108] 0); NsNamed (hash_bytes ex_hash [95; 121] 0)] =
  [Some 1; Some 1; Some 2; None]%nat.
Proof. exact (conj ex_fits ex_context_ok). Qed.
Example C40_whole_example_example : is_ok (ds_chunk BF0 ex_hash true 0 18 ex_rd [] [2]) = true.
Proof. vm_compute. reflexivity. Qed.

(** C41.  If the parser accepts a feature object, it holds exactly its features: numeric
    arrays are consecutive from the namespace hash, false gives none. *)
Theorem C41_features : forall (O : FOps) (H : hasher) (dbg : bool) (seed nb : N) al (v : json O) o o',
  nb < 32 -> pooled (fst o) -> to_features O H dbg seed nb al v o = Ok o' ->
  exists nss, jdoc H seed v nss /\ jfits H seed v /\ forall k, sf_get k (fst o') = as_sfn k (jcontent nb nss k).
Proof. exact @features_ok. Qed.
Print Assumptions C41_features.

(** It accepts every such object if there is no list of strings, or if the object of the
    pool is new and no namespace occurs twice. *)
Theorem C41_accepts : forall (O : FOps) (H : hasher) (dbg : bool) (seed nb : N) al (v : json O) o nss,
  nb < 32 -> pooled (fst o) -> jdoc H seed v nss -> jfits H seed v ->
  no_lists v \/ (distinct_ns H seed v /\ forall k, snd o k = (0, 0)%nat) ->
  exists o', to_features O H dbg seed nb al v o = Ok o'.
Proof. exact @features_accepted. Qed.
Print Assumptions C41_accepts.

(** The same features written in the text format get the same indices. *)
Theorem C41_same_as_text : forall (O : FOps) (H : hasher) (pf : str -> option O) (seed nb : N) dbg dbg' al ft
    (ds : list (sfeats O)) initial ns ws s l o o',
  nb < 32 -> Forall pooled ds -> ~ In 124 initial -> label_words initial ws -> simple_label pf ws s ->
  Forall (tn_ok pf) ns -> (dbg = true -> Forall (anon_fits H seed) ns) ->
  Forall2 (same_ns pf) ns l -> pooled (fst o) -> to_features O H dbg' seed nb al (JObj l) o = Ok o' ->
  exists d lb, parse_chunk H pf dbg seed nb ft LTSimple ds (line_text initial ns) = Ok (FtsSimple d, lb) /\
    forall k, option_map sfn_idx (sf_get k d) = option_map sfn_idx (sf_get k (fst o')).
Proof. exact @same_as_text. Qed.
Print Assumptions C41_same_as_text.

(** {"a": [1, 2], ":default": {"x": 3, "y": "z", "t": true, "f": false}, "b": ["u", "v"]} *)
Example C41_example : exists nss o', jdoc ex_hash 0 ex_json nss /\ jfits ex_hash 0 ex_json /\ distinct_ns ex_hash 0 ex_json /\
  to_features BF0 ex_hash true 0 18 ex_al ex_json (cobj_new BF0) = Ok o'.
Proof. exact ex_json_ok. Qed.
(** "1 |a x:2 y:q z| w" and {"a": {"x": 2, "y": "q", "z": true}, " ": ["w"]} *)
Example C41_same_as_text_example : label_words [49; 32] [[49]] /\ simple_label ex_pf [[49]] (Some (@f_of_N BF0 1, None)) /\
  Forall (tn_ok ex_pf) ex_text /\ Forall (anon_fits ex_h 0) ex_text /\ Forall2 (same_ns ex_pf) ex_text ex_same_json /\
  exists o', to_features BF0 ex_h true 0 4 ex_al (JObj ex_same_json) (cobj_new BF0) = Ok o'.
Proof. exact ex_same. Qed.

(** C42.  With two different sets of objects from the pool, of any capacities, and two
    different allocators: the same outcome, or else one of the two runs panics in
    [reserve] (POverflow with overflow checks, PAlloc without). *)
Theorem C42_same_or_capacity : forall (O : FOps) (H : hasher) (dbg : bool) (seed nb : N) al al' rd ft lt (ds es : list (cobj O)) chunk,
  Forall (fun o => pooled (fst o)) ds -> Forall (fun o => pooled (fst o)) es ->
  (json_example O H dbg seed nb al rd ft lt ds chunk = Pn (badcap dbg) \/
   json_example O H dbg seed nb al' rd ft lt es chunk = Pn (badcap dbg)) \/
  orel same_example (json_example O H dbg seed nb al rd ft lt ds chunk) (json_example O H dbg seed nb al' rd ft lt es chunk).
Proof. exact @recycled_or. Qed.
Print Assumptions C42_same_or_capacity.

(** Without lists of strings: the same outcome. *)
Theorem C42_no_lists : forall (O : FOps) (H : hasher) (dbg : bool) (seed nb : N) al al' rd ft lt (ds es : list (cobj O)) chunk,
  (forall v, rd chunk = Some v -> Forall no_lists (json_parts ft v)) ->
  Forall (fun o => pooled (fst o)) ds -> Forall (fun o => pooled (fst o)) es ->
  orel same_example (json_example O H dbg seed nb al rd ft lt ds chunk) (json_example O H dbg seed nb al' rd ft lt es chunk).
Proof. exact @recycled_same. Qed.
Print Assumptions C42_no_lists.

(** In general it is false, whatever the hash and the allocator: {"a": ["x"]} can be read
    into a new object, but not into one that held {"a": ["x", "y"]} and was cleared; and
    one object with both namespaces can never be read. *)
Theorem C42_recycled_refuted : forall (O : FOps) (H : hasher) (dbg : bool) (seed nb : N) al, lawful al -> nb < 32 ->
  exists o1 o2, to_features O H dbg seed nb al v_two (cobj_new O) = Ok o1 /\ to_features O H dbg seed nb al v_one (cobj_new O) = Ok o2 /\
    to_features O H dbg seed nb al v_one (cobj_clear O o1) = Pn (badcap dbg) /\
    to_features O H dbg seed nb al v_both (cobj_new O) = Pn (badcap dbg).
Proof. exact @recycled_fails. Qed.
Print Assumptions C42_recycled_refuted.

Example C42_example : lawful ex_al /\ exists v, ex_rd [1] = Some v /\ is_ok (json_example BF0 ex_hash true 0 18 ex_al ex_rd FTCb LTCb [] [1]) = true.
Proof. exact ex_lawful. Qed.

(** C32 for the JSON formats: what a run with several threads has done is what a single
    thread does with the first chunks. *)
Theorem C32_json_formats : forall (O : FOps) (H : hasher) (dbg : bool) (md : tmode) (seed nb : N) rd (n : nat) (r : red O n) ps need q rd_ok
    k pool (st : tstate O n) chunks p,
  json_format H dbg seed nb rd r ps need -> Forall pooled pool ->
  train_run dbg md ps need n q rd_ok k pool st chunks p ->
  (exists j, (j <= length chunks)%nat /\ one_thread dbg md ps need n (firstn j chunks) st = Ok (pi_st p)) /\
  (pi_learner p = LExit -> one_thread dbg md ps need n chunks st = Ok (pi_st p)).
Proof. exact @format_final. Qed.
Print Assumptions C32_json_formats.

(** C33 for the JSON formats. *)
Theorem C33_json_formats : forall (O : FOps) (H : hasher) (dbg : bool) (md : tmode) (seed nb : N) rd (n : nat) (r : red O n) ps need q rd_ok
    k pool (st : tstate O n) chunks p sN,
  (0 < k)%nat -> json_format H dbg seed nb rd r ps need -> Forall pooled pool -> one_thread dbg md ps need n chunks st = Ok sN ->
  train_run dbg md ps need n q rd_ok k pool st chunks p ->
  (pi_learner p <> LDead /\ forall i, ~ In (PDead i) (pi_par p)) /\
  no_endless (train_step dbg md ps need n q rd_ok) p /\
  ((exists p', train_step dbg md ps need n q rd_ok p p') \/
   (pi_inp p = (if rd_ok then IDone else IDead) /\ (forall x, In x (pi_par p) -> x = PExit) /\ pi_learner p = LExit /\ pi_st p = sN)).
Proof. exact @format_progress. Qed.
Print Assumptions C33_json_formats.

(** C34 for the JSON formats: one chunk on which the parser panics, for example one that
    is not JSON, and the command never ends. *)
Theorem C34_json_formats : forall (O : FOps) (H : hasher) (dbg : bool) (md : tmode) (seed nb : N) rd (n : nat) (r : red O n) ps need q rd_ok
    k pool (st : tstate O n) chunks p i s c,
  json_format H dbg seed nb rd r ps need -> Forall pooled pool ->
  one_thread dbg md ps need n (firstn i chunks) st = Ok s ->
  nth_error chunks i = Some c -> is_pn (ps [] c) = true ->
  train_run dbg md ps need n q rd_ok k pool st chunks p -> ~ all_ended p.
Proof. exact @format_hangs. Qed.
Print Assumptions C34_json_formats.

(** Both formats can be trained with; the reader accepts no document [3]. *)
Example json_formats_example : exists (R : anyred BF0) st s1 s2, ws_new ex_hash false ex_gc ex_cfg = Ok R /\
  train_start [] (Additive 1) (projT2 R) = Ok st /\
  one_thread false (mkMode true true) (json_parser ex_hash false 0 4 ex_rd ex_al (projT2 R)) (json_takes ex_rd (projT2 R)) _ [[1]; [1]; [1]] st = Ok s1 /\
  one_thread false (mkMode true true) (ds_parser ex_hash false 0 4 ex_rd) (ds_takes ex_rd) _ [[2]; [2]; [2]] st = Ok s2.
Proof. exact ex_formats. Qed.
Example json_formats_panic : ex_rd [3] = None /\ is_pn (ds_parser ex_hash false 0 4 ex_rd [] [3]) = true.
Proof. split; reflexivity. Qed.

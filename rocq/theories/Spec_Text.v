(** What the text format means, stated without the parser. *)
From Coq Require Import List NArith.
From Verif Require Import Base FloatOps Model_Hash Model_Features Model_Types Model_Text Spec_Features Spec_Stack.
Import ListNotations.
Open Scope N_scope.

(** lines put together with newlines between them *)
Fixpoint joined (ls : list str) : str :=
  match ls with
  | [] => []
  | [l] => l
  | l :: r => l ++ 10 :: joined r
  end.
(** the lines of a text *)
Definition lines_are (text : str) (ls : list str) : Prop :=
  ls <> [] /\ Forall (fun l => ~ In 10 l) ls /\ text = joined ls.
(** a line of white space only *)
Definition blank (l : str) : Prop := Forall (fun c => is_ws c = true) l.
(** [t] is [l] without its trailing white space *)
Definition trimmed (l t : str) : Prop :=
  (exists w, blank w /\ l = t ++ w) /\ (t = [] \/ exists u c, t = u ++ [c] /\ is_ws c = false).
(** the maximal runs of non-blank lines *)
Inductive blocks : list str -> list (list str) -> Prop :=
| blocks_nil : blocks [] []
| blocks_blank : forall l ls bs, blank l -> blocks ls bs -> blocks (l :: ls) bs
| blocks_run : forall run ls bs,
    run <> [] -> Forall (fun l => ~ blank l) run ->
    (ls = [] \/ exists l r, ls = l :: r /\ blank l) ->
    blocks ls bs -> blocks (run ++ ls) (run :: bs).
(** the non-blank lines *)
Inductive non_blank : list str -> list str -> Prop :=
| nb_nil : non_blank [] []
| nb_blank : forall l ls bs, blank l -> non_blank ls bs -> non_blank (l :: ls) bs
| nb_line : forall l ls bs, ~ blank l -> non_blank ls bs -> non_blank (l :: ls) (l :: bs).
(** a chunk: the trimmed lines of a run with newlines between them; the parser sees
    those lines *)
Definition chunk_of (run : list str) (chunk : str) : Prop :=
  exists ts, Forall2 trimmed run ts /\ chunk = joined ts /\ str_lines chunk = ts.

(** [text] is the words [ws] separated by characters satisfying [p] *)
Inductive words (p : N -> bool) : str -> list str -> Prop :=
| words_end : forall g, Forall (fun c => p c = true) g -> words p g []
| words_one : forall g w, Forall (fun c => p c = true) g -> w <> [] -> Forall (fun c => p c = false) w ->
    words p (g ++ w) [w]
| words_cons : forall g w c r ws, Forall (fun c => p c = true) g -> w <> [] -> Forall (fun c => p c = false) w ->
    p c = true -> words p (c :: r) ws -> words p (g ++ w ++ c :: r) (w :: ws).

(** [text] cut at every [c] *)
Inductive cut (c : N) : str -> list str -> Prop :=
| cut_last : forall l, ~ In c l -> cut c l [l]
| cut_more : forall l r ps, ~ In c l -> cut c r ps -> cut c (l ++ c :: r) (l :: ps).

(** the words of the part before the first bar that make up the label: the last word is
    a tag if it starts with a quote or if no space follows it *)
Inductive label_words (text : str) : list str -> Prop :=
| lw_none : words is_ws text [] -> label_words text []
| lw_tag : forall ws t, words is_ws text (ws ++ [t]) ->
    (exists r, t = 39 :: r) \/ (~ exists r, text = r ++ [32]) -> label_words text ws
| lw_all : forall ws t, words is_ws text (ws ++ [t]) ->
    (~ exists r, t = 39 :: r) -> (exists r, text = r ++ [32]) -> label_words text (ws ++ [t]).

(** what a line of a contextual bandit example says about the label *)
Inductive mark (A : Type) : Type := MShared | MNone | MLabel (action : N) (cost prob : A).
Arguments MShared {A}. Arguments MNone {A}. Arguments MLabel {A}.
Section Marks.
Context {A : Type} (pf : str -> option A).
Inductive mark_of : list str -> mark A -> Prop :=
| mk_none : mark_of [] MNone
| mk_shared : forall ws, mark_of (str_shared :: ws) MShared
| mk_label : forall w ws a c p more an x y, cut 58 w (a :: c :: p :: more) ->
    parse_u32 a = Some an -> pf c = Some x -> pf p = Some y -> mark_of (w :: ws) (MLabel an x y).
(** the mark of a line *)
Definition line_mark (line : str) (m : mark A) : Prop :=
  exists initial segs ws, cut 124 line (initial :: segs) /\ label_words initial ws /\ mark_of ws m.
Definition is_label (m : mark A) : Prop := match m with MLabel _ _ _ => True | _ => False end.
(** the label that belongs to the marks of the actions *)
Definition label_is (ms : list (mark A)) (lb : option (N * A * A)) : Prop :=
  match lb with
  | None => forall m, In m ms -> ~ is_label m
  | Some (i, c, p) =>
      (exists a, nth_error ms (N.to_nat i) = Some (MLabel a c p)) /\
      forall j m, nth_error ms j = Some m -> is_label m -> j = N.to_nat i
  end.
Definition two_labels (ms : list (mark A)) : Prop :=
  exists i j m m', i <> j /\ nth_error ms i = Some m /\ nth_error ms j = Some m' /\ is_label m /\ is_label m'.
(** the marks of the actions: a shared first line is not an action *)
Definition action_marks (ms : list (mark A)) : list (mark A) :=
  match ms with MShared :: r => r | _ => ms end.
End Marks.

(** a line of a simple example: label and weight *)
Inductive simple_label {A : Type} (pf : str -> option A) : list str -> option (A * option A) -> Prop :=
| sl_none : simple_label pf [] None
| sl_value : forall a x, pf a = Some x -> simple_label pf [a] (Some (x, None))
| sl_weight : forall a b x y, pf a = Some x -> pf b = Some y -> simple_label pf [a; b] (Some (x, Some y)).

(** *** the documented form of features *)
Definition plain_char (c : N) : Prop := is_ws c = false /\ c <> 58 /\ c <> 124.
Definition word (s : str) : Prop := Forall plain_char s.
Definition gap (s : str) : Prop := Forall (fun c => is_ascii_ws c = true) s.
(** name, name:value or :value *)
Definition item_text (f : str * option str) : str :=
  fst f ++ match snd f with Some v => 58 :: v | None => [] end.
Definition item_ok (f : str * option str) : Prop :=
  word (fst f) /\ match snd f with Some v => word v | None => fst f <> [] end.
(** a namespace: its name and value (None: the default namespace), features each after
    white space, white space at the end *)
Record tns : Type := mkTns {
  tn_head : option (str * option str);
  tn_feats : list (str * (str * option str));
  tn_trail : str
}.
Definition tn_text (n : tns) : str :=
  match tn_head n with Some h => item_text h | None => [] end
  ++ flat_map (fun p => fst p ++ item_text (snd p)) (tn_feats n) ++ tn_trail n.
Section Docs.
Context {O : FOps} (H : hasher) (pf : str -> option O) (seed nb : N).
Definition tn_ok (n : tns) : Prop :=
  Forall (fun p => gap (fst p) /\ fst p <> [] /\ item_ok (snd p)) (tn_feats n) /\ gap (tn_trail n) /\
  match tn_head n with
  | Some h => item_ok h /\ match snd h with Some v => pf v <> None | None => True end
  | None => exists r, tn_text n = 32 :: r
  end.
Definition h32 (s : str) (seed : N) : N := H s seed mod 4294967296.
Definition tn_key (n : tns) : namespace :=
  match tn_head n with Some h => NsNamed (h32 (fst h) seed) | None => NsDefault end.
Definition tn_scale (n : tns) : O :=
  match tn_head n with
  | Some (_, Some v) => match pf v with Some x => x | None => f1 end
  | _ => f1
  end.
(** the features of a namespace with hash [nsh]; [k] counts anonymous features *)
Fixpoint tn_values (nsh k : N) (fs : list (str * option str)) : list (N * O) :=
  match fs with
  | [] => []
  | (name, None) :: r => (h32 name nsh, f1) :: tn_values nsh k r
  | (name, Some v) :: r =>
      match pf v, name with
      | Some x, [] => ((nsh + k) mod 4294967296, x) :: tn_values nsh (k + 1) r
      | Some x, _ => (h32 name nsh, x) :: tn_values nsh k r
      | None, _ => (h32 v (h32 name nsh), f1) :: tn_values nsh k r
      end
  end.
Definition key_hash (k : namespace) : N := match k with NsNamed h => h | NsRawHash h => h | NsDefault => 0 end.
Definition tn_content (n : tns) : list (N * O) :=
  map (fun iv => (fst iv mod 2 ^ nb, f_mul O (snd iv) (tn_scale n))) (tn_values (key_hash (tn_key n)) 0 (map snd (tn_feats n))).
(** what the namespaces of a line put into namespace [k] *)
Definition line_content (ns : list tns) (k : namespace) : option (list (N * O)) :=
  match filter (fun n => ns_eqb k (tn_key n)) ns with
  | [] => None
  | l => Some (flat_map tn_content l)
  end.
(** no overflow of the index of an anonymous feature (only matters in debug builds) *)
Definition anon_fits (n : tns) : Prop := key_hash (tn_key n) + N.of_nat (length (tn_feats n)) < 4294967296.
Definition line_text (initial : str) (ns : list tns) : str := initial ++ flat_map (fun n => 124 :: tn_text n) ns.
End Docs.
Arguments mkTns : clear implicits.

(** an object as the pool hands it out: new, or built and then cleared *)
Definition pooled {O : FOps} (d : sfeats O) : Prop := d = sf_new \/ exists m, built m /\ d = sf_clear m.

(** the lines that parse in a release build *)
Definition label_fine {A} (pf : str -> option A) (lt : label_type) (ws : list str) : Prop :=
  match lt with
  | LTSimple => exists s, simple_label pf ws s
  | LTBinary => False
  | LTCb => exists m, mark_of pf ws m
  end.
Definition seg_fine {A} (pf : str -> option A) (seg : str) : Prop :=
  (exists r, seg = 32 :: r) \/
  exists w ws, words is_ascii_ws seg (w :: ws) /\ forall a v r, cut 58 w (a :: v :: r) -> pf v <> None.
Definition line_fine {A} (pf : str -> option A) (lt : label_type) (line : str) : Prop :=
  exists initial segs ws, cut 124 line (initial :: segs) /\ label_words initial ws /\ label_fine pf lt ws /\
    Forall (seg_fine pf) segs.

(** a label of a contextual bandit example; a namespace with given features *)
Definition lb_of {A} (l : option (N * A * A)) : option (label A) :=
  match l with Some (i, c, p) => Some (LbCb i c p) | None => None end.
Definition as_sfn {A} (k : namespace) (l : option (list (N * A))) : option (sfn A) :=
  match l with Some fs => Some (mkSfn k (map fst fs) (map snd fs) true) | None => None end.

(** one line of a contextual bandit example in the documented form: the part before the
    bar, its label words, what they say, the namespaces *)
Record cline (A : Type) : Type := mkCline {
  cl_initial : str; cl_words : list str; cl_mark : mark A; cl_ns : list tns
}.
Arguments mkCline {A}. Arguments cl_initial {A}. Arguments cl_words {A}. Arguments cl_mark {A}. Arguments cl_ns {A}.
Section Clines.
Context {O : FOps} (H : hasher) (pf : str -> option O) (seed nb : N).
Definition cl_text (l : cline O) : str := line_text (cl_initial l) (cl_ns l).
Definition cl_ok (l : cline O) : Prop :=
  ~ In 124 (cl_initial l) /\ label_words (cl_initial l) (cl_words l) /\ mark_of pf (cl_words l) (cl_mark l) /\ Forall (tn_ok pf) (cl_ns l).
(** the object holds exactly the features of the line *)
Definition holds_line (l : cline O) (d : sfeats O) : Prop :=
  forall k, sf_get k d = as_sfn k (line_content H pf seed nb (cl_ns l) k).
(** features of a line parsed into a given object *)
Definition line_feats (dbg : bool) (dests : list (sfeats O)) (line : str) (a : sfeats O) : Prop :=
  exists d l, (d = sf_new \/ In d dests) /\ parse_line H pf dbg seed nb LTCb line d = Ok (l, a).
End Clines.

(** An example, apart from the format it is written in, and what it means to write it in
    each of the three formats (C85). *)
From Coq Require Import List NArith Bool.
From Verif Require Import Base FloatOps Model_Hash Model_Features Model_Types Model_Interactions Model_Weights Model_Loss Model_Explore Model_Coin Model_Stack Model_Text Model_Json Model_Command Spec_Text Spec_Json Spec_JsonLabel.
Import ListNotations.
Open Scope N_scope.

(** A named feature has a number, a string, or nothing but its name. *)
Inductive fval (A : Type) : Type := VNum (x : A) | VStr (s : str) | VFlag.
Arguments VNum {A}. Arguments VStr {A}. Arguments VFlag {A}.
(** A namespace holds named features, or numbers without names. *)
Inductive body (A : Type) : Type := BNamed (l : list (str * fval A)) | BVector (xs : list A).
Arguments BNamed {A}. Arguments BVector {A}.
(** Namespaces with their names (None: the default namespace). *)
Definition part (A : Type) : Type := list (option str * body A).
(** A simple example with value and weight; a contextual bandit example with the position,
    cost and probability of the action taken. *)
Inductive exam (A : Type) : Type :=
| ESimple (f : part A) (lb : option (A * A))
| EBandit (shared : option (part A)) (acts : list (part A)) (lb : option (N * A * A)).
Arguments ESimple {A}. Arguments EBandit {A}.
Definition exam_label {A} (e : exam A) : option (label A) :=
  match e with
  | ESimple _ lb => match lb with Some (x, w) => Some (LbSimple x w) | None => None end
  | EBandit _ _ lb => lb_of lb
  end.
Definition exam_types {A} (e : exam A) : feat_type * label_type :=
  match e with ESimple _ _ => (FTSimple, LTSimple) | EBandit _ _ _ => (FTCb, LTCb) end.
Definition exam_parts {A} (e : exam A) : list (part A) :=
  match e with ESimple f _ => [f] | EBandit (Some s) l _ => s :: l | EBandit None l _ => l end.

Section Formats.
Context {O : FOps} (pf : str -> option O) (rd : str -> option (json O)).

(** *** text: numbers are multiplied with the value [sc] of the namespace *)
Inductive text_item (sc : O) : str * option str -> str * fval O -> Prop :=
| ti_num : forall c name v y, pf v = Some y -> text_item sc (c :: name, Some v) (c :: name, VNum (f_mul O y sc))
| ti_str : forall name v, pf v = None -> f_mul O f1 sc = f1 -> text_item sc (name, Some v) (name, VStr v)
| ti_flag : forall name, f_mul O f1 sc = f1 -> text_item sc (name, None) (name, VFlag).
Inductive text_body (sc : O) : list (str * option str) -> body O -> Prop :=
| tb_named : forall fs l, Forall2 (text_item sc) fs l -> text_body sc fs (BNamed l)
| tb_vector : forall vs xs, Forall2 (fun v x => exists y, pf v = Some y /\ x = f_mul O y sc) vs xs ->
    text_body sc (map (fun v => ([], Some v)) vs) (BVector xs).
Definition text_ns (n : tns) (e : option str * body O) : Prop :=
  tn_ok pf n /\ fst e = option_map fst (tn_head n) /\ text_body (tn_scale pf n) (map snd (tn_feats n)) (snd e).
Inductive text_exam (chunk : str) : exam O -> Prop :=
| te_simple : forall initial ws s ns f, ~ In 124 initial -> label_words initial ws -> simple_label pf ws s ->
    Forall2 text_ns ns f -> chunk = line_text initial ns ->
    text_exam chunk (ESimple f (match s with
                                | Some (x, Some w) => Some (x, w)
                                | Some (x, None) => Some (x, f1)
                                | None => None
                                end))
| te_bandit : forall ls sh acts lb, ls <> [] -> Forall (cl_ok pf) ls -> str_lines chunk = map cl_text ls ->
    Forall2 (fun l p => Forall2 text_ns (cl_ns l) p) ls (match sh with Some s => [s] | None => [] end ++ acts) ->
    (sh <> None <-> exists r, map cl_mark ls = MShared :: r) ->
    label_is (action_marks (map cl_mark ls)) lb ->
    text_exam chunk (EBandit sh acts lb).

(** *** JSON: [false] is no feature; lists of strings are left out here (see C42) *)
Definition named (key : str) (name : option str) : Prop :=
  match name with
  | None => key = str_space \/ key = str_default
  | Some n => key = n /\ key <> str_space /\ key <> str_default
  end.
Inductive json_items : list (str * json O) -> list (str * fval O) -> Prop :=
| ji_nil : json_items [] []
| ji_false : forall k r l, json_items r l -> json_items ((k, JBool false) :: r) l
| ji_num : forall k n r l, json_items r l -> json_items ((k, JNum n) :: r) ((k, VNum (jn_f64 n)) :: l)
| ji_str : forall k s r l, json_items r l -> json_items ((k, JStr s) :: r) ((k, VStr s) :: l)
| ji_true : forall k r l, json_items r l -> json_items ((k, JBool true) :: r) ((k, VFlag) :: l).
Inductive json_body : json O -> body O -> Prop :=
| jb_named : forall en l, json_items en l -> json_body (JObj en) (BNamed l)
| jb_vector : forall ns, ns <> [] -> json_body (JArr (map JNum ns)) (BVector (map jn_f64 ns)).
Definition json_part (v : json O) (p : part O) : Prop :=
  exists l, v = JObj l /\ Forall2 (fun kv e => named (fst kv) (fst e) /\ json_body (snd kv) (snd e)) l p.
Inductive json_exam (v : json O) : exam O -> Prop :=
| je_simple : forall x f lb, first_entry s_features v x -> json_part x f ->
    label_in LTSimple v (exam_label (ESimple f lb)) -> json_exam v (ESimple f lb)
| je_bandit : forall sh l acts lb,
    match sh with
    | None => no_entry str_shared v \/ first_entry str_shared v JNull
    | Some s => exists x, first_entry str_shared v x /\ json_part x s
    end ->
    first_entry s_actions v (JArr l) -> Forall2 json_part l acts ->
    label_in LTCb v (lb_of lb) -> json_exam v (EBandit sh acts lb).

(** *** decision service JSON: keys with an underscore do not count; features directly in
    the context are in the default namespace; namespaces are not empty *)
Inductive ds_items : list (str * json O) -> list (str * fval O) -> Prop :=
| di_nil : ds_items [] []
| di_skip : forall k v r l, underscore k = true -> ds_items r l -> ds_items ((k, v) :: r) l
| di_false : forall k r l, ds_items r l -> ds_items ((k, JBool false) :: r) l
| di_num : forall k n r l, underscore k = false -> ds_items r l -> ds_items ((k, JNum n) :: r) ((k, VNum (jn_f64 n)) :: l)
| di_str : forall k s r l, underscore k = false -> ds_items r l -> ds_items ((k, JStr s) :: r) ((k, VStr s) :: l)
| di_true : forall k r l, underscore k = false -> ds_items r l -> ds_items ((k, JBool true) :: r) ((k, VFlag) :: l).
Inductive ds_parts : list (str * json O) -> part O -> Prop :=
| dp_nil : ds_parts [] []
| dp_skip : forall k v r p, underscore k = true -> ds_parts r p -> ds_parts ((k, v) :: r) p
| dp_object : forall k name en l r p, underscore k = false -> named k name -> ds_items en l -> l <> [] -> ds_parts r p ->
    ds_parts ((k, JObj en) :: r) ((name, BNamed l) :: p)
| dp_vector : forall k name ns r p, underscore k = false -> named k name -> ns <> [] -> ds_parts r p ->
    ds_parts ((k, JArr (map JNum ns)) :: r) ((name, BVector (map jn_f64 ns)) :: p)
| dp_direct : forall en l r p, ds_items en l -> l <> [] -> ds_parts r p ->
    ds_parts (en ++ r) ((None, BNamed l) :: p).
Definition ds_part (v : json O) (p : part O) : Prop := exists l, v = JObj l /\ ds_parts l p.
Inductive ds_marks (v : json O) : option (N * O * O) -> Prop :=
| dm_none : (forall k, In k [s_label_cost; s_label_prob; s_label_index] -> no_entry k v \/ first_entry k v JNull) -> ds_marks v None
| dm_some : forall c p a i, first_entry s_label_cost v (JNum c) -> first_entry s_label_prob v (JNum p) ->
    first_entry s_label_index v (JNum a) -> jn_u64 a = Some i -> ds_marks v (Some (i, jn_f64 c, jn_f64 p)).
Inductive ds_exam (v : json O) : exam O -> Prop :=
| de_bandit : forall c sh l acts lb, first_entry s_c v c -> ds_part c sh -> first_entry s_multi c (JArr l) ->
    Forall2 ds_part l acts -> ds_marks v lb -> ds_exam v (EBandit (Some sh) acts lb).

(** the chunk [c] of a data file in format [fmt] writes the example [e] *)
Definition writes (fmt : format) (c : str) (e : exam O) : Prop :=
  match fmt with
  | FmtText => text_exam c e
  | FmtJson => exists v, rd c = Some v /\ json_exam v e
  | FmtDs => exists v, rd c = Some v /\ ds_exam v e
  end.

(** The indices of vectors do not reach 2^32 (in debug builds also for named features,
    counted as if they were vectors). *)
Definition body_size {A} (b : body A) : nat := match b with BNamed l => length l | BVector xs => length xs end.
Definition opt_hash (H : hasher) (seed : N) (name : option str) : N := match name with None => 0 | Some n => h32 H n seed end.
Definition part_fits (H : hasher) (dbg : bool) (seed : N) (p : part O) : Prop :=
  forall name b, In (name, b) p -> (dbg = true \/ exists xs, b = BVector xs) ->
    opt_hash H seed name + N.of_nat (body_size b) < 4294967296.
Definition exam_fits (H : hasher) (dbg : bool) (seed : N) (e : exam O) : Prop := Forall (part_fits H dbg seed) (exam_parts e).
(** the feature and label types the stack takes *)
Definition types_of {n} (r : red O n) : feat_type * label_type := (td_in_feats (red_types r), td_in_label (red_types r)).
End Formats.

(** What the JSON formats mean, stated without the parsers. *)
From Coq Require Import List NArith Bool.
From Verif Require Import Base FloatOps Model_Hash Model_Features Model_Types Model_Text Model_Json Spec_Features Spec_Stack Spec_Text.
Import ListNotations.
Open Scope N_scope.

Section Spec.
Context {O : FOps} (H : hasher) (seed nb : N).

(** the namespace of a name *)
Definition jkey (name : str) : namespace :=
  if str_eqb name str_space || str_eqb name str_default then NsDefault else NsNamed (h32 H name seed).

(** features of an entry, and of a namespace with hash [nsh], before the mask *)
Inductive jentry (nsh : N) : str * json O -> list (N * O) -> Prop :=
| je_num : forall k n, jentry nsh (k, JNum n) [(h32 H k nsh, jn_f64 n)]
| je_str : forall k s, jentry nsh (k, JStr s) [(h32 H s (h32 H k nsh), f1)]
| je_true : forall k, jentry nsh (k, JBool true) [(h32 H k nsh, f1)]
| je_false : forall k, jentry nsh (k, JBool false) [].
Inductive jns (nsh : N) : json O -> list (N * O) -> Prop :=
| jn_vector : forall ns, ns <> [] ->
    jns nsh (JArr (map JNum ns)) (map (fun p => (nsh + fst p, jn_f64 (snd p))) (enum_from 0 ns))
| jn_strings : forall ss, ss <> [] -> jns nsh (JArr (map JStr ss)) (map (fun s => (h32 H s nsh, f1)) ss)
| jn_object : forall l fs, Forall2 (jentry nsh) l fs -> jns nsh (JObj l) (concat fs).
(** a feature object: its namespaces in order *)
Definition jdoc (v : json O) (nss : list (namespace * list (N * O))) : Prop :=
  exists l, v = JObj l /\
    Forall2 (fun kv n => fst n = jkey (fst kv) /\ jns (key_hash (fst n)) (snd kv) (snd n)) l nss.
(** what they put into namespace [k] *)
Definition masked (l : list (N * O)) : list (N * O) := map (fun iv => (fst iv mod 2 ^ nb, snd iv)) l.
Definition jcontent (nss : list (namespace * list (N * O))) (k : namespace) : option (list (N * O)) :=
  match filter (fun n => ns_eqb k (fst n)) nss with
  | [] => None
  | l => Some (masked (flat_map snd l))
  end.
(** the indices of vectors are below 2^32, and so is the next one *)
Definition jfits (v : json O) : Prop :=
  forall l name n r, v = JObj l -> In (name, JArr (JNum n :: r)) l ->
    key_hash (jkey name) + N.of_nat (length (JNum n :: r)) < 4294967296.
(** no lists of strings; no namespace twice *)
Definition no_lists (v : json O) : Prop :=
  forall l name s r, v = JObj l -> ~ In (name, JArr (JStr s :: r)) l.
Definition distinct_ns (v : json O) : Prop :=
  forall l, v = JObj l -> NoDup (map (fun kv => jkey (fst kv)) l).
(** the feature objects of an example *)
Definition json_parts (ft : feat_type) (v : json O) : list (json O) :=
  match ft with
  | FTSimple => [jget s_features v]
  | FTCb => jget str_shared v :: match jget s_actions v with JArr l => l | _ => [] end
  end.

(** the same features written as text (Spec_Text) and as JSON: a name alone and [true], a
    name with a number, a name with a string; or only unnamed numbers; or only names *)
Inductive same_item (pf : str -> option O) : str * option str -> str * json O -> Prop :=
| si_name : forall name, same_item pf (name, None) (name, JBool true)
| si_num : forall c name v x n, pf v = Some x -> same_item pf (c :: name, Some v) (c :: name, JNum n)
| si_str : forall name v, pf v = None -> same_item pf (name, Some v) (name, JStr v).
Inductive same_items (pf : str -> option O) : list (str * option str) -> json O -> Prop :=
| sm_object : forall fs l, Forall2 (same_item pf) fs l -> same_items pf fs (JObj l)
| sm_vector : forall vs ns, length vs = length ns -> (forall v, In v vs -> pf v <> None) ->
    same_items pf (map (fun v => ([], Some v)) vs) (JArr (map JNum ns))
| sm_names : forall ss, same_items pf (map (fun s => (s, None)) ss) (JArr (map JStr ss)).
Definition same_ns (pf : str -> option O) (n : tns) (kv : str * json O) : Prop :=
  match tn_head n with Some h => fst kv = fst h | None => fst kv = str_space \/ fst kv = str_default end /\
  same_items pf (map snd (tn_feats n)) (snd kv).

(** *** decision service JSON *)
(** where a value is: the keys and array positions leading to it, innermost first *)
Inductive pstep : Type := PKey (k : str) | PIdx (i : N).
Inductive leaf : Type := LNum (n : jnum O) | LTrue | LStr (s : str).
(** all leaves in document order *)
Fixpoint leaves (path : list pstep) (v : json O) : list (list pstep * leaf) :=
  match v with
  | JNull => []
  | JBool b => if b then [(path, LTrue)] else []
  | JNum n => [(path, LNum n)]
  | JStr s => [(path, LStr s)]
  | JArr l =>
      (fix items (i : N) (l : list (json O)) : list (list pstep * leaf) :=
         match l with [] => [] | y :: r => leaves (PIdx i :: path) y ++ items (i + 1) r end) 0 l
  | JObj l =>
      (fix entries (l : list (str * json O)) : list (list pstep * leaf) :=
         match l with [] => [] | y :: r => leaves (PKey (fst y) :: path) (snd y) ++ entries r end) l
  end.
Definition underscore (k : str) : bool := match k with 95 :: _ => true | _ => false end.
(** some key on the way starts with an underscore *)
Definition ignored (path : list pstep) : bool :=
  existsb (fun s => match s with PKey k => underscore k | PIdx _ => false end) path.
(** the innermost key *)
Fixpoint inner_key (path : list pstep) : option str :=
  match path with
  | [] => None
  | PKey k :: _ => Some k
  | PIdx _ :: r => inner_key r
  end.
(** the namespace and the feature of a leaf: namespace of the innermost enclosing key; the
    name is its own key, or its position if it is a number in an array *)
Definition leaf_feature (x : list pstep * leaf) : option (namespace * (N * O)) :=
  match fst x with
  | PKey name :: outer =>
      match inner_key outer with
      | Some nsname =>
          let k := jkey nsname in
          let nsh := key_hash k in
          Some (k, match snd x with
                   | LNum n => (h32 H name nsh, jn_f64 n)
                   | LTrue => (h32 H name nsh, f1)
                   | LStr s => (h32 H s (h32 H name nsh), f1)
                   end)
      | None => None
      end
  | PIdx i :: outer =>
      match inner_key outer, snd x with
      | Some nsname, LNum n => let k := jkey nsname in Some (k, ((key_hash k + i) mod 4294967296, jn_f64 n))
      | _, _ => None
      end
  | [] => None
  end.
(** the features of a document in order, and what they put into namespace [k] *)
Definition some_of {A B} (f : A -> option B) (l : list A) : list B :=
  flat_map (fun x => match f x with Some y => [y] | None => [] end) l.
Definition ds_features (v : json O) : list (namespace * (N * O)) :=
  some_of leaf_feature (filter (fun x => negb (ignored (fst x))) (leaves [PKey str_space] v)).
Definition ds_content (v : json O) (k : namespace) : option (list (N * O)) :=
  match filter (fun n => ns_eqb k (fst n)) (ds_features v) with
  | [] => None
  | l => Some (masked (map snd l))
  end.
(** accepted values under a key *)
Inductive ds_fine : str -> json O -> Prop :=
| df_ignored : forall k v, underscore k = true -> ds_fine k v
| df_bool : forall k b, ds_fine k (JBool b)
| df_num : forall k n, ds_fine k (JNum n)
| df_str : forall k s, ds_fine k (JStr s)
| df_obj : forall k l, Forall (fun y => ds_fine (fst y) (snd y)) l -> ds_fine k (JObj l)
| df_arr : forall k l, Forall (fun y => (exists n, y = JNum n) \/ y = JNull \/ exists e, y = JObj e /\ ds_fine k y) l ->
    ds_fine k (JArr l).
(** what can be a whole context *)
Definition ds_root (v : json O) : Prop := match v with JArr _ | JObj _ | JBool false => True | _ => False end.
(** no index of a number in an array is 2^32 or more *)
Definition ds_fits (path : list pstep) (v : json O) : Prop :=
  forall i outer x nm, In (PIdx i :: outer, x) (leaves path v) -> ignored outer = false -> inner_key outer = Some nm ->
    key_hash (jkey nm) + i < 4294967296.
(** the value without the entries whose key starts with an underscore *)
Fixpoint prune (v : json O) : json O :=
  match v with
  | JArr l => JArr (map prune l)
  | JObj l =>
      JObj ((fix entries (l : list (str * json O)) : list (str * json O) :=
               match l with
               | [] => []
               | (k, y) :: r => if underscore k then entries r else (k, prune y) :: entries r
               end) l)
  | _ => v
  end.
End Spec.
Arguments LNum {O}. Arguments LTrue {O}. Arguments LStr {O}.
(** the same example, as far as a learner can see *)
Definition same_example {O : FOps} (x y : features O * option (label O)) : Prop := fts_same (fst x) (fst y) /\ snd x = snd y.
(** how a failing [reserve] panics *)
Definition badcap (dbg : bool) : panic := if dbg then POverflow else PAlloc.

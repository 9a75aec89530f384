(** The JSON formats: /repo/reductionml-core/src/parsers/json_parser.rs and
    dsjson_parser.rs.
    - Reading JSON text (serde_json with serde_json_borrow 0.1.4) is an argument [rd]; its
      results are trees of type [json].  Objects keep their entries in order, also
      repeated keys.
    - The capacities of the two vectors of a namespace are modelled here (and only here),
      because [reserve] depends on them; how much a vector grows is an argument. *)
From Coq Require Import List NArith Bool.
From Verif Require Import Base FloatOps Model_Hash Model_Features Model_Types Model_Text.
Import ListNotations.
Open Scope N_scope.

(** a number: [as_f64() as f32], the number converted to f32 directly (as serde does for
    a field of type f32), and [as_u64()] *)
Record jnum (A : Type) : Type := mkNum { jn_f64 : A; jn_f32 : A; jn_u64 : option N }.
Arguments mkNum {A}. Arguments jn_f64 {A}. Arguments jn_f32 {A}. Arguments jn_u64 {A}.
Inductive json (A : Type) : Type :=
| JNull | JBool (b : bool) | JNum (n : jnum A) | JStr (s : str) | JArr (l : list (json A)) | JObj (l : list (str * json A)).
Arguments JNull {A}. Arguments JBool {A}. Arguments JNum {A}. Arguments JStr {A}. Arguments JArr {A}. Arguments JObj {A}.

(** [Value::get]: the first entry with this key, Null if there is none or it is no object *)
Definition jget {A} (key : str) (v : json A) : json A :=
  match v with
  | JObj l => match find (fun kv => str_eqb key (fst kv)) l with Some kv => snd kv | None => JNull end
  | _ => JNull
  end.
(** [as_f64], [as_str] of a value *)
Definition jas_f64 {A} (v : json A) : option A := match v with JNum n => Some (jn_f64 n) | _ => None end.
Definition jas_str {A} (v : json A) : option str := match v with JStr s => Some s | _ => None end.

(** "features", "shared", "actions", "label", "value", "weight", "action", "cost",
    "probability", "c", "_multi", "_label_cost", "_label_probability", "_labelIndex" *)
Definition s_features : str := [102; 101; 97; 116; 117; 114; 101; 115].
Definition s_actions : str := [97; 99; 116; 105; 111; 110; 115].
Definition s_label : str := [108; 97; 98; 101; 108].
Definition s_value : str := [118; 97; 108; 117; 101].
Definition s_weight : str := [119; 101; 105; 103; 104; 116].
Definition s_action : str := [97; 99; 116; 105; 111; 110].
Definition s_cost : str := [99; 111; 115; 116].
Definition s_probability : str := [112; 114; 111; 98; 97; 98; 105; 108; 105; 116; 121].
Definition s_c : str := [99].
Definition s_multi : str := [95; 109; 117; 108; 116; 105].
Definition s_label_cost : str := [95; 108; 97; 98; 101; 108; 95; 99; 111; 115; 116].
Definition s_label_prob : str := [95; 108; 97; 98; 101; 108; 95; 112; 114; 111; 98; 97; 98; 105; 108; 105; 116; 121].
Definition s_label_index : str := [95; 108; 97; 98; 101; 108; 73; 110; 100; 101; 120].

(** *** capacities *)
(** How [Vec] grows, from the capacity, the length and the number of elements to make room
    for: [Vec::reserve_exact], and [Vec::reserve], [push], [extend]. *)
Record alloc : Type := mkAlloc { al_exact : nat -> nat -> nat -> nat; al_amortized : nat -> nat -> nat -> nat }.
(** They do nothing if there is room. *)
Definition vec_room (g : nat -> nat -> nat -> nat) (cap len add : nat) : nat :=
  if Nat.leb add (cap - len) then cap else g cap len add.
(** What the documentation of Vec promises. *)
Definition lawful (al : alloc) : Prop :=
  forall cap len add, (len + add <= al_exact al cap len add)%nat /\ (len + add <= al_amortized al cap len add)%nat.

Section Json.
Context (O : FOps) (H : hasher) (dbg : bool) (seed nb : N) (al : alloc).
(** the capacities of the vectors of indices and values of every namespace of an object;
    an object with them; a namespace with them *)
Definition caps : Type := namespace -> nat * nat.
Definition no_caps : caps := fun _ => (0, 0)%nat.
Definition cobj : Type := sfeats O * caps.
Definition cns : Type := sfn O * (nat * nat).
Definition cobj_new : cobj := (sf_new, no_caps).
Definition caps_set (k : namespace) (c : nat * nat) (cs : caps) : caps := fun k' => if ns_eqb k k' then c else cs k'.
(** sparse_namespaced_features.rs:352-357 with 159-162: [Vec::clear] keeps the capacity *)
Definition cobj_clear (o : cobj) : cobj := (sf_clear (fst o), snd o).
(** sparse_namespaced_features.rs:374-384 [get_or_create_namespace], then an update *)
Definition cobj_upd (k : namespace) (f : cns -> out cns) (o : cobj) : out cobj :=
  let s := match fm_get k (fst o) with Some s => s | None => sfn_new k end in
  let* x := f (sfn_set_active true s, snd o k) in
  Ok (fm_set k (fst x) (fst o), caps_set k (snd x) (snd o)).
(** 137-140 [add_feature] *)
Definition cns_add (i : N) (v : O) (x : cns) : cns :=
  (sfn_add i v (fst x),
   (vec_room (al_amortized al) (fst (snd x)) (length (sfn_idx (fst x))) 1,
    vec_room (al_amortized al) (snd (snd x)) (length (sfn_val (fst x))) 1)).
(** 131-136 [reserve]: [size - capacity] underflows if the capacity is larger.  Without
    overflow checks the huge difference is then a capacity overflow. *)
Definition cns_reserve (size : nat) (x : cns) : out cns :=
  let bad := Pn (if dbg then POverflow else PAlloc) in
  let '(s, (ci, cv)) := x in
  if Nat.ltb size ci then bad
  else
    let ci' := vec_room (al_exact al) ci (length (sfn_idx s)) (size - ci) in
    if Nat.ltb size cv then bad
    else Ok (s, (ci', vec_room (al_amortized al) cv (length (sfn_val s)) (size - cv))).
(** 148-156 [add_features_with_iter] *)
Definition cns_adds_iter (is : list N) (vs : list O) (x : cns) : out cns :=
  let* s := sfn_adds_iter is vs (fst x) in
  Ok (s, (vec_room (al_amortized al) (fst (snd x)) (length (sfn_idx (fst x))) (length is),
          vec_room (al_amortized al) (snd (snd x)) (length (sfn_val (fst x))) (length vs))).

(** *** json_parser.rs *)
(** a range of u32 *)
Definition range32 (a b : N) : list N := map (fun i => a + N.of_nat i) (seq 0 (N.to_nat (b - a))).
Definition add_parsed (mk nsh : N) (p : parsed_feature) (v : O) (x : cns) : out cns :=
  let* h := parsed_feature_hash H dbg p nsh in Ok (cns_add (mask mk h) v x).
(** lines 28-82: the value of one namespace *)
Definition json_entry (mk nsh : N) (x : cns) (kv : str * json O) : out cns :=
  match snd kv with
  | JNum n => add_parsed mk nsh (PFSimple (fst kv)) (jn_f64 n) x
  | JStr s => add_parsed mk nsh (PFSimpleStr (fst kv) s) f1 x
  | JBool b => if b then add_parsed mk nsh (PFSimple (fst kv)) f1 x else Ok x
  | _ => Pn PTodo
  end.
Definition json_ns (nsh : N) (v : json O) (x : cns) : out cns :=
  let* mk := mask_from_bits dbg nb in
  match v with
  | JStr _ => Pn PTodo
  | JArr ar =>
      match ar with
      | JNum _ :: _ =>
          let* e := add32 dbg nsh (wrap32 (N.of_nat (length ar))) in
          let* vs := mapm (fun y => opt_or PNone (jas_f64 y)) ar in
          cns_adds_iter (map (mask mk) (range32 nsh e)) vs x
      | JStr _ :: _ =>
          let* x := cns_reserve (length ar) x in
          foldm (fun x y => let* s := opt_or PNone (jas_str y) in add_parsed mk nsh (PFSimple s) f1 x) ar x
      | _ :: _ => Pn PTodo
      | [] => Pn PTodo
      end
  | JObj l => foldm (json_entry mk nsh) l x
  | _ => Pn PTodo
  end.
(** lines 15-88 [to_features] *)
Definition to_features (val : json O) (o : cobj) : out cobj :=
  match val with
  | JObj l => foldm (fun o kv => let k := ns_from_name H (fst kv) seed in cobj_upd k (json_ns (ns_hash k) (snd kv)) o) l o
  | _ => Pn PTodo
  end.

(** lines 122-154 [parse_features]; [ds] are the objects the pool gives *)
Fixpoint json_actions (l : list (json O)) (ds : list cobj) : out (list cobj) :=
  match l with
  | [] => Ok []
  | a :: l =>
      let* x := to_features a (hd cobj_new ds) in
      let* xs := json_actions l (tl ds) in
      Ok (x :: xs)
  end.
(** lines 122-154 [parse_features] *)
Definition json_features (ft : feat_type) (v : json O) (ds : list cobj) : out (list cobj * option cobj) :=
  match ft with
  | FTSimple =>
      match jget s_features v with
      | JNull => Pn PTodo
      | val => let* x := to_features val (hd cobj_new ds) in Ok ([x], None)
      end
  | FTCb =>
      let* sh := match jget str_shared v with
                 | JNull => Ok (None, ds)
                 | val => let* x := to_features val (hd cobj_new ds) in Ok (Some x, tl ds)
                 end in
      match jget s_actions v with
      | JArr l => let* xs := json_actions l (snd sh) in Ok (xs, fst sh)
      | _ => Pn PTodo
      end
  end.
(** the objects as features *)
Definition json_fts (ft : feat_type) (x : list cobj * option cobj) : features O :=
  match ft with
  | FTSimple => FtsSimple (fst (hd cobj_new (fst x)))
  | FTCb => FtsCb (option_map fst (snd x)) (map fst (fst x))
  end.

(** [serde_json::from_value] of a struct: fields by name (the last one of a repeated key,
    the others are ignored) or by position *)
Definition jfield (key : str) (l : list (str * json O)) : option (json O) :=
  match find (fun kv => str_eqb key (fst kv)) (rev l) with Some kv => Some (snd kv) | None => None end.
Definition jfields (names : list str) (v : json O) : option (list (json O)) :=
  match v with
  | JObj l => fold_right (fun nm acc => match jfield nm l, acc with Some x, Some xs => Some (x :: xs) | _, _ => None end) (Some []) names
  | JArr l => if Nat.eqb (length l) (length names) then Some l else None
  | _ => None
  end.
Definition jf32 (v : json O) : option O := match v with JNum n => Some (jn_f32 n) | _ => None end.
Definition jusize (v : json O) : option N := match v with JNum n => jn_u64 n | _ => None end.
(** lines 158-180 [parse_label]; types.rs:78-82, 119-125 *)
Definition json_label (lt : label_type) (v : json O) : out (option (label O)) :=
  match lt with
  | LTSimple =>
      match jget s_label v with
      | JNull => Ok None
      | JNum n => Ok (Some (LbSimple (jn_f64 n) f1))
      | val =>
          match jfields [s_value; s_weight] val with
          | Some [a; b] =>
              let* x := opt_or PErr (jf32 a) in
              let* w := opt_or PErr (jf32 b) in
              Ok (Some (LbSimple x w))
          | _ => Pn PErr
          end
      end
  | LTBinary => Pn PTodo
  | LTCb =>
      match jget s_label v with
      | JNull => Ok None
      | val =>
          match jfields [s_action; s_cost; s_probability] val with
          | Some [a; b; c] =>
              let* i := opt_or PErr (jusize a) in
              let* x := opt_or PErr (jf32 b) in
              let* p := opt_or PErr (jf32 c) in
              Ok (Some (LbCb i x p))
          | _ => Pn PErr
          end
      end
  end.

(** lines 197-202 [parse_chunk] *)
Definition json_chunk (rd : str -> option (json O)) (ft : feat_type) (lt : label_type) (ds : list cobj) (chunk : str)
  : out (list cobj * option cobj * option (label O)) :=
  let* v := opt_or PErr (rd chunk) in
  let* x := json_features ft v ds in
  let* lb := json_label lt v in
  Ok (x, lb).
(** the example as the learner gets it *)
Definition json_example (rd : str -> option (json O)) (ft : feat_type) (lt : label_type) (ds : list cobj) (chunk : str)
  : out (features O * option (label O)) :=
  let* x := json_chunk rd ft lt ds chunk in Ok (json_fts ft (fst x), snd x).
(** the number of objects taken from the pool *)
Definition json_need (rd : str -> option (json O)) (ft : feat_type) (chunk : str) : nat :=
  match rd chunk with
  | None => 0
  | Some v =>
      match ft with
      | FTSimple => 1
      | FTCb => (match jget str_shared v with JNull => 0 | _ => 1 end
                 + match jget s_actions v with JArr l => length l | _ => 0 end)%nat
      end
  end.

(** *** dsjson_parser.rs (which does not reserve) *)
(** lines 56-156 [handle_features]; the head of the list is the top of the stack *)
Definition ds_add (p : parsed_feature) (v : O) (st : list namespace) (f : sfeats O) : out (sfeats O) :=
  match st with
  | [] => Pn PNone
  | k :: _ =>
      let* h := parsed_feature_hash H dbg p (ns_hash k) in
      let* mk := mask_from_bits dbg nb in
      Ok (sf_upd_ns k (sfn_add (mask mk h) v) f)
  end.
Definition ds_pop (x : sfeats O * list namespace) : out (sfeats O * list namespace) :=
  match snd x with [] => Pn PNone | _ :: st => Ok (fst x, st) end.
Fixpoint ds_handle (v : json O) (key : str) (f : sfeats O) (st : list namespace) : out (sfeats O * list namespace) :=
  if starts_with 95 key then Ok (f, st)
  else
    match v with
    | JNull => Pn PTodo
    | JBool b => if b then let* f := ds_add (PFSimple key) f1 st f in Ok (f, st) else Ok (f, st)
    | JNum n => let* f := ds_add (PFSimple key) (jn_f64 n) st f in Ok (f, st)
    | JStr s => let* f := ds_add (PFSimpleStr key s) f1 st f in Ok (f, st)
    | JArr l =>
        let k := ns_from_name H key seed in
        let* x :=
          (fix items (l : list (json O)) (i : N) (f : sfeats O) (st : list namespace) : out (sfeats O * list namespace) :=
             match l with
             | [] => Ok (f, st)
             | y :: l =>
                 let* x := match y with
                           | JNum n => let* f := ds_add (PFAnon (wrap32 i)) (jn_f64 n) [k] f in Ok (f, st)
                           | JObj _ => ds_handle y key f st
                           | JNull => Ok (f, st)
                           | _ => Pn PTodo
                           end in
                 items l (i + 1) (fst x) (snd x)
             end) l 0 f (k :: st) in
        ds_pop x
    | JObj l =>
        let* x :=
          (fix entries (l : list (str * json O)) (f : sfeats O) (st : list namespace) : out (sfeats O * list namespace) :=
             match l with
             | [] => Ok (f, st)
             | y :: l => let* x := ds_handle (snd y) (fst y) f st in entries l (fst x) (snd x)
             end) l f (ns_from_name H key seed :: st) in
        ds_pop x
    end.

(** lines 173-211 [parse_chunk] *)
Fixpoint ds_actions (l : list (json O)) (ds : list (sfeats O)) : out (list (sfeats O)) :=
  match l with
  | [] => Ok []
  | a :: l =>
      let* x := ds_handle a str_space (hd sf_new ds) [] in
      let* _ := match snd x with [] => Ok tt | _ => Pn PAssert end in
      let* xs := ds_actions l (tl ds) in
      Ok (fst x :: xs)
  end.
(** dsjson_parser.rs:190-202 *)
Definition ds_label (v : json O) : out (option (label O)) :=
  match jget s_label_cost v, jget s_label_prob v, jget s_label_index v with
  | JNum c, JNum p, JNum a => let* i := opt_or PNone (jn_u64 a) in Ok (Some (LbCb i (jn_f64 c) (jn_f64 p)))
  | JNull, JNull, JNull => Ok None
  | _, _, _ => Pn PTodo
  end.
(** dsjson_parser.rs:176-210 *)
Definition ds_value (v : json O) (ds : list (sfeats O)) : out (features O * option (label O)) :=
  let* x := ds_handle (jget s_c v) str_space (hd sf_new ds) [] in
  let* _ := match snd x with [] => Ok tt | _ => Pn PAssert end in
  let* l := match jget s_multi (jget s_c v) with JArr l => Ok l | _ => Pn PNone end in
  let* acts := ds_actions l (tl ds) in
  let* lb := ds_label v in
  Ok (FtsCb (Some (fst x)) acts, lb).
(** dsjson_parser.rs:173-211 [parse_chunk] *)
Definition ds_chunk (rd : str -> option (json O)) (ds : list (sfeats O)) (chunk : str) : out (features O * option (label O)) :=
  let* v := opt_or PErr (rd chunk) in ds_value v ds.
(** how many objects that takes from the pool, dsjson_parser.rs:178-184 *)
Definition ds_need (rd : str -> option (json O)) (chunk : str) : nat :=
  match rd chunk with
  | None => 0
  | Some v => match jget s_multi (jget s_c v) with JArr l => S (length l) | _ => 1 end
  end.
End Json.

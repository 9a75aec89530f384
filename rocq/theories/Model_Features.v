(** Sparse namespaced features:
    /repo/reductionml-core/src/sparse_namespaced_features.rs.
    Vec capacities are left out here (see Model_Capacity). *)
From Coq Require Import List NArith ZArith Bool.
From Verif Require Import Base FloatOps Model_Hash.
Import ListNotations.
Open Scope N_scope.

(** lines 173-178 [enum Namespace], derive(PartialOrd, Ord): variants in order,
    then payload. *)
Inductive namespace : Type :=
| NsNamed (h : N)
| NsRawHash (h : N)
| NsDefault.

Definition ns_compare (a b : namespace) : comparison :=
  match a, b with
  | NsNamed x, NsNamed y => N.compare x y
  | NsNamed _, _ => Lt
  | NsRawHash _, NsNamed _ => Gt
  | NsRawHash x, NsRawHash y => N.compare x y
  | NsRawHash _, NsDefault => Lt
  | NsDefault, NsDefault => Eq
  | NsDefault, _ => Gt
  end.

Definition ns_eqb (a b : namespace) : bool :=
  match ns_compare a b with Eq => true | _ => false end.

(** " " and ":default" as code points *)
Definition str_space : str := [32].
Definition str_default : str := [58; 100; 101; 102; 97; 117; 108; 116].
Definition str_eqb : str -> str -> bool := list_eqb N.eqb.

(** lines 181-191 [Namespace::from_name] *)
Definition ns_from_name (H : hasher) (name : str) (seed : N) : namespace :=
  if str_eqb name str_space then NsDefault
  else if str_eqb name str_default then NsDefault
  else NsNamed (hash_bytes H name seed).

(** lines 193-199 [Namespace::hash] *)
Definition ns_hash (n : namespace) : N :=
  match n with NsNamed h => h | NsRawHash h => h | NsDefault => 0 end.

(** lines 60-69 [SparseFeaturesNamespace] *)
Record sfn (A : Type) : Type := mkSfn {
  sfn_ns : namespace;
  sfn_idx : list N;
  sfn_val : list A;
  sfn_active : bool
}.
Arguments mkSfn {A}. Arguments sfn_ns {A}. Arguments sfn_idx {A}. Arguments sfn_val {A}.
Arguments sfn_active {A}.

(** lines 202-205 [SparseFeatures]: BTreeMap<Namespace, SparseFeaturesNamespace>
    as an association list in key order. *)
Definition sfeats (A : Type) : Type := list (namespace * sfn A).

Section Features.
Context (O : FOps).
Local Notation sfn := (sfn O).
Local Notation sfeats := (sfeats O).

(** lines 104-111 [SparseFeaturesNamespace::new]; 113-120 (capacity not modelled) *)
Definition sfn_new (n : namespace) : sfn := mkSfn n [] [] false.
(** lines 88-93, 39-47 [iter]: stops at the shorter list *)
Definition sfn_iter (s : sfn) : list (N * O) := combine (sfn_idx s) (sfn_val s).
(** lines 122-124 [size] *)
Definition sfn_size (s : sfn) : nat := length (sfn_idx s).
(** lines 137-140 [add_feature] *)
Definition sfn_add (i : N) (v : O) (s : sfn) : sfn :=
  mkSfn (sfn_ns s) (sfn_idx s ++ [i]) (sfn_val s ++ [v]) (sfn_active s).
(** lines 142-146 [add_features]: asserts equal lengths *)
Definition sfn_adds (is : list N) (vs : list O) (s : sfn) : out sfn :=
  if Nat.eqb (length is) (length vs) then
    Ok (mkSfn (sfn_ns s) (sfn_idx s ++ is) (sfn_val s ++ vs) (sfn_active s))
  else Pn PAssert.
(** lines 148-156 [add_features_with_iter]: extends, then asserts equal lengths *)
Definition sfn_adds_iter (is : list N) (vs : list O) (s : sfn) : out sfn :=
  let i' := sfn_idx s ++ is in
  let v' := sfn_val s ++ vs in
  if Nat.eqb (length i') (length v') then Ok (mkSfn (sfn_ns s) i' v' (sfn_active s))
  else Pn PAssert.
(** lines 158-161 [clear] *)
Definition sfn_clear (s : sfn) : sfn := mkSfn (sfn_ns s) [] [] (sfn_active s).
(** lines 167-169 [set_active] *)
Definition sfn_set_active (b : bool) (s : sfn) : sfn :=
  mkSfn (sfn_ns s) (sfn_idx s) (sfn_val s) b.

(** lines 71-86 [AbsDiffEq for SparseFeaturesNamespace]: same namespace, same
    indices, and all pairs of values (zip: shorter length) close. *)
Definition sfn_absdiffeq (eps : O) (a b : sfn) : bool :=
  ns_eqb (sfn_ns a) (sfn_ns b)
  && list_eqb N.eqb (sfn_idx a) (sfn_idx b)
  && forallb (fun p => f_absdiffeq eps (fst p) (snd p)) (combine (sfn_val a) (sfn_val b)).

(** BTreeMap::get *)
Fixpoint fm_get (k : namespace) (m : sfeats) : option sfn :=
  match m with
  | [] => None
  | (k', v) :: r => if ns_eqb k k' then Some v else fm_get k r
  end.

(** BTreeMap::insert *)
Fixpoint fm_set (k : namespace) (v : sfn) (m : sfeats) : sfeats :=
  match m with
  | [] => [(k, v)]
  | (k', v') :: r =>
      match ns_compare k k' with
      | Lt => (k, v) :: (k', v') :: r
      | Eq => (k, v) :: r
      | Gt => (k', v') :: fm_set k v r
      end
  end.

(** BTreeMap::remove (the map part) *)
Fixpoint fm_del (k : namespace) (m : sfeats) : sfeats :=
  match m with
  | [] => []
  | (k', v') :: r => if ns_eqb k k' then r else (k', v') :: fm_del k r
  end.

(** lines 327-331 *)
Definition sf_new : sfeats := [].
(** lines 272-276 with 22-37 [namespaces]: all keys, also inactive ones *)
Definition sf_namespaces (m : sfeats) : list (namespace * list (N * O)) :=
  map (fun kv => (fst kv, sfn_iter (snd kv))) m.
(** lines 321-325 [all_features]: all namespaces, also inactive ones *)
Definition sf_all (m : sfeats) : list (N * O) :=
  flat_map (fun kv => sfn_iter (snd kv)) m.
(** lines 333-337 [get_namespace]: only active ones *)
Definition sf_get (k : namespace) (m : sfeats) : option sfn :=
  match fm_get k m with
  | Some s => if sfn_active s then Some s else None
  | None => None
  end.
(** lines 348-350 [remove_namespace] *)
Definition sf_remove_ns (k : namespace) (m : sfeats) : option sfn * sfeats :=
  (fm_get k m, fm_del k m).
(** lines 352-357 [clear] *)
Definition sf_clear (m : sfeats) : sfeats :=
  map (fun kv => (fst kv, sfn_set_active false (sfn_clear (snd kv)))) m.
(** lines 366-372 [set_namespace] *)
Definition sf_set_ns (k : namespace) (s : sfn) (m : sfeats) : sfeats := fm_set k s m.
(** lines 374-384, 386-399 [get_or_create_namespace(_with_capacity)] followed by an
    update [f] of the namespace through the returned mutable reference. *)
Definition sf_upd_ns (k : namespace) (f : sfn -> sfn) (m : sfeats) : sfeats :=
  let item := match fm_get k m with Some s => s | None => sfn_new k end in
  fm_set k (f (sfn_set_active true item)) m.
(** the same with an update that may panic *)
Definition sf_updm_ns (k : namespace) (f : sfn -> out sfn) (m : sfeats) : out sfeats :=
  let item := match fm_get k m with Some s => s | None => sfn_new k end in
  let* s := f (sfn_set_active true item) in Ok (fm_set k s m).

(** lines 401-408 [append] *)
Definition sf_append (m other : sfeats) : out sfeats :=
  foldm (fun acc kv =>
           if sfn_active (snd kv)
           then sf_updm_ns (fst kv) (sfn_adds (sfn_idx (snd kv)) (sfn_val (snd kv))) acc
           else Ok acc) other m.

(** lines 412-426 [remove]: truncate by the other's size; [size - feats.size()]
    is usize subtraction (panic with overflow checks, else a huge length, for
    which [truncate] does nothing).  Deactivate when empty. *)
Definition sfn_truncate_by (dbg : bool) (n : nat) (s : sfn) : out sfn :=
  let size := sfn_size s in
  if Nat.leb n size then
    let s' := mkSfn (sfn_ns s) (firstn (size - n) (sfn_idx s)) (firstn (size - n) (sfn_val s)) (sfn_active s) in
    Ok (if Nat.eqb (sfn_size s') 0 then sfn_set_active false s' else s')
  else if dbg then Pn POverflow
  else Ok (if Nat.eqb size 0 then sfn_set_active false s else s).

Definition sf_remove (dbg : bool) (m other : sfeats) : out sfeats :=
  foldm (fun acc kv =>
           if sfn_active (snd kv)
           then sf_updm_ns (fst kv) (sfn_truncate_by dbg (sfn_size (snd kv))) acc
           else Ok acc) other m.

(** lines 428-430 [empty] *)
Definition sf_empty (m : sfeats) : bool :=
  match m with [] => true | _ => forallb (fun kv => negb (sfn_active (snd kv))) m end.

(** lines 213-248 [AbsDiffEq for SparseFeatures] *)
Definition sf_active_keys (m : sfeats) : list namespace :=
  map fst (filter (fun kv => sfn_active (snd kv)) m).

Definition sf_absdiffeq (eps : O) (a b : sfeats) : bool :=
  list_eqb ns_eqb (sf_active_keys a) (sf_active_keys b)
  && forallb (fun k =>
       match fm_get k a, fm_get k b with
       | Some x, Some y => sfn_absdiffeq eps x y
       | _, _ => false   (* get(..).unwrap(): cannot happen, k is a key of both *)
       end) (sf_active_keys a).

(** lines 278-297 [quadratic_features] (not used by the learner) *)
Definition sf_quadratic (dbg : bool) (n1 n2 : namespace) (nb : N) (m : sfeats)
  : out (option (list (N * O))) :=
  match sf_get n1 m, sf_get n2 m with
  | Some a, Some b =>
      let* mk := mask_from_bits dbg nb in
      Ok (Some (map (fun p => (mask mk (quadratic_feature_hash (fst (fst p)) (fst (snd p))),
                               f_mul O (snd (fst p)) (snd (snd p))))
                    (list_prod (sfn_iter a) (sfn_iter b))))
  | _, _ => Ok None
  end.

(** lines 298-319 [cubic_features] (not used by the learner) *)
Definition sf_cubic (dbg : bool) (n1 n2 n3 : namespace) (nb : N) (m : sfeats)
  : out (option (list (N * O))) :=
  match sf_get n1 m, sf_get n2 m, sf_get n3 m with
  | Some a, Some b, Some c =>
      let* mk := mask_from_bits dbg nb in
      Ok (Some (map (fun p =>
            let '(((i1, v1), (i2, v2)), (i3, v3)) := p in
            (mask mk (cubic_feature_hash i1 i2 i3), f_mul O (f_mul O v1 v2) v3))
          (list_prod (list_prod (sfn_iter a) (sfn_iter b)) (sfn_iter c))))
  | _, _, _ => Ok None
  end.

End Features.
Arguments sfn_new {O}. Arguments sfn_iter {O}. Arguments sfn_size {O}.
Arguments sfn_add {O}. Arguments sfn_adds {O}. Arguments sfn_adds_iter {O}. Arguments sfn_clear {O}.
Arguments sfn_set_active {O}. Arguments sfn_absdiffeq {O}.
Arguments fm_get {O}. Arguments fm_set {O}. Arguments fm_del {O}.
Arguments sf_new {O}. Arguments sf_namespaces {O}. Arguments sf_all {O}. Arguments sf_get {O}.
Arguments sf_remove_ns {O}. Arguments sf_clear {O}. Arguments sf_set_ns {O}. Arguments sf_upd_ns {O}.
Arguments sf_updm_ns {O}. Arguments sf_append {O}. Arguments sfn_truncate_by {O}. Arguments sf_remove {O}.
Arguments sf_empty {O}. Arguments sf_active_keys {O}. Arguments sf_absdiffeq {O}.
Arguments sf_quadratic {O}. Arguments sf_cubic {O}.

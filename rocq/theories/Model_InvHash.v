(** The inverse hash table: /repo/reductionml-core/src/inverse_hash_table.rs with
    vw_text_parser.rs:496-514.  [Feature], its hash and [from_parsed_feature] are in
    Model_Hash, the extraction of one namespace in Model_Text. *)
From Coq Require Import List NArith Bool.
From Verif Require Import Base FloatOps Model_Hash Model_Features Model_Types Model_Text.
Import ListNotations.
Open Scope N_scope.

(** [Feature] is [Eq] *)
Fixpoint feature_eqb (a b : feature) : bool :=
  match a, b with
  | FtSimple n x, FtSimple m y => str_eqb n m && str_eqb x y
  | FtSimpleStr n x v, FtSimpleStr m y w => str_eqb n m && str_eqb x y && str_eqb v w
  | FtAnon n i, FtAnon m j => str_eqb n m && (i =? j)
  | FtInter l, FtInter k =>
      (fix go (l k : list feature) : bool :=
         match l, k with
         | [], [] => true
         | x :: l, y :: k => feature_eqb x y && go l k
         | _, _ => false
         end) l k
  | _, _ => false
  end.

(** lines 87-119: the table as a list of entries with different indices, each with a
    list without repetitions *)
Definition inv_table : Type := list (N * list feature).
Definition inv_new : inv_table := [].
Definition inv_get (i : N) (t : inv_table) : option (list feature) :=
  match find (fun e => fst e =? i) t with Some e => Some (snd e) | None => None end.
Definition set_insert (f : feature) (s : list feature) : list feature := if existsb (feature_eqb f) s then s else f :: s.
Fixpoint inv_insert (i : N) (f : feature) (t : inv_table) : inv_table :=
  match t with
  | [] => [(i, [f])]
  | (j, s) :: t => if j =? i then (j, set_insert f s) :: t else (j, s) :: inv_insert i f t
  end.

(** vw_text_parser.rs:496-514: [collect] into a HashMap (the order of its entries is not
    specified and does not matter below); a later value replaces the one of an equal key. *)
Definition info_eqb (a b : option str) : bool :=
  match a, b with Some x, Some y => str_eqb x y | None, None => true | _, _ => false end.
Fixpoint names_put (k : option str) (v : list parsed_feature) (m : list (option str * list parsed_feature))
  : list (option str * list parsed_feature) :=
  match m with
  | [] => [(k, v)]
  | (k', v') :: m => if info_eqb k' k then (k', v) :: m else (k', v') :: names_put k v m
  end.
Definition collect_names (l : list (option str * list parsed_feature)) : list (option str * list parsed_feature) :=
  fold_left (fun m kv => names_put (fst kv) (snd kv) m) l [].
(** vw_text_parser.rs:496-514 [extract_feature_names] *)
Definition extract_feature_names {O : FOps} (pf : str -> option O) (dbg multi : bool) (chunk : str)
  : out (list (option str * list parsed_feature)) :=
  let* l := extract_pairs pf dbg multi chunk in Ok (collect_names l).

(** The command that was to fill the table is not written
    (/repo/reductionml-cli/src/create_inv_hash_table.rs:27-40).  What its arguments and the
    functions above leave open is only the name [dn] to give to the default namespace. *)
Definition inv_add (H : hasher) (dbg : bool) (seed nb : N) (ns : str) (t : inv_table) (p : parsed_feature) : out inv_table :=
  let f := feature_of_parsed p ns in
  let* h := feature_hash H dbg f seed in
  let* mk := mask_from_bits dbg nb in
  Ok (inv_insert (mask mk h) f t).
Definition inv_add_all (H : hasher) (dbg : bool) (seed nb : N) (dn : str) (names : list (option str * list parsed_feature)) (t : inv_table)
  : out inv_table :=
  foldm (fun t e => foldm (inv_add H dbg seed nb (match fst e with Some n => n | None => dn end)) (snd e) t) names t.

(** The element-wise product of two vectors, stated on positions. *)
From Coq Require Import List NArith Bool Sorted.
From Verif Require Import Base FloatOps Model_Hash Model_Features.
Import ListNotations.
Open Scope N_scope.

Section Vec.
Context (O : FOps).

(** A vector: positions in increasing order, each with its component. *)
Definition vec : Type := list (N * O).
Definition increasing (v : vec) : Prop := Sorted.StronglySorted (fun a b => fst a < fst b) v.

(** The component at a position. *)
Definition at_pos (k : N) (v : vec) : option O :=
  option_map snd (find (fun p => N.eqb (fst p) k) v).

(** The products at the positions present in both. *)
Definition products (v w : vec) : vec :=
  flat_map (fun p => match at_pos (fst p) w with
                     | Some y => [(fst p, f_mul O (snd p) y)]
                     | None => []
                     end) v.

(** The features of a vector laid out from index [base] on. *)
Definition laid_out (base : N) (v : vec) : list (N * O) :=
  map (fun p => (base + fst p, snd p)) v.

(** Maps in key order. *)
Definition in_order (m : sfeats O) : Prop :=
  Sorted.StronglySorted (fun a b => ns_compare (fst a) (fst b) = Lt) m.
End Vec.
Arguments at_pos {O}. Arguments products {O}. Arguments laid_out {O}. Arguments increasing {O}.
Arguments in_order {O}.

(** Namespaces a configuration can name: the default one or one given by a name. *)
Definition nameable (n : namespace) : Prop :=
  match n with NsNamed _ => True | NsRawHash _ => False | NsDefault => True end.

(** The namespace of the products: the product of the two hashes, modulo 2^32. *)
Definition composite (one two : namespace) : namespace :=
  NsRawHash (ns_hash one * ns_hash two mod 2 ^ 32).

Section View.
Context (O : FOps).
(** What the two namespaces hold: vectors laid out from the masked hash on. *)
Definition holds (nb : N) (s : sfeats O) (n : namespace) (v : vec O) : Prop :=
  exists x, sf_get n s = Some x /\ sfn_iter x = laid_out (ns_hash n mod 2 ^ nb) v.

(** The namespace object holding the products. *)
Definition prod_ns (nb : N) (one two : namespace) (v w : vec O) : sfn O :=
  let c := composite one two in
  mkSfn c (map (fun p => ns_hash c mod 2 ^ nb + fst p) (products v w)) (map snd (products v w)) false.

(** What the reduction below finds under namespace [k]: the products, the other
    namespaces, and the two factors only when the originals are kept. *)
Definition view (nb : N) (s : sfeats O) (one two : namespace) (keep : bool) (v w : vec O)
  (k : namespace) : option (sfn O) :=
  if ns_eqb k (composite one two) then Some (prod_ns nb one two v w)
  else if negb keep && (ns_eqb k one || ns_eqb k two) then None
  else fm_get k s.
End View.
Arguments holds {O}. Arguments prod_ns {O}. Arguments view {O}.

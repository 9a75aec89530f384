(** What the statements about feature objects (C01, C03) talk about: histories of
    API calls on any number of feature objects, and what an observer can see. *)
From Coq Require Import List NArith ZArith Bool.
From Verif Require Import Base FloatOps Model_Hash Model_Features.
Import ListNotations.

Section Spec.
Context {O : FOps}.

(** One call of the public interface of [SparseFeatures]
    (/repo/reductionml-core/src/sparse_namespaced_features.rs:327-426).  Objects are
    numbered. *)
Inductive fop : Type :=
| FNew (r : nat)                                       (* SparseFeatures::new *)
| FCreate (r : nat) (k : namespace)                    (* get_or_create_namespace *)
| FAdd (r : nat) (k : namespace) (i : N) (v : O)       (* ... then add_feature *)
| FAdds (r : nat) (k : namespace) (is : list N) (vs : list O)  (* ... then add_features *)
| FAppend (r r' : nat)                                 (* append *)
| FRemove (r r' : nat)                                 (* remove *)
| FClear (r : nat)                                     (* clear *)
| FRemoveNs (r : nat) (k : namespace)                  (* remove_namespace, result dropped *)
| FSetNs (r : nat) (k : namespace) (fs : list (N * O)) (active : bool). (* set_namespace *)

Definition fstore := nat -> sfeats O.
Definition st_upd (st : fstore) (r : nat) (m : sfeats O) : fstore :=
  fun i => if Nat.eqb i r then m else st i.

Definition fop_run (dbg : bool) (st : fstore) (o : fop) : out fstore :=
  match o with
  | FNew r => Ok (st_upd st r sf_new)
  | FCreate r k => Ok (st_upd st r (sf_upd_ns k (fun s => s) (st r)))
  | FAdd r k i v => Ok (st_upd st r (sf_upd_ns k (sfn_add i v) (st r)))
  | FAdds r k is vs => let* m := sf_updm_ns k (sfn_adds is vs) (st r) in Ok (st_upd st r m)
  | FAppend r r' => let* m := sf_append (st r) (st r') in Ok (st_upd st r m)
  | FRemove r r' => let* m := sf_remove dbg (st r) (st r') in Ok (st_upd st r m)
  | FClear r => Ok (st_upd st r (sf_clear (st r)))
  | FRemoveNs r k => Ok (st_upd st r (snd (sf_remove_ns k (st r))))
  | FSetNs r k fs b =>
      Ok (st_upd st r (sf_set_ns k (mkSfn k (map fst fs) (map snd fs) b) (st r)))
  end.

Definition fops_run (dbg : bool) (h : list fop) (st : fstore) : out fstore :=
  foldm (fop_run dbg) h st.

(** all objects new *)
Definition fstore0 : fstore := fun _ => sf_new.

(** What an observer sees of an object: its active namespaces with their features,
    the list of all features, and emptiness. *)
Definition same_view (a b : sfeats O) : Prop :=
  (forall k, sf_get k a = sf_get k b) /\ sf_all a = sf_all b /\ sf_empty a = sf_empty b
  /\ sf_active_keys a = sf_active_keys b.

(** Comparing either object with any third one gives the same answer. *)
Definition same_compare (a b : sfeats O) : Prop :=
  forall eps c, sf_absdiffeq eps a c = sf_absdiffeq eps b c.

(** The entry of [k], if there is one, is active exactly if it has features. *)
Definition proper_entry (k : namespace) (m : sfeats O) : Prop :=
  forall s, fm_get k m = Some s -> (sfn_active s = true <-> sfn_iter s <> []).

End Spec.
Arguments fop : clear implicits.
Arguments fstore : clear implicits.

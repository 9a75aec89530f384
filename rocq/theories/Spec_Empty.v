(** What C75 talks about: features up to empty namespaces. *)
From Coq Require Import List NArith ZArith Bool.
From Verif Require Import Base FloatOps Model_Hash Model_Features Model_Weights Model_Types Model_Explore
  Model_Coin Model_Stack Spec_Features Spec_Stack Spec_Text.
Import ListNotations.

Section Empty.
Context {O : FOps}.

(** the features in a namespace, none if there is no such namespace *)
Definition in_ns (k : namespace) (m : sfeats O) : list (N * O) :=
  match fm_get k m with Some s => sfn_iter s | None => [] end.
(** the same features in every namespace: one may have empty namespaces the other has not *)
Definition same_content (a b : sfeats O) : Prop := forall k, in_ns k a = in_ns k b.
Definition same_contents (f g : features O) : Prop :=
  match f, g with
  | FtsSimple a, FtsSimple b => same_content a b
  | FtsCb s x, FtsCb t y =>
      (match s, t with Some a, Some b => same_content a b | None, None => True | _, _ => False end) /\
      Forall2 same_content x y
  | _, _ => False
  end.
(** built with the public interface, and no namespace holds features while it counts as absent *)
Definition sound (m : sfeats O) : Prop := built m /\ no_hidden m.
Definition sound_fts (f : features O) : Prop :=
  match f with
  | FtsSimple a => sound a
  | FtsCb s x => (forall a, In a x -> sound a) /\ match s with None => True | Some sh => sound sh end
  end.
(** no layer is an element-wise reduction *)
Fixpoint elem_free (n : nat) : red O n -> Prop :=
  match n with
  | 0%nat => fun _ => True
  | S m => fun r => (forall one two keep nb, snd (fst r) <> KElem one two keep nb) /\ elem_free m (snd r)
  end.
End Empty.

(** Both calls return the same result and features with the same content, or both end
    without a result in the same way. *)
Definition alike {O : FOps} {X : Type} (u v : out (X * features O)) : Prop :=
  orel (fun x y => fst x = fst y /\ same_contents (snd x) (snd y)) u v.
(** the same examples up to empty namespaces *)
Definition same_example {O : FOps} (x y : features O * label O) : Prop :=
  sound_fts (fst x) /\ sound_fts (fst y) /\ same_contents (fst x) (fst y) /\ snd x = snd y.
(** the namespaces of a line that hold features (see C29) *)
Definition with_feats (ns : list tns) : list tns := filter (fun n => match tn_feats n with [] => false | _ => true end) ns.

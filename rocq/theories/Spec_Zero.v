(** Examples of weight zero and features of value zero. *)
From Coq Require Import List NArith ZArith Bool.
From Verif Require Import Base FloatOps Model_Hash Model_Features Model_Types Model_Coin Spec_Coin.
Import ListNotations.
Open Scope N_scope.

Section SpecZero.
Context {O : FOps}.

Definition is_zero (v : O) : Prop := f_eqb O v f0 = true.

(** the second list is the first without some entries of value zero *)
Inductive thinned : list (N * O) -> list (N * O) -> Prop :=
| thin_nil : thinned [] []
| thin_keep : forall p l k, thinned l k -> thinned (p :: l) (p :: k)
| thin_drop : forall i v l k, is_zero v -> thinned l k -> thinned ((i, v) :: l) k.

(** what a regressor of this configuration reads in [g] (features, interactions and the
    constant) is what it reads in [f] without some entries of value zero *)
Definition thinner (dbg : bool) (c : coin O) (f g : sfeats O) : Prop :=
  exists l k, coin_feats dbg c f = Ok l /\ coin_feats dbg c g = Ok k /\ thinned l k.

(** what it reads in [g] is what it reads in [f] without the indices in [D], and in [f] these
    only have the value zero *)
Definition without (dbg : bool) (c : coin O) (D : N -> bool) (f g : sfeats O) : Prop :=
  exists l, coin_feats dbg c f = Ok l /\
    coin_feats dbg c g = Ok (filter (fun iv => negb (D (fst iv))) l) /\
    forall i v, In (i, v) l -> D i = true -> is_zero v.

(** the same example up to a relation between the features *)
Definition same_but (R : sfeats O -> sfeats O -> Prop) (a b : example O) : Prop :=
  R (ex_f a) (ex_f b) /\ ex_y a = ex_y b /\ ex_w a = ex_w b.

(** the value of a regression prediction *)
Definition scalar_of (p : prediction O) : O := match p with PrScalar q _ => q | _ => f0 end.

End SpecZero.

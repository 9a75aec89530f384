(** What the statements about metrics and progress output talk about. *)
From Coq Require Import List NArith ZArith Bool Reals.
From Verif Require Import Base FloatOps FloatR Model_Hash Model_Features Model_Types Model_Metrics Model_Train.
Import ListNotations.

(** A point given to a metric. *)
Record point (O : FOps) : Type := mkPt { pt_feats : features O; pt_label : label O; pt_pred : prediction O }.
Arguments mkPt {O}. Arguments pt_feats {O}. Arguments pt_label {O}. Arguments pt_pred {O}.

Definition add_points {O : FOps} (m : metric O) (l : list (point O)) : out (metric O) :=
  foldm (fun m p => metric_add m (pt_feats p) (pt_label p) (pt_pred p)) l m.

(** squared error of a point *)
Inductive squared_error : point RF -> R -> Prop :=
| sqe : forall f y w p raw, squared_error (mkPt f (LbSimple y w) (PrScalar p raw)) ((y - p) * (y - p))%R.

(** inverse propensity estimate of the reward of a point *)
Inductive ips_reward : point RF -> R -> Prop :=
| ipr : forall f a (c plog : R) l1 (p : R) l2, ~ In a (map fst l1) ->
    ips_reward (mkPt f (LbCb a c plog) (PrProbs (l1 ++ (a, p) :: l2))) (- c * (p / plog))%R.

Definition sumR (l : list R) : R := fold_right Rplus 0%R l.
Definition meanR (l : list R) : R := (sumR l / INR (length l))%R.

(** The feature objects of an example, and how many features they hold. *)
Definition objects {A} (f : features A) : list (sfeats A) :=
  match f with
  | FtsSimple s => [s]
  | FtsCb sh acts => match sh with Some s => s :: acts | None => acts end
  end.
Definition total_features {O : FOps} (l : list (point O)) : nat :=
  length (concat (map sf_all (concat (map (fun p => objects (pt_feats p)) l)))).

(** What [inc_iteration] answers at the first [n] examples. *)
Fixpoint outputs {O : FOps} (dbg : bool) (m : manager O) (n : nat) : out (list bool) :=
  match n with
  | 0%nat => Ok []
  | S n => let* x := inc_iteration dbg m in
           let* r := outputs dbg (snd x) n in Ok (fst x :: r)
  end.

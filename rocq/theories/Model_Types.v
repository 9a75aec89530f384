(** Predictions, labels and features: /repo/reductionml-core/src/types.rs. *)
From Coq Require Import List NArith ZArith Bool.
From Verif Require Import Base FloatOps Model_Features.
Import ListNotations.
Open Scope N_scope.

(** lines 34-62 *)
Inductive prediction (A : Type) : Type :=
| PrScalar (p raw : A)
| PrBinary (b : bool)
| PrScores (l : list (N * A))
| PrProbs (l : list (N * A)).
Arguments PrScalar {A}. Arguments PrBinary {A}. Arguments PrScores {A}. Arguments PrProbs {A}.

(** lines 69-75 *)
Inductive pred_type : Type := PTScalar | PTBinary | PTScores | PTProbs.

(** lines 77-154; a CB action is a usize *)
Inductive label (A : Type) : Type :=
| LbSimple (value weight : A)
| LbBinary (b : bool)
| LbCb (action : N) (cost prob : A).
Arguments LbSimple {A}. Arguments LbBinary {A}. Arguments LbCb {A}.

(** lines 159-164 *)
Inductive label_type : Type := LTSimple | LTBinary | LTCb.

(** lines 253-259.  The [Ref] variants (a borrowed object) behave the same in every
    function modelled here and are merged with the owned ones. *)
Inductive features (A : Type) : Type :=
| FtsSimple (f : sfeats A)
| FtsCb (shared : option (sfeats A)) (actions : list (sfeats A)).
Arguments FtsSimple {A}. Arguments FtsCb {A}.

(** lines 353-357 *)
Inductive feat_type : Type := FTSimple | FTCb.

(** which of the enumerations at types.rs:69-75, 159-164, 353-357 a value belongs to *)
Definition pred_type_of {A} (p : prediction A) : pred_type :=
  match p with
  | PrScalar _ _ => PTScalar | PrBinary _ => PTBinary
  | PrScores _ => PTScores | PrProbs _ => PTProbs
  end.
Definition label_type_of {A} (l : label A) : label_type :=
  match l with LbSimple _ _ => LTSimple | LbBinary _ => LTBinary | LbCb _ _ _ => LTCb end.
Definition feat_type_of {A} (f : features A) : feat_type :=
  match f with FtsSimple _ => FTSimple | FtsCb _ _ => FTCb end.

(** the derived PartialEq of types.rs:69-75, 159-164, 353-357 *)
Definition pred_type_eqb (a b : pred_type) : bool :=
  match a, b with
  | PTScalar, PTScalar | PTBinary, PTBinary | PTScores, PTScores | PTProbs, PTProbs => true
  | _, _ => false
  end.
Definition label_type_eqb (a b : label_type) : bool :=
  match a, b with LTSimple, LTSimple | LTBinary, LTBinary | LTCb, LTCb => true | _, _ => false end.
Definition feat_type_eqb (a b : feat_type) : bool :=
  match a, b with FTSimple, FTSimple | FTCb, FTCb => true | _, _ => false end.

Section Types.
Context (O : FOps).

(** lines 9-32, 233-249 [as_inner().unwrap()] *)
Definition as_simple (f : features O) : out (sfeats O) :=
  match f with FtsSimple s => Ok s | _ => Pn PType end.
Definition as_cb (f : features O) : out (option (sfeats O) * list (sfeats O)) :=
  match f with FtsCb s a => Ok (s, a) | _ => Pn PType end.
Definition as_scalar (p : prediction O) : out (O * O) :=
  match p with PrScalar a b => Ok (a, b) | _ => Pn PType end.
Definition as_scores (p : prediction O) : out (list (N * O)) :=
  match p with PrScores l => Ok l | _ => Pn PType end.
Definition as_simple_label (l : label O) : out (O * O) :=
  match l with LbSimple v w => Ok (v, w) | _ => Pn PType end.
Definition as_binary_label (l : label O) : out bool :=
  match l with LbBinary b => Ok b | _ => Pn PType end.
Definition as_cb_label (l : label O) : out (N * O * O) :=
  match l with LbCb a c p => Ok (a, c, p) | _ => Pn PType end.

(** f32::EPSILON *)
Definition f32_eps : O := f_lit O 1 8388608.

(** lines 172-200, 273-301 [abs_diff_eq] *)
Definition fts_absdiffeq (eps : O) (a b : features O) : bool :=
  match a, b with
  | FtsSimple x, FtsSimple y => sf_absdiffeq eps x y
  | FtsCb s xs, FtsCb t ys =>
      (match s, t with
       | Some s, Some t => sf_absdiffeq eps s t
       | None, None => true
       | _, _ => false
       end)
      && Nat.eqb (length xs) (length ys)
      && forallb (fun p => sf_absdiffeq eps (fst p) (snd p)) (combine xs ys)
  | _, _ => false
  end.
End Types.
Arguments as_simple {O}. Arguments as_cb {O}. Arguments as_scalar {O}. Arguments as_scores {O}.
Arguments as_simple_label {O}. Arguments as_binary_label {O}. Arguments as_cb_label {O}.
Arguments f32_eps {O}. Arguments fts_absdiffeq {O}.

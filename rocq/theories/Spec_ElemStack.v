(** What the regressor at the bottom of a stack finds in an example, stated on the
    contents of the example (C81). *)
From Coq Require Import List NArith Bool.
From Verif Require Import Base FloatOps Model_Hash Model_Features Model_Types Model_Explore Model_Coin Model_Stack Spec_Elem.
Import ListNotations.
Open Scope N_scope.

Section Spec.
Context {O : FOps}.

(** The two namespaces hold vectors, laid out from their base on; the place of the
    products is free; without the originals the two namespaces are different. *)
Definition vectors (nb : N) (s : sfeats O) (one two : namespace) (keep : bool) (v w : vec O) : Prop :=
  (keep = false -> one <> two) /\ holds nb s one v /\ holds nb s two w /\ increasing v /\ increasing w /\
  Forall (fun p => ns_hash (composite one two) mod 2 ^ nb + fst p < 2 ^ 32) v /\
  fm_get (composite one two) s = None.

(** The products of the two vectors stay inside the weight table. *)
Definition products_fit (nb : N) (one two : namespace) (v w : vec O) : Prop :=
  forall p, at_pos p v <> None -> at_pos p w <> None -> ns_hash (composite one two) mod 2 ^ nb + p < 2 ^ nb.

(** The features of [b] behind those of [a]. *)
Definition joined (a b u : sfeats O) : Prop :=
  in_order u /\
  forall k, fm_get k u =
    match sf_get k b with
    | None => fm_get k a
    | Some y =>
        match fm_get k a with
        | None => Some (mkSfn k (sfn_idx y) (sfn_val y) true)
        | Some x => Some (mkSfn k (sfn_idx x ++ sfn_idx y) (sfn_val x ++ sfn_val y) true)
        end
    end.
Definition joined_opt (a : sfeats O) (sh : option (sfeats O)) (u : sfeats O) : Prop :=
  match sh with None => u = a | Some b => joined a b u end.

(** Predicting on the features [f] shows the regressor at the bottom the feature objects
    [ts], one after the other. *)
Fixpoint finds (n : nat) : red O n -> features O -> list (sfeats O) -> Prop :=
  match n with
  | 0%nat => fun _ f ts => exists s, f = FtsSimple s /\ ts = [s]
  | S m => fun r f ts =>
      match snd (fst r) with
      | KElem one two keep nb =>
          exists s v w u, f = FtsSimple s /\ vectors nb s one two keep v w /\
            in_order u /\ (forall k, fm_get k u = view nb s one two keep v w k) /\
            finds m (snd r) (FtsSimple u) ts
      | KCbAdf _ _ _ =>
          exists sh x tss, f = FtsCb sh x /\ ts = concat tss /\
            Forall2 (fun a l => exists u, joined_opt a sh u /\ finds m (snd r) (FtsSimple u) l) x tss
      | _ => finds m (snd r) f ts
      end
  end.

(** The same for learning with a label for action [act]: the mtr cost type uses the
    labelled action only, behind the shared features. *)
Fixpoint meets (act : N) (n : nat) : red O n -> features O -> list (sfeats O) -> Prop :=
  match n with
  | 0%nat => fun r f ts => finds 0 r f ts
  | S m => fun r f ts =>
      match snd (fst r) with
      | KElem _ _ _ _ | KCbAdf Ips _ _ => finds (S m) r f ts
      | KCbAdf Mtr _ _ =>
          exists sh x a u, f = FtsCb (Some sh) x /\ nth_error x (N.to_nat act) = Some a /\
            joined sh a u /\ finds m (snd r) (FtsSimple u) ts
      | _ => meets act m (snd r) f ts
      end
  end.
Definition labelled (lb : label O) : N := match lb with LbCb a _ _ => a | _ => 0 end.
End Spec.

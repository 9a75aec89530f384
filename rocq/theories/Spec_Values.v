(** Python programs, with values for objects (C74): features, labels, predictions and
    parsers are what they were made as, and a workspace is what it was made as together
    with the examples it has learned from. *)
From Coq Require Import List NArith Bool.
From Verif Require Import Base FloatOps Model_Hash Model_Features Model_Weights Model_Interactions Model_Types Model_Explore Model_Coin Model_Stack Model_Factory Model_Text Model_Train Model_Json Model_Config Model_Save Model_Export Model_Python
  Spec_Stack Spec_Progress Spec_Python Spec_Empty.
Import ListNotations.

Inductive value (O : FOps) : Type :=
| VFeats (x : features O)
| VLabel (l : label O)
| VPred (p : prediction O)
| VWs (gc : gconfig) (ex : nat -> extra O) (R : anyred O) (seen : list (example O))
| VParser (fm : pyformat) (ft : feat_type) (lt : label_type) (seed nb : N).
Arguments VFeats {O}. Arguments VLabel {O}. Arguments VPred {O}. Arguments VWs {O}. Arguments VParser {O}.

Section Values.
Context {O : FOps} (H : hasher) (dbg : bool) (pf : str -> option O) (rd : str -> option (json O)) (al : alloc).

(** the stack after learning from some examples *)
Definition now {n} (r : red O n) (exs : list (example O)) : out (red O n) :=
  foldm (fun r ex => let* x := ws_learn dbg r (fst ex) (snd ex) in Ok (fst x)) exs r.

Definition memory : Type := list (option (value O)).
Definition val (m : memory) (i : nat) : option (value O) := match nth_error m i with Some v => v | None => None end.
Definition store (m : memory) (i : nat) (v : option (value O)) : memory := firstn i m ++ v :: skipn (S i) m.
(** the result, and what is new in memory *)
Definition gives (m : memory) (v : value O) : pyres O * option memory := (RNew (length m), Some (m ++ [Some v])).
Definition says (m : memory) (r : pyres O) : pyres O * option memory := (r, Some m).
(** a workspace cannot be made, its constructor panics *)
Definition made (m : memory) (ex : nat -> extra O) (x : out (gconfig * anyred O)) : pyres O * option memory :=
  match x with
  | Ok (gc, R) => gives m (VWs gc ex R [])
  | Er _ => says m (RPanic PErr)
  | Pn p => says m (RPanic p)
  end.
Definition parser_made (m : memory) (fm : pyformat) (ft : feat_type) (lt : label_type) (seed nb : N) : pyres O * option memory :=
  match fm with
  | FDsJson => if match ft, lt with FTCb, LTCb => true | _, _ => false end then gives m (VParser fm ft lt seed nb) else says m (RPanic PTodo)
  | _ => gives m (VParser fm ft lt seed nb)
  end.
(** there are no Python classes for binary labels and predictions *)
Definition predicted (m : memory) (p : prediction O) : pyres O * option memory :=
  match pred_type_of p with PTBinary => says m (RPanic PTodo) | _ => gives m (VPred p) end.
Definition parsed (m : memory) (x : features O) (lb : option (label O)) : pyres O * option memory :=
  match lb with
  | None => (RParsed (length m) None, Some (m ++ [Some (VFeats x)]))
  | Some l =>
      match label_type_of l with
      | LTBinary => says m (RPanic PTodo)
      | _ => (RParsed (length m) (Some (length m + 1)%nat), Some (m ++ [Some (VFeats x)] ++ [Some (VLabel l)]))
      end
  end.
Definition failure {A} (x : out A) : pyres O * option memory :=
  match x with Ok _ => (RNone, None) | Er e => (RError e, None) | Pn p => (RPanic p, None) end.

Definition value_call (ord : pyord O) (m : memory) (op : pyop O) : option (pyres O * option memory) :=
  match op with
  | NewSparse => Some (gives m (VFeats (FtsSimple sf_new)))
  | NewCb => Some (gives m (VFeats (FtsCb None [])))
  | NewSimpleLabel v w => Some (gives m (VLabel (LbSimple v w)))
  | NewCbLabel a c p => Some (gives m (VLabel (LbCb a c p)))
  | FromConfig gc ex c => Some (made m ex (let* R := ws_new H dbg gc c in Ok (gc, R)))
  | FromModel (gc, ex, s) => Some (made m ex (let* r := ws_load _ (projT2 s) in Ok (gc, existT _ _ r)))
  | FromJsonModel ex v => Some (made m ex (ws_import dbg ord v))
  | MakeParser fm ft lt seed nb => Some (parser_made m fm ft lt seed nb)
  | SaveModel w => option_map (fun v =>
      match v with
      | VWs gc ex R seen => match now (projT2 R) seen with Ok r => says m (RBytes (gc, ex, existT _ _ (ws_save _ r))) | x => failure x end
      | _ => says m RTypeError
      end) (val m w)
  | SaveJson w => option_map (fun v =>
      match v with
      | VWs gc ex R seen =>
          match (let* r := now (projT2 R) seen in ws_export dbg ord ex gc (existT _ _ r)) with
          | Ok j => says m (RJson j) | Er _ => says m (RPanic PErr) | Pn p => says m (RPanic p)
          end
      | _ => says m RTypeError
      end) (val m w)
  | ParserOf w fm => option_map (fun v =>
      match v with
      | VWs gc ex R seen => let t := red_types (projT2 R) in parser_made m fm (td_in_feats t) (td_in_label t) (gc_seed gc) (gc_bits gc)
      | _ => says m RTypeError
      end) (val m w)
  | EntryTypes w => option_map (fun v =>
      match v with VWs gc ex R seen => says m (RTypes (red_types (projT2 R))) | _ => says m RTypeError end) (val m w)
  | Parse p s => option_map (fun v =>
      match v with
      | VParser fm ft lt seed nb =>
          match new_ps H dbg pf rd al fm ft lt seed nb s with
          | Ok (x, lb) => parsed m x lb | Er e => says m (RError e) | Pn p => says m (RPanic p)
          end
      | _ => says m RTypeError
      end) (val m p)
  | Predict w f =>
      match val m w, val m f with
      | Some (VWs gc ex R seen), Some (VFeats x) =>
          Some match (let* r := now (projT2 R) seen in ws_predict dbg r x) with
               | Ok (p, _) => predicted m p
               | z => failure z
               end
      | Some _, Some _ => Some (says m RTypeError)
      | _, _ => None
      end
  | Learn w f l =>
      match val m w, val m f, val m l with
      | Some (VWs gc ex R seen), Some (VFeats x), Some (VLabel lb) =>
          Some match now (projT2 R) (seen ++ [(x, lb)]) with
               | Ok _ => says (store m w (Some (VWs gc ex R (seen ++ [(x, lb)])))) RNone
               | z => failure z
               end
      | Some _, Some _, Some _ => Some (says m RTypeError)
      | _, _, _ => None
      end
  | PredictThenLearn w f l =>
      match val m w, val m f, val m l with
      | Some (VWs gc ex R seen), Some (VFeats x), Some (VLabel lb) =>
          Some match (let* r := now (projT2 R) seen in ws_predict dbg r x), now (projT2 R) (seen ++ [(x, lb)]) with
               | Ok (p, _), Ok _ => predicted (store m w (Some (VWs gc ex R (seen ++ [(x, lb)])))) p
               | _, _ => failure (let* r := now (projT2 R) seen in ws_ptl dbg r x lb)
               end
      | Some _, Some _, Some _ => Some (says m RTypeError)
      | _, _, _ => None
      end
  | Read i => option_map (fun v =>
      match v with VLabel l => says m (RLabel l) | VPred p => says m (RPred p) | _ => says m RTypeError end) (val m i)
  | Drop i => option_map (fun _ => says (store m i None) RNone) (val m i)
  end.

Fixpoint value_run (ops : list (pyord O * pyop O)) (m : memory) : list (pyres O) :=
  match ops with
  | [] => []
  | (ord, op) :: ops =>
      match value_call ord m op with
      | None => []
      | Some (r, None) => [r]
      | Some (r, Some m') => r :: value_run ops m'
      end
  end.

(** What is asked of a program.  Throughout the run: *)
Fixpoint during (P : memory -> Prop) (ops : list (pyord O * pyop O)) (m : memory) : Prop :=
  match ops with
  | [] => True
  | (ord, op) :: ops =>
      match value_call ord m op with
      | Some (_, Some m') => P m' /\ during P ops m'
      | _ => True
      end
  end.
(** Element-wise layers refer to namespaces by name. *)
Fixpoint named_elems (n : nat) : red O n -> Prop :=
  match n with
  | 0%nat => fun _ => True
  | S m => fun r =>
      match snd (fst r) with
      | KElem one two _ _ => (forall h, one <> NsRawHash h) /\ (forall h, two <> NsRawHash h)
      | _ => True
      end /\ named_elems m (snd r)
  end.
(** All workspaces have been made from a configuration or at least could have been, as far
    as element-wise layers are concerned. *)
Definition named_ws (m : memory) : Prop :=
  forall i gc ex R seen, val m i = Some (VWs gc ex R seen) -> (exists gc0 c, ws_new H dbg gc0 c = Ok R) \/ named_elems _ (projT2 R).
(** All features are tidy (see C02). *)
Definition all_tidy (m : memory) : Prop := forall i x, val m i = Some (VFeats x) -> tidy x.
(** No workspace has an element-wise layer. *)
Definition no_elems (m : memory) : Prop := forall i gc ex R seen, val m i = Some (VWs gc ex R seen) -> elem_free _ (projT2 R).
End Values.

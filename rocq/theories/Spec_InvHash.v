(** What the inverse hash table should say about a text example. *)
From Coq Require Import List NArith Bool.
From Verif Require Import Base FloatOps Model_Hash Model_Features Model_Types Model_Text Model_InvHash Spec_Text.
Import ListNotations.
Open Scope N_scope.

Section Spec.
Context {O : FOps} (pf : str -> option O).
(** the features written in namespace [ns]; [k] counts anonymous features *)
Fixpoint item_features (ns : str) (k : N) (fs : list (str * option str)) : list feature :=
  match fs with
  | [] => []
  | (name, None) :: r => FtSimple ns name :: item_features ns k r
  | (name, Some v) :: r =>
      match pf v, name with
      | Some _, [] => FtAnon ns (k mod 4294967296) :: item_features ns (k + 1) r
      | Some _, _ => FtSimple ns name :: item_features ns k r
      | None, _ => FtSimpleStr ns name v :: item_features ns k r
      end
  end.
Definition tn_features (ns : str) (n : tns) : list feature := item_features ns 0 (map snd (tn_feats n)).
Definition tn_name (n : tns) : option str := option_map fst (tn_head n).
(** the name is followed by a space *)
Definition spaced (n : tns) : Prop :=
  match tn_head n with Some h => exists r, tn_text n = item_text h ++ 32 :: r | None => True end.
(** the namespaces of a chunk in the documented form, in order *)
Definition chunk_ns (multi : bool) (chunk : str) (ns : list tns) : Prop :=
  if multi then exists ls, str_lines chunk = map (fun p => line_text (fst p) (snd p)) ls /\ ns = flat_map snd ls /\
                  Forall (fun p => ~ In 124 (fst p)) ls
  else exists initial, chunk = line_text initial ns /\ ~ In 124 initial.
End Spec.
(** the name of a namespace, if [dn] is the one of the default namespace *)
Definition name_of (dn : str) (n : tns) : str := match tn_name n with Some nm => nm | None => dn end.
(** no overflow of the index of an anonymous feature (only matters in debug builds) *)
Definition inv_fits (H : hasher) (seed : N) (dn : str) (n : tns) : Prop :=
  h32 H (name_of dn n) seed + N.of_nat (length (tn_feats n)) < 4294967296.
(** feature [f] is in the table at index [i] *)
Definition inv_in (i : N) (f : feature) (t : inv_table) : Prop := exists s, inv_get i t = Some s /\ In f s.

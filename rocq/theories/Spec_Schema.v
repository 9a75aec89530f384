(** What a JSON schema says about a document (C65): the keywords of JSON Schema, draft 7,
    that occur in the schema of configuration files.  Title, description, default and format
    say nothing about validity and are left out; a [$ref] stands alone in its schema. *)
From Coq Require Import List NArith Bool String.
From Verif Require Import Base FloatOps Model_Hash Model_Features Model_Types Model_Text Model_Json Model_Config.
Import ListNotations.
Open Scope list_scope.
Open Scope N_scope.

Inductive stype : Type := TObject | TArray | TString | TNumber | TInteger | TBoolean.
Inductive schema : Type :=
| SBool (b : bool)
| SObj (ks : list keyword)
with keyword : Type :=
| KRef (name : str)                                    (* "$ref": "#/definitions/name" *)
| KType (t : stype)
| KEnum (l : list str)
| KConst (s : str)
| KPattern (re : str)
| KMinimum0                                            (* "minimum": 0 *)
| KRequired (l : list str)
| KProperties (ps : list (str * schema)) (rest : option schema)  (* properties, additionalProperties *)
| KItems (s : schema)
| KOneOf (l : list schema)
| KAllOf (l : list schema).

Definition sdefs : Type := list (str * schema).
Definition sget (k : str) (l : sdefs) : option schema :=
  match find (fun kv => str_eqb k (fst kv)) l with Some kv => Some (snd kv) | None => None end.

Section Eval.
(** which numbers are integers and which are not negative, and what a regular expression
    matches *)
Context {O : FOps} (isint nonneg : jnum O -> bool) (rx : str -> str -> bool) (defs : sdefs).
Local Notation json := (json O).

(** None: not known (references may form circles). *)
Definition kand (a b : option bool) : option bool :=
  match a, b with
  | Some false, _ | _, Some false => Some false
  | Some true, Some true => Some true
  | _, _ => None
  end.
Definition kall {A} (f : A -> option bool) (l : list A) : option bool := fold_right (fun x r => kand (f x) r) (Some true) l.
Fixpoint kcount (l : list (option bool)) : option nat :=
  match l with
  | [] => Some 0%nat
  | b :: l => match b, kcount l with Some b, Some n => Some (if b then S n else n) | _, _ => None end
  end.

Definition has_type (t : stype) (v : json) : bool :=
  match t, v with
  | TObject, JObj _ | TArray, JArr _ | TString, JStr _ | TNumber, JNum _ | TBoolean, JBool _ => true
  | TInteger, JNum n => isint n
  | _, _ => false
  end.
Definition is_text (l : list str) (v : json) : bool := match v with JStr s => existsb (str_eqb s) l | _ => false end.
Definition holds (rec : schema -> json -> option bool) (k : keyword) (v : json) : option bool :=
  match k with
  | KRef r => match sget r defs with Some s => rec s v | None => None end
  | KType t => Some (has_type t v)
  | KEnum l => Some (is_text l v)
  | KConst s => Some (is_text [s] v)
  | KPattern re => Some (match v with JStr s => rx re s | _ => true end)
  | KMinimum0 => Some (match v with JNum n => nonneg n | _ => true end)
  | KRequired l => Some (match v with JObj o => forallb (fun k => existsb (fun kv => str_eqb k (fst kv)) o) l | _ => true end)
  | KProperties ps rest =>
      match v with
      | JObj o => kall (fun kv => match sget (fst kv) ps, rest with
                                  | Some s, _ | None, Some s => rec s (snd kv)
                                  | None, None => Some true
                                  end) o
      | _ => Some true
      end
  | KItems s => match v with JArr l => kall (rec s) l | _ => Some true end
  | KOneOf l => match kcount (map (fun s => rec s v) l) with Some n => Some (Nat.eqb n 1) | None => None end
  | KAllOf l => kall (fun s => rec s v) l
  end.
Fixpoint ev (n : nat) (s : schema) (v : json) : option bool :=
  match n with
  | 0%nat => None
  | S n => match s with SBool b => Some b | SObj ks => kall (fun k => holds (ev n) k v) ks end
  end.
Definition valid (s : schema) (v : json) : Prop := exists n, ev n s v = Some true.
Definition invalid (s : schema) (v : json) : Prop := exists n, ev n s v = Some false.
End Eval.

Section Documents.
Context {O : FOps}.
Local Notation json := (json O).
Definition keyof (l : list (str * json)) (k : string) : Prop := In (lit k) (map fst l).
Definition every (P : json -> Prop) (l : list (str * json)) : Prop := fold_right (fun kv r => P (snd kv) /\ r) True l.
Definition each (P : json -> Prop) (l : list json) : Prop := fold_right (fun x r => P x /\ r) True l.

(** The care a user has to take beyond what the schema checks: no key twice; a reduction with
    options has a type name; Debug has a reduction below it; integers are written as
    integers and fit; "$schema" is a string. *)
Fixpoint careful (v : json) : Prop :=
  match v with
  | JArr l => each careful l
  | JObj l =>
      NoDup (map fst l) /\
      (keyof l "config" -> keyof l "typename") /\
      (In (lit "typename", JStr (lit "Debug")) l -> exists o, In (lit "config", JObj o) l /\ keyof o "next") /\
      (forall n, In (lit "numBits", JNum n) l -> exists k, jn_u64 n = Some k /\ k < 256) /\
      (forall n, In (lit "hashSeed", JNum n) l -> exists k, jn_u64 n = Some k /\ k < 2 ^ 32) /\
      (forall n, In (lit "indent", JNum n) l -> exists k, jn_u64 n = Some k /\ k < 2 ^ 64) /\
      (forall x, In (lit "$schema", x) l -> exists s, x = JStr s) /\
      every careful l
  | _ => True
  end.

(** Documents written in the usual way: no key twice, no null, arrays only for the
    interactions, and nothing beside the type name and the options of a reduction. *)
Fixpoint plain (v : json) : Prop :=
  match v with
  | JNull => False
  | JArr _ => False
  | JObj l =>
      NoDup (map fst l) /\
      (keyof l "typename" -> forall k, In k (map fst l) -> k = lit "typename" \/ k = lit "config") /\
      fold_right (fun kv r =>
        (if str_eqb (fst kv) (lit "interactions")
         then match snd kv with
              | JArr ps => each (fun p => match p with JArr ds => each plain ds | _ => True end) ps
              | _ => True
              end
         else plain (snd kv)) /\ r) True l
  | _ => True
  end.
End Documents.

(** Interactions in the configuration: /repo/reductionml-core/src/interactions.rs,
    and the global configuration global_config.rs:8-60. *)
From Coq Require Import List NArith ZArith Bool.
From Verif Require Import Base Model_Hash Model_Features.
Import ListNotations.
Open Scope N_scope.

(** interactions.rs:7-10 *)
Inductive nsdef : Type :=
| NDName (name : str)
| NDDefault.

(** interactions.rs:12 *)
Definition interaction : Type := list nsdef.

(** interactions.rs:16-24 [to_namespace]: unlike [Namespace::from_name], the name
    ":default" is hashed like any other. *)
Definition nsdef_namespace (H : hasher) (seed : N) (d : nsdef) : namespace :=
  match d with
  | NDName name => NsNamed (hash_bytes H name seed)
  | NDDefault => NsDefault
  end.

(** interactions.rs:27-35 [hash_interaction] *)
Definition hash_interaction (H : hasher) (seed : N) (i : interaction) : out (list namespace) :=
  if Nat.eqb (length i) 0 || (3 <? length i)%nat then Pn PTodo
  else Ok (map (nsdef_namespace H seed) i).

(** interactions.rs:40-71 [compile_interactions] *)
Definition compile_pairs (H : hasher) (seed : N) (is : list interaction)
  : out (list (namespace * namespace)) :=
  mapm (fun i => let* h := hash_interaction H seed i in
                 match h with
                 | [a; b] => Ok (a, b)
                 | _ => Pn PIndex   (* indexing [0], [1]; the filter gives length 2 *)
                 end) (filter (fun i => Nat.eqb (length i) 2) is).
(** interactions.rs:53-64 *)
Definition compile_triples (H : hasher) (seed : N) (is : list interaction)
  : out (list (namespace * namespace * namespace)) :=
  mapm (fun i => let* h := hash_interaction H seed i in
                 match h with
                 | [a; b; c] => Ok (a, b, c)
                 | _ => Pn PIndex
                 end) (filter (fun i => Nat.eqb (length i) 3) is).
(** interactions.rs:40-71 *)
Definition compile_interactions (H : hasher) (seed : N) (is : list interaction)
  : out (list (namespace * namespace) * list (namespace * namespace * namespace)) :=
  let* ps := compile_pairs H seed is in
  let* ts := compile_triples H seed is in
  if Nat.eqb (length ps + length ts) (length is) then Ok (ps, ts) else Pn PTodo.

(** global_config.rs:11-23 *)
Record gconfig : Type := mkGc {
  gc_bits : N;
  gc_seed : N;
  gc_const : bool;
  gc_inter : list interaction
}.

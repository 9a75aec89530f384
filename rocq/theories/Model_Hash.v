(** Hashing and masking: /repo/reductionml-core/src/hash.rs,
    types.rs:397-437, utils.rs, parts of sparse_namespaced_features.rs,
    parsers.rs and inverse_hash_table.rs.
    Numbers are [N]; every u32 result is below 2^32 by explicit wrapping. *)
From Coq Require Import List NArith ZArith Bool.
From Verif Require Import Base.
Import ListNotations.
Open Scope N_scope.

Definition u32_mod : N := 4294967296.
Definition wrap32 (n : N) : N := n mod u32_mod.

(** A string is the list of its code points; [as_bytes] is taken as part of the
    hash argument below. *)
Definition str := list N.

(** hash.rs:2-5 [hash_bytes(key, seed)]: xxh3 from a third party crate.  It is a
    parameter of the model; results are u32, so the model wraps it. *)
Definition hasher := str -> N -> N.
Definition hash_bytes (H : hasher) (key : str) (seed : N) : N := wrap32 (H key seed).

(** hash.rs:63 *)
Definition FNV_PRIME : N := 16777619.

(** types.rs:414-417 [FeatureMask::from_num_bits]: [(1_u32 << num_bits) - 1].
    For num_bits >= 32 the shift overflows: a panic with overflow checks, else the
    shift amount is taken modulo 32. *)
Definition mask_from_bits (dbg : bool) (nb : N) : out N :=
  if nb <? 32 then Ok (2 ^ nb - 1)
  else if dbg then Pn POverflow else Ok (2 ^ (nb mod 32) - 1).

(** types.rs:419-421, 433-437 [FeatureMask::mask] *)
Definition mask (m h : N) : N := N.land h m.

(** utils.rs:4-6 [bits_to_max_feature_index]: [1_u32 << val]. *)
Definition bits_to_max_feature_index (dbg : bool) (nb : N) : out N :=
  if nb <? 32 then Ok (2 ^ nb)
  else if dbg then Pn POverflow else Ok (2 ^ (nb mod 32)).

(** sparse_namespaced_features.rs:262-269 *)
Definition constant_feature_index (dbg : bool) (nb : N) : out N :=
  let* m := bits_to_max_feature_index dbg nb in Ok (m / 2).

(** [(FNV_PRIME as u64).wrapping_mul(x as u64) as u32]: the product of two u32
    fits in 64 bits, then the low 32 bits are kept. *)
Definition fnv_mul (x : N) : N := wrap32 (FNV_PRIME * x).

(** sparse_namespaced_features.rs:250-253 *)
Definition quadratic_feature_hash (i1 i2 : N) : N := N.lxor (fnv_mul i1) i2.

(** sparse_namespaced_features.rs:256-260 *)
Definition cubic_feature_hash (i1 i2 i3 : N) : N :=
  N.lxor (fnv_mul (N.lxor (fnv_mul i1) i2)) i3.

(** parsers.rs:13-17 *)
Inductive parsed_feature : Type :=
| PFSimple (name : str)
| PFSimpleStr (name value : str)
| PFAnon (offset : N).

(** Unsigned 32-bit addition: panics on overflow with overflow checks, else wraps. *)
Definition add32 (dbg : bool) (a b : N) : out N :=
  if a + b <? u32_mod then Ok (a + b)
  else if dbg then Pn POverflow else Ok (wrap32 (a + b)).

(** parsers.rs:20-31 [ParsedFeature::hash] *)
Definition parsed_feature_hash (H : hasher) (dbg : bool) (pf : parsed_feature) (nsh : N) : out N :=
  match pf with
  | PFSimple name => Ok (hash_bytes H name nsh)
  | PFSimpleStr name value => Ok (hash_bytes H value (hash_bytes H name nsh))
  | PFAnon off => add32 dbg nsh off
  end.

(** inverse_hash_table.rs:9-31 [Feature] *)
Inductive feature : Type :=
| FtSimple (ns name : str)
| FtSimpleStr (ns name value : str)
| FtAnon (ns : str) (offset : N)
| FtInter (terms : list feature).

(** inverse_hash_table.rs:33-66 [Feature::hash].  [terms.first().unwrap()] panics
    on no terms; [terms[1..terms.len()-1]] panics on one term (start 1 > end 0).
    The middle terms each do [h = FNV * (h ^ t)], the last one [h ^ t]. *)
Fixpoint feature_hash (H : hasher) (dbg : bool) (ft : feature) (seed : N) : out N :=
  match ft with
  | FtSimple ns name => Ok (hash_bytes H name (hash_bytes H ns seed))
  | FtSimpleStr ns name value =>
      Ok (hash_bytes H value (hash_bytes H name (hash_bytes H ns seed)))
  | FtAnon ns off => add32 dbg (hash_bytes H ns seed) off
  | FtInter [] => Pn PNone
  | FtInter (t0 :: rest) =>
      let* v0 := feature_hash H dbg t0 seed in
      (fix go (h : N) (ts : list feature) : out N :=
         match ts with
         | [] => Pn PIndex
         | [t] => let* v := feature_hash H dbg t seed in Ok (N.lxor h v)
         | t :: r => let* v := feature_hash H dbg t seed in go (fnv_mul (N.lxor h v)) r
         end) (fnv_mul v0) rest
  end.

(** inverse_hash_table.rs:68-84 [Feature::from_parsed_feature] *)
Definition feature_of_parsed (pf : parsed_feature) (ns : str) : feature :=
  match pf with
  | PFSimple name => FtSimple ns name
  | PFSimpleStr name value => FtSimpleStr ns name value
  | PFAnon off => FtAnon ns off
  end.

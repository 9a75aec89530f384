(** C08: property theorem about interaction hashing. *)
From Coq Require Import List NArith ZArith Bool Lia.
From Verif Require Import Base Model_Hash Spec_Hash Proof_Hash.
Import ListNotations.
Open Scope N_scope.

(** C08.  For every hash function, build profile, mask and interaction of at least
    two terms whose single hashes are [hs]: the inverse table's hash of the
    interaction exists, and masked it equals the b-bit mixture [mix] of the single
    hashes, the same mixture of the masked single hashes, and, for two and three
    terms, the index the learner computes from masked indices. *)
Theorem C08_masking_early_or_late :
  forall (H : hasher) (dbg : bool) (nb mk seed : N) (terms : list feature) (hs : list N),
  mask_from_bits dbg nb = Ok mk ->
  (2 <= length terms)%nat ->
  mapm (fun t => feature_hash H dbg t seed) terms = Ok hs ->
  exists b h, mk = N.ones b /\ (nb < 32 -> b = nb) /\
    feature_hash H dbg (FtInter terms) seed = Ok h /\
    mask mk h = mix b hs /\
    mask mk h = mix b (map (mask mk) hs) /\
    (forall x y, hs = [x; y] ->
       mask mk h = mask mk (quadratic_feature_hash (mask mk x) (mask mk y))) /\
    (forall x y z, hs = [x; y; z] ->
       mask mk h = mask mk (cubic_feature_hash (mask mk x) (mask mk y) (mask mk z))).
Proof. exact hash_masking. Qed.
Print Assumptions C08_masking_early_or_late.

Example C08_satisfiable :
  exists hs, mapm (fun t => feature_hash (fun s n => 4000000000 + n + fold_left N.add s 0) true t 0)
    [FtSimple [97] [98]; FtAnon [99] 3; FtSimpleStr [97] [100] [101]] = Ok hs /\
    length hs = 3%nat /\ mask_from_bits true 18 = Ok 262143 /\ mask 262143 (nth 0 hs 0) <> nth 0 hs 0.
Proof. eexists. split; [reflexivity|]. split; [reflexivity|]. split; [reflexivity|discriminate]. Qed.

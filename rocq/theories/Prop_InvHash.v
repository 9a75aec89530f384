(** C45: property theorems about the inverse hash table. *)
From Coq Require Import List NArith Bool.
From Verif Require Import Base FloatOps FloatB32 Model_Hash Model_Features Model_Types Model_Text Model_InvHash Spec_Features Spec_Text Spec_InvHash
  Proof_TextChunk Proof_InvHash.
Import ListNotations.
Open Scope N_scope.

(** C45.  For chunks in the documented form in which every namespace name is followed by
    a space: extraction works, and for the last namespace of each name all features are
    in the table, each at the index the parser gives it (Spec_Text, C29). *)
Theorem C45_named : forall (O : FOps) (H : hasher) (pf : str -> option O) (dbg : bool) (seed nb : N) dn multi chunk ns t0,
  nb < 32 -> chunk_ns multi chunk ns -> Forall (tn_ok pf) ns -> Forall spaced ns -> (dbg = true -> Forall (inv_fits H seed dn) ns) ->
  exists names t, extract_feature_names pf dbg multi chunk = Ok names /\ inv_add_all H dbg seed nb dn names t0 = Ok t /\
    forall a n b name w, ns = a ++ n :: b -> tn_head n = Some (name, w) -> ~ In (Some name) (map tn_name b) ->
      Forall2 (fun iv f => exists s, inv_get (fst iv) t = Some s /\ In f s) (tn_content H pf seed nb n) (tn_features pf name n).
Proof. exact @named_ok. Qed.
Print Assumptions C45_named.

(** Besides what was there before, the table then holds exactly the features of the last
    namespace of each name. *)
Theorem C45_table : forall (O : FOps) (H : hasher) (pf : str -> option O) (dbg : bool) (seed nb : N) dn multi chunk ns t0,
  nb < 32 -> chunk_ns multi chunk ns -> Forall (tn_ok pf) ns -> Forall spaced ns -> (dbg = true -> Forall (inv_fits H seed dn) ns) ->
  exists names t, extract_feature_names pf dbg multi chunk = Ok names /\ inv_add_all H dbg seed nb dn names t0 = Ok t /\
    forall i f, inv_in i f t <-> inv_in i f t0 \/ exists a n b h, ns = a ++ n :: b /\ ~ In (tn_name n) (map tn_name b) /\
      In f (tn_features pf (name_of dn n) n) /\ feature_hash H dbg f seed = Ok h /\ i = h mod 2 ^ nb.
Proof. exact @table_ok. Qed.
Print Assumptions C45_table.

(** "|a x:2 :3 y:q| z" *)
Example C45_example : chunk_ns false (line_text [] ex_named) ex_named /\ Forall (tn_ok ex_pf) ex_named /\ Forall spaced ex_named /\
  Forall (inv_fits ex_h 0 [100]) ex_named /\
  tn_features ex_pf [97] (hd (mkTns None [] []) ex_named) = [FtSimple [97] [120]; FtAnon [97] 0; FtSimpleStr [97] [121] [113]].
Proof. exact ex_named_ok. Qed.

(** Without these conditions it is false.  "|a x|a y": x is parsed but not in the table. *)
Theorem C45_repeated_refuted : forall (O : FOps) (H : hasher) (pf : str -> option O) (seed nb : N) dn, nb < 32 -> exists d names t s,
  parse_chunk H pf false seed nb FTSimple LTSimple [] c_twice = Ok (FtsSimple d, None) /\
  sf_get (NsNamed (h32 H [97] seed)) d = Some s /\
  sfn_idx s = [h32 H [120] (h32 H [97] seed) mod 2 ^ nb; h32 H [121] (h32 H [97] seed) mod 2 ^ nb] /\
  extract_feature_names pf false false c_twice = Ok names /\ inv_add_all H false seed nb dn names inv_new = Ok t /\
  forall i, ~ inv_in i (FtSimple [97] [120]) t.
Proof. exact @repeated_lost. Qed.
Print Assumptions C45_repeated_refuted.

(** Two actions with the same namespace: only the features of the last one are there. *)
Theorem C45_actions_refuted : forall (O : FOps) (H : hasher) (pf : str -> option O) (seed nb : N) dn, nb < 32 -> exists d names t,
  parse_chunk H pf false seed nb FTCb LTCb [] c_actions = Ok (d, None) /\
  extract_feature_names pf false true c_actions = Ok names /\ inv_add_all H false seed nb dn names inv_new = Ok t /\
  forall i, ~ inv_in i (FtSimple [97] [120]) t.
Proof. exact @actions_lost. Qed.
Print Assumptions C45_actions_refuted.

(** "| x": the table has nothing at the index of x, unless the hash of [dn] happens to
    lead to the index that the parser gets with 0. *)
Theorem C45_default_refuted : forall (O : FOps) (H : hasher) (pf : str -> option O) (seed nb : N) dn,
  nb < 32 -> h32 H [120] 0 mod 2 ^ nb <> h32 H [120] (h32 H dn seed) mod 2 ^ nb ->
  exists d s names t, parse_chunk H pf false seed nb FTSimple LTSimple [] c_default = Ok (FtsSimple d, None) /\
  sf_get NsDefault d = Some s /\ sfn_idx s = [h32 H [120] 0 mod 2 ^ nb] /\
  extract_feature_names pf false false c_default = Ok names /\ inv_add_all H false seed nb dn names inv_new = Ok t /\
  inv_get (h32 H [120] 0 mod 2 ^ nb) t = None.
Proof. exact @default_lost. Qed.
Print Assumptions C45_default_refuted.

Example C45_default_example : h32 ex_h [120] 0 mod 2 ^ 18 <> h32 ex_h [120] (h32 ex_h [100] 0) mod 2 ^ 18.
Proof. vm_compute. discriminate. Qed.

(** "|a": can be parsed, but extraction panics. *)
Theorem C45_alone_refuted : forall (O : FOps) (H : hasher) (pf : str -> option O) (seed nb : N), nb < 32 -> exists d,
  parse_chunk H pf false seed nb FTSimple LTSimple [] c_alone = Ok (FtsSimple d, None) /\
  extract_feature_names pf false false c_alone = Pn PNone.
Proof. exact @alone_panics. Qed.
Print Assumptions C45_alone_refuted.

(** "|a<tab>x y": parsed as the features x and y of a, extracted as the feature y of the
    namespace "a<tab>x". *)
Theorem C45_tab_refuted : forall (O : FOps) (H : hasher) (pf : str -> option O) (seed nb : N), nb < 32 -> exists d s,
  parse_chunk H pf false seed nb FTSimple LTSimple [] c_tab = Ok (FtsSimple d, None) /\
  sf_get (NsNamed (h32 H [97] seed)) d = Some s /\ length (sfn_idx s) = 2%nat /\
  extract_feature_names pf false false c_tab = Ok [(Some [97; 9; 120], [PFSimple [121]])].
Proof. exact @tab_wrong. Qed.
Print Assumptions C45_tab_refuted.

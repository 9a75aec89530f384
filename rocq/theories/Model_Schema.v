(** The JSON schema of configuration files: /repo/reductionml-core/src/config_schema.rs and
    /repo/reductionml-cli/src/gen_schema.rs.
    - [schema_for!] is a derive macro of the crate schemars; the schemas it makes of the
      structs are written down here as they stand in /repo/schemas/config/latest/schema.json
      (made by this command, justfile: update-schema).
    - The definitions are a [BTreeMap]; here a list in which the first entry counts. *)
From Coq Require Import List NArith Bool String.
From Verif Require Import Base FloatOps Model_Hash Model_Features Model_Types Model_Text Model_Json Model_Config Spec_Schema.
Import ListNotations.
Open Scope list_scope.

(** a [RootSchema] *)
Definition root : Type := (schema * sdefs)%type.
(** a [ReductionFactory]: [typename] and [get_config_schema] (reduction_factory.rs:149-150) *)
Record factory : Type := mkFactory { fa_name : str; fa_schema : schema; fa_defs : sdefs }.

Definition s_any : str := lit "any_reduction_config".
Definition sref (n : str) : schema := SObj [KRef n].
Definition no_more : option schema := Some (SBool false).
(** config_schema.rs:103-109 [gen_json_reduction_config_schema] *)
Definition any_ref : schema := sref s_any.
(** a field of this schema with a default *)
Definition sfield (n : str) : schema := SObj [KAllOf [sref n]].

(** schema_for!(Configuration), schema.json:1-20, 418-449, 500-521; workspace.rs:27-37,
    global_config.rs:8-30, interactions.rs:6-10 *)
Definition configuration_props : sdefs :=
  [(lit "entryReduction", any_ref); (lit "globalConfig", sref (lit "GlobalConfig"))].
Definition configuration_required : list str := [lit "entryReduction"; lit "globalConfig"].
Definition sbool : schema := SObj [KType TBoolean].
Definition snum : schema := SObj [KType TNumber].
Definition suint : schema := SObj [KType TInteger; KMinimum0].
Definition sstring : schema := SObj [KType TString].
Definition global_schema : schema :=
  SObj [KType TObject; KProperties
    [(lit "constantFeatureEnabled", sbool); (lit "hashSeed", suint);
     (lit "interactions", SObj [KType TArray; KItems (SObj [KType TArray; KItems (sref (lit "NamespaceDef"))])]);
     (lit "numBits", suint)] no_more].
Definition nsdef_schema : schema :=
  SObj [KOneOf [SObj [KType TString; KEnum [lit "Default"]];
                SObj [KType TObject; KRequired [lit "Name"]; KProperties [(lit "Name", sstring)] no_more]]].
Definition nsdef_defs : sdefs := [(lit "NamespaceDef", nsdef_schema)].

(** config_schema.rs:19-43 [new] *)
Definition schema_new : root :=
  (SObj [KType TObject; KRequired configuration_required;
         KProperties ((lit "$schema", SObj [KPattern (lit ".*")]) :: configuration_props) no_more],
   (s_any, SObj [KOneOf []]) :: (lit "GlobalConfig", global_schema) :: nsdef_defs).

(** config_schema.rs:49-72 *)
Definition reduction_schema (f : factory) : schema :=
  SObj [KProperties [(lit "config", fa_schema f); (lit "typename", SObj [KConst (fa_name f)])] no_more].
(** config_schema.rs:74-97: the list under "oneOf", which [new] puts there *)
Definition push_ref (name : str) (s : option schema) : out schema :=
  match s with
  | Some (SObj [KOneOf l]) => Ok (SObj [KOneOf (l ++ [sref name])])
  | _ => Pn PErr
  end.
(** config_schema.rs:48-102 [add_reduction] *)
Definition add_reduction (r : root) (f : factory) : out root :=
  let defs := (fa_name f, reduction_schema f) :: snd r in
  let* s := push_ref (fa_name f) (sget s_any defs) in
  Ok (fst r, fa_defs f ++ (s_any, s) :: defs).
(** gen_schema.rs:14-20 [build_json_schema], for any registry *)
Fixpoint add_reductions (r : root) (l : list factory) : out root :=
  match l with [] => Ok r | f :: l => let* r := add_reduction r f in add_reductions r l end.
Definition build_schema (l : list factory) : out root := add_reductions schema_new l.

(** *** the schemas of the configuration structs *)
Definition config_schema_of (ps : sdefs) : schema := SObj [KType TObject; KProperties ps no_more].
(** schema.json:22-56 *)
Definition f_binary : factory := mkFactory (lit "Binary") (config_schema_of [(lit "regressor", sfield s_any)]) [].
(** schema.json:57-106 *)
Definition f_cb_adf : factory := mkFactory (lit "CbAdf")
  (config_schema_of [(lit "cbType", sfield (lit "CBType")); (lit "regressor", sfield s_any)])
  [(lit "CBType", SObj [KType TString; KEnum [lit "ips"; lit "mtr"]])].
(** schema.json:107-152 *)
Definition f_greedy : factory := mkFactory (lit "CbExploreAdfGreedy")
  (config_schema_of [(lit "cbAdf", sfield s_any); (lit "epsilon", snum)]) [].
(** schema.json:153-203 *)
Definition f_softmax : factory := mkFactory (lit "CbExploreAdfSoftmax")
  (config_schema_of [(lit "cbAdf", sfield s_any); (lit "lambda", snum); (lit "uniformEpsilon", snum)]) [].
(** schema.json:204-259 *)
Definition f_squarecb : factory := mkFactory (lit "CbExploreAdfSquareCb")
  (config_schema_of [(lit "cbAdf", sfield s_any); (lit "gammaExponent", snum); (lit "gammaScale", snum); (lit "uniformEpsilon", snum)]) [].
(** schema.json:260-312, 450-499, 522-524 *)
Definition logistic_schema : schema := SObj [KType TObject; KProperties [(lit "max_label", snum); (lit "min_label", snum)] None].
Definition one_variant (name : str) (s : schema) : schema := SObj [KType TObject; KRequired [name]; KProperties [(name, s)] no_more].
Definition f_coin : factory := mkFactory (lit "Coin")
  (config_schema_of [(lit "alpha", snum); (lit "beta", snum); (lit "l1Lambda", snum); (lit "l2Lambda", snum);
                     (lit "linkFunction", sfield (lit "LinkFunction")); (lit "lossFunction", sfield (lit "LossFunction"))])
  [(lit "LinkFunction", SObj [KType TString; KEnum [lit "Identity"; lit "Logistic"]]);
   (lit "LogisticLoss", logistic_schema);
   (lit "LossFunction", SObj [KOneOf [one_variant (lit "Squared") (sref (lit "SquaredLoss")); one_variant (lit "Logistic") (sref (lit "LogisticLoss"))]]);
   (lit "SquaredLoss", SObj [KType TObject])].
(** schema.json:313-360 *)
Definition f_debug : factory := mkFactory (lit "Debug")
  (config_schema_of [(lit "features", sbool); (lit "id", sstring); (lit "indent", suint); (lit "label", sbool);
                     (lit "next", sfield s_any); (lit "prediction", sbool)]) [].
(** schema.json:361-417 *)
Definition f_elem : factory := mkFactory (lit "ElementwiseInteraction")
  (config_schema_of [(lit "keepOriginalFeatures", sbool); (lit "one", sfield (lit "NamespaceDef"));
                     (lit "regressor", sfield s_any); (lit "two", sfield (lit "NamespaceDef"))]) nsdef_defs.

(** reduction_registry.rs:17-28, 46-48: in the order of the map *)
Definition factories : list factory := [f_binary; f_cb_adf; f_greedy; f_softmax; f_squarecb; f_coin; f_debug; f_elem].
(** the schema the command prints *)
Definition published : root :=
  match build_schema factories with Ok r => r | _ => schema_new end.

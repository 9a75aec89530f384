(** Property theorems: the published JSON schema against the loader (C65). *)
From Coq Require Import List NArith Bool String.
From Verif Require Import Base FloatOps FloatR Model_Hash Model_Features Model_Weights Model_Loss Model_Interactions
  Model_Types Model_Coin Model_Stack Model_Factory Model_Text Model_Json Model_Config Model_Schema
  Spec_Config Spec_Schema Proof_SchemaEnd.
Import ListNotations.
Open Scope N_scope.
Open Scope string_scope.

(** C65.  A file that is valid under the schema and written with care is understood: all its
    reductions are known and all options parse, so only creating the stack can fail. *)
Theorem C65_valid_loads : forall (O : FOps) (isint nonneg : jnum O -> bool) rx H dbg (v : json O),
  valid isint nonneg rx (snd published) (fst published) v -> careful v ->
  exists gc c, complete c /\ load H dbg v = (let* r := ws_new H dbg gc c in Ok (gc, r)).
Proof. exact @schema_sound. Qed.
Print Assumptions C65_valid_loads.

(** C65.  A file the loader does not refuse, written in the usual way, is valid. *)
Theorem C65_loaded_valid : forall (O : FOps) (isint nonneg : jnum O -> bool) rx,
  (forall n k, jn_u64 n = Some k -> isint n = true /\ nonneg n = true) -> (forall s, rx (lit ".*") s = true) ->
  forall H dbg (v : json O), plain v -> (forall e, load H dbg v <> Er e) -> valid isint nonneg rx (snd published) (fst published) v.
Proof. exact @schema_done. Qed.
Print Assumptions C65_loaded_valid.

Example C65_loads_example : forall rx, (forall s, rx (lit ".*") s = true) ->
  valid (O:=RF) (fun _ => true) (fun _ => true) rx (snd published) (fst published) ex_doc /\ careful (O:=RF) ex_doc /\
  plain (O:=RF) ex_doc /\ forall H dbg, is_ok (load (O:=RF) H dbg ex_doc) = true.
Proof.
  intros rx HR. split; [now apply ex_valid|]. split; [exact ex_careful|]. split; [exact ex_plain|exact ex_loads].
Qed.

(** C65.  For any set of reductions with different names, none of which is the name of a
    definition that another brings along: the schema is built, and it accepts an object with
    a type name exactly if a reduction of this name is registered and its own schema
    accepts the options. *)
Theorem C65_registry : forall (O : FOps) (isint nonneg : jnum O -> bool) rx fs,
  NoDup (map fa_name fs) -> ~ In (lit "any_reduction_config") (map fa_name fs) ->
  (forall f k, In f fs -> In k (map fst (fa_defs f)) -> k <> lit "any_reduction_config" /\ ~ In k (map fa_name fs)) ->
  exists top defs, build_schema fs = Ok (top, defs) /\
    forall (o : list (str * json O)) t, NoDup (map fst o) -> In (lit "typename", JStr t) o ->
      (valid isint nonneg rx defs (sref (lit "any_reduction_config")) (JObj o) <->
       exists f, In f fs /\ fa_name f = t /\
         forall k x, In (k, x) o -> k = lit "typename" \/ (k = lit "config" /\ valid isint nonneg rx defs (fa_schema f) x)).
Proof. exact @schema_registry. Qed.
Print Assumptions C65_registry.

(** C65.  It does not hold if a reduction brings along a definition with the name of
    another one: the definition replaces the reduction. *)
Theorem C65_registry_clash_refuted : forall (O : FOps) (isint nonneg : jnum O -> bool) rx,
  NoDup (map fa_name [f_coin; f_clash]) /\
  exists top defs, build_schema [f_coin; f_clash] = Ok (top, defs) /\
    valid isint nonneg rx defs (reduction_schema f_coin) (just "Coin") /\
    invalid isint nonneg rx defs (sref (lit "any_reduction_config")) (just "Coin").
Proof. exact clash. Qed.
Print Assumptions C65_registry_clash_refuted.

Example C65_registry_example : NoDup (map fa_name factories) /\ ~ In (lit "any_reduction_config") (map fa_name factories) /\
  (forall f k, In f factories -> In k (map fst (fa_defs f)) -> k <> lit "any_reduction_config" /\ ~ In k (map fa_name factories)).
Proof. exact factories_distinct. Qed.

(** C65.  "Every valid file is understood" does not hold.  Without a type name: *)
Theorem C65_no_typename_refuted : forall (O : FOps) (isint nonneg : jnum O -> bool) rx H dbg,
  let v := JObj [(lit "globalConfig", JObj []); (lit "entryReduction", JObj [(lit "config", JObj [(lit "alpha", num f1)])])] in
  valid isint nonneg rx (snd published) (fst published) v /\ load H dbg v = Er EInvalidConfiguration.
Proof. exact @no_name. Qed.
Print Assumptions C65_no_typename_refuted.

(** C65.  Debug without a reduction below it: *)
Theorem C65_debug_alone_refuted : forall (O : FOps) (isint nonneg : jnum O -> bool) rx H dbg,
  let v := JObj [(lit "globalConfig", JObj []); (lit "entryReduction", just "Debug")] in
  valid isint nonneg rx (snd published) (fst published) v /\ load H dbg v = Er EInvalidArgument.
Proof. exact @no_next. Qed.
Print Assumptions C65_debug_alone_refuted.

(** C65.  A number for the address of the schema: *)
Theorem C65_schema_number_refuted : forall (O : FOps) (isint nonneg : jnum O -> bool) rx H dbg n,
  let v := JObj [(lit "$schema", JNum n); (lit "globalConfig", JObj []); (lit "entryReduction", just "Coin")] in
  valid isint nonneg rx (snd published) (fst published) v /\ load H dbg v = Er EInvalidConfiguration.
Proof. exact @odd_schema. Qed.
Print Assumptions C65_schema_number_refuted.

(** C65.  A number of bits that is no u8: *)
Theorem C65_many_bits_refuted : forall (O : FOps) (isint nonneg : jnum O -> bool) rx H dbg,
  isint (mkNum (f_of_N 256) (f_of_N 256) (Some 256)) = true -> nonneg (mkNum (f_of_N 256) (f_of_N 256) (Some 256)) = true ->
  let v := JObj [(lit "globalConfig", JObj [(lit "numBits", int 256)]); (lit "entryReduction", just "Coin")] in
  valid isint nonneg rx (snd published) (fst published) v /\ load H dbg v = Er EInvalidConfiguration.
Proof. exact @many_bits. Qed.
Print Assumptions C65_many_bits_refuted.

(** C65.  "Every accepted file is valid" does not hold.  With null for the options, with
    another key beside the type name, with a list for the reduction, the loader gives the
    workspace of [{"typename": "Coin"}]: *)
Theorem C65_null_refuted : forall (O : FOps) (isint nonneg : jnum O -> bool) rx H dbg,
  let v := JObj [(lit "globalConfig", JObj []); (lit "entryReduction", JObj [(lit "typename", text "Coin"); (lit "config", JNull)])] in
  invalid isint nonneg rx (snd published) (fst published) v /\ load H dbg v = load H dbg (minimal "Coin").
Proof. exact @with_null. Qed.
Print Assumptions C65_null_refuted.
Theorem C65_beside_refuted : forall (O : FOps) (isint nonneg : jnum O -> bool) rx H dbg x,
  let v := JObj [(lit "globalConfig", JObj []); (lit "entryReduction", JObj [(lit "typename", text "Coin"); (lit "comment", x)])] in
  invalid isint nonneg rx (snd published) (fst published) v /\ load H dbg v = load H dbg (minimal "Coin").
Proof. exact @with_more. Qed.
Print Assumptions C65_beside_refuted.
Theorem C65_list_refuted : forall (O : FOps) (isint nonneg : jnum O -> bool) rx H dbg,
  let v := JObj [(lit "globalConfig", JObj []); (lit "entryReduction", JArr [text "Coin"; JNull])] in
  invalid isint nonneg rx (snd published) (fst published) v /\ load H dbg v = load H dbg (minimal "Coin").
Proof. exact @as_list. Qed.
Print Assumptions C65_list_refuted.
Example C65_accepted : forall H dbg, is_ok (load (O:=RF) H dbg (minimal "Coin")) = true.
Proof. exact minimal_ok. Qed.

(** C65.  What [config new] writes is valid, for every reduction but Debug. *)
Theorem C65_new_valid : forall (O : FOps) (isint nonneg : jnum O -> bool) rx,
  (forall n k, jn_u64 n = Some k -> isint n = true /\ nonneg n = true) -> (forall s, rx (lit ".*") s = true) ->
  forall url ty ds, In (ty, ds) (doc (O:=O)) -> ty <> "Debug" ->
  exists v, config_new (O:=O) url (lit ty) = Some v /\ valid isint nonneg rx (snd published) (fst published) v.
Proof. exact @new_valid. Qed.
Print Assumptions C65_new_valid.
Theorem C65_new_debug_refuted : forall (O : FOps) (isint nonneg : jnum O -> bool) rx,
  (forall n k, jn_u64 n = Some k -> isint n = true /\ nonneg n = true) -> (forall s, rx (lit ".*") s = true) ->
  forall url, exists v, config_new (O:=O) url (lit "Debug") = Some v /\ invalid isint nonneg rx (snd published) (fst published) v.
Proof. exact @new_debug. Qed.
Print Assumptions C65_new_debug_refuted.

Example C65_new_example : exists ds, In ("CbExploreAdfGreedy", ds) (doc (O:=RF)).
Proof. eexists. cbn. do 3 right. left. reflexivity. Qed.

(** Property theorems: configuration files (C52 to C55). *)
From Coq Require Import List NArith Bool String.
From Verif Require Import Base FloatOps FloatR FloatB32 Model_Hash Model_Features Model_Weights Model_Loss Model_Interactions
  Model_Types Model_Explore Model_Coin Model_Stack Model_Factory Model_Text Model_Json Model_Config
  Spec_Types Spec_Config Proof_Config.
Import ListNotations.
Open Scope N_scope.
Open Scope string_scope.

(** C52.  Writing the default of an option that was left out, at any depth and in the global
    settings, changes nothing: the same workspace, or the same error. *)
Theorem C52_defaults : forall (O : FOps) H dbg (v w : json O), spelled_out v w -> load H dbg v = load H dbg w.
Proof. exact @spelled_load. Qed.
Print Assumptions C52_defaults.

(** C52.  A configuration written out gives the workspace of exactly these settings. *)
Theorem C52_written : forall (O : FOps) H dbg g (c : rcfg O), gc_bits g < 256 -> gc_seed g < 2 ^ 32 -> complete c ->
  load H dbg (show_file g c) = (let* r := ws_new H dbg g c in Ok (g, r)).
Proof. exact @show_load. Qed.
Print Assumptions C52_written.

Example C52_defaults_example : spelled_out (O:=RF) ex_short ex_long.
Proof. exact ex_spelled. Qed.
Example C52_written_example : complete (O:=RF) ex_full /\ wt (ex_full (O:=RF)) LTCb FTCb PTProbs.
Proof. split; [exact Logic.I|]. repeat (constructor; try exact Logic.I). Qed.

(** C53.  A file with a key among the options of a reduction, at any depth, among the
    global settings, or at the top, that is none, is refused. *)
Theorem C53_refused : forall (O : FOps) H dbg (v : json O), misspelled_file v -> exists e, load H dbg v = Er e.
Proof. exact @misspelled_refused. Qed.
Print Assumptions C53_refused.

Example C53_refused_example : misspelled_file (O:=RF) ex_typo.
Proof. exact ex_misspelled. Qed.

(** C53.  It does not hold for a key beside [typename]: with "Config" for "config" the
    settings are not used, and nothing is reported. *)
Theorem C53_beside_refuted : forall (O : FOps) H dbg,
  let v := JObj [(lit "globalConfig", JObj []);
                 (lit "entryReduction", JObj [(lit "typename", text "Coin"); (lit "Config", JObj [(lit "alpha", num f1)])])] in
  is_ok (load (O:=O) H dbg v) = true /\ load (O:=O) H dbg v = load H dbg (minimal "Coin").
Proof. exact @ignored_beside. Qed.
Print Assumptions C53_beside_refuted.

(** C53.  Nor for the range of the logistic loss: "minLabel" and "maxLabel" (the names are
    min_label and max_label) are ignored. *)
Theorem C53_loss_refuted : forall (O : FOps) H dbg,
  let file := fun o => JObj [(lit "globalConfig", JObj []);
    (lit "entryReduction", red_obj "Coin" [(lit "lossFunction", JObj [(lit "Logistic", JObj o)])])] in
  is_ok (load (O:=O) H dbg (file [(lit "minLabel", num f0); (lit "maxLabel", num f1)])) = true /\
  load (O:=O) H dbg (file [(lit "minLabel", num f0); (lit "maxLabel", num f1)]) = load H dbg (file []).
Proof. exact @ignored_loss. Qed.
Print Assumptions C53_loss_refuted.

(** C54.  [config new] of every reduction but Debug gives a file [config check] accepts, and
    it means the same as naming the reduction and nothing else. *)
Theorem C54_new : forall (O : FOps) H dbg url ty ds, In (ty, ds) (doc (O:=O)) -> ty <> "Debug" ->
  exists v, config_new (O:=O) url (lit ty) = Some v /\ config_check H dbg v = true /\ load H dbg v = load H dbg (minimal ty).
Proof. exact @config_new_ok. Qed.
Print Assumptions C54_new.

(** C54.  There are no others. *)
Theorem C54_unknown : forall (O : FOps) url name, (forall ty ds, In (ty, ds) (doc (O:=O)) -> name <> lit ty) ->
  config_new (O:=O) url name = None.
Proof. exact @config_new_unknown. Qed.
Print Assumptions C54_unknown.

(** C54.  It does not hold for Debug: the file given for it is refused. *)
Theorem C54_debug_refuted : forall (O : FOps) H dbg url,
  exists v, config_new (O:=O) url (lit "Debug") = Some v /\ load H dbg v = Er EInvalidArgument.
Proof. exact @config_new_debug. Qed.
Print Assumptions C54_debug_refuted.

Example C54_example : exists ds, In ("CbExploreAdfSquareCb", ds) (doc (O:=RF)).
Proof. eexists. cbn. do 5 right. left. reflexivity. Qed.

(** C55.  Loading any file does not panic if the global settings, written as an object, ask
    for less than 32 bits and for interactions of two or three namespaces. *)
Theorem C55_no_panic : forall (O : FOps) H dbg (l o : list (str * json O)), has l "globalConfig" (JObj o) -> supported o ->
  is_pn (load H dbg (JObj l)) = false.
Proof. exact @load_no_panic. Qed.
Print Assumptions C55_no_panic.

(** C55.  Otherwise it does, for every configuration that is accepted with other global
    settings (32 bits and more: with overflow checks). *)
Theorem C55_always_refuted : forall (O : FOps) H dbg g (c : rcfg O) l f p, wt c l f p -> gc_bits g < 256 -> gc_seed g < 2 ^ 32 ->
  (dbg = true /\ 32 <= gc_bits g) \/ (exists i, In i (gc_inter g) /\ List.length i <> 2%nat /\ List.length i <> 3%nat) ->
  is_pn (load H dbg (show_file g c)) = true.
Proof. exact @load_panics. Qed.
Print Assumptions C55_always_refuted.

Example C55_no_panic_example : supported (O:=RF) [(lit "numBits", int 20);
  (lit "interactions", JArr [JArr [text "Default"; JObj [(lit "Name", text "a")]]])].
Proof. exact ex_supported. Qed.
Example C55_always_refuted_example : wt (ex_full (O:=RF)) LTCb FTCb PTProbs /\
  exists i, In i (gc_inter (mkGc 18 0 true [[NDDefault]])) /\ List.length i <> 2%nat /\ List.length i <> 3%nat.
Proof.
  split; [repeat (constructor; try exact Logic.I)|]. exists [NDDefault]. repeat split; try discriminate. left. reflexivity.
Qed.

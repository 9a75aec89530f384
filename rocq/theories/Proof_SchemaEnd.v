(** The published schema against the loader, at the level of files (C65). *)
From Coq Require Import List NArith Bool String Lia PeanoNat.
From Verif Require Import Base FloatOps Model_Hash Model_Features Model_Weights Model_Loss Model_Interactions Model_Types Model_Coin
  Model_Stack Model_Factory Model_Text Model_Json Model_Config Spec_Config Spec_Schema Model_Schema Proof_TextParse Proof_Config
  Proof_Schema Proof_SchemaLeaf Proof_SchemaLoad Proof_SchemaDone.
Import ListNotations.
Open Scope list_scope.
Open Scope N_scope.

Section End_.
Context {O : FOps} (isint nonneg : jnum O -> bool) (rx : str -> str -> bool).
Local Notation json := (json O).
Local Notation V := (valid isint nonneg rx (snd published) (fst published)).
Local Notation NV := (invalid isint nonneg rx (snd published) (fst published)).

Lemma schema_sound : forall H dbg (v : json), V v -> careful v ->
  exists gc c, complete c /\ load H dbg v = (let* r := ws_new H dbg gc c in Ok (gc, r)).
Proof.
  intros H dbg v Q C. destruct (file_sound isint nonneg rx v Q C) as (gc & j & E & K). exists gc, (parse_jrc j). split; auto.
  unfold load. now rewrite E.
Qed.
Lemma complete_or_bad : forall c : rcfg O, complete c \/ bad c.
Proof. induction c; cbn; auto. Qed.
Lemma schema_done : (forall n k, jn_u64 n = Some k -> isint n = true /\ nonneg n = true) -> (forall s, rx (lit ".*") s = true) ->
  forall H dbg (v : json), plain v -> (forall e, load H dbg v <> Er e) -> V v.
Proof.
  intros HI HR H dbg v P Q. unfold load in Q. destruct (de_configuration v) as [[gc j]|] eqn:E; [|now destruct (Q EInvalidConfiguration)].
  eapply file_done; eauto. destruct (complete_or_bad (parse_jrc j)) as [K|B]; auto.
  destruct (bad_create H dbg gc _ 1 B) as (e & Ec). destruct (Q e). unfold ws_new. now rewrite Ec.
Qed.

(** any registry *)
Lemma schema_registry : forall fs,
  NoDup (map fa_name fs) -> ~ In (lit "any_reduction_config") (map fa_name fs) ->
  (forall f k, In f fs -> In k (map fst (fa_defs f)) -> k <> lit "any_reduction_config" /\ ~ In k (map fa_name fs)) ->
  exists top defs, build_schema fs = Ok (top, defs) /\
    forall (o : list (str * json)) t, NoDup (map fst o) -> In (lit "typename", JStr t) o ->
      (valid isint nonneg rx defs (sref (lit "any_reduction_config")) (JObj o) <->
       exists f, In f fs /\ fa_name f = t /\
         forall k x, In (k, x) o -> k = lit "typename" \/ (k = lit "config" /\ valid isint nonneg rx defs (fa_schema f) x)).
Proof.
  intros fs D1 D2 D3. destruct (build_registered fs (conj D1 (conj D2 D3))) as (defs & E & R). exists (fst schema_new), defs. split; auto.
  intros o t N T. exact (V_any_named isint nonneg rx defs fs D1 R o t N T).
Qed.

(** valid, but refused *)
Local Notation file s := (JObj [(lit "globalConfig", JObj []); (lit "entryReduction", s)]).
Ltac ok := exists 30%nat; vm_compute; reflexivity.
Lemma no_name : forall H dbg, let v := file (JObj [(lit "config", JObj [(lit "alpha", num f1)])]) in V v /\ load H dbg v = Er EInvalidConfiguration.
Proof. intros H dbg v. split; [ok|reflexivity]. Qed.
Lemma no_next : forall H dbg, let v := file (just "Debug") in V v /\ load H dbg v = Er EInvalidArgument.
Proof. intros H dbg v. split; [ok|reflexivity]. Qed.
Lemma odd_schema : forall H dbg n, let v := JObj [(lit "$schema", JNum n); (lit "globalConfig", JObj []); (lit "entryReduction", just "Coin")] in
  V v /\ load H dbg v = Er EInvalidConfiguration.
Proof. intros H dbg n v. split; [ok|reflexivity]. Qed.
Lemma many_bits : forall H dbg, isint (mkNum (f_of_N 256) (f_of_N 256) (Some 256)) = true -> nonneg (mkNum (f_of_N 256) (f_of_N 256) (Some 256)) = true ->
  let v := JObj [(lit "globalConfig", JObj [(lit "numBits", int 256)]); (lit "entryReduction", just "Coin")] in
  V v /\ load H dbg v = Er EInvalidConfiguration.
Proof.
  intros H dbg I N v. split; [|reflexivity]. unfold v, int. set (n := mkNum _ _ _) in *. clearbody n. exists 30%nat. vm_compute. now rewrite I, N.
Qed.

(** accepted, but not valid *)
Lemma with_null : forall H dbg, let v := file (JObj [(lit "typename", text "Coin"); (lit "config", JNull)]) in NV v /\ load H dbg v = load H dbg (minimal "Coin").
Proof. intros H dbg v. split; [ok|reflexivity]. Qed.
Lemma with_more : forall H dbg x, let v := file (JObj [(lit "typename", text "Coin"); (lit "comment", x)]) in NV v /\ load H dbg v = load H dbg (minimal "Coin").
Proof. intros H dbg x v. split; [ok|reflexivity]. Qed.
Lemma as_list : forall H dbg, let v := file (JArr [text "Coin"; JNull]) in NV v /\ load H dbg v = load H dbg (minimal "Coin").
Proof. intros H dbg v. split; [ok|reflexivity]. Qed.
Lemma minimal_ok : forall H dbg, is_ok (load (O:=O) H dbg (minimal "Coin")) = true.
Proof.
  intros H dbg. destruct (config_new_ok (O:=O) H dbg [] "Coin" _ (or_introl eq_refl)) as (w & _ & C & E); [discriminate|]. now rewrite <- E.
Qed.

(** [config new] *)
Lemma new_valid : (forall n k, jn_u64 n = Some k -> isint n = true /\ nonneg n = true) -> (forall s, rx (lit ".*") s = true) ->
  forall url ty ds, In (ty, ds) (doc (O:=O)) -> ty <> "Debug"%string -> exists v, config_new (O:=O) url (lit ty) = Some v /\ V v.
Proof.
  intros HI HR url ty ds I N. specialize (HR url). destruct (HI (mkNum (f_of_N 18) (f_of_N 18) (Some 18)) 18 eq_refl) as (I1 & N1).
  destruct (HI (mkNum (f_of_N 0) (f_of_N 0) (Some 0)) 0 eq_refl) as (I2 & N2). cbn in I.
  repeat (destruct I as [I|I]; [injection I as <- <-; try contradiction; eexists; (split; [reflexivity|]);
    unfold global_json, juint; generalize dependent (mkNum (f_of_N (O:=O) 18) (f_of_N 18) (Some 18));
    generalize dependent (mkNum (f_of_N (O:=O) 0) (f_of_N 0) (Some 0)); intros n0 I0 N0 n1 I1 N1; exists 40%nat;
    vm_compute; vm_compute in HR; now rewrite I0, N0, I1, N1, HR|]). destruct I.
Qed.
Lemma new_debug : (forall n k, jn_u64 n = Some k -> isint n = true /\ nonneg n = true) -> (forall s, rx (lit ".*") s = true) ->
  forall url, exists v, config_new (O:=O) url (lit "Debug") = Some v /\ NV v.
Proof.
  intros HI HR url. specialize (HR url). destruct (HI (mkNum (f_of_N 18) (f_of_N 18) (Some 18)) 18 eq_refl) as (I1 & N1).
  destruct (HI (mkNum (f_of_N 0) (f_of_N 0) (Some 0)) 0 eq_refl) as (I2 & N2).
  eexists. split; [reflexivity|]. 
    unfold global_json, config_default, juint; generalize dependent (mkNum (f_of_N (O:=O) 18) (f_of_N 18) (Some 18));
    generalize dependent (mkNum (f_of_N (O:=O) 0) (f_of_N 0) (Some 0)). intros n0 I0 N0 n1 I1 N1. exists 40%nat.
    vm_compute; vm_compute in HR. now rewrite I0, N0, I1, N1, HR.
Qed.
End End_.

(** a definition with the name of a reduction *)
Definition f_clash : factory := mkFactory (lit "Other") (config_schema_of []) [(lit "Coin", SObj [KType TString])].
Lemma clash : forall (O : FOps) (isint nonneg : jnum O -> bool) rx,
  NoDup (map fa_name [f_coin; f_clash]) /\
  exists top defs, build_schema [f_coin; f_clash] = Ok (top, defs) /\
    valid isint nonneg rx defs (reduction_schema f_coin) (just "Coin") /\
    invalid isint nonneg rx defs (sref (lit "any_reduction_config")) (just "Coin").
Proof.
  intros. split; [repeat constructor; cbn; intuition discriminate|]. do 2 eexists. split; [reflexivity|].
  split; exists 20%nat; vm_compute; reflexivity.
Qed.

(** *** examples *)
Section Examples.
Context {O : FOps}.
Definition ex_doc : json O :=
  JObj [(lit "$schema", text "schema.json");
        (lit "globalConfig", JObj [(lit "numBits", int 20); (lit "interactions", JArr [JArr [JObj [(lit "Name", text "User")]; text "Default"]])]);
        (lit "entryReduction", JObj [(lit "typename", text "Debug"); (lit "config", JObj [(lit "id", text "top"); (lit "indent", int 2);
          (lit "next", JObj [(lit "typename", text "CbExploreAdfSquareCb"); (lit "config", JObj [(lit "gammaScale", num f1);
            (lit "cbAdf", JObj [(lit "typename", text "CbAdf"); (lit "config", JObj [(lit "cbType", text "mtr")])])])])])])].
Lemma ex_careful : careful ex_doc.
Proof.
  unfold ex_doc. cbn [careful every each fold_right snd map fst].
  repeat match goal with
  | |- _ /\ _ => split
  | |- True => exact Logic.I
  | |- NoDup _ => repeat constructor; cbn; intuition discriminate
  | |- keyof _ _ -> keyof _ _ => unfold keyof; cbn; intuition discriminate
  end; cbn [In].
  all: try (intros ? K; repeat (destruct K as [K|K]; [try (vm_compute in K; discriminate)|]); try contradiction).
  all: try (intros K; repeat (destruct K as [K|K]; [try (vm_compute in K; discriminate)|]); try contradiction).
  all: try (inversion K; subst; eexists; (split; [reflexivity|reflexivity])).
  all: try (inversion K; subst; eexists; reflexivity).
  all: try exact Logic.I.
  eexists; split; [right; left; reflexivity|]; unfold keyof; cbn; tauto.
Qed.
Lemma ex_plain : plain ex_doc.
Proof.
  unfold ex_doc. cbn [plain fold_right snd map fst each].
  repeat match goal with |- context [str_eqb ?a ?b] => let r := eval vm_compute in (str_eqb a b) in change (str_eqb a b) with r; cbv iota end.
  repeat match goal with
  | |- _ /\ _ => split
  | |- True => exact Logic.I
  | |- NoDup _ => repeat constructor; cbn; intuition discriminate
  | |- keyof _ _ -> _ => unfold keyof; intros K k J; cbn [In map fst] in K, J; repeat (destruct J as [<- |J]; auto); try destruct J; exfalso; repeat (destruct K as [K|K]; [vm_compute in K; discriminate|]); destruct K
  | _ => exact Logic.I
  end.
Qed.
Lemma ex_valid : forall (isint nonneg : jnum O -> bool) rx, (forall n k, jn_u64 n = Some k -> isint n = true /\ nonneg n = true) -> (forall s, rx (lit ".*") s = true) ->
  valid isint nonneg rx (snd published) (fst published) ex_doc.
Proof.
  intros isint nonneg rx HI HR. specialize (HR (lit "schema.json")). unfold ex_doc, int. destruct (HI (mkNum (f_of_N (O:=O) 20) (f_of_N 20) (Some 20)) 20 eq_refl) as (I1 & N1).
  destruct (HI (mkNum (f_of_N (O:=O) 2) (f_of_N 2) (Some 2)) 2 eq_refl) as (I2 & N2).
  generalize dependent (mkNum (f_of_N (O:=O) 20) (f_of_N 20) (Some 20)).
  generalize dependent (mkNum (f_of_N (O:=O) 2) (f_of_N 2) (Some 2)). intros n0 I0 N0 n1 I1 N1. exists 60%nat.
  vm_compute; vm_compute in HR. now rewrite I0, N0, I1, N1, HR.
Qed.
Lemma ex_loads : forall H dbg, is_ok (load H dbg ex_doc) = true.
Proof. intros H dbg. destruct dbg; reflexivity. Qed.
End Examples.
Lemma factories_distinct : NoDup (map fa_name factories) /\ ~ In (lit "any_reduction_config") (map fa_name factories) /\
  (forall f k, In f factories -> In k (map fst (fa_defs f)) -> k <> lit "any_reduction_config" /\ ~ In k (map fa_name factories)).
Proof.
  split; [exact pub_distinct|]. split; [cbn; intuition discriminate|]. intros f k I J. cbn in I.
  repeat (destruct I as [<- |I]; [cbn in J; repeat (destruct J as [<- |J]; [split; [discriminate|cbn; intuition discriminate]|]); destruct J|]). destruct I.
Qed.

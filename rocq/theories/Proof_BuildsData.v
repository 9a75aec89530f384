(** C95: debug builds and release builds, the formats, the commands and the Python
    module. *)
From Coq Require Import String List NArith ZArith Bool Lia.
From Verif Require Import Base FloatOps Model_Hash Model_Features Model_Types Model_Interactions Model_Weights Model_Loss Model_Explore Model_Coin
  Model_Stack Model_Factory Model_Text Model_Metrics Model_InvHash Model_Json Model_JsonTrain Model_Save Model_Train Model_Config Model_Export
  Model_Cli Spec_Builds Proof_Builds.
From Verif Require Model_Command Model_Python.
Import ListNotations.

Section BuildsData.
Context {O : FOps}.

(** *** text *)
Lemma ag_pfeature : forall (pf : str -> option O) t o, agree (parse_feature pf true t o) (parse_feature pf false t o).
Proof. intros. unfold parse_feature. ag. Qed.
Hint Resolve ag_pfeature : agr.
Lemma ag_token : forall H (pf : str -> option O) nb k v a t, agree (add_token H pf true nb k v a t) (add_token H pf false nb k v a t).
Proof. intros. unfold add_token. ag. Qed.
Hint Resolve ag_token : agr.
Lemma ag_pns : forall H (pf : str -> option O) seed nb d s, agree (parse_namespace H pf true seed nb d s) (parse_namespace H pf false seed nb d s).
Proof. intros. unfold parse_namespace. ag. Qed.
Hint Resolve ag_pns : agr.
Lemma ag_line : forall H (pf : str -> option O) seed nb lt t d, agree (parse_line H pf true seed nb lt t d) (parse_line H pf false seed nb lt t d).
Proof. intros. unfold parse_line. ag. Qed.
Hint Resolve ag_line : agr.
Lemma ag_lines : forall H (pf : str -> option O) seed nb lt ls ds, agree (parse_lines H pf true seed nb lt ls ds) (parse_lines H pf false seed nb lt ls ds).
Proof. intros H pf seed nb lt ls. induction ls as [|l ls IH]; intros ds; cbn [parse_lines]; ag. Qed.
Hint Resolve ag_lines : agr.
Lemma ag_chunk : forall H (pf : str -> option O) seed nb ft lt ds t,
  agree (parse_chunk H pf true seed nb ft lt ds t) (parse_chunk H pf false seed nb ft lt ds t).
Proof. intros. unfold parse_chunk. ag. Qed.
Lemma ag_extract : forall (pf : str -> option O) s, agree (extract_namespace pf true s) (extract_namespace pf false s).
Proof. intros. unfold extract_namespace. ag. Qed.
Hint Resolve ag_chunk ag_extract : agr.
Lemma ag_pairs : forall (pf : str -> option O) m s, agree (extract_pairs pf true m s) (extract_pairs pf false m s).
Proof. intros. unfold extract_pairs. ag. Qed.
Hint Resolve ag_pairs : agr.
Lemma ag_names : forall (pf : str -> option O) m s, agree (extract_feature_names pf true m s) (extract_feature_names pf false m s).
Proof. intros. unfold extract_feature_names. ag. Qed.
Lemma ag_inv : forall H seed nb ns t p, agree (inv_add H true seed nb ns t p) (inv_add H false seed nb ns t p).
Proof. intros. unfold inv_add. ag. Qed.
Hint Resolve ag_names ag_inv : agr.
Lemma ag_invall : forall H seed nb dn l t, agree (inv_add_all H true seed nb dn l t) (inv_add_all H false seed nb dn l t).
Proof. intros. unfold inv_add_all. ag. Qed.

(** *** JSON *)
Lemma ag_reserve : forall al n (x : cns O), agree (cns_reserve O true al n x) (cns_reserve O false al n x).
Proof. intros. unfold cns_reserve. ag. Qed.
Lemma ag_parsed : forall H al mk nsh p v (x : cns O), agree (add_parsed O H true al mk nsh p v x) (add_parsed O H false al mk nsh p v x).
Proof. intros. unfold add_parsed. ag. Qed.
Hint Resolve ag_reserve ag_parsed : agr.
Lemma ag_entry : forall H al mk nsh (x : cns O) kv, agree (json_entry O H true al mk nsh x kv) (json_entry O H false al mk nsh x kv).
Proof. intros. unfold json_entry. ag. Qed.
Hint Resolve ag_entry : agr.
Lemma ag_jns : forall H nb al nsh v (x : cns O), agree (json_ns O H true nb al nsh v x) (json_ns O H false nb al nsh v x).
Proof. intros. unfold json_ns. ag. Qed.
Hint Resolve ag_jns : agr.
Lemma ag_cupd : forall k (f g : cns O -> out (cns O)) o, (forall x, agree (f x) (g x)) -> agree (cobj_upd O k f o) (cobj_upd O k g o).
Proof. intros. unfold cobj_upd. ag. Qed.
Hint Resolve ag_cupd : agr.
Lemma ag_tofeats : forall H seed nb al v o, agree (to_features O H true seed nb al v o) (to_features O H false seed nb al v o).
Proof. intros. unfold to_features. ag. Qed.
Hint Resolve ag_tofeats : agr.
Lemma ag_jactions : forall H seed nb al l ds, agree (json_actions O H true seed nb al l ds) (json_actions O H false seed nb al l ds).
Proof. intros H seed nb al l. induction l as [|a l IH]; intros ds; cbn [json_actions]; ag. Qed.
Hint Resolve ag_jactions : agr.
Lemma ag_jfeats : forall H seed nb al ft v ds, agree (json_features O H true seed nb al ft v ds) (json_features O H false seed nb al ft v ds).
Proof. intros. unfold json_features. ag. Qed.
Hint Resolve ag_jfeats : agr.
Lemma ag_jchunk : forall H seed nb al rd ft lt ds s, agree (json_chunk O H true seed nb al rd ft lt ds s) (json_chunk O H false seed nb al rd ft lt ds s).
Proof. intros. unfold json_chunk. ag. Qed.
Hint Resolve ag_jchunk : agr.
Lemma ag_jexample : forall H seed nb al rd ft lt ds s,
  agree (json_example O H true seed nb al rd ft lt ds s) (json_example O H false seed nb al rd ft lt ds s).
Proof. intros. unfold json_example. ag. Qed.
Lemma ag_dsadd : forall H nb p v st f, agree (ds_add O H true nb p v st f) (ds_add O H false nb p v st f).
Proof. intros. unfold ds_add. ag. Qed.
Hint Resolve ag_jexample ag_dsadd : agr.
Lemma ag_dshandle : forall H seed nb v key f st, agree (ds_handle O H true seed nb v key f st) (ds_handle O H false seed nb v key f st).
Proof.
  intros H seed nb. fix IH 1. intros [|b|x|s|l|l] key f st; cbn [ds_handle].
  1-4: ag.
  - destruct (starts_with 95 key); [reflexivity|]. cbv zeta. apply agree_bind; [|intros; apply agree_refl].
    generalize (ns_from_name H key seed :: st). generalize 0%N. revert f.
    induction l as [|y l Il]; intros f i st'; [reflexivity|].
    apply agree_bind; [|intros; apply Il].
    assert (Iy : agree (ds_handle O H true seed nb y key f st') (ds_handle O H false seed nb y key f st')) by apply IH.
    destruct y as [|b|x|s|l'|l']; [ag|ag|ag|ag|ag|]. exact Iy.
  - destruct (starts_with 95 key); [reflexivity|]. apply agree_bind; [|intros; apply agree_refl].
    generalize (ns_from_name H key seed :: st). revert f.
    induction l as [|[k y] l Il]; intros f st'; [reflexivity|]. apply agree_bind; [apply IH|intros; apply Il].
Qed.
Hint Resolve ag_dshandle : agr.
Lemma ag_dsactions : forall H seed nb l ds, agree (ds_actions O H true seed nb l ds) (ds_actions O H false seed nb l ds).
Proof. intros H seed nb l. induction l as [|a l IH]; intros ds; cbn [ds_actions]; ag. Qed.
Hint Resolve ag_dsactions : agr.
Lemma ag_dsvalue : forall H seed nb v ds, agree (ds_value O H true seed nb v ds) (ds_value O H false seed nb v ds).
Proof. intros. unfold ds_value. ag. Qed.
Hint Resolve ag_dsvalue : agr.
Lemma ag_dschunk : forall H seed nb rd ds s, agree (ds_chunk O H true seed nb rd ds s) (ds_chunk O H false seed nb rd ds s).
Proof. intros. unfold ds_chunk. ag. Qed.
Hint Resolve ag_dschunk : agr.

(** *** training *)
Lemma ag_subi : forall a b, agree (sub_i32 true a b) (sub_i32 false a b). Proof. intros. unfold sub_i32. ag. Qed.
Hint Resolve ag_subi : agr.
Lemma ag_metric : forall m : metric O, agree (metric_value true m) (metric_value false m). Proof. intros. unfold metric_value. ag. Qed.
Lemma ag_inc : forall m : manager O, agree (inc_iteration true m) (inc_iteration false m). Proof. intros. unfold inc_iteration. ag. Qed.
Hint Resolve ag_metric ag_inc : agr.
Lemma ag_process : forall md n (st : tstate O n) f lb, agree (process_example true md st f lb) (process_example false md st f lb).
Proof. intros. unfold process_example. ag. Qed.
Lemma ag_end : forall md n (st : tstate O n), agree (train_end true md st) (train_end false md st). Proof. intros. unfold train_end. ag. Qed.
Hint Resolve ag_process ag_end : agr.
Lemma ag_tchunk : forall md (ps ps' : parser O) need n (st : tstate O n * list (sfeats O)) c,
  (forall ds s, agree (ps ds s) (ps' ds s)) -> agree (train_chunk true md ps need st c) (train_chunk false md ps' need st c).
Proof. intros. unfold train_chunk. ag. Qed.
Hint Resolve ag_tchunk : agr.
Lemma ag_loop : forall md (ps ps' : parser O) need n cs (st : tstate O n * list (sfeats O)),
  (forall ds s, agree (ps ds s) (ps' ds s)) -> agree (train_loop true md ps need cs st) (train_loop false md ps' need cs st).
Proof. intros. unfold train_loop. ag. Qed.
Hint Resolve ag_loop : agr.
Lemma ag_train : forall H pf md seed nb names p n (r : red O n) pool cs,
  agree (train H pf true md seed nb names p r pool cs) (train H pf false md seed nb names p r pool cs).
Proof. intros. unfold train. ag; apply ag_loop; intros; unfold text_parser; ag. Qed.
Lemma ag_from_ws : forall H pf rd al (o : Model_Command.options O) gc n (r : red O n) text,
  agree (Model_Command.train_from H pf rd al true o gc r text) (Model_Command.train_from H pf rd al false o gc r text).
Proof.
  intros. unfold Model_Command.train_from. unfold Model_Command.get_parser.
  destruct (Model_Command.op_format o); cbn [bind fst snd].
  - ag; apply ag_loop; intros; unfold text_parser; ag.
  - destruct (ds_create r) as [u|e|p]; cbn [bind fst snd]; [|reflexivity|exact Logic.I]. ag; apply ag_loop; intros; unfold ds_parser; ag.
  - ag; apply ag_loop; intros; unfold json_parser; ag.
Qed.
Hint Resolve ag_from_ws : agr.
Lemma ag_open : forall H (s : Model_Command.source O), agree (Model_Command.open_source H true s) (Model_Command.open_source H false s).
Proof. intros. unfold Model_Command.open_source. ag. Qed.
Hint Resolve ag_open : agr.
Lemma ag_command : forall H pf rd al (o : Model_Command.options O) s text,
  agree (Model_Command.train_command H pf rd al true o s text) (Model_Command.train_command H pf rd al false o s text).
Proof. intros. unfold Model_Command.train_command. ag. Qed.

(** *** configurations and models *)
Lemma ag_load : forall H (v : json O), agree (load H true v) (load H false v). Proof. intros. unfold load. ag. Qed.
Lemma ag_rows : forall ord (v : json O), agree (to_rows true ord v) (to_rows false ord v). Proof. intros. unfold to_rows. ag. Qed.
Lemma ag_sparse : forall ord (v : json O), agree (to_sparse true ord v) (to_sparse false ord v). Proof. intros. unfold to_sparse. ag. Qed.
Hint Resolve ag_rows ag_sparse : agr.
Lemma ag_rewrite : forall (f g : json O -> out (json O)) v, (forall v, agree (f v) (g v)) -> agree (rewrite_json f v) (rewrite_json g v).
Proof.
  intros f g v K. revert v. fix IH 1. intros [|b|x|s|l|l]; cbn [rewrite_json]; try reflexivity.
  - apply agree_bind; [|intros; apply agree_refl]. induction l as [|y l Il]; [reflexivity|].
    apply agree_bind; [apply IH|]. intros. apply agree_bind; [apply Il|intros; apply agree_refl].
  - destruct (is_table l); [apply K|]. apply agree_bind; [|intros; apply agree_refl]. induction l as [|[k y] l Il]; [reflexivity|].
    apply agree_bind; [apply IH|]. intros. apply agree_bind; [apply Il|intros; apply agree_refl].
Qed.
Hint Resolve ag_rewrite : agr.
Lemma ag_wexport : forall ord ex gc (R : anyred O), agree (ws_export true ord ex gc R) (ws_export false ord ex gc R). Proof. intros. unfold ws_export. ag. Qed.
Lemma ag_wimport : forall ord (v : json O), agree (ws_import true ord v) (ws_import false ord v). Proof. intros. unfold ws_import. ag. Qed.
Hint Resolve ag_wexport ag_wimport : agr.
Lemma ag_cexport : forall ord ex (m : Model_Command.model O), agree (export_command true ord ex m) (export_command false ord ex m).
Proof. intros. unfold export_command. ag. Qed.
Lemma ag_cimport : forall ord (v : json O), agree (import_command true ord v) (import_command false ord v).
Proof. intros. unfold import_command. ag. Qed.
End BuildsData.

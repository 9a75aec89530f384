(** What runs of the train command write (C76), and models as JSON (C77). *)
From Coq Require Import String List NArith ZArith Bool Lia PeanoNat.
From Verif Require Import Base FloatOps FloatB32 Model_Hash Model_Features Model_Interactions Model_Weights Model_Loss Model_Explore Model_Coin Model_Types
  Model_Stack Model_Factory Model_Text Model_Metrics Model_Train Model_Json Model_Config Model_JsonTrain Model_Save Model_Export Model_Command Model_Cli
  Spec_Features Spec_Stack Spec_Text Spec_Metrics Spec_Progress Spec_Save Spec_Export Spec_Command Spec_Cli
  Proof_StackRestore Proof_StackPtl Proof_StackShape Proof_StackProps Proof_StackRel Proof_Types Proof_Train Proof_Progress Proof_Save Proof_Export Proof_ExportReach
  Proof_Pieces Proof_Command Proof_Cli.
Import ListNotations.
Open Scope N_scope.

(** ** calls that return no error *)
Definition ne {A} (x : out A) : Prop := forall e, x <> Er e.
Lemma ne_bind : forall A B (x : out A) (f : A -> out B), ne x -> (forall a, ne (f a)) -> ne (bind x f).
Proof. intros A B [a|e|p] f K L; cbn [bind]; auto; [intros e' E; now apply (K e)|intros e E; discriminate]. Qed.
Lemma ne_ok : forall A (a : A), ne (Ok a). Proof. intros A a e E. discriminate. Qed.
Lemma ne_pn : forall A p, ne (@Pn A p). Proof. intros A p e E. discriminate. Qed.
Lemma ne_foldm : forall A B (f : B -> A -> out B) l b, (forall a b, ne (f b a)) -> ne (foldm f l b).
Proof. induction l as [|a l IH]; cbn [foldm]; intros b K; [apply ne_ok|]. apply ne_bind; auto. Qed.
Lemma ne_mapm : forall A B (f : A -> out B) l, (forall a, ne (f a)) -> ne (mapm f l).
Proof. induction l as [|a l IH]; cbn [mapm]; intros K; [apply ne_ok|]. apply ne_bind; auto. intros b. apply ne_bind; auto. intros. apply ne_ok. Qed.
Lemma ne_opt : forall A p (x : option A), ne (opt_or p x).
Proof. intros A p [a|]; [apply ne_ok|apply ne_pn]. Qed.
Lemma ne_unwrap : forall A (x : out A), ne (unwrap_res x).
Proof. intros A [a|e|p]; [apply ne_ok|apply ne_pn|apply ne_pn]. Qed.
Create HintDb ne.
Ltac nes :=
  lazymatch goal with
  | |- ne (bind _ _) => apply ne_bind; [nes|intros ?; nes]
  | |- ne (foldm _ _ _) => apply ne_foldm; intros; nes
  | |- ne (mapm _ _) => apply ne_mapm; intros; nes
  | |- ne (opt_or _ _) => apply ne_opt
  | |- ne (unwrap_res _) => apply ne_unwrap
  | |- ne (if ?b then _ else _) => destruct b; nes
  | |- ne (let '(_, _) := ?x in _) => destruct x; nes
  | |- ne (match ?x with _ => _ end) => destruct x; nes
  | |- ne (Ok _) => apply ne_ok
  | |- ne (Pn _) => apply ne_pn
  | |- forall _, _ => intro; nes
  | _ => auto with ne
  end.

Section NE.
Context {O : FOps}.
Lemma ne_coin_predict : forall dbg (c : coin O) f, ne (coin_predict dbg c f).
Proof. intros. unfold coin_predict, coin_feats, coin_dot, fe_list, mask_from_bits, constant_feature_index, bits_to_max_feature_index, dw_weight_at, dw_index, f_clamp. nes. Qed.
Lemma ne_coin_learn : forall dbg (c : coin O) f v w, ne (coin_learn dbg c f v w).
Proof.
  intros. unfold coin_learn, coin_betting_predict, coin_update, coin_feats, dw_state_upd, inner_predict, inner_update,
    fe_list, mask_from_bits, constant_feature_index, bits_to_max_feature_index, dw_state_at, dw_index, slice, f_clamp. nes.
Qed.
Hint Resolve ne_coin_predict ne_coin_learn : ne.
Lemma ne_minfrom : forall gt (l : list (N * (N * O))) b, (forall a b, ne (gt a b)) -> ne (min_by_from gt b l).
Proof. induction l as [|y l IH]; intros b K; cbn [min_by_from]; nes. Qed.
Lemma ne_minby : forall gt (l : list (N * O)), (forall a b, ne (gt a b)) -> ne (min_by gt l).
Proof. intros. unfold min_by. destruct (enum_from 0 l); [apply ne_pn|]. now apply ne_minfrom. Qed.
Lemma ne_gtp : forall a b : O, ne (gt_partial a b). Proof. intros; unfold gt_partial; nes. Qed.
Lemma ne_gtt : forall a b : O, ne (gt_total a b). Proof. intros; apply ne_ok. Qed.
Hint Resolve ne_minby ne_gtp ne_gtt : ne.
Lemma ne_merge : forall dbg b1 b2 cb (l1 l2 : list (N * O)) d, ne (elem_merge dbg b1 b2 cb l1 l2 d).
Proof.
  induction l1 as [|[i1 v1] l1 IH]; intros l2; [destruct l2; intros; apply ne_ok|].
  induction l2 as [|[i2 v2] l2 IH2]; intros d; [apply ne_ok|]. cbn [elem_merge]. unfold sub32, add32. nes.
Qed.
Hint Resolve ne_merge : ne.
Lemma ne_frame : forall X dbg one two keep nb (call : features O -> out (X * features O * N)) f,
  (forall f, ne (call f)) -> ne (elem_frame dbg one two keep nb call f).
Proof. intros. unfold elem_frame, as_simple, elem_multiply, mask_from_bits. nes. Qed.
Lemma ne_append : forall (a : sfeats O) s, ne (append_opt a s).
Proof. intros a [s|]; unfold append_opt, sf_append, sf_updm_ns, sfn_adds; nes. Qed.
Lemma ne_remove : forall dbg (a : sfeats O) s, ne (remove_opt dbg a s).
Proof. intros dbg a [s|]; unfold remove_opt, sf_remove, sf_updm_ns, sfn_truncate_by; nes. Qed.
Hint Resolve ne_append ne_remove : ne.
Lemma ne_wrap : forall X dbg nmb mo (f : features O) d (body : features O -> N -> out (X * features O * N)),
  (forall f d, ne (body f d)) -> ne (wrap dbg nmb mo f d body).
Proof. intros. unfold wrap, depth_inc, depth_dec, u8_mul, u8_add, u8_sub. nes. Qed.
Lemma ne_ploop : forall dbg child shared acts i d, (forall f d mo, ne (child f d mo)) -> ne (@cb_predict_loop O dbg child shared acts i d).
Proof. induction acts as [|a acts IH]; intros i d K; cbn [cb_predict_loop]; [apply ne_ok|]. unfold as_scalar. nes. Qed.
Lemma ne_iloop : forall X dbg (learn : X -> features O -> label O -> N -> N -> out (X * features O * N)) action cost prob shared acts i ch d,
  (forall ch f lb d mo, ne (learn ch f lb d mo)) -> ne (cb_ips_loop dbg learn action cost prob shared acts i ch d).
Proof. induction acts as [|a acts IH]; intros i ch d K; cbn [cb_ips_loop]; [apply ne_ok|]. unfold ips_label. nes. Qed.
Hint Resolve ne_frame ne_ploop ne_iloop : ne.
Lemma ne_kpredict : forall dbg k child (f : features O) d mo, (forall f d mo, ne (child f d mo)) -> ne (kind_predict dbg k child f d mo).
Proof. intros dbg k child f d mo K. destruct k; cbn [kind_predict]; unfold as_scalar, as_scores, as_cb, greedy_probs, softmax_probs, squarecb_probs; nes. Qed.
Lemma ne_klearn : forall X dbg k (learn : X -> features O -> label O -> N -> N -> out (X * features O * N)) ch f lb d mo,
  (forall ch f lb d mo, ne (learn ch f lb d mo)) -> ne (kind_learn dbg k learn ch f lb d mo).
Proof.
  intros X dbg k learn ch f lb d mo K. destruct k; cbn [kind_learn]; unfold as_binary_label, as_cb_label, as_cb, add64; nes.
  all: match goal with
       | |- ne (sf_append ?x ?y) => change (sf_append x y) with (append_opt x (Some y)); nes
       | |- ne (sf_remove ?b ?x ?y) => change (sf_remove b x y) with (remove_opt b x (Some y)); nes
       end.
Qed.
Hint Resolve ne_kpredict ne_klearn : ne.
Lemma ne_predict : forall dbg n (r : red O n) f d mo, ne (predict dbg n r f d mo).
Proof.
  induction n as [|n IH]; intros r f d mo; cbn [predict].
  - apply ne_wrap. intros. unfold coin_predict_body, as_simple. nes.
  - destruct r as ((w & k) & ch). apply ne_wrap. intros. apply ne_kpredict. auto.
Qed.
Lemma ne_learn : forall dbg n (r : red O n) f lb d mo, ne (learn dbg n r f lb d mo).
Proof.
  induction n as [|n IH]; intros r f lb d mo; cbn [learn].
  - destruct r as (w & c). apply ne_wrap. intros. unfold coin_learn_body, as_simple, as_simple_label. nes.
  - destruct r as ((w & k) & ch). apply ne_wrap. intros. apply ne_bind; [apply ne_klearn; auto|]. nes.
Qed.
Hint Resolve ne_predict ne_learn : ne.
Lemma ne_default : forall X (p : features O -> N -> out (prediction O * features O * N)) (l : features O -> N -> out (X * features O * N)) f d,
  (forall f d, ne (p f d)) -> (forall f d, ne (l f d)) -> ne (default_ptl p l f d).
Proof. intros. unfold default_ptl. apply ne_bind; auto. intros ((? & ?) & ?). apply ne_bind; auto. nes. Qed.
Lemma ne_ptl : forall dbg n (r : red O n) f lb d mo, ne (predict_then_learn dbg n r f lb d mo).
Proof.
  induction n as [|n IH]; intros r f lb d mo; cbn [predict_then_learn].
  - destruct r as (w & c). apply ne_wrap. intros. unfold default_ptl, coin_predict_body, coin_learn_body, as_simple, as_simple_label. nes.
  - destruct r as ((w & k) & ch). apply ne_wrap. intros. apply ne_bind; [|nes].
    destruct k; cbn [kind_ptl]; try (apply ne_default; intros f1 d1; [apply ne_kpredict; exact (ne_predict dbg n ch)|apply ne_klearn; exact (ne_learn dbg n)]).
    + apply ne_bind; [unfold as_binary_label; nes|]. intros b. apply ne_bind; [apply IH|]. unfold as_scalar. nes.
    + apply ne_bind; [apply ne_frame; intros; apply IH|]. nes.
    + apply ne_bind; [apply IH|]. nes.
Qed.
Lemma ne_process : forall dbg md n (st : tstate O n) f lb, ne (process_example dbg md st f lb).
Proof.
  intros. unfold process_example, ws_ptl, ws_learn, inc_iteration, add_results, metric_add, metric_value, add32, sub_i32, as_simple_label, as_scalar, as_cb_label, as_probs.
  apply ne_bind; [apply ne_opt|]. intros lb'. destruct (_ || _).
  - apply ne_bind; [apply ne_bind; [apply ne_ptl|nes]|]. nes.
  - apply ne_bind; [apply ne_bind; [apply ne_learn|nes]|]. nes.
Qed.
Lemma ne_from : forall H pf rd al dbg (o : options O) gc n (r : red O n) text, ne (train_from H pf rd al dbg o gc r text).
Proof.
  intros. unfold train_from. apply ne_bind; [unfold get_parser, ds_create; nes|]. intros pn.
  apply ne_bind; [unfold train_start; nes|]. intros st. apply ne_bind; [nes|]. intros cs.
  apply ne_bind; [|intros x; apply ne_bind; [|nes]].
  - unfold train_loop. apply ne_foldm. intros chunk b. unfold train_chunk. apply ne_bind; [nes|]. intros x. apply ne_bind; [apply ne_process|]. nes.
  - unfold train_end, metric_value, sub_i32, add_results. nes.
Qed.
Lemma command_errors : forall H pf rd al dbg (o : options O) s text x,
  train_command H pf rd al dbg o s text = Er x <-> open_source H dbg s = Er x.
Proof.
  intros. unfold train_command. destruct (open_source H dbg s) as [gr|e|p]; cbn [bind].
  - split; [|discriminate]. intros E. now apply ne_from in E.
  - split; intros E; inversion E; reflexivity.
  - split; discriminate.
Qed.

(** ** the kind of the predictions *)
Lemma elem_frame_result : forall X dbg one two keep nb (call : features O -> out (X * features O * N)) f x f' d',
  elem_frame dbg one two keep nb call f = Ok (x, f', d') -> exists g g' e, call g = Ok (x, g', e).
Proof.
  intros X dbg one two keep nb call f x f' d' E. unfold elem_frame in E. binv E. binv E. destruct keep.
  - binv E. destruct v1 as ((y & g) & e). inversion E; subst. eauto.
  - destruct (sf_remove_ns one _) as (o1 & s2). binv E. destruct (sf_remove_ns two s2) as (o2 & s3). binv E. binv E.
    destruct v3 as ((y & g) & e). inversion E; subst. eauto.
Qed.
Lemma predict_kind : forall dbg n (r : red O n) f d mo p f' d', typed n r -> predict dbg n r f d mo = Ok (p, f', d') ->
  pred_type_of p = td_out_pred (red_types r).
Proof.
  induction n as [|n IH]; intros r f d mo p f' d' Ty E; cbn [predict] in E.
  - apply wrap_ok in E. destruct E as (d1 & d2 & E). simpl in Ty. rewrite Ty. unfold coin_predict_body in E. binv E. binv E. inversion E; subst.
    unfold coin_predict in B0. binv B0. binv B0. binv B0. inversion B0; subst. reflexivity.
  - destruct r as ((w & k) & ch). apply wrap_ok in E. destruct E as (d1 & d2 & E). destruct Ty as (Ty & Tw & _).
    change (red_types (n := S n) (w, k, ch)) with (w_types w). rewrite Tw. destruct k; cbn [kind_predict kind_td td_out_pred td_cb_adf td_explore] in *.
    + binv E. destruct v as ((? & ?) & ?). binv E. inversion E; subst. reflexivity.
    + binv E. binv E. destruct v0 as ((? & ?) & ?). inversion E; subst. reflexivity.
    + binv E. destruct v as ((? & ?) & ?). binv E. binv E. inversion E; subst. reflexivity.
    + binv E. destruct v as ((? & ?) & ?). binv E. binv E. inversion E; subst. reflexivity.
    + binv E. destruct v as ((? & ?) & ?). binv E. binv E. inversion E; subst. reflexivity.
    + apply elem_frame_result in E. destruct E as (g & g' & e & E). apply (IH ch _ _ _ _ _ _ Ty E).
    + apply (IH ch _ _ _ _ _ _ Ty E).
Qed.
Lemma ws_kind : forall H dbg gc (c : rcfg O) R r f p f', ws_new H dbg gc c = Ok R -> reach dbg (projT2 R) r ->
  ws_predict dbg r f = Ok (p, f') -> pred_type_of p = td_out_pred (any_types R).
Proof.
  intros H dbg gc c R r f p f' E Q P. destruct (reach_typed _ _ _ _ _ _ E Q) as (Ty & <-). unfold ws_predict in P. binv P.
  destruct v as ((p1 & f1) & d1). inversion P; subst. eapply predict_kind; eauto.
Qed.
Lemma progressive_kind : forall H dbg gc (c : rcfg O) R exs r ps, ws_new H dbg gc c = Ok R -> reach dbg (projT2 R) r ->
  progressive dbg r exs ps -> Forall (fun p => pred_type_of p = td_out_pred (any_types R)) ps.
Proof.
  intros H dbg gc c R exs r ps E Q P. revert Q. induction P as [r|r f lb p f1 r1 f2 l ps P1 L1 P IH]; intros Q; constructor.
  - eapply ws_kind; eauto.
  - apply IH. eapply reach_learn; [exact Q|exact L1].
Qed.
Lemma progressive_length : forall dbg n (r : red O n) exs ps, progressive dbg r exs ps -> length ps = length exs.
Proof. induction 1; cbn [length]; auto. Qed.

(** ** the first example is always one at which the table is shown *)
Lemma first_row : forall dbg p k m bs, outputs dbg (mgr_new (O := O) p k) (S m) = Ok bs -> exists bs', bs = true :: bs'.
Proof.
  intros dbg p k m bs E. cbn [outputs] in E. binv E. binv E. inversion E; subst. unfold inc_iteration, mgr_new in B. cbn [mg_next mg_iter mg_period] in B.
  change (0 <=? 0) with true in B. cbn iota in B. binv B. binv B. inversion B; subst. cbn [fst]. eauto.
Qed.
End NE.

(** ** runs, over binary32 *)
Section Runs.
Context (e l : b32 -> b32) (p : b32 -> b32 -> b32).
Notation O := (BF e l p).
Context (H : hasher) (pf : str -> option O) (rd : str -> option (json O)) (al : alloc) (dbg : bool).

Lemma source_kind : forall s gc R0 (o : options O) text rep, source_ok H dbg s -> open_source H dbg s = Ok (gc, R0) ->
  train_command H pf rd al dbg o s text = Ok rep ->
  exists c R r, ws_new H dbg gc c = Ok R /\ reach dbg (projT2 R) r /\ train_from H pf rd al dbg o gc r text = Ok rep /\ any_types R = red_types (projT2 R0).
Proof.
  intros [gc' c|m] gc R0 o text rep K EO E.
  - cbn [open_source] in EO. binv EO. inversion EO; subst. exists c, R0, (projT2 R0). split; [exact B|]. split; [constructor|]. split; [|reflexivity].
    unfold train_command, open_source in E. rewrite B in E. exact E.
  - destruct K as (gc1 & c & R & r & E1 & E2 & ->). destruct (known_load e l p H dbg gc1 c R r gc1 E1 E2) as (r' & L & Rr). rewrite L in EO. inversion EO; subst.
    exists c, R, r. split; auto. split; auto. split; [now rewrite <- (command_reload e l p H pf rd al dbg gc c R r o text E1 E2)|].
    destruct (reach_typed _ _ _ _ _ _ E1 E2) as (_ & T). cbn [projT2]. rewrite <- T. exact (rr_types e l p _ _ _ Rr).
Qed.
Lemma run_preds : forall s t (o : options O) text rep, source_ok H dbg s -> predicts H dbg s t ->
  train_command H pf rd al dbg o s text = Ok rep -> Forall (fun q => pred_type_of q = t) (rp_preds rep).
Proof.
  intros s t o text rep K (gc & R0 & EO & <-) E. destruct (source_kind _ _ _ _ _ _ K EO E) as (c & R & r & EW & RE & ET & TT).
  destruct (from_progressive H pf rd al dbg _ _ _ _ _ _ _ _ EW RE ET) as (ps & need & cs & exs & r' & _ & _ & _ & _ & _ & X & Y).
  destruct (tm_preds (op_mode o)) eqn:EP.
  - destruct X as (prs & bs & X1 & X2 & _); auto. rewrite X2, <- TT. eapply progressive_kind; eauto.
  - destruct (tm_quiet (op_mode o)) eqn:EQ.
    + destruct Y as (-> & _); auto.
    + destruct X as (prs & bs & X1 & X2 & _); auto. rewrite X2. constructor.
Qed.
Lemma run_readable : forall (pr : O -> str) s s' t (o o' : options O) text text' rep rep', prints pr ->
  source_ok H dbg s -> source_ok H dbg s' -> predicts H dbg s t -> predicts H dbg s' t ->
  train_command H pf rd al dbg o s text = Ok rep -> train_command H pf rd al dbg o' s' text' = Ok rep' ->
  Forall finite_pred (rp_preds rep) -> Forall finite_pred (rp_preds rep') ->
  predictions_file pr (rp_preds rep) = predictions_file pr (rp_preds rep') -> rp_preds rep = rp_preds rep'.
Proof.
  intros pr s s' t o o' text text' rep rep' P K K' T T' E E' F F' X. pose proof (run_preds s t o text rep K T E) as A1. pose proof (run_preds s' t o' text' rep' K' T' E') as A2.
  exact (file_inj pr P t _ _ F F' A1 A2 X).
Qed.
Lemma run_lines : forall (pr : O -> str) s multi (o : options O) text rep cs, prints pr ->
  source_ok H dbg s -> takes_multi H dbg s multi -> tm_preds (op_mode o) = true -> pieces (op_format o) multi text cs ->
  train_command H pf rd al dbg o s text = Ok rep ->
  exists ls, full_lines (predictions_file pr (rp_preds rep)) ls /\ length ls = length cs.
Proof.
  intros pr s multi o text rep cs P K TM EP PI E. destruct (source_stands e l p H pf rd al dbg _ _ _ _ K E) as (gc & R & r & (c & EW) & RE & ST & ST2).
  pose proof (ST2 _ TM) as EM. rewrite ST in E.
  destruct (from_progressive H pf rd al dbg _ _ _ _ _ _ _ _ EW RE E) as (ps & need & cs' & exs & r' & _ & X1 & X2 & _ & _ & X & _).
  destruct X as (prs & bs & Y1 & Y2 & _); auto. rewrite EP in Y2. rewrite <- EM in X1. rewrite (pieces_fun _ _ _ _ _ X1 PI) in X2.
  exists (map (fun q => pred_text pr q ++ [10]) (rp_preds rep)). split; [now apply file_lines|].
  rewrite map_length, Y2, (progressive_length _ _ _ _ _ Y1). clear - X2. induction X2; cbn [length]; auto.
Qed.
Lemma run_quiet : forall s multi (o : options O) text rep cs, source_ok H dbg s -> takes_multi H dbg s multi ->
  tm_quiet (op_mode o) = true -> pieces (op_format o) multi text cs -> train_command H pf rd al dbg o s text = Ok rep ->
  (rp_rows rep = [] <-> tm_preds (op_mode o) = false \/ cs = []).
Proof.
  intros s multi o text rep cs K TM EQ PI E. destruct (source_stands e l p H pf rd al dbg _ _ _ _ K E) as (gc & R & r & (c & EW) & RE & ST & ST2).
  pose proof (ST2 _ TM) as EM. rewrite ST in E.
  destruct (from_progressive H pf rd al dbg _ _ _ _ _ _ _ _ EW RE E) as (ps & need & cs' & exs & r' & _ & X1 & X2 & _ & _ & X & Y).
  rewrite <- EM in X1. rewrite (pieces_fun _ _ _ _ _ X1 PI) in X2. clear X1 cs'.
  destruct (tm_preds (op_mode o)) eqn:EP.
  - destruct X as (prs & bs & Y1 & Y2 & Y3 & Y4); auto. rewrite EQ, app_nil_r in Y4. split.
    + intros RR. right. rewrite RR in Y4. destruct cs as [|ch cs]; auto. exfalso. inversion X2; subst. cbn [length] in Y3.
      destruct (first_row _ _ _ _ _ Y3) as (bs' & ->). cbn [answered app] in Y4. inversion Y4.
    + intros [F|F]; [discriminate|]. subst cs. inversion X2; subst. cbn [length outputs] in Y3. inversion Y3; subst. cbn [answered] in Y4. now inversion Y4.
  - destruct Y as (_ & RR); auto. split; auto.
Qed.

(** ** models as JSON *)
Lemma export_saved : forall gc (c : rcfg O) R r ex ord d, ws_new H dbg gc c = Ok R -> reach dbg (projT2 R) r ->
  export_command d ord ex (saved gc r) = unwrap_res (ws_export d ord ex gc (existT _ _ r)).
Proof.
  intros gc c R r ex ord d E Q. destruct (reach_table _ _ _ _ _ _ E Q) as (_ & _ & L). unfold export_command, saved. cbn [mo_stack mo_gc projT2 projT1].
  rewrite (put_load _ r L). cbn [unwrap_res bind]. f_equal. unfold ws_export, w_workspace. cbn [projT1 projT2]. now rewrite w_red_put.
Qed.
Lemma json_roundtrip : forall gc (c : rcfg O) R r ex ord ord' d1 d2,
  ws_new H dbg gc c = Ok R -> reach dbg (projT2 R) r -> gc_bits gc < 256 -> gc_seed gc < 2 ^ 32 ->
  plain ex -> any_order ord -> any_order ord' -> finite_weights r -> finite_numbers r ->
  exists v, export_command d1 ord ex (saved gc r) = Ok v /\ import_command d2 ord' v = Ok (saved gc r).
Proof.
  intros gc c R r ex ord ord' d1 d2 E Q B S0 P A A' FW FN.
  destruct (b_export_import e l p H dbg gc c R r ex ord ord' d1 d2 E Q B S0 P A A' FW FN) as (v & r' & V1 & V2 & _ & _ & L).
  exists v. rewrite (export_saved gc c R r ex ord d1 E Q), V1. split; [reflexivity|]. unfold import_command. rewrite V2. cbn [unwrap_res bind fst snd projT2].
  destruct (known_load e l p H dbg gc c R r gc E Q) as (r2 & L2 & Rr). unfold open_source, saved in L2. cbn [mo_stack mo_gc projT2 projT1] in L2. rewrite L in L2.
  cbn [bind] in L2. assert (r' = r2) as -> by (apply (f_equal (fun o => match o with Ok (_, x) => x | _ => existT _ _ r2 end)) in L2; now apply Eqdep_dec.inj_pair2_eq_dec in L2; [|apply Nat.eq_dec]).
  unfold saved. cbn [projT1 projT2]. now rewrite (rr_saved e l p _ _ _ Rr).
Qed.
Lemma json_fails : forall gc (c : rcfg O) R r ex ord ord' d1 d2,
  ws_new H dbg gc c = Ok R -> reach dbg (projT2 R) r -> gc_bits gc < 256 -> gc_seed gc < 2 ^ 32 ->
  plain ex -> any_order ord -> any_order ord' ->
  (~ finite_weights r -> export_command d1 ord ex (saved gc r) = Pn PErr) /\ (finite_weights r -> ~ finite_numbers r ->
   exists v, export_command d1 ord ex (saved gc r) = Ok v /\ import_command d2 ord' v = Pn PErr).
Proof.
  intros gc c R r ex ord ord' d1 d2 E Q B S0 P A A'. rewrite (export_saved gc c R r ex ord d1 E Q).
  destruct (b_export_fails e l p H dbg gc c R r ex ord ord' d1 d2 E Q B S0 P A A') as (X & Y). split.
  - intros N0. now rewrite (X N0).
  - intros F N0. destruct (Y F N0) as (v & V1 & V2). exists v. rewrite V1. split; [reflexivity|]. unfold import_command. now rewrite V2.
Qed.
End Runs.

(** The train command (C72, C73): progressive validation with all formats, and training in
    several sessions. *)
From Coq Require Import List NArith ZArith Bool Lia PeanoNat.
From Verif Require Import Base FloatOps FloatB32 Model_Hash Model_Features Model_Interactions Model_Weights Model_Loss Model_Explore Model_Coin Model_Types
  Model_Stack Model_Factory Model_Text Model_Metrics Model_Train Model_Json Model_JsonTrain Model_Save Model_Command
  Spec_Features Spec_Stack Spec_Text Spec_Metrics Spec_Progress Spec_Save Spec_Command
  Proof_Features Proof_FeaturesHist Proof_StackCong Proof_StackRestore Proof_StackPtl Proof_StackShape Proof_StackProps Proof_StackRel
  Proof_Loose Proof_TextFeats Proof_TextChunk Proof_Order Proof_Metrics Proof_Train Proof_Progress
  Proof_JsonPlan Proof_Json Proof_JsonChunk Proof_DsJson Proof_JsonTrain Proof_Save Proof_Pieces Proof_WeightsProps.
Import ListNotations.

Section P.
Context {O : FOps} (H : hasher) (pf : str -> option O) (rd : str -> option (json O)) (al : alloc) (dbg : bool).

(** ** the parsers *)
Lemma json_qgood : forall seed nb n (r : red O n) ds chunk u, Forall looks_new ds ->
  json_parser H dbg seed nb rd al r ds chunk = Ok u -> qgood (fst u).
Proof.
  intros seed nb n r ds chunk u F E.
  split.
  - pose proof (json_parser_ok O H dbg seed nb rd al n r ds ds chunk F F) as Q. rewrite E in Q. inversion Q as [? ? (_ & G & _)| |]; subst. exact G.
  - unfold json_parser, json_example, json_chunk in E. destruct (rd chunk) as [v|]; [|discriminate]. cbn [opt_or bind] in E.
    binv E. binv B. binv B. inversion B; subst. inversion E; subst. cbn [fst snd] in *. clear E B.
    destruct (td_in_feats (red_types r)) eqn:FT; cbn [json_fts]; [|exact Logic.I].
    assert (Q : Forall (cnew (O := O)) (map (fun d => (d, no_caps)) ds)) by (clear -F; induction F; constructor; auto).
    destruct (features_two H dbg seed nb True al al FTSimple v _ _ (or_introl Logic.I) Q Q) as [(_ & [X|X])|X]; try congruence.
    rewrite B0 in X. inversion X as [? ? ((S1 & _) & L)| |]; subst. destruct (L eq_refl) as (L1 & _).
    inversion S1 as [E1|a b xs ys C F' E1 E2]; [rewrite <- E1 in L1; discriminate|]. apply C.
Qed.
Lemma json_qparser : forall seed nb n (r : red O n), qparser (json_parser H dbg seed nb rd al r).
Proof.
  intros seed nb n r ds chunk u F E. split; [eapply json_qgood; eauto|].
  pose proof (json_parser_ok O H dbg seed nb rd al n r ds [] chunk F (Forall_nil _)) as Q. rewrite E in Q.
  inversion Q as [? v (S & _) Eu Ev| |]; subst. exists v. split; auto. split; auto. eapply json_qgood; [|symmetry; exact Ev]. constructor.
Qed.
Lemma ds_cb : forall seed nb ds chunk u, ds_parser H dbg seed nb rd ds chunk = Ok u -> exists s x, fst u = @FtsCb O s x.
Proof.
  intros seed nb ds chunk u E. unfold ds_parser, ds_chunk in E. destruct (rd chunk) as [v|]; [|discriminate]. cbn [opt_or bind] in E.
  unfold ds_value in E. do 5 binv E. inversion E; subst. cbn [fst]. eauto.
Qed.
Lemma ds_qparser : forall seed nb, qparser (O := O) (ds_parser H dbg seed nb rd).
Proof.
  intros seed nb ds chunk u F E.
  pose proof (ds_parser_ok O H dbg seed nb rd ds [] chunk F (Forall_nil _)) as Q. rewrite E in Q.
  inversion Q as [? v (S & G1 & G2) Eu Ev| |]; subst. symmetry in Ev.
  destruct (ds_cb _ _ _ _ _ E) as (s & x & E1), (ds_cb _ _ _ _ _ Ev) as (s' & x' & E2).
  split; [split; auto; rewrite E1; exact Logic.I|]. exists v. split; auto. split; auto. split; auto. rewrite E2. exact Logic.I.
Qed.
Lemma get_parser_ok : forall fmt gc n (r : red O n) ps need, get_parser H pf rd al dbg fmt gc r = Ok (ps, need) -> parser_ok ps /\ qparser ps.
Proof.
  intros fmt gc n r ps need E. destruct fmt; cbn [get_parser] in E.
  - inversion E; subst. auto using text_parser_ok, text_qparser.
  - binv E. inversion E; subst. auto using ds_parser_ok, ds_qparser.
  - inversion E; subst. auto using json_parser_ok, json_qparser.
Qed.
Lemma get_parser_types : forall fmt gc n (r r' : red O n), red_types r = red_types r' ->
  get_parser H pf rd al dbg fmt gc r = get_parser H pf rd al dbg fmt gc r'.
Proof.
  intros fmt gc n r r' E. destruct fmt; cbn [get_parser]; unfold text_parser, text_need, ds_create, json_parser, json_takes; now rewrite E.
Qed.

(** ** progressive validation *)
Definition parsed (ps : parser O) (chunk : str) (ex : example O) : Prop := ps [] chunk = Ok (fst ex, Some (snd ex)).
Lemma parsed_fun : forall ps cs a, Forall2 (parsed ps) cs a -> forall b, Forall2 (parsed ps) cs b -> a = b.
Proof.
  induction 1 as [|c x cs a P F IH]; intros b Fb; inversion Fb; subst; auto. f_equal; [|now apply IH].
  unfold parsed in *. rewrite P in H2. destruct x, y; cbn [fst snd] in *. congruence.
Qed.

Lemma from_progressive : forall gc0 (c : rcfg O) R r o gc text rep,
  ws_new H dbg gc0 c = Ok R -> reach dbg (projT2 R) r ->
  train_from H pf rd al dbg o gc r text = Ok rep ->
  exists ps need cs (exs : list (example O)) r',
    get_parser H pf rd al dbg (op_format o) gc r = Ok (ps, need) /\
    pieces (op_format o) (is_multiline (td_in_feats (red_types r)) (td_in_label (red_types r))) text cs /\
    Forall2 (fun chunk ex => ps [] chunk = Ok (fst ex, Some (snd ex))) cs exs /\
    learned dbg r exs r' /\ rp_model rep = saved gc r' /\
    (tm_quiet (op_mode o) = false \/ tm_preds (op_mode o) = true ->
     exists (prs : list (prediction O)) (bs : list bool), progressive dbg r exs prs /\
       rp_preds rep = (if tm_preds (op_mode o) then prs else []) /\
       outputs dbg (mgr_new (op_period o) (S (length (op_metrics o)))) (length exs) = Ok bs /\
       Forall2 (row_after dbg (name_example :: op_metrics o) (points_of exs prs))
         (answered 0 bs ++ (if tm_quiet (op_mode o) then [] else [length exs])) (rp_rows rep)) /\
    (tm_quiet (op_mode o) = true -> tm_preds (op_mode o) = false -> rp_preds rep = [] /\ rp_rows rep = []).
Proof.
  intros gc0 c R r o gc text rep EW RE E.
  unfold train_from in E. binv E. destruct v as (ps & need). binv E. rename v into st0. binv E. rename v into cs.
  binv E. destruct v as (st1 & ds1). cbn [fst snd] in *. binv E. rename v into st. inversion E; subst rep. cbn [rp_preds rp_rows rp_model]. clear E.
  rename B into EP, B0 into ES, B1 into EC, B2 into EL, B3 into E.
  destruct (chunks_pieces O (op_format o) _ r text) as (cs' & EC' & PI). rewrite EC' in EC. cbn [opt_or] in EC. inversion EC; subst cs'.
  destruct (get_parser_ok _ _ _ _ _ _ EP) as (OK & QP).
  pose proof (reach_elems _ _ _ _ _ _ EW RE) as K.
  unfold train_start in ES. binv ES. rename v into ms0. inversion ES; subst st0. clear ES EC.
  assert (FM : Forall2 (fun m0 m : metric O => add_points m0 [] = Ok m) ms0 ms0) by (clear; induction ms0; constructor; auto).
  destruct (loop_progress dbg (op_mode o) _ _ ms0 _ cs (mkTs r [] ms0 (mgr_new (op_period o) (length ms0))) [] st1 ds1 [] QP K (Forall_nil _) FM EL)
    as (exs & X1 & X2 & X3 & X4). cbn [t_red t_preds t_mgr t_metrics app length] in *.
  exists ps, need, cs, exs, (t_red st). split; auto. split; auto. split; [exact X1|]. split; [now rewrite (end_inv _ _ _ _ _ E)|].
  split; auto. split.
  - intros Q. assert (MD : negb (tm_quiet (op_mode o)) || tm_preds (op_mode o) = true) by (destruct Q as [-> | ->]; [reflexivity|apply orb_true_r]).
    destruct (X3 MD) as (prs & Y1 & Y2 & YL & YM & bs & rows & YO & YR & YF).
    exists prs, bs. split; auto.
    assert (LN : length ms0 = S (length (op_metrics o))).
    { clear - B. apply Proof_Progress.mapm_F2 in B. apply F2_len in B. simpl in B. auto. }
    rewrite LN in *. cbn [mgr_new mg_rows app] in YR.
    assert (RN : forall k row, row_ms dbg ms0 (points_of exs prs) k row -> row_after dbg (name_example :: op_metrics o) (points_of exs prs) k row)
      by (intros k row; now apply rows_named).
    assert (YF' : Forall2 (row_after dbg (name_example :: op_metrics o) (points_of exs prs)) (answered 0 bs) rows)
      by (clear - YF RN; induction YF; constructor; auto).
    unfold train_end in E. destruct (tm_quiet (op_mode o)).
    + inversion E; subst st1. split; auto. split; auto. rewrite YR, app_nil_r. exact YF'.
    + binv E. binv E. inversion E; subst. cbn [t_preds t_mgr]. split; auto. split; auto.
      unfold add_results in B1. destruct (Nat.eqb _ _); [|discriminate]. inversion B1; subst. cbn [mg_rows].
      apply Forall2_app; auto. constructor; [|constructor]. apply RN.
      rewrite <- (app_nil_r (points_of exs prs)). eapply row_intro; [exact YL|exact YM|exact B0].
  - intros Q1 Q2. rewrite Q1, Q2 in X4. cbn [negb orb] in X4. destruct (X4 eq_refl) as (Y1 & Y2).
    unfold train_end in E. rewrite Q1 in E. inversion E; subst. auto.
Qed.

Lemma from_complete : forall gc0 (c : rcfg O) R r o gc text ps need cs (exs : list (example O)) prs bs rows,
  ws_new H dbg gc0 c = Ok R -> reach dbg (projT2 R) r ->
  get_parser H pf rd al dbg (op_format o) gc r = Ok (ps, need) ->
  pieces (op_format o) (is_multiline (td_in_feats (red_types r)) (td_in_label (red_types r))) text cs ->
  Forall2 (fun chunk ex => ps [] chunk = Ok (fst ex, Some (snd ex))) cs exs ->
  progressive dbg r exs prs ->
  Forall (fun name => exists m0 m, get_metric name = Some m0 /\ add_points m0 (points_of exs prs) = Ok m) (name_example :: op_metrics o) ->
  outputs dbg (mgr_new (op_period o) (S (length (op_metrics o)))) (length exs) = Ok bs ->
  Forall2 (row_after dbg (name_example :: op_metrics o) (points_of exs prs)) (answered 0 bs ++ [length exs]) rows ->
  exists rep, train_from H pf rd al dbg o gc r text = Ok rep.
Proof.
  intros gc0 c R r o gc text ps need cs exs prs bs rows EW RE EP PI X1 X2 FN XO XR.
  pose proof (reach_elems _ _ _ _ _ _ EW RE) as K.
  destruct (get_parser_ok _ _ _ _ _ _ EP) as (OK & QP).
  destruct (chunks_pieces O (op_format o) _ r text) as (cs' & EC & PI'). rewrite (pieces_fun _ _ _ _ _ PI' PI) in EC. clear PI' cs'.
  assert (EM : exists ms0, mapm (fun name => opt_or PNone (@get_metric O name)) (name_example :: op_metrics o) = Ok ms0 /\
             Forall (fun m0 => exists m, add_points m0 (points_of exs prs) = Ok m) ms0).
  { clear - FN. induction FN as [|nm l (m0 & m & A & B) FN (ms0 & I1 & I2)]; [exists []; split; [reflexivity|constructor]|].
    exists (m0 :: ms0). cbn [mapm]. rewrite A. cbn [opt_or bind]. rewrite I1. split; [reflexivity|]. constructor; eauto. }
  destruct EM as (ms0 & EM & FA).
  assert (LN : length ms0 = S (length (op_metrics o))) by (pose proof (Proof_Progress.mapm_F2 _ _ _ _ _ EM) as Q; apply F2_len in Q; simpl in Q; auto).
  assert (PL : length (points_of exs prs) = length exs).
  { clear - X2. unfold points_of. rewrite map_length. induction X2; simpl; auto. }
  apply Forall2_app_inv_l in XR. destruct XR as (rows1 & rows2 & R1 & R2 & ->).
  assert (R1' : Forall2 (row_ms dbg ms0 ([] ++ points_of exs prs)) (answered 0 bs) rows1).
  { cbn [app]. clear - R1 EM. induction R1; constructor; auto. eapply named_rows; eauto. }
  assert (R2' : exists row, row_ms dbg ms0 (points_of exs prs) (length exs) row).
  { inversion R2 as [|? row ? ? HR]; subst. exists row. eapply named_rows; eauto. }
  destruct R2' as (row & HR).
  assert (FM : Forall2 (fun m0 m : metric O => add_points m0 [] = Ok m) ms0 ms0) by (clear; induction ms0; constructor; auto).
  unfold train_from, train_start. rewrite EP. cbn [bind]. rewrite EM. cbn [bind]. rewrite LN, EC. cbn [opt_or bind fst snd].
  destruct (negb (tm_quiet (op_mode o)) || tm_preds (op_mode o)) eqn:MD.
  - destruct (loop_complete dbg (op_mode o) ps need ms0 _ exs cs
        (mkTs r [] ms0 (mgr_new (op_period o) (S (length (op_metrics o))))) [] [] prs bs rows1) as (st' & ds' & Z1 & Z2 & Z3); auto.
    rewrite Z1. cbn [bind fst]. unfold train_end. destruct (tm_quiet (op_mode o)); [cbn [bind]; eauto|].
    rewrite <- (app_nil_r (points_of exs prs)) in HR.
    destruct (row_elim dbg ms0 _ _ _ _ _ PL Z3 HR) as (V & LV). rewrite V. cbn [bind]. unfold add_results.
    rewrite LV, Z2, Nat.eqb_refl. cbn [bind]. eauto.
  - assert (EQ : op_mode o = Proof_Train.quiet) by (destruct (op_mode o) as [[|] [|]]; try discriminate; reflexivity).
    rewrite EQ.
    assert (LL : exists r', learned dbg r exs r').
    { clear - X2. induction X2 as [|? ? ? ? ? ? ? ? ? ? ? ? (r' & I)]; [eexists; constructor|]. eexists; econstructor; eauto. }
    destruct LL as (r' & LL).
    destruct (loop_complete_quiet dbg ps need _ exs cs
        (mkTs r [] ms0 (mgr_new (op_period o) (S (length (op_metrics o))))) [] r') as (st' & ds' & Z1); auto.
    rewrite Z1. cbn [bind fst]. unfold train_end. cbn [Proof_Train.quiet tm_quiet bind]. eauto.
Qed.

(** a quiet run without predictions finishes exactly if the examples can be learned from *)
Lemma from_quiet : forall n (r : red O n) o gc text ps need cs (exs : list (example O)) r' ms,
  op_mode o = Proof_Train.quiet ->
  mapm (fun name => opt_or PNone (@get_metric O name)) (name_example :: op_metrics o) = Ok ms ->
  get_parser H pf rd al dbg (op_format o) gc r = Ok (ps, need) ->
  pieces (op_format o) (is_multiline (td_in_feats (red_types r)) (td_in_label (red_types r))) text cs ->
  Forall2 (fun chunk ex => ps [] chunk = Ok (fst ex, Some (snd ex))) cs exs ->
  learned dbg r exs r' -> exists rep, train_from H pf rd al dbg o gc r text = Ok rep.
Proof.
  intros n r o gc text ps need cs exs r' ms EQ EM EP PI X1 X2.
  destruct (get_parser_ok _ _ _ _ _ _ EP) as (OK & QP).
  destruct (chunks_pieces O (op_format o) _ r text) as (cs' & EC & PI'). rewrite (pieces_fun _ _ _ _ _ PI' PI) in EC. clear PI' cs'.
  unfold train_from, train_start. rewrite EP. cbn [bind]. rewrite EM. cbn [bind]. rewrite EC. cbn [opt_or bind fst snd]. rewrite EQ.
  destruct (loop_complete_quiet dbg ps need _ exs cs (mkTs r [] ms (mgr_new (op_period o) (length ms))) [] r') as (st' & ds' & Z1); auto.
  rewrite Z1. cbn [bind fst]. unfold train_end. cbn [Proof_Train.quiet tm_quiet bind]. eauto.
Qed.

(** ** learning in parts *)
Lemma learned_app : forall n (r : red O n) a r1, learned dbg r a r1 -> forall b r2, learned dbg r1 b r2 -> learned dbg r (a ++ b) r2.
Proof. induction 1; intros b r2 Lb; cbn [app]; auto. econstructor; eauto. Qed.
Lemma learned_split : forall a n (r : red O n) b r2, learned dbg r (a ++ b) r2 -> exists r1, learned dbg r a r1 /\ learned dbg r1 b r2.
Proof.
  induction a as [|x a IH]; intros n r b r2 L; cbn [app] in L; [exists r; split; [constructor|auto]|].
  inversion L; subst. destruct (IH _ _ _ _ H5) as (r3 & A & B). exists r3. split; auto. econstructor; eauto.
Qed.
Lemma progressive_app : forall n (r : red O n) a pa, progressive dbg r a pa -> forall r1, learned dbg r a r1 ->
  forall b pb, progressive dbg r1 b pb -> progressive dbg r (a ++ b) (pa ++ pb).
Proof.
  induction 1; intros rr L b pb Pb; inversion L; subst; cbn [app]; auto. assert (r2 = r1) by congruence. subst r2. econstructor; eauto.
Qed.
Lemma learned_reach : forall n (r0 r : red O n) l r', reach dbg r0 r -> learned dbg r l r' -> reach dbg r0 r'.
Proof. intros n r0 r l r' RE L. induction L; auto. apply IHL. econstructor; eauto. Qed.
Lemma learned_types : forall n (r : red O n) l r', learned dbg r l r' -> red_types r' = red_types r.
Proof.
  intros n r l r' L. induction L; auto. rewrite IHL. apply ws_learn_ok in H0. apply learn_shape in H0.
  unfold red_types. destruct n; cbn [shape red_w] in *; destruct H0 as (-> & _); reflexivity.
Qed.
End P.

(** ** binary32: models on disk *)
Section B.
Context (e l : b32 -> b32) (p : b32 -> b32 -> b32).
Local Notation O := (BF e l p).
Context (H : hasher) (pf : str -> option O) (rd : str -> option (json O)) (al : alloc) (dbg : bool).
Local Notation cr := (crel (O := O) bZr).

Lemma bH1' : bPa (@f0 O). Proof. split; [vm_compute; exact I|discriminate]. Qed.
Lemma bH3' : forall k, bQ k (@f0 O).
Proof. intros k. destruct k as [|[|[|[|[|[|[|[|k]]]]]]]]; cbn [bQ]; repeat split; try discriminate; exact I. Qed.
Lemma bH5' : forall x y : O, Spec_Weights.zero_same x y -> bZr x y.
Proof. intros x y Z. apply zero_same_b32 in Z. exact Z. Qed.

Lemma cr_predict : forall dbg (c c' : coin O) f, cr c c' -> coin_predict dbg c f = coin_predict dbg c' f.
Proof. exact (predict_coin (O := O) bZr bPa bH1' (bH2 e l p)). Qed.
Lemma cr_learn : forall dbg (c c' : coin O) f v w, cr c c' -> orel cr (coin_learn dbg c f v w) (coin_learn dbg c' f v w).
Proof. exact (learn_coin (O := O) bZr bH5'). Qed.
Lemma rr_types : forall n (r r' : red O n), rrel cr n r r' -> red_types r = red_types r'.
Proof. intros n r r' R. unfold red_types. destruct n; cbn [rrel red_w] in *; destruct R as (-> & _); reflexivity. Qed.
Lemma trel_saved : forall w w' : dweights O, trel (O := O) bZr w w' -> sv_from_dense (dw_w w') = sv_from_dense (dw_w w).
Proof.
  intros w w' (_ & _ & _ & _ & _ & _ & _ & L & Z & _). unfold sv_from_dense. rewrite L. f_equal.
  revert L Z. generalize (dw_w w') (dw_w w). intros a b. revert a. generalize 0%N.
  induction b as [|y b IH]; intros k [|x a] L Z; try discriminate; auto. cbn [enum_from filter snd].
  assert (L' : length a = length b) by (cbn [length] in L; lia).
  assert (Z' : forall j, (j < length b)%nat -> bZr (nth j b (@f0 O)) (nth j a (@f0 O))) by (intros j Hj; exact (Z (S j) ltac:(cbn [length]; lia))).
  pose proof (fun k => IH k a L' Z') as IH'. rewrite IH'.
  destruct (Z 0%nat ltac:(cbn [length]; lia)) as [E|((s & E1) & E2)]; cbn [nth] in *.
  - now rewrite E.
  - rewrite E1, E2. destruct s; reflexivity.
Qed.
Lemma rr_saved : forall n (r r' : red O n), rrel cr n r r' -> ws_save n r' = ws_save n r.
Proof.
  induction n as [|n IH]; intros r r' R; cbn [rrel ws_save] in *; destruct R as (E & R).
  - rewrite E. f_equal. unfold coin_save. destruct R as (T & ->). now rewrite (trel_saved _ _ T).
  - now rewrite E, (IH _ _ R).
Qed.

Definition srel {n} (a b : tstate O n) : Prop :=
  rrel cr n (t_red a) (t_red b) /\ t_preds a = t_preds b /\ t_metrics a = t_metrics b /\ t_mgr a = t_mgr b.
Lemma ws_learn_rr : forall n (r r' : red O n) f lb, rrel cr n r r' ->
  orel (fun u v => rrel cr n (fst u) (fst v) /\ snd u = snd v) (ws_learn dbg r f lb) (ws_learn dbg r' f lb).
Proof.
  intros n r r' f lb R. unfold ws_learn. pose proof (learn_rel cr (fun d c c' => cr_learn d c c') dbg n r r' f lb 0 0 R) as L.
  destruct L as [((x & f') & d') ((y & g') & e') (E1 & E2 & E3)| |]; cbn [bind fst snd] in *; try constructor. subst. split; auto.
Qed.
Lemma ws_ptl_rr : forall n (r r' : red O n) f lb, rrel cr n r r' ->
  orel (fun u v => rrel cr n (snd (fst u)) (snd (fst v)) /\ fst (fst u) = fst (fst v) /\ snd u = snd v) (ws_ptl dbg r f lb) (ws_ptl dbg r' f lb).
Proof.
  intros n r r' f lb R. unfold ws_ptl. pose proof (ptl_rel cr cr_predict cr_learn dbg n r r' f lb 0 0 R) as L.
  destruct L as [(((q & x) & f') & d') (((q' & y) & g') & e') ((E0 & E1) & E2 & E3)| |]; cbn [bind fst snd] in *; try constructor. subst. split; auto.
Qed.
Lemma process_rr : forall md n (a b : tstate O n) f lb, srel a b ->
  orel (fun u v => srel (fst u) (fst v) /\ snd u = snd v) (process_example dbg md a f lb) (process_example dbg md b f lb).
Proof.
  intros md n a b f lb (R & E1 & E2 & E3). unfold process_example. destruct lb as [lb|]; cbn [opt_or bind]; [|constructor].
  destruct (negb (tm_quiet md) || tm_preds md).
  - eapply orel_bind; [apply ws_ptl_rr; exact R|]. intros ((q & x) & f') ((q' & y) & g') (R' & Q1 & Q2). cbn [fst snd] in *. subst q' g'.
    rewrite E1, E2, E3. destruct (mapm _ (t_metrics b)); cbn [bind]; [|constructor..].
    destruct (inc_iteration dbg (t_mgr b)); cbn [bind]; [|constructor..].
    match goal with |- orel _ (bind ?X _) _ => destruct X; cbn [bind]; [|constructor..] end. constructor. cbn [fst snd]. split; auto. repeat split; auto.
  - eapply orel_bind; [apply ws_learn_rr; exact R|]. intros (x & f') (y & g') (R' & Q2). cbn [fst snd] in *. subst g'.
    constructor. cbn [fst snd]. split; auto. repeat split; auto.
Qed.
Lemma loop_rr : forall md ps need n cs (a b : tstate O n) ds, srel a b ->
  orel (fun u v => srel (fst u) (fst v)) (train_loop dbg md ps need cs (a, ds)) (train_loop dbg md ps need cs (b, ds)).
Proof.
  intros md ps need n cs a b ds S. unfold train_loop.
  apply orel_mono with (R := fun u v => srel (fst u) (fst v) /\ snd u = snd v); [|intros ? ? X; apply X].
  apply orel_foldm; [split; auto|]. intros c (x & dx) (y & dy) _ (S1 & E). cbn [fst snd] in *. subst dy. unfold train_chunk. cbn [fst snd].
  destruct (unwrap_res (ps dx c)) as [u| |]; cbn [bind]; [|constructor..].
  eapply orel_bind; [apply process_rr; exact S1|]. intros (x' & f') (y' & g') (S2 & E2). cbn [fst snd] in *. subst g'. constructor. split; auto.
Qed.
Lemma from_rr : forall o gc n (r r' : red O n) text, rrel cr n r r' ->
  train_from H pf rd al dbg o gc r text = train_from H pf rd al dbg o gc r' text.
Proof.
  intros o gc n r r' text R. unfold train_from. rewrite (get_parser_types H pf rd al dbg (op_format o) gc n r r' (rr_types _ _ _ R)).
  destruct (get_parser _ _ _ _ _ _ _ r') as [pn| |]; cbn [bind]; auto. unfold train_start.
  destruct (mapm _ (name_example :: op_metrics o)) as [ms| |]; cbn [bind]; auto.
  replace (chunks_of (op_format o) r text) with (chunks_of (op_format o) r' text)
    by (unfold chunks_of; now rewrite (rr_types _ _ _ R)).
  destruct (opt_or PNone (chunks_of (op_format o) r' text)) as [cs| |]; cbn [bind]; auto.
  assert (S : srel (mkTs r [] ms (mgr_new (op_period o) (length ms))) (mkTs r' [] ms (mgr_new (op_period o) (length ms)))) by (repeat split; auto).
  pose proof (loop_rr (op_mode o) (fst pn) (snd pn) n cs _ _ [] S) as Q.
  destruct Q as [(x & dx) (y & dy) Q| |]; cbn [bind fst snd] in *; auto.
  destruct Q as (Q1 & Q2 & Q3 & Q4). unfold train_end. rewrite Q3, Q4. destruct (tm_quiet (op_mode o)); cbn [bind].
  - unfold saved. now rewrite Q2, Q4, (rr_saved _ _ _ Q1).
  - destruct (mapm _ (t_metrics y)); cbn [bind]; auto. destruct (add_results _ (t_mgr y)); cbn [bind t_preds t_mgr t_red]; auto.
    unfold saved. now rewrite Q2, (rr_saved _ _ _ Q1).
Qed.

Lemma known_load : forall gc0 (c : rcfg O) R r gc, ws_new H dbg gc0 c = Ok R -> reach dbg (projT2 R) r ->
  exists r', open_source H dbg (FromModel (saved gc r)) = Ok (gc, existT _ _ r') /\ rrel cr _ r r'.
Proof.
  intros gc0 c R r gc E Q. pose proof (reach_tinv (O := O) bQ bH3' (bH4 e l p) H dbg gc0 c R r E Q) as T.
  destruct (ws_reload (O := O) bZr bQ bH5' (bH6 e l p) eq_refl _ r T) as (r' & L & Rr & _).
  exists r'. split; auto. unfold open_source, saved. cbn [mo_stack mo_gc projT2 projT1]. rewrite L. reflexivity.
Qed.
Lemma command_reload : forall gc (c : rcfg O) R r o text, ws_new H dbg gc c = Ok R -> reach dbg (projT2 R) r ->
  train_command H pf rd al dbg o (FromModel (saved gc r)) text = train_from H pf rd al dbg o gc r text.
Proof.
  intros gc c R r o text E Q. destruct (known_load gc c R r gc E Q) as (r' & L & Rr). unfold train_command. rewrite L. cbn [bind fst snd projT2].
  symmetry. now apply from_rr.
Qed.

(** ** sources *)
(** the source stands for this workspace *)
Definition stands (s : source O) (gc : gconfig) (R : anyred O) (r : red O (projT1 R)) : Prop :=
  (exists c, ws_new H dbg gc c = Ok R) /\ reach dbg (projT2 R) r /\
  (forall o text, train_command H pf rd al dbg o s text = train_from H pf rd al dbg o gc r text) /\
  (forall multi, takes_multi H dbg s multi -> multi = is_multiline (td_in_feats (red_types r)) (td_in_label (red_types r))).
Lemma saved_stands : forall gc (c : rcfg O) R r, ws_new H dbg gc c = Ok R -> reach dbg (projT2 R) r -> stands (FromModel (saved gc r)) gc R r.
Proof.
  intros gc c R r E Q. split; [eauto|]. split; auto. split; [intros; eapply command_reload; eauto|].
  intros multi (gc' & R' & EO & ->). destruct (known_load gc c R r gc E Q) as (r' & L & Rr). rewrite L in EO. inversion EO; subst. cbn [projT2].
  now rewrite (rr_types _ _ _ Rr).
Qed.
Lemma source_stands : forall s o text rep, source_ok H dbg s -> train_command H pf rd al dbg o s text = Ok rep -> exists gc R r, stands s gc R r.
Proof.
  intros [gc c|m] o text rep K E.
  - unfold train_command, open_source in E. binv E. binv B. inversion B; subst. exists gc, v0, (projT2 v0). split; [eauto|]. split; [constructor|].
    split; [intros; unfold train_command, open_source; rewrite B0; reflexivity|].
    intros multi (gc' & R' & EO & ->). cbn [open_source] in EO. rewrite B0 in EO. inversion EO; subst. reflexivity.
  - destruct K as (gc & c & R & r & E1 & E2 & ->). exists gc, R, r. eapply saved_stands; eauto.
Qed.

Lemma command_known : forall s o text rep, source_ok H dbg s -> train_command H pf rd al dbg o s text = Ok rep -> known H dbg (rp_model rep).
Proof.
  intros s o text rep K E. destruct (source_stands _ _ _ _ K E) as (gc & R & r & (c & EW) & RE & ST & _). rewrite ST in E.
  destruct (from_progressive H pf rd al dbg _ _ _ _ _ _ _ _ EW RE E) as (ps & need & cs & exs & r' & _ & _ & _ & L & M & _).
  exists gc, c, R, r'. split; auto. split; auto. eapply learned_reach; eauto.
Qed.

Lemma sessions_learned : forall fmt preds s texts ps s', sessions H dbg pf rd al fmt preds s texts ps s' ->
  forall gc R r multi, stands s gc R r -> multi = is_multiline (td_in_feats (red_types r)) (td_in_label (red_types r)) ->
  Forall (closed fmt multi) (removelast texts) -> texts <> [] ->
  exists pr need cs exs r', get_parser H pf rd al dbg fmt gc r = Ok (pr, need) /\
    pieces fmt multi (concat texts) cs /\ Forall2 (fun chunk ex => pr [] chunk = Ok (fst ex, Some (snd ex))) cs exs /\
    learned dbg r exs r' /\ s' = FromModel (saved gc r') /\ (if preds then progressive dbg r exs ps else ps = []).
Proof.
  induction 1 as [s|s o text rep texts ps s' EF EP E SS IH]; intros gc R r multi ST EM CL NE; [congruence|].
  destruct ST as ((c & EW) & RE & ST & TM). rewrite ST in E.
  destruct (from_progressive H pf rd al dbg _ _ _ _ _ _ _ _ EW RE E) as (pr & need & cs & exs & r' & X1 & X2 & X3 & X4 & X5 & X6 & X7).
  rewrite EF in *. rewrite EP in *.
  assert (PS : if preds then progressive dbg r exs (rp_preds rep) else rp_preds rep = []).
  { destruct preds.
    - destruct (X6 (or_intror eq_refl)) as (prs & bs & Y1 & -> & _). exact Y1.
    - destruct (tm_quiet (op_mode o)); [now apply X7|]. destruct (X6 (or_introl eq_refl)) as (prs & bs & _ & -> & _). reflexivity. }
  clear X6 X7. rewrite <- EM in X2.
  destruct texts as [|t2 texts].
  - inversion SS; subst. exists pr, need, cs, exs, r'. cbn [concat]. rewrite app_nil_r. repeat split; auto; [now rewrite X5|].
    rewrite app_nil_r. exact PS.
  - assert (RE' : reach dbg (projT2 R) r') by (eapply learned_reach; eauto).
    pose proof (saved_stands gc c R r' EW RE') as ST'. rewrite <- X5 in ST'.
    assert (ET : red_types r' = red_types r) by (eapply learned_types; eauto).
    change (removelast (text :: t2 :: texts)) with (text :: removelast (t2 :: texts)) in CL. inversion CL as [|? ? CL1 CL2]; subst x l0.
    destruct (IH gc R r' multi ST') as (pr' & need' & cs' & exs' & r2 & Y1 & Y2 & Y3 & Y4 & Y5 & Y6); auto.
    { now rewrite ET. }
    { discriminate. }
    rewrite (get_parser_types H pf rd al dbg fmt gc _ r' r ET), X1 in Y1. inversion Y1; subst pr' need'.
    exists pr, need, (cs ++ cs'), (exs ++ exs'), r2. split; auto. split; [cbn [concat]; now apply pieces_app|].
    split; [now apply Forall2_app|]. split; [eapply learned_app; eauto|]. split; auto.
    destruct preds; [eapply progressive_app; eauto|]. now rewrite PS, Y6.
Qed.
Lemma sessions_one : forall fmt preds s texts ps s' multi o rep,
  source_ok H dbg s -> takes_multi H dbg s multi -> sessions H dbg pf rd al fmt preds s texts ps s' ->
  texts <> [] -> Forall (closed fmt multi) (removelast texts) -> op_format o = fmt -> tm_preds (op_mode o) = preds ->
  train_command H pf rd al dbg o s (concat texts) = Ok rep -> s' = FromModel (rp_model rep) /\ ps = rp_preds rep.
Proof.
  intros fmt preds s texts ps s' multi o rep K TM SS NE CL EF EP E.
  destruct (source_stands _ _ _ _ K E) as (gc & R & r & ST). pose proof ST as ((c & EW) & RE & ST1 & ST2).
  pose proof (ST2 _ TM) as EM. destruct (sessions_learned _ _ _ _ _ _ SS gc R r multi ST EM CL NE) as (pr & need & cs & exs & r' & Y1 & Y2 & Y3 & Y4 & Y5 & Y6).
  rewrite ST1 in E.
  destruct (from_progressive H pf rd al dbg _ _ _ _ _ _ _ _ EW RE E) as (pr' & need' & cs' & exs' & r2 & X1 & X2 & X3 & X4 & X5 & X6 & X7).
  rewrite EF in *. rewrite EP in *. rewrite X1 in Y1. inversion Y1; subst pr' need'. rewrite <- EM in X2.
  rewrite (pieces_fun _ _ _ _ _ X2 Y2) in X3. rewrite (parsed_fun _ _ _ X3 _ Y3) in *.
  rewrite (learned_fun _ _ _ _ _ _ X4 Y4) in X5. split; [now rewrite X5|]. destruct preds.
  - destruct (X6 (or_intror eq_refl)) as (prs & bs & Z1 & -> & _). eapply progressive_fun; eauto.
  - rewrite Y6. destruct (tm_quiet (op_mode o)); [symmetry; now apply X7|]. destruct (X6 (or_introl eq_refl)) as (prs & bs & _ & -> & _). reflexivity.
Qed.

Lemma F2_split : forall A B (Q : A -> B -> Prop) a b q, Forall2 Q (a ++ b) q -> exists x y, q = x ++ y /\ Forall2 Q a x /\ Forall2 Q b y.
Proof. intros A B Q a b q F. apply Forall2_app_inv_l in F. destruct F as (x & y & F1 & F2 & ->). eauto. Qed.
Lemma sessions_quiet : forall s multi o t1 t2, source_ok H dbg s -> takes_multi H dbg s multi ->
  op_mode o = mkMode true false -> closed (op_format o) multi t1 ->
  ((exists rep, train_command H pf rd al dbg o s (t1 ++ t2) = Ok rep) <->
   exists rep1 rep2, train_command H pf rd al dbg o s t1 = Ok rep1 /\ train_command H pf rd al dbg o (FromModel (rp_model rep1)) t2 = Ok rep2).
Proof.
  intros s multi o t1 t2 K TM EQ CL.
  assert (MS : forall (R : anyred O) (r : red O (projT1 R)) gc text rep, train_from H pf rd al dbg o gc r text = Ok rep ->
            exists ms, mapm (fun name => opt_or PNone (@get_metric O name)) (name_example :: op_metrics o) = Ok ms).
  { intros R r gc text rep E. unfold train_from, train_start in E. binv E. binv E. binv B0. eauto. }
  split.
  - intros (rep & E). destruct (source_stands _ _ _ _ K E) as (gc & R & r & (c & EW) & RE & ST1 & ST2). pose proof (ST2 _ TM) as EM. rewrite ST1 in E.
    destruct (MS _ _ _ _ _ E) as (ms & EMS).
    destruct (from_progressive H pf rd al dbg _ _ _ _ _ _ _ _ EW RE E) as (pr & need & cs & exs & r2 & X1 & X2 & X3 & X4 & X5 & _). rewrite <- EM in X2.
    destruct (chunks_pieces O (op_format o) _ r t1) as (cs1 & _ & P1), (chunks_pieces O (op_format o) _ r t2) as (cs2 & _ & P2). rewrite <- EM in P1, P2.
    rewrite (pieces_fun _ _ _ _ _ X2 (pieces_app _ _ _ _ _ _ CL P1 P2)) in X3.
    destruct (F2_split _ _ _ _ _ _ X3) as (e1 & e2 & -> & F1 & F2). destruct (learned_split dbg _ _ _ _ _ X4) as (r1 & L1 & L2).
    rewrite EM in P1, P2.
    destruct (from_quiet H pf rd al dbg _ r o gc t1 pr need cs1 e1 r1 ms EQ EMS X1 P1 F1 L1) as (rep1 & E1).
    assert (M1 : rp_model rep1 = saved gc r1).
    { destruct (from_progressive H pf rd al dbg _ _ _ _ _ _ _ _ EW RE E1) as (pr' & need' & cs' & exs' & r2' & Y1 & Y2 & Y3 & Y4 & Y5 & _).
      rewrite X1 in Y1. inversion Y1; subst pr' need'. rewrite (pieces_fun _ _ _ _ _ Y2 P1) in Y3. rewrite (parsed_fun _ _ _ Y3 _ F1) in Y4.
      now rewrite (learned_fun _ _ _ _ _ _ Y4 L1) in Y5. }
    assert (RE1 : reach dbg (projT2 R) r1) by (eapply learned_reach; eauto).
    assert (ET : red_types r1 = red_types r) by (eapply learned_types; eauto).
    assert (X1' : get_parser H pf rd al dbg (op_format o) gc r1 = Ok (pr, need)) by (rewrite (get_parser_types H pf rd al dbg _ gc _ r1 r ET); auto).
    rewrite <- ET in P2.
    destruct (from_quiet H pf rd al dbg _ r1 o gc t2 pr need cs2 e2 r2 ms EQ EMS X1' P2 F2 L2) as (rep2 & E2).
    exists rep1, rep2. split; [now rewrite ST1|]. rewrite M1, (command_reload gc c R r1 o t2 EW RE1). exact E2.
  - intros (rep1 & rep2 & E1 & E2). destruct (source_stands _ _ _ _ K E1) as (gc & R & r & ST). pose proof ST as ((c & EW) & RE & ST1 & ST2).
    pose proof (ST2 _ TM) as EM.
    assert (SS : sessions H dbg pf rd al (op_format o) false s [t1; t2] (rp_preds rep1 ++ rp_preds rep2 ++ []) (FromModel (rp_model rep2))).
    { econstructor; [reflexivity|now rewrite EQ|exact E1|]. econstructor; [reflexivity|now rewrite EQ|exact E2|constructor]. }
    destruct (sessions_learned _ _ _ _ _ _ SS gc R r multi ST EM) as (pr & need & cs & exs & r' & Y1 & Y2 & Y3 & Y4 & _); [constructor; [exact CL|constructor]|discriminate|].
    rewrite ST1 in E1. destruct (MS _ _ _ _ _ E1) as (ms & EMS).
    rewrite EM in Y2. cbn [concat] in Y2. rewrite app_nil_r in Y2.
    destruct (from_quiet H pf rd al dbg _ r o gc (t1 ++ t2) pr need cs exs r' ms EQ EMS Y1 Y2 Y3 Y4) as (rep & E). exists rep. now rewrite ST1.
Qed.

End B.

(** Training: pools, quiet runs (C03, C22, C38). *)
From Coq Require Import List NArith ZArith Bool Lia.
From Verif Require Import Base FloatOps Model_Hash Model_Features Model_Weights Model_Types Model_Explore
  Model_Coin Model_Stack Model_Factory Model_Text Model_Metrics Model_Train Spec_Features Spec_Stack Spec_Text
  Proof_Features Proof_FeaturesHist Proof_StackCong Proof_StackRestore Proof_StackPtl Proof_StackProps
  Proof_Loose Proof_TextFeats Proof_TextChunk.
Import ListNotations.

Section P.
Context {O : FOps}.
Implicit Types (f g : features O).

(** ** C22 without separability *)
Definition pgood f : Prop := match f with FtsSimple a => fwf a | FtsCb s x => loosef s x end.
Lemma pgood_wf : forall f, pgood f -> ftwf f.
Proof. intros [a|s x] H; auto. now apply cbwf_ftwf, H. Qed.

Lemma open_no_hidden : forall m : sfeats O, fwf m -> no_hidden m -> open m.
Proof.
  intros m W N k s E Z. apply (N k s E). apply (iter_size k); [now apply W|exact Z].
Qed.

Lemma loose_pgood : forall f, built_fts f -> loose f -> pgood f.
Proof.
  intros [a|s x]; simpl; [intros B _; now apply built_wf|]. intros (Bx & Bs) (Lx & Ls). split; [split|].
  - apply Forall_forall. intros a Ha. destruct (Lx a Ha). split; [now apply built_wf, Bx|].
    apply no_composite_noraw; auto. now apply built_wf, Bx.
  - destruct s as [sh|]; auto. split; [now apply built_wf|]. apply no_composite_noraw; [now apply built_wf|tauto].
  - destruct s as [sh|]; auto. split; [apply open_no_hidden; [now apply built_wf|tauto]|].
    apply Forall_forall. intros a Ha. destruct (Lx a Ha). apply open_no_hidden; auto. now apply built_wf, Bx.
Qed.

Lemma ws_ptl_agrees : forall dbg n (r : red O n) f lb, elems_ok n r -> pgood f ->
  (forall p r' f', ws_ptl dbg r f lb = Ok (p, r', f') ->
     exists f1 f2, ws_predict dbg r f = Ok (p, f1) /\ ws_learn dbg r f lb = Ok (r', f2)) /\
  (forall p f1 r' f2, ws_predict dbg r f = Ok (p, f1) -> ws_learn dbg r f lb = Ok (r', f2) ->
     exists f', ws_ptl dbg r f lb = Ok (p, r', f')).
Proof.
  intros dbg n r f lb K G.
  assert (Q : ptl_agrees dbg n r f lb 0).
  { destruct f as [a|s x]; [|now apply ptl_loose].
    destruct (ptl_ok dbg n r (FtsSimple a) lb 0 K G eq_refl) as (A & B). split.
    - intros p r' f' d' H. destruct (A _ _ _ _ H) as (f1 & f2 & E1 & E2 & _). eauto.
    - intros p f1 d1 r' f2 d2 H1 H2. destruct (B _ _ _ _ _ _ H1 H2) as (f' & E & _). eauto. }
  destruct Q as (A & B). split.
  - intros p r' f' X. apply ws_ptl_ok in X. destruct (A _ _ _ _ X) as (f1 & f2 & E1 & E2).
    exists f1, f2. rewrite ws_predict_ok, ws_learn_ok. auto.
  - intros p f1 r' f2 X Y. apply ws_predict_ok in X. apply ws_learn_ok in Y.
    destruct (B _ _ _ _ _ _ X Y) as (f' & E1). exists f'. now rewrite ws_ptl_ok.
Qed.

Lemma ptl_is_predict_learn_loose : forall H dbg gc (c : rcfg O) R r f lb,
  ws_new H dbg gc c = Ok R -> reach dbg (projT2 R) r -> built_fts f -> loose f ->
  (forall p r' f', ws_ptl dbg r f lb = Ok (p, r', f') ->
     exists f1 f2, ws_predict dbg r f = Ok (p, f1) /\ ws_learn dbg r f lb = Ok (r', f2)) /\
  (forall p f1 r' f2, ws_predict dbg r f = Ok (p, f1) -> ws_learn dbg r f lb = Ok (r', f2) ->
     exists f', ws_ptl dbg r f lb = Ok (p, r', f')).
Proof.
  intros H dbg gc c R r f lb E Q B L. apply ws_ptl_agrees; [eapply reach_elems; eauto|now apply loose_pgood].
Qed.

(** ** parsers *)
(** Same outcome whatever recycled objects are used, and the features are as above. *)
Definition parser_ok (ps : parser O) : Prop :=
  forall ds es chunk, Forall looks_new ds -> Forall looks_new es ->
    orel (fun u v => fl_sim u v /\ pgood (fst u) /\ pgood (fst v)) (ps ds chunk) (ps es chunk).

Definition pclean (d : sfeats O) : Prop := fwf d /\ noraw d /\ open d.
Lemma looks_new_clean : forall d : sfeats O, looks_new d -> pclean d.
Proof.
  intros d L. split; [apply L|]. split.
  - intros k K. destruct L as (_ & _ & E). now rewrite E.
  - intros k s E Z. pose proof (looks_new_item d k L) as I. unfold item in I. rewrite E in I. subst s.
    exfalso. apply Z. reflexivity.
Qed.
Lemma hd_new : forall ds : list (sfeats O), Forall looks_new ds -> looks_new (hd sf_new ds).
Proof. intros ds F. destruct F; auto. apply fsim_refl, fwf_nil. Qed.

Lemma upd_clean : forall (d : sfeats O) k (g : sfn O -> sfn O), pclean d -> ~ israw k ->
  (forall s, sfn_wf k s -> sfn_wf k (g s)) -> (forall s, sfn_active (g s) = sfn_active s) ->
  pclean (sf_upd_ns k g d).
Proof.
  intros d k g (W & N & Op) Nk Hg Ha. rewrite sf_upd_item.
  assert (W1 : fwf (fm_set k (g (sfn_set_active true (item k d))) d)).
  { apply fwf_set; auto. apply Hg. apply set_active_wf. now apply item_wf. }
  split; auto. split.
  - intros j J. rewrite vget_set. destruct (ns_eqb j k) eqn:E; [|now apply N].
    apply ns_eqb_eq in E; subst. contradiction.
  - intros j s E Z. rewrite fm_get_set in E. destruct (ns_eqb j k); [|eapply Op; eauto].
    inversion E; subst. now rewrite Ha.
Qed.

Context (H : hasher) (pf : str -> option O).

Lemma name_not_raw : forall name seed, ~ israw (ns_from_name H name seed).
Proof.
  intros name seed. unfold ns_from_name. destruct (str_eqb name str_space), (str_eqb name str_default); simpl; tauto.
Qed.

Lemma parse_namespace_clean : forall dbg seed nb d seg d', pclean d ->
  parse_namespace H pf dbg seed nb d seg = Ok d' -> pclean d'.
Proof.
  intros dbg seed nb d seg d' C E. unfold parse_namespace in E. binv E. destruct v as ((name & nsv) & toks).
  binv E. inversion E; subst. clear E.
  assert (I : forall acc acc', pclean (fst acc) ->
     foldm (add_token H pf dbg nb (ns_from_name H name seed) nsv) toks acc = Ok acc' -> pclean (fst acc')).
  { clear. induction toks as [|t toks IH]; intros acc acc' C E; cbn [foldm] in E; [now inversion E; subst|].
    binv E. eapply IH; [|exact E]. unfold add_token in B. binv B. destruct v0 as ((p & v0) & off). binv B. binv B.
    inversion B; subst. cbn [fst]. apply upd_clean; auto using name_not_raw. intros; now apply sfn_add_wf. }
  eapply I; [|exact B0]. cbn [fst]. apply upd_clean; auto using name_not_raw.
Qed.

Lemma parse_line_clean : forall dbg seed nb lt line d l d', pclean d ->
  parse_line H pf dbg seed nb lt line d = Ok (l, d') -> pclean d'.
Proof.
  intros dbg seed nb lt line d l d' C E. unfold parse_line in E. destruct (split_char 124 line) as [|ini segs]; [discriminate|].
  binv E. binv E. inversion E; subst. clear E B. revert d C B0.
  induction segs as [|s segs IH]; intros d C E; cbn [foldm] in E; [now inversion E; subst|].
  binv E. eapply IH; [|exact E]. eapply parse_namespace_clean; eauto.
Qed.

Lemma parse_lines_clean : forall dbg seed nb lt ls ds rs, Forall looks_new ds ->
  parse_lines H pf dbg seed nb lt ls ds = Ok rs -> Forall (fun x => pclean (snd x)) rs.
Proof.
  induction ls as [|l ls IH]; intros ds rs F E; cbn [parse_lines] in E; [inversion E; constructor|].
  binv E. binv E. inversion E; subst. constructor.
  - destruct v as (l0 & d0). eapply parse_line_clean; [|exact B]. now apply looks_new_clean, hd_new.
  - eapply IH; [|exact B0]. destruct F; [constructor|assumption].
Qed.

Lemma clean_loosef : forall (s : option (sfeats O)) x,
  (match s with None => True | Some sh => pclean sh end) -> Forall pclean x -> loosef s x.
Proof.
  intros s x Cs Cx. split; [split|].
  - eapply Forall_impl; [|exact Cx]. intros a (A & B & _); auto.
  - destruct s; auto. destruct Cs as (A & B & _); auto.
  - destruct s; auto. split; [apply Cs|]. eapply Forall_impl; [|exact Cx]. intros a (_ & _ & C); auto.
Qed.

Lemma parse_chunk_good : forall dbg seed nb ft lt ds chunk u, Forall looks_new ds ->
  parse_chunk H pf dbg seed nb ft lt ds chunk = Ok u -> pgood (fst u).
Proof.
  intros dbg seed nb ft lt ds chunk u F E. unfold parse_chunk in E. destruct (is_multiline ft lt) eqn:M.
  - binv E. apply parse_lines_clean in B; auto. unfold finalize_multi in E. rewrite M in E.
    destruct v as [|(l0 & g0) rest]; [discriminate|]. inversion B as [|? ? C0 CR]; subst. cbn [snd] in C0. binv E.
    assert (CM : Forall pclean (map snd rest)) by (clear - CR; induction CR; constructor; auto).
    destruct (fst v); binv E; inversion E; subst; cbn [fst pgood].
    + now apply clean_loosef.
    + apply clean_loosef; [exact Logic.I|]. constructor; auto.
  - binv E. destruct v as (l & d). apply parse_line_clean in B; [|now apply looks_new_clean, hd_new].
    unfold finalize_single in E. cbn [fst snd] in E. destruct l as [[x w|s a]|]; inversion E; subst; apply B.
Qed.

Lemma text_parser_ok : forall dbg seed nb n (r : red O n), parser_ok (text_parser H pf dbg seed nb r).
Proof.
  intros dbg seed nb n r ds es chunk Fd Fe. unfold text_parser.
  pose proof (parse_chunk_sim H pf seed nb dbg (td_in_feats (red_types r)) (td_in_label (red_types r)) chunk ds es Fd Fe) as Q.
  destruct (parse_chunk H pf dbg seed nb _ _ ds chunk) as [u| |] eqn:E1,
           (parse_chunk H pf dbg seed nb _ _ es chunk) as [v| |] eqn:E2; inversion Q; subst; constructor.
  split; auto. split; [exact (parse_chunk_good _ _ _ _ _ _ _ _ Fd E1)|exact (parse_chunk_good _ _ _ _ _ _ _ _ Fe E2)].
Qed.

(** ** processing *)
Lemma feature_count_sim : forall f g, ftsim f g -> feature_count f = feature_count g.
Proof.
  intros [a|s x] [b|t y]; simpl; try tauto.
  - intros S. now rewrite (fsim_all a b).
  - intros (S & F). f_equal.
    + destruct s, t; simpl in S; try tauto. now rewrite (fsim_all s s0).
    + generalize 0%N. induction F as [|a b x y Hab F IH]; intros n; simpl; auto. rewrite (fsim_all a b) by auto. apply IH.
Qed.
Lemma metric_add_sim : forall m f g lb (p : prediction O), ftsim f g -> metric_add m f lb p = metric_add m g lb p.
Proof. intros [v c|c v|c|c] f g lb p S; cbn [metric_add]; auto. now rewrite (feature_count_sim f g). Qed.

Definition stepsim {n} (u v : tstate O n * features O) : Prop := fst u = fst v /\ ftsim (snd u) (snd v).

Lemma mapm_ext : forall A B (f g : A -> out B) l, (forall x, f x = g x) -> mapm f l = mapm g l.
Proof. intros A B f g l E. induction l as [|x l IH]; simpl; auto. now rewrite E, IH. Qed.

Lemma process_sim : forall dbg md n (st : tstate O n) f g lb, ftsim f g ->
  orel stepsim (process_example dbg md st f lb) (process_example dbg md st g lb).
Proof.
  intros dbg md n st f g lb S. unfold process_example. destruct lb as [lb|]; cbn [opt_or bind]; [|constructor].
  destruct (negb (tm_quiet md) || tm_preds md).
  - eapply orel_bind; [apply ws_ptl_sim; exact S|]. intros ((p & r') & f') ((q & r1) & g') (E & S'). cbn [fst snd] in E, S'.
    inversion E; subst. rewrite (mapm_ext _ _ (fun m => metric_add m f' lb q) (fun m => metric_add m g' lb q))
      by (intros; now apply metric_add_sim).
    destruct (mapm (fun m => metric_add m g' lb q) (t_metrics st)) as [ms| |]; cbn [bind]; try constructor.
    destruct (inc_iteration dbg (t_mgr st)) as [sm| |]; cbn [bind]; try constructor.
    match goal with |- orel _ (bind ?X _) _ => destruct X as [mg| |] end; cbn [bind]; constructor. split; auto.
  - eapply orel_bind; [apply ws_learn_sim; exact S|]. intros (r' & f') (r1 & g') (E & S'). cbn [fst snd] in E, S'.
    subst. constructor. split; auto.
Qed.

Lemma clear_looks_new : forall a : sfeats O, fwf a -> looks_new (sf_clear a).
Proof. intros a W. now apply fsim_clear_new. Qed.
Lemma give_back_new : forall f (pool : list (sfeats O)), ftwf f -> Forall looks_new pool -> Forall looks_new (give_back f pool).
Proof.
  intros [a|s x] pool W F; cbn [give_back].
  - constructor; auto. now apply clear_looks_new.
  - destruct W as (Ws & Wx).
    assert (F1 : Forall looks_new (match s with Some s => pool_return (sf_clear s) pool | None => pool end)).
    { destruct s; auto. constructor; auto. now apply clear_looks_new. }
    revert F1. generalize (match s with Some s => pool_return (sf_clear s) pool | None => pool end).
    induction Wx as [|a x Wa Wx IH]; intros l F1; simpl; auto. apply IH. constructor; auto. now apply clear_looks_new.
Qed.
Lemma skipn_new : forall k (ds : list (sfeats O)), Forall looks_new ds -> Forall looks_new (skipn k ds).
Proof. induction k; intros ds F; simpl; auto. destruct F; auto. Qed.

Definition loopsim {n} (u v : tstate O n * list (sfeats O)) : Prop :=
  fst u = fst v /\ Forall looks_new (snd u) /\ Forall looks_new (snd v).

Lemma train_chunk_sim : forall dbg md ps need n (u v : tstate O n * list (sfeats O)) chunk, parser_ok ps ->
  loopsim u v -> orel loopsim (train_chunk dbg md ps need u chunk) (train_chunk dbg md ps need v chunk).
Proof.
  intros dbg md ps need n (st & ds) (st' & es) chunk OK (E & Fd & Fe). cbn [fst snd] in *. subst st'.
  unfold train_chunk. cbn [fst snd].
  pose proof (OK ds es chunk Fd Fe) as Q.
  destruct (ps ds chunk) as [x| |], (ps es chunk) as [y| |]; inversion Q; subst; cbn [unwrap_res bind]; try constructor.
  destruct H2 as ((S & L) & G1 & G2). rewrite L.
  eapply orel_bind; [apply process_sim; exact S|]. intros (s1 & f1) (s2 & f2) (E1 & S1). cbn [fst snd] in *. subst.
  constructor. split; auto. cbn [snd]. split; apply give_back_new; auto using skipn_new; eapply ftsim_wf_l; [|eapply ftsim_sym]; eauto.
Qed.

Lemma train_loop_sim : forall dbg md ps need n chunks (u v : tstate O n * list (sfeats O)), parser_ok ps ->
  loopsim u v -> orel loopsim (train_loop dbg md ps need chunks u) (train_loop dbg md ps need chunks v).
Proof.
  intros dbg md ps need n chunks u v OK S. unfold train_loop. apply orel_foldm; auto.
  intros c x y _ S'. now apply train_chunk_sim.
Qed.

Lemma pooled_Forall : forall ds : list (sfeats O), Forall pooled ds -> Forall looks_new ds.
Proof. intros ds F. eapply Forall_impl; [|exact F]. apply pooled_new. Qed.

(** the pool makes no difference to a whole run *)
Lemma train_pool : forall dbg md seed nb names (p : period O) n (r : red O n) ds es chunks,
  Forall pooled ds -> Forall pooled es ->
  train H pf dbg md seed nb names p r ds chunks = train H pf dbg md seed nb names p r es chunks.
Proof.
  intros dbg md seed nb names p n r ds es chunks Fd Fe. apply orel_eq. unfold train.
  destruct (train_start names p r) as [st| |]; cbn [bind]; try constructor.
  eapply orel_bind; [apply train_loop_sim; [apply text_parser_ok|]|].
  - split; auto. split; now apply pooled_Forall.
  - intros u v (E & _). rewrite E. apply orel_refl. reflexivity.
Qed.

(** ** quiet runs *)
Definition quiet : tmode := mkMode true false.

Lemma process_quiet : forall dbg md n (st st2 : tstate O n) f lb st' f', elems_ok n (t_red st) -> pgood f ->
  t_red st2 = t_red st ->
  process_example dbg md st f lb = Ok (st', f') ->
  exists st2' f2, process_example dbg quiet st2 f lb = Ok (st2', f2) /\ t_red st2' = t_red st' /\
    t_preds st2' = t_preds st2 /\ elems_ok n (t_red st').
Proof.
  intros dbg md n st st2 f lb st' f' K G ER E. unfold process_example in E |- *. destruct lb as [lb|]; cbn [opt_or bind] in E |- *; [|discriminate].
  cbn [quiet tm_quiet tm_preds negb orb]. rewrite ER.
  assert (Q : exists f2, ws_learn dbg (t_red st) f lb = Ok (t_red st', f2)).
  { destruct (negb (tm_quiet md) || tm_preds md).
    - binv E. destruct v as ((p & r') & f1). binv E. binv E. binv E. inversion E; subst. cbn [t_red].
      destruct (proj1 (ws_ptl_agrees dbg n (t_red st) f lb K G) _ _ _ B) as (? & f2 & _ & E2). eauto.
    - binv E. destruct v as (r' & f1). inversion E; subst. cbn [t_red fst]. eauto. }
  destruct Q as (f2 & Q). rewrite Q. cbn [bind fst snd]. eexists. eexists. split; [reflexivity|]. cbn [t_red t_preds].
  split; auto. split; auto. apply ws_learn_ok in Q. pose proof (Proof_StackShape.learn_shape _ _ _ _ _ _ _ _ _ _ Q) as Sh.
  eapply Proof_StackShape.shape_elems_ok; eauto.
Qed.

Lemma loop_quiet : forall dbg md ps need n chunks (st st2 : tstate O n) ds es st' ds', parser_ok ps ->
  elems_ok n (t_red st) -> t_red st2 = t_red st -> Forall looks_new ds -> Forall looks_new es ->
  train_loop dbg md ps need chunks (st, ds) = Ok (st', ds') ->
  exists st2' es', train_loop dbg quiet ps need chunks (st2, es) = Ok (st2', es') /\ t_red st2' = t_red st' /\
    t_preds st2' = t_preds st2.
Proof.
  intros dbg md ps need n chunks. induction chunks as [|c chunks IH]; intros st st2 ds es st' ds' OK K ER Fd Fe E.
  - inversion E; subst. exists st2, es. auto.
  - unfold train_loop in E |- *. cbn [foldm] in E |- *. binv E. destruct v as (st1 & ds1).
    unfold train_chunk in B at 1. cbn [fst snd] in B. binv B. binv B. destruct v0 as (st1' & f1). inversion B; subst. clear B.
    unfold train_chunk at 1. cbn [fst snd].
    pose proof (OK ds es c Fd Fe) as Q. destruct v as (f & lb).
    destruct (ps ds c) as [u| |] eqn:EP; try discriminate. cbn [unwrap_res] in B0. inversion B0; subst u. clear B0.
    inversion Q as [u w ((S & L) & G1 & G2) Eu Ew| |]; subst. destruct w as (g & lb'). cbn [fst snd] in *. subst lb'.
    cbn [unwrap_res bind fst snd].
    destruct (process_quiet dbg md n st st2 f lb st1 f1 K G1 ER B1) as (s2 & f2 & P & R2 & P2 & K2).
    pose proof (process_sim dbg quiet n st2 f g lb S) as Q2. rewrite P in Q2.
    inversion Q2 as [u w (E1 & S1) Eu Ew2| |]; subst. destruct w as (s2' & g2). cbn [fst snd] in *. subst s2'.
    cbn [bind fst snd].
    assert (W1 : ftwf f1).
    { pose proof (process_sim dbg md n st f f lb (ftsim_refl f (pgood_wf f G1))) as Q3. rewrite B1 in Q3.
      inversion Q3 as [? ? (_ & S3)| |]; subst. cbn [snd] in S3. eapply ftsim_wf_l; eauto. }
    destruct (IH st1 s2 (give_back f1 (skipn (need c) ds)) (give_back g2 (skipn (need c) es)) st' ds' OK K2 R2) as (s3 & es3 & E3 & R3 & P3).
    + apply give_back_new; auto using skipn_new.
    + apply give_back_new; auto using skipn_new. eapply ftsim_wf_r; eauto.
    + exact E.
    + exists s3, es3. split; [exact E3|]. split; auto. congruence.
Qed.

Lemma start_ok : forall names (p : period O) n (r : red O n), Forall (fun nm => @get_metric O nm <> None) names ->
  exists st, train_start names p r = Ok st /\ t_red st = r /\ t_preds st = [].
Proof.
  intros names p n r F. unfold train_start.
  assert (Q : exists ms, mapm (fun name => opt_or PNone (@get_metric O name)) (name_example :: names) = Ok ms).
  { assert (F' : Forall (fun nm => @get_metric O nm <> None) (name_example :: names)) by (constructor; [discriminate|auto]).
    clear F. induction F' as [|x l Hx F' IH]; [eexists; reflexivity|]. cbn [mapm].
    destruct (get_metric x); [|congruence]. cbn [opt_or bind]. destruct IH as (ms & ->). cbn [bind]. eauto. }
  destruct Q as (ms & ->). cbn [bind]. eexists. split; [reflexivity|]. auto.
Qed.
Lemma start_inv : forall names (p : period O) n (r : red O n) st, train_start names p r = Ok st -> t_red st = r.
Proof. intros names p n r st E. unfold train_start in E. binv E. now inversion E. Qed.
Lemma end_inv : forall dbg md n (st st' : tstate O n), train_end dbg md st = Ok st' -> t_red st' = t_red st.
Proof.
  intros dbg md n st st' E. unfold train_end in E. destruct (tm_quiet md); [now inversion E|]. binv E. binv E. now inversion E.
Qed.

Lemma quiet_same_model : forall gc (c : rcfg O) dbg R r md names names' (p p' : period O) seed nb ds es chunks st,
  ws_new H dbg gc c = Ok R -> reach dbg (projT2 R) r ->
  Forall pooled ds -> Forall pooled es -> Forall (fun nm => @get_metric O nm <> None) names' ->
  train H pf dbg md seed nb names p r ds chunks = Ok st ->
  exists st', train H pf dbg quiet seed nb names' p' r es chunks = Ok st' /\ t_red st' = t_red st /\ t_preds st' = [].
Proof.
  intros gc c dbg R r md names names' p p' seed nb ds es chunks st EW RE Fd Fe FN E.
  unfold train in E |- *. binv E. rename v into st0. binv E. destruct v as (st1 & ds1). cbn [fst] in E.
  pose proof (reach_elems _ _ _ _ _ _ EW RE) as K.
  pose proof (start_inv _ _ _ _ _ B) as R0.
  destruct (start_ok names' p' _ r FN) as (st2 & E2 & R2 & P2). rewrite E2. cbn [bind].
  destruct (loop_quiet dbg md (text_parser H pf dbg seed nb r) (text_need r) (projT1 R) chunks st0 st2 ds es st1 ds1)
    as (st3 & es3 & E3 & R3 & P3);
    [apply text_parser_ok|now rewrite R0|congruence|now apply pooled_Forall|now apply pooled_Forall|exact B0|].
  rewrite E3. cbn [bind fst]. unfold train_end. cbn [tm_quiet quiet]. exists st3. split; auto.
  rewrite (end_inv _ _ _ _ _ E). split; auto. congruence.
Qed.

Lemma all_modes_same_model : forall gc (c : rcfg O) dbg R r md md' names names' (p p' : period O) seed nb ds es chunks st st',
  ws_new H dbg gc c = Ok R -> reach dbg (projT2 R) r ->
  Forall pooled ds -> Forall pooled es ->
  train H pf dbg md seed nb names p r ds chunks = Ok st ->
  train H pf dbg md' seed nb names' p' r es chunks = Ok st' ->
  t_red st = t_red st'.
Proof.
  intros gc c dbg R r md md' names names' p p' seed nb ds es chunks st st' EW RE Fd Fe E1 E2.
  destruct (quiet_same_model gc c dbg R r md names [] p p seed nb ds [] chunks st EW RE Fd (Forall_nil _) (Forall_nil _) E1) as (s1 & Q1 & R1 & _).
  destruct (quiet_same_model gc c dbg R r md' names' [] p' p seed nb es [] chunks st' EW RE Fe (Forall_nil _) (Forall_nil _) E2) as (s2 & Q2 & R2 & _).
  congruence.
Qed.

End P.

(** ** examples *)
From Verif Require Import FloatB32.
(* shared |a x / 0:1:2 |a |b y / (space) |b z *)
Definition ex_chunk : str :=
  [115; 104; 97; 114; 101; 100; 32; 124; 97; 32; 120; 10; 48; 58; 49; 58; 50; 32; 124; 97; 32; 124; 98; 32; 121; 10; 32; 124; 98; 32; 122].

Lemma ex_train :
  exists R, ws_new ex_hash false ex_gc ex_cfg = Ok R /\
    ok_of (train ex_hash ex_pf false (mkMode false true) 0 4 [name_ips; name_parsed] (Additive 1) (projT2 R) []
      [ex_chunk; ex_chunk]) = true /\
    Forall (fun nm => @get_metric BF0 nm <> None) [name_ips; name_parsed].
Proof.
  destruct (ws_new ex_hash false ex_gc ex_cfg) as [R|e|e] eqn:E; [|vm_compute in E; discriminate..].
  exists R. split; [reflexivity|]. split; [|repeat constructor; discriminate].
  vm_compute in E. inversion E; subst; clear E. vm_compute; reflexivity.
Qed.

Lemma quiet_converse_refuted :
  exists (R : anyred BF0) (chunks : list str) st, ws_new ex_hash false ex_gc ex_cfg = Ok R /\
    train ex_hash ex_pf false (mkMode true false) 0 4 [] (Additive 1) (projT2 R) [] chunks = Ok st /\
    exists e, train ex_hash ex_pf false (mkMode false false) 0 4 [] (Additive 1) (projT2 R) [] chunks = Pn e.
Proof.
  destruct (ws_new ex_hash false ex_gc ex_cfg) as [R|e|e] eqn:E; [|vm_compute in E; discriminate..].
  exists R, []. eexists. split; [reflexivity|]. split; [reflexivity|]. eexists. reflexivity.
Qed.

Lemma ex_loose :
  built_fts ex_fts_empty /\ loose ex_fts_empty /\
  exists R, ws_new ex_hash false ex_gc ex_cfg = Ok R /\
    ok_of (ws_ptl false (projT2 R) ex_fts_empty ex_lb) = true.
Proof.
  split; [|split].
  - split; intros; [|apply ex_built_empty]. simpl in H. destruct H as [<-|[<-|[]]]; apply ex_built_empty.
  - assert (Q : forall i, i = 0%nat \/ i = 1%nat \/ i = 2%nat -> no_composite (ex_store_empty i) /\ no_hidden (ex_store_empty i)).
    { intros i Hi. split.
      - intros h s. destruct Hi as [->|[->| ->]]; concrete.
      - intros k s. destruct Hi as [->|[->| ->]]; concrete; intros Q; inversion Q; subst; auto. }
    split; [|apply Q; auto]. intros a Ha. simpl in Ha. destruct Ha as [<-|[<-|[]]]; apply Q; auto.
  - destruct (ws_new ex_hash false ex_gc ex_cfg) as [R|e|e] eqn:E; [|vm_compute in E; discriminate..].
    exists R. split; [reflexivity|]. vm_compute in E. inversion E; subst; clear E. vm_compute; reflexivity.
Qed.

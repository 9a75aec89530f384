(** Python programs: objects can be taken for values (C74). *)
From Coq Require Import List NArith PeanoNat Bool Lia.
From Verif Require Import Base FloatOps FloatB32 Model_Hash Model_Features Model_Types Model_Stack Model_Text Model_Metrics Model_Train Model_Json
  Model_Interactions Model_Weights Model_Loss Model_Explore Model_Coin Model_Factory Model_Config Model_Save Model_Export Model_Python
  Spec_Features Spec_Stack Spec_Text Spec_Json Spec_Total Spec_Progress Spec_Python Spec_Values Proof_Hash Proof_Features Proof_FeaturesHist Proof_StackCong Proof_StackRestore Proof_StackPtl
  Proof_StackShape Proof_StackProps Proof_Loose
  Proof_TextParse Proof_TextFeats Proof_TextChunk Proof_Train Proof_JsonPlan Proof_Json Proof_JsonChunk Proof_DsJson Proof_JsonTrain Proof_Progress Proof_Python
  Spec_Empty Proof_Empty Proof_EmptyProps.
Import ListNotations.
Open Scope N_scope.

Lemma foldm_last : forall A B (f : B -> A -> out B) l a b, foldm f (l ++ [a]) b = let* x := foldm f l b in f x a.
Proof. induction l as [|y l IH]; intros a b; simpl; [destruct (f b a); auto|]. destruct (f b y); simpl; auto. Qed.

(** ** what a debug build leaves *)
Section D.
Context {O : FOps}.
Implicit Types (a b : sfeats O) (f g h : features O).

Lemma wl_trans : forall a b c, wl a b -> wl b c -> wl a c.
Proof.
  intros a b c (Wa & Wb & E) (_ & Wc & E'). split; auto. split; auto. intros k.
  assert (I : forall x y : sfeats O, fwf x -> fwf y -> vget k x = vget k y -> item k x = item k y) by (intros x y Wx Wy Q; now rewrite !item_vget, Q).
  destruct (E k) as [Q|(Z1 & Z2 & Z3)], (E' k) as [Q'|(Y1 & Y2 & Y3)].
  - left. congruence.
  - right. split; auto. now rewrite (I a b Wa Wb Q).
  - right. rewrite <- (I b c Wb Wc Q'). auto.
  - right. auto.
Qed.
Lemma ftwl_trans : forall f g h, ftwl f g -> ftwl g h -> ftwl f h.
Proof.
  intros [a|s x] [b|t y] [c|u z]; simpl; try tauto. intros (A & B) (A' & B'). split.
  - destruct s, t, u; simpl in *; try tauto. eapply wl_trans; eauto.
  - clear A A'. revert z B'. induction B; intros z B'; inversion B'; subst; constructor; eauto using wl_trans.
Qed.
Lemma ptl_wl : forall dbg n (r : red O n) s x lb d mo y f' d', elems_ok n r -> loosef s x ->
  predict_then_learn dbg n r (FtsCb s x) lb d mo = Ok (y, f', d') -> ftwl (FtsCb s x) f'.
Proof.
  induction n as [|n IH]; intros r s x lb d mo y f' d' K G E.
  - destruct r as (w & c). cbn [predict_then_learn] in E. apply wrap_ok in E. destruct E as (d1 & d2 & E). discriminate.
  - destruct r as ((w & k) & ch). cbn [predict_then_learn] in E. apply wrap_ok in E. destruct E as (d1 & d2 & E).
    destruct K as (K1 & K2). cbn [fst snd] in K1, K2.
    binv E. destruct v as ((p0 & g) & e). destruct p0 as (p0 & (k' & ch')). inversion E; subst. clear E.
    destruct (default_or k) as [D|Cases].
    + assert (DFT : kind_ptl dbg k (predict dbg n) (learn dbg n) (predict_then_learn dbg n) ch (FtsCb s x) lb d1 mo =
          default_ptl (fun f d => kind_predict dbg k (predict dbg n ch) f d mo)
            (fun f d => kind_learn dbg k (learn dbg n) ch f lb d mo) (FtsCb s x) d1)
        by (destruct k; simpl in D; tauto || reflexivity).
      rewrite DFT in B. unfold default_ptl in B. binv B. destruct v as ((p1 & f1) & e1). binv B. destruct v as ((x0 & f2) & e2).
      destruct (e2 =? d1)%N; inversion B; subst. clear B DFT.
      destruct (kind_predict_loose _ _ _ _ _ _ _ _ _ _ _ K2 G B0) as (z & -> & F).
      apply ftwl_trans with (FtsCb s z).
      * apply cosim_ftwl; auto. apply G.
      * eapply (kind_learn_wl _ (elems_ok n)); [| |exact K2|eapply loosef_cosim; eauto|exact B1].
        -- intros c0 s0 lb0 d0 mo0 c' f0 e0 P0 W0 E0. eapply (learn_restore dbg n c0 (FtsSimple s0)); eauto.
        -- intros; eapply learn_wl; eauto. eapply loosef_cosim; eauto.
    + destruct Cases as [->|[->|(one & two & keep & nb & ->)]]; cbn [kind_ptl] in B.
      * binv B. binv B. destruct v0 as (((q & c') & g) & e). binv B. inversion B; subst. eapply IH; eauto.
      * binv B. destruct v as (((q & c') & g) & e). inversion B; subst. eapply IH; eauto.
      * binv B. cbn [elem_frame as_simple bind] in B0. discriminate.
Qed.

Lemma debug_predict : forall n (r : red O n) f p f', elems_ok n r -> qgood f -> ws_predict true r f = Ok (p, f') -> ftsim f f'.
Proof.
  intros n r f p f' K (G & Nr) E. apply ws_predict_ok in E. destruct f as [a|s x].
  - pose proof (predict_restore _ _ _ (FtsSimple a) _ _ _ _ _ K G E) as Q. destruct f' as [a1|]; [|now simpl in Q]. simpl. now apply rr_fsim.
  - destruct n as [|n].
    + destruct r as (w & c). cbn [predict] in E. apply wrap_ok in E. destruct E as (d1 & d2 & E). discriminate.
    + destruct r as ((w & k) & ch). cbn [predict] in E. apply wrap0_ok in E; [|reflexivity]. destruct E as (E & C).
      cbn [andb] in C. apply negb_false_iff in C. destruct K as (_ & K2). cbn [fst snd] in K2.
      destruct (kind_predict_loose _ _ _ _ _ _ _ _ _ _ _ K2 G E) as (z & -> & F).
      apply (ftwl_keys f32_eps); auto. apply cosim_ftwl; auto. apply G.
Qed.
Lemma debug_learn : forall n (r : red O n) f lb r' f', elems_ok n r -> qgood f -> ws_learn true r f lb = Ok (r', f') -> ftsim f f'.
Proof.
  intros n r f lb r' f' K (G & Nr) E. apply ws_learn_ok in E. destruct f as [a|s x].
  - pose proof (proj2 (learn_restore _ _ _ (FtsSimple a) _ _ _ _ _ _ K G E)) as Q. destruct f' as [a1|]; [|now simpl in Q]. simpl. now apply rr_fsim.
  - pose proof (learn_wl _ _ _ _ _ _ _ _ _ _ _ K G E) as W. apply (ftwl_keys f32_eps); auto.
    destruct n as [|n].
    + destruct r as (w & c). cbn [learn] in E. apply wrap_ok in E. destruct E as (d1 & d2 & E). discriminate.
    + destruct r as ((w & k) & ch). cbn [learn] in E. apply wrap0_ok in E; [|reflexivity]. destruct E as (E & C).
      cbn [andb] in C. now apply negb_false_iff in C.
Qed.
Lemma debug_ptl : forall n (r : red O n) f lb p r' f', elems_ok n r -> qgood f -> ws_ptl true r f lb = Ok (p, r', f') -> ftsim f f'.
Proof.
  intros n r f lb p r' f' K (G & Nr) E. apply ws_ptl_ok in E. destruct f as [a|s x].
  - destruct (proj1 (ptl_ok true n r (FtsSimple a) lb 0 K G eq_refl) _ _ _ _ E) as (f1 & f2 & E1 & _ & S & _).
    pose proof (predict_restore _ _ _ (FtsSimple a) _ _ _ _ _ K G E1) as Q. destruct f1 as [a1|]; [|now simpl in Q].
    eapply ftsim_trans; [|apply ftsim_sym; exact S]. simpl. now apply rr_fsim.
  - pose proof (ptl_wl _ _ _ _ _ _ _ _ _ _ _ K G E) as W. apply (ftwl_keys f32_eps); auto.
    destruct n as [|n].
    + destruct r as (w & c). cbn [predict_then_learn] in E. apply wrap_ok in E. destruct E as (d1 & d2 & E). discriminate.
    + destruct r as ((w & k) & ch). cbn [predict_then_learn] in E. apply wrap0_ok in E; [|reflexivity]. destruct E as (E & C).
      cbn [andb] in C. now apply negb_false_iff in C.
Qed.
End D.

Section V.
Context {O : FOps} (H : hasher) (dbg : bool) (pf : str -> option O) (rd : str -> option (json O)) (al : alloc).
Local Notation heap := (list (option (pyobj O))).
Local Notation mem := (list (option (value O))).
(** how an object stands for the value of features; what is known of workspaces, features *)
Context (frel : features O -> features O -> Prop) (Q : forall n, red O n -> Prop) (G : features O -> Prop).
Context (F_new : frel (FtsSimple sf_new) (FtsSimple sf_new)) (F_cb : frel (FtsCb None []) (FtsCb None []))
  (F_parse : forall fm ft lt seed nb s f lb, new_ps H dbg pf rd al fm ft lt seed nb s = Ok (f, lb) -> frel f f)
  (F_predict : forall n (r : red O n) x f, Q n r -> G x -> frel x f ->
     orel (fun u v => fst u = fst v /\ frel x (snd v)) (ws_predict dbg r x) (ws_predict dbg r f))
  (F_learn : forall n (r : red O n) x f lb, Q n r -> G x -> frel x f ->
     orel (fun u v => fst u = fst v /\ frel x (snd v)) (ws_learn dbg r x lb) (ws_learn dbg r f lb))
  (F_ptl : forall n (r : red O n) x f lb, Q n r -> G x -> frel x f ->
     orel (fun u v => fst u = fst v /\ frel x (snd v)) (ws_ptl dbg r x lb) (ws_ptl dbg r f lb))
  (F_agree : forall n (r : red O n) x f lb, Q n r -> G x -> frel x f ->
     (forall p r' x', ws_ptl dbg r x lb = Ok (p, r', x') -> exists x1 x2, ws_predict dbg r x = Ok (p, x1) /\ ws_learn dbg r x lb = Ok (r', x2)) /\
     (forall p x1 r' x2, ws_predict dbg r x = Ok (p, x1) -> ws_learn dbg r x lb = Ok (r', x2) -> exists x', ws_ptl dbg r x lb = Ok (p, r', x')))
  (F_shape : forall n (r r' : red O n), shape n r r' -> Q n r -> Q n r').
Context (P : mem -> Prop).
Context (P_feats : forall m i x, P m -> val m i = Some (VFeats x) -> G x)
  (P_ws : forall m i gc ex R seen, P m -> val m i = Some (VWs gc ex R seen) -> Q (projT1 R) (projT2 R)).

Definition ovrel (o : option (pyobj O)) (v : option (value O)) : Prop :=
  match o, v with
  | Some (OFeats f), Some (VFeats x) => frel x f
  | Some (OLabel l), Some (VLabel l') => l = l'
  | Some (OPred p), Some (VPred p') => p = p'
  | Some (OParser a b c d e), Some (VParser a' b' c' d' e') => a = a' /\ b = b' /\ c = c' /\ d = d' /\ e = e'
  | Some (OWs gc ex R), Some (VWs gc' ex' R0 seen) =>
      gc = gc' /\ ex = ex' /\ exists r, now dbg (projT2 R0) seen = Ok r /\ R = existT _ (projT1 R0) r /\ Q _ r /\ red_types r = red_types (projT2 R0)
  | None, None => True
  | _, _ => False
  end.
Definition hv (h : heap) (m : mem) : Prop := Forall2 ovrel h m.
Lemma hv_len : forall h m, hv h m -> length h = length m.
Proof. intros h m S. induction S; simpl; auto. Qed.
Lemma hv_app : forall h m a b, hv h m -> Forall2 ovrel a b -> hv (h ++ a) (m ++ b).
Proof. intros. now apply Forall2_app. Qed.
Lemma hv_get : forall h m i, hv h m -> ovrel (py_get h i) (val m i).
Proof.
  intros h m i S. unfold py_get, val. revert i. induction S as [|x y h m K S IH]; intros [|i]; simpl; auto.
  destruct x, y; auto.
Qed.
Lemma hv_upd_l : forall h m i a, hv h m -> (forall b, nth_error m i = Some b -> ovrel a b) -> hv (upd i a h) m.
Proof.
  intros h m i a S. revert i. induction S as [|x y h m K1 S IH]; intros [|i] K; simpl.
  - constructor.
  - constructor.
  - constructor; [exact (K _ eq_refl)|exact S].
  - constructor; [exact K1|]. apply IH. intros b E. exact (K b E).
Qed.
Lemma hv_store : forall h m i a b, hv h m -> (i < length m)%nat -> ovrel a b -> hv (upd i a h) (store m i b).
Proof.
  intros h m i a b S. revert i. induction S; intros [|i] L K; simpl in *; try lia; unfold store; simpl; constructor; auto.
  apply IHS; auto. lia.
Qed.
Lemma val_len : forall (m : mem) i v, val m i = Some v -> (i < length m)%nat.
Proof. intros m i v E. unfold val in E. apply nth_error_Some. destruct (nth_error m i); congruence. Qed.
Lemma val_nth : forall (m : mem) i v b, val m i = Some v -> nth_error m i = Some b -> b = Some v.
Proof. intros m i v b E N. unfold val in E. rewrite N in E. auto. Qed.

Definition vcrel (x : option (pyres O * option heap)) (y : option (pyres O * option mem)) : Prop :=
  match x, y with
  | None, None => True
  | Some (r, h), Some (r', m) => r = r' /\ match h, m with Some h, Some m => hv h m | None, None => True | _, _ => False end
  | _, _ => False
  end.
(** a call on fine memory, whose outcome is fine again *)
Definition okout (y : option (pyres O * option mem)) : Prop := match y with Some (_, Some m) => P m | _ => True end.

Lemma val_last : forall (m : mem) v, val (m ++ [Some v]) (length m) = Some v.
Proof. intros. unfold val. rewrite nth_error_app2 by lia. now rewrite Nat.sub_diag. Qed.

Lemma v_same : forall (r : pyres O) h m, hv h m -> vcrel (Some (py_same h r)) (Some (says m r)).
Proof. intros. split; auto. Qed.
Lemma v_new : forall o v h m, hv h m -> ovrel (Some o) (Some v) -> vcrel (Some (py_new h o)) (Some (gives m v)).
Proof. intros o v h m S K. split; [now rewrite (hv_len _ _ S)|]. apply hv_app; auto. Qed.
Lemma v_made : forall ex x h m, hv h m -> okout (Some (made m ex x)) -> vcrel (Some (py_made h ex x)) (Some (made m ex x)).
Proof.
  intros ex x h m S K. unfold py_made, made in *. destruct x as [(gc & R)| |]; cbn [unwrap_res]; [|now apply v_same..].
  apply v_new; auto. cbn. split; auto. split; auto. exists (projT2 R). split; auto. split; [now destruct R|]. split; auto.
  cbn in K. eapply P_ws; [exact K|apply val_last].
Qed.
Lemma v_parser : forall fm ft lt seed nb h m, hv h m -> vcrel (Some (py_parser h fm ft lt seed nb)) (Some (parser_made m fm ft lt seed nb)).
Proof.
  intros fm ft lt seed nb h m S. unfold py_parser, parser_made. destruct fm, ft, lt; first [now apply v_same|apply v_new; auto; repeat split].
Qed.
Lemma v_pred : forall p h m, hv h m -> vcrel (Some (py_pred h p)) (Some (predicted m p)).
Proof. intros p h m S. unfold py_pred, predicted. destruct p; first [now apply v_same|apply v_new; auto; reflexivity]. Qed.
Lemma v_parsed : forall f lb h m, hv h m -> frel f f -> vcrel (Some (py_parsed h f lb)) (Some (parsed m f lb)).
Proof.
  intros f lb h m S K. unfold py_parsed, parsed. pose proof (hv_len _ _ S) as L.
  destruct lb as [[]|]; cbn [label_type_of]; first [now apply v_same|split; [rewrite L; f_equal; f_equal; lia|]|split; [now rewrite L|]]; apply hv_app; auto; repeat constructor; auto.
Qed.

Lemma now_snoc : forall n (r : red O n) seen x lb,
  now dbg r (seen ++ [(x, lb)]) = let* r1 := now dbg r seen in let* z := ws_learn dbg r1 x lb in Ok (fst z).
Proof. intros. unfold now. now rewrite foldm_last. Qed.

Lemma learn_types : forall n (r : red O n) f lb d mo r' f' d', learn dbg n r f lb d mo = Ok (r', f', d') -> red_types r' = red_types r.
Proof. intros n r f lb d mo r' f' d' E. apply learn_shape in E. unfold red_types. destruct n; cbn [shape red_w] in *; destruct E as (-> & _); reflexivity. Qed.

Ltac look h m i S := let K := fresh "K" in pose proof (hv_get h m i S) as K;
  destruct (py_get h i) as [[?f|?l|?p|?gc ?ex ?R|?fm ?ft ?lt ?seed ?nb]|], (val m i) as [[?x|?l|?p|?gc ?ex ?R ?seen|?fm ?ft ?lt ?seed ?nb]|] eqn:?EV; cbn [ovrel] in K; try contradiction; cbn [option_map].

Lemma learn_keeps : forall n (r : red O n) x lb r' x', Q n r -> ws_learn dbg r x lb = Ok (r', x') -> Q n r' /\ red_types r' = red_types r.
Proof.
  intros n r x lb r' x' K E. apply ws_learn_ok in E. split; [|eapply learn_types; eauto].
  eapply F_shape; [|exact K]. eapply learn_shape; eauto.
Qed.
Lemma value_sim : forall ord op h m, hv h m -> P m -> okout (value_call H dbg pf rd al ord m op) ->
  vcrel (py_call H dbg sf_new (new_ps H dbg pf rd al) ord h op) (value_call H dbg pf rd al ord m op).
Proof.
  intros ord op h m S F K. destruct op; cbn [py_call value_call] in *; try (apply v_new; auto; reflexivity); try (apply v_made; auto; fail).
  - destruct s as ((gc & ex) & s). now apply v_made.
  - look h m w S; try exact Logic.I; try now apply v_same. destruct K0 as (-> & -> & r & E & -> & _). rewrite E. now apply v_same.
  - look h m w S; try exact Logic.I; try now apply v_same. destruct K0 as (-> & -> & r & E & -> & _). rewrite E. cbn [bind].
    destruct (ws_export dbg ord ex0 gc0 (existT _ (projT1 R0) r)); now apply v_same.
  - now apply v_parser.
  - look h m w S; try exact Logic.I; try now apply v_same. destruct K0 as (-> & -> & r & E & -> & _ & T). cbn [projT1 projT2]. rewrite T. now apply v_parser.
  - look h m p S; try exact Logic.I; try now apply v_same. destruct K0 as (-> & -> & -> & -> & ->).
    destruct (new_ps H dbg pf rd al fm0 ft0 lt0 seed0 nb0 s) as [(x & lb)| |] eqn:EP; try now apply v_same. apply v_parsed; auto. eapply F_parse; eauto.
  - look h m w S; look h m f S; try exact Logic.I; try now apply v_same. destruct K0 as (-> & -> & r & E & -> & QR & T). cbn [projT1 projT2] in *. rewrite E. cbn [bind].
    pose proof (F_predict _ r _ _ QR (P_feats _ _ _ F EV0) K1) as W.
    destruct (ws_predict dbg r x) as [(p & x1)| |] eqn:E1, (ws_predict dbg r f0) as [(p' & f1)| |] eqn:E2; inversion W as [? ? (W1 & W2)| |]; subst; try (split; auto; fail).
    cbn [fst snd] in *. subst p'. apply v_pred. apply hv_upd_l; auto. intros b Eb. apply (val_nth _ _ _ _ EV0) in Eb. subst b. exact W2.
  - look h m w S; look h m f S; look h m l S; try exact Logic.I; try now apply v_same. destruct K0 as (-> & -> & r & E & -> & QR & T). cbn [projT1 projT2] in *. subst l1.
    rewrite now_snoc, E in *. cbn [bind] in *. pose proof (P_feats _ _ _ F EV0) as GX.
    pose proof (F_ptl _ r _ _ l0 QR GX K1) as W. destruct (F_agree _ r x f0 l0 QR GX K1) as (A & B).
    destruct (ws_ptl dbg r x l0) as [((p & r1) & x1)| |] eqn:E1, (ws_ptl dbg r f0 l0) as [((p' & r1') & f1)| |] eqn:E2; inversion W as [? ? (W1 & W2)| |]; subst.
    + cbn [fst snd] in *. inversion W1; subst p' r1'. destruct (A _ _ _ eq_refl) as (g1 & g2 & G1 & G2).
      rewrite G1, G2 in *. cbn [bind fst snd] in *.
      pose proof (val_len _ _ _ EV) as LW. apply v_pred. apply hv_store; auto.
      * apply hv_upd_l; auto. intros b Eb. apply (val_nth _ _ _ _ EV0) in Eb. subst b. exact W2.
      * cbn. split; auto. split; auto. exists r1. rewrite now_snoc, E. cbn [bind]. rewrite G2. split; auto. split; auto.
        destruct (learn_keeps _ _ _ _ _ _ QR G2) as (Q1 & Q2). split; auto. congruence.
    + destruct (ws_predict dbg r x) as [(p & x1)| |] eqn:X, (ws_learn dbg r x l0) as [(r1 & x2)| |] eqn:Y; cbn [bind] in *; try (destruct (B _ _ _ _ eq_refl eq_refl); discriminate); split; auto.
    + destruct (ws_predict dbg r x) as [(p1 & x1)| |] eqn:X, (ws_learn dbg r x l0) as [(r1 & x2)| |] eqn:Y; cbn [bind] in *; try (destruct (B _ _ _ _ eq_refl eq_refl); discriminate); split; auto.
  - look h m w S; look h m f S; look h m l S; try exact Logic.I; try now apply v_same. destruct K0 as (-> & -> & r & E & -> & QR & T). cbn [projT1 projT2] in *. subst l1.
    rewrite now_snoc, E in *. cbn [bind] in *.
    pose proof (F_learn _ r _ _ l0 QR (P_feats _ _ _ F EV0) K1) as W.
    destruct (ws_learn dbg r x l0) as [(r1 & x1)| |] eqn:E1, (ws_learn dbg r f0 l0) as [(r1' & f1)| |] eqn:E2; inversion W as [? ? (W1 & W2)| |]; subst; cbn [bind fst snd] in *; try (split; auto; fail).
    subst r1'. pose proof (val_len _ _ _ EV) as LW. destruct (learn_keeps _ _ _ _ _ _ QR E1) as (Q1 & Q2).
    apply v_same. apply hv_store; auto.
    + apply hv_upd_l; auto. intros b Eb. apply (val_nth _ _ _ _ EV0) in Eb. subst b. exact W2.
    + cbn. split; auto. split; auto. exists r1. rewrite now_snoc, E. cbn [bind]. rewrite E1. split; auto. split; auto. split; auto. congruence.
  - look h m w S; try exact Logic.I; try now apply v_same. destruct K0 as (-> & -> & r & E & -> & _ & T). cbn [projT1 projT2]. rewrite T. now apply v_same.
  - look h m i S; try exact Logic.I; try (apply v_same; exact S); subst; apply v_same; exact S.
  - look h m i S; try exact Logic.I; apply v_same; apply hv_store; auto; try exact Logic.I; eapply val_len; eauto.
Qed.

Lemma value_runs : forall ops h m, hv h m -> P m -> during H dbg pf rd al P ops m ->
  new_run H dbg pf rd al ops h = value_run H dbg pf rd al ops m.
Proof.
  induction ops as [|(ord & op) ops IH]; intros h m S F FR; [reflexivity|]. cbn [new_run value_run during] in *.
  assert (K : okout (value_call H dbg pf rd al ord m op)).
  { unfold okout. destruct (value_call _ _ _ _ _ _ _ _) as [(r & [m'|])|]; auto. apply FR. }
  pose proof (value_sim ord op h m S F K) as C. unfold okout in K.
  destruct (py_call _ _ _ _ _ _ _) as [(r & [h'|])|], (value_call _ _ _ _ _ _ _ _) as [(r' & [m'|])|]; cbn in C; try tauto; destruct C as (-> & C); try contradiction; auto.
  f_equal. apply IH; auto. apply FR.
Qed.
End V.

(** ** the three cases *)
Section C.
Context {O : FOps} (H : hasher) (dbg : bool) (pf : str -> option O) (rd : str -> option (json O)) (al : alloc).
Local Notation mem := (list (option (value O))).

Lemma named_ok : forall n (r : red O n), named_elems n r -> elems_ok n r.
Proof.
  induction n as [|n IH]; intros r K; [exact Logic.I|]. destruct r as ((wi & k) & r). cbn [named_elems elems_ok fst snd] in *. destruct K as (K & L).
  split; [|now apply IH]. destruct k; simpl; auto. destruct K as (A & B).
  split; intros X; [destruct one as [|h|]|destruct two as [|h|]]; try contradiction; [now apply (A h)|now apply (B h)].
Qed.
Lemma new_ps_wf : forall fm ft lt seed nb s f lb, new_ps H dbg pf rd al fm ft lt seed nb s = Ok (f, lb) -> ftsim f f.
Proof.
  intros fm ft lt seed nb s f lb E. set (w := mkWorld (O := O) (fun _ => no_caps) al (fun l => l) 0).
  assert (E' : py_ps H dbg pf rd w [] fm ft lt seed nb s = Ok (f, lb)) by (destruct fm; exact E).
  destruct (ps_sim H dbg pf rd True al w [] s (Forall_nil _) (or_introl Logic.I) fm ft lt seed nb) as [(_ & [X|X])|X].
  - rewrite E' in X. discriminate.
  - rewrite E in X. discriminate.
  - rewrite E, E' in X. inversion X as [? ? (K & _)| |]; subst. exact K.
Qed.

Lemma new_ps_good : forall fm ft lt seed nb s f lb, new_ps H dbg pf rd al fm ft lt seed nb s = Ok (f, lb) -> qgood f.
Proof.
  intros fm ft lt seed nb s f lb E. destruct fm; cbn [new_ps] in E.
  - exact (parse_chunk_qgood _ _ _ _ _ _ _ _ _ _ (Forall_nil _) E).
  - split.
    + destruct (example_two H dbg seed nb True al al rd ft lt [] [] s (or_introl Logic.I) (Forall_nil _) (Forall_nil _)) as [(_ & [X|X])|X]; try congruence.
      rewrite E in X. inversion X as [? ? (_ & G & _)| |]; subst. exact G.
    + unfold json_example, json_chunk in E. destruct (rd s) as [v|]; [|discriminate]. cbn [opt_or bind] in E.
      binv E. binv B. binv B. inversion B; subst. inversion E; subst. cbn [fst snd] in *. clear E B.
      destruct ft; cbn [json_fts]; [|exact Logic.I].
      destruct (features_two H dbg seed nb True al al FTSimple v _ _ (or_introl Logic.I) (Forall_nil _) (Forall_nil _)) as [(_ & [X|X])|X]; try congruence.
      rewrite B0 in X. inversion X as [? ? ((S1 & _) & L)| |]; subst. destruct (L eq_refl) as (L1 & _).
      inversion S1 as [E1|a b xs ys C F' E1 E2]; [rewrite <- E1 in L1; discriminate|]. apply C.
  - pose proof (ds_chunk_sim H dbg seed nb rd [] [] s (Forall_nil _) (Forall_nil _)) as X. rewrite E in X. inversion X as [? ? (_ & G & _)| |]; subst. cbn [fst] in G.
    split; auto. destruct f; [|exact Logic.I]. unfold ds_chunk in E. destruct (rd s) as [v|]; [|discriminate]. cbn [opt_or bind] in E.
    unfold ds_value in E. do 5 binv E. inversion E.
Qed.
Lemma pgood_fte : forall f : features O, pgood f -> fte f f.
Proof.
  intros [a|[s|] x]; cbn [pgood fte].
  - intros W. left. now apply fsim_refl.
  - intros ((F & (W & _)) & A & B). split; [now apply esim_refl|]. revert F. induction B; intros F; constructor; inversion F; subst; auto. apply esim_refl; tauto.
  - intros ((F & _) & _). induction F as [|a x (A & _) F IH]; constructor; auto. left. now apply fsim_refl.
Qed.
Lemma free_ok : forall n (r : red O n), elem_free n r -> elems_ok n r.
Proof.
  induction n as [|n IH]; intros r K; [exact Logic.I|]. destruct r as ((wi & k) & r). destruct K as (K & L). cbn [elems_ok fst snd] in *. split; auto.
  destruct k; simpl; auto. exfalso. eapply K; reflexivity.
Qed.
Lemma named_all : forall m i gc ex (R : anyred O) seen, named_ws H dbg m -> val m i = Some (VWs gc ex R seen) -> elems_ok (projT1 R) (projT2 R).
Proof. intros m i gc ex R seen F E. destruct (F _ _ _ _ _ E) as [(gc0 & c & K)|K]; [eapply create_elems; exact K|now apply named_ok]. Qed.
Lemma during_and : forall (P1 P2 : mem -> Prop) ops m, during H dbg pf rd al P1 ops m -> during H dbg pf rd al P2 ops m ->
  during H dbg pf rd al (fun m => P1 m /\ P2 m) ops m.
Proof.
  induction ops as [|(ord & op) ops IH]; intros m; cbn [during]; auto. destruct (value_call _ _ _ _ _ _ _ _) as [(r & [m'|])|]; auto.
  intros (A & B) (A' & B'). auto.
Qed.
Lemma val_nil : forall i, val (O := O) [] i = None.
Proof. intros i. unfold val. now destruct i. Qed.

Lemma runs_tidy : forall ops, during H dbg pf rd al (named_ws H dbg) ops [] -> during H dbg pf rd al all_tidy ops [] ->
  new_run H dbg pf rd al ops [] = value_run H dbg pf rd al ops [].
Proof.
  intros ops A B. apply (value_runs H dbg pf rd al (ftsim (O := O)) (elems_ok (O := O)) (tidy (O := O))) with (P := fun m => named_ws H dbg m /\ all_tidy m).
  - cbn. apply (hd_new []). constructor.
  - cbn. split; auto.
  - intros; eapply new_ps_wf; eauto.
  - intros n r x f K T E. pose proof (ftsim_wf_l _ _ E) as W.
    pose proof (ws_predict_sim dbg _ r _ _ E) as Q. destruct (ws_predict dbg r x) as [(p & x1)| |] eqn:E1; inversion Q as [? ? (Q1 & Q2)| |]; subst; constructor.
    split; auto. eapply ftsim_trans; [|exact Q2]. eapply ws_predict_restore; eauto.
  - intros n r x f lb K T E. pose proof (ftsim_wf_l _ _ E) as W.
    pose proof (ws_learn_sim dbg _ r _ _ lb E) as Q. destruct (ws_learn dbg r x lb) as [(p & x1)| |] eqn:E1; inversion Q as [? ? (Q1 & Q2)| |]; subst; constructor.
    split; auto. eapply ftsim_trans; [|exact Q2]. apply ws_learn_ok in E1. apply fr_ftsim; auto. exact (proj2 (learn_restore _ _ _ _ _ _ _ _ _ _ K (wf_tidy_good _ W T) E1)).
  - intros n r x f lb K T E. pose proof (ftsim_wf_l _ _ E) as W.
    pose proof (ws_ptl_sim dbg _ r _ _ lb E) as Q. destruct (ws_ptl dbg r x lb) as [((p & r1) & x1)| |] eqn:E1; inversion Q as [? ? (Q1 & Q2)| |]; subst; constructor.
    split; auto. apply ws_ptl_ok in E1. destruct (proj1 (ptl_ok dbg _ r x lb 0 K (wf_tidy_good _ W T) eq_refl) _ _ _ _ E1) as (g1 & g2 & G1 & G2 & S1 & S2).
    apply ws_predict_ok in G1. eapply ftsim_trans; [|exact Q2]. eapply ftsim_trans; [eapply ws_predict_restore; eauto|]. now apply ftsim_sym.
  - intros n r x f lb K T E. pose proof (ftsim_wf_l _ _ E) as W.
    destruct (ptl_ok dbg _ r x lb 0 K (wf_tidy_good _ W T) eq_refl) as (X & Y). split.
    + intros p r' x' Z. apply ws_ptl_ok in Z. destruct (X _ _ _ _ Z) as (f1 & f2 & E1 & E2 & _). exists f1, f2. now rewrite ws_predict_ok, ws_learn_ok.
    + intros p x1 r' x2 Z1 Z2. apply ws_predict_ok in Z1. apply ws_learn_ok in Z2. destruct (Y _ _ _ _ _ _ Z1 Z2) as (f' & E1 & _). exists f'. now rewrite ws_ptl_ok.
  - intros n r r' S K. eapply shape_elems_ok; eauto.
  - intros m i x (_ & T) E. eapply T; eauto.
  - intros m i gc ex R seen (N & _) E. eapply named_all; eauto.
  - constructor.
  - split; intros i; intros; rewrite val_nil in *; discriminate.
  - now apply during_and.
Qed.

Lemma runs_debug : dbg = true -> forall ops, during H dbg pf rd al (named_ws H dbg) ops [] ->
  new_run H dbg pf rd al ops [] = value_run H dbg pf rd al ops [].
Proof.
  intros D ops A. apply (value_runs H dbg pf rd al (fun x f => ftsim x f /\ qgood x) (elems_ok (O := O)) (fun _ => True)) with (P := named_ws H dbg); auto.
  - assert (W : fwf (O := O) sf_new) by (apply (hd_new []); constructor). split; [now apply fsim_refl|]. split; auto. intros k; reflexivity.
  - split; [cbn; split; auto|]. split; [|exact Logic.I]. split; [split; auto; constructor|exact Logic.I].
  - intros; split; [eapply new_ps_wf; eauto|eapply new_ps_good; eauto].
  - intros n r x f K _ (E & G).
    pose proof (ws_predict_sim dbg _ r _ _ E) as Q. destruct (ws_predict dbg r x) as [(p & x1)| |] eqn:E1; inversion Q as [? ? (Q1 & Q2)| |]; subst; constructor.
    split; auto. split; auto. eapply ftsim_trans; [|exact Q2]. eapply debug_predict; eauto.
  - intros n r x f lb K _ (E & G).
    pose proof (ws_learn_sim dbg _ r _ _ lb E) as Q. destruct (ws_learn dbg r x lb) as [(p & x1)| |] eqn:E1; inversion Q as [? ? (Q1 & Q2)| |]; subst; constructor.
    split; auto. split; auto. eapply ftsim_trans; [|exact Q2]. eapply debug_learn; eauto.
  - intros n r x f lb K _ (E & G).
    pose proof (ws_ptl_sim dbg _ r _ _ lb E) as Q. destruct (ws_ptl dbg r x lb) as [((p & r1) & x1)| |] eqn:E1; inversion Q as [? ? (Q1 & Q2)| |]; subst; constructor.
    split; auto. split; auto. eapply ftsim_trans; [|exact Q2]. eapply debug_ptl; eauto.
  - intros n r x f lb K _ (E & G). apply ws_ptl_agrees; auto. apply G.
  - intros n r r' S K. eapply shape_elems_ok; eauto.
  - intros m i gc ex R seen N E. eapply named_all; eauto.
  - constructor.
  - intros i; intros; rewrite val_nil in *; discriminate.
Qed.

Lemma runs_free : dbg = false -> forall ops, during H dbg pf rd al no_elems ops [] ->
  new_run H dbg pf rd al ops [] = value_run H dbg pf rd al ops [].
Proof.
  intros D ops A. apply (value_runs H dbg pf rd al (fun x f => fte x f /\ pgood x) (elem_free (O := O)) (fun _ => True)) with (P := no_elems); auto.
  - assert (W : pgood (O := O) (FtsSimple sf_new)) by (apply (hd_new []); constructor). split; auto. now apply pgood_fte.
  - split; [cbn; constructor|]. split; [split; auto; constructor|exact Logic.I].
  - intros fm ft lt seed nb s f lb E. pose proof (proj1 (new_ps_good _ _ _ _ _ _ _ _ E)) as G. split; auto. now apply pgood_fte.
  - intros n r x f K _ (E & G). subst dbg. eapply orel_mono; [now apply predict_alike|]. intros u v (E1 & _ & E3). split; auto. split; auto.
    eapply fte_trans; [exact E|]. apply hold_fte; auto. apply fte_l with x. now apply fte_sym.
  - intros n r x f lb K _ (E & G). subst dbg. eapply orel_mono; [now apply learn_alike|]. intros u v (E1 & _ & E3). split; auto. split; auto.
    eapply fte_trans; [exact E|]. apply hold_fte; auto. apply fte_l with x. now apply fte_sym.
  - intros n r x f lb K _ (E & G). subst dbg. eapply orel_mono; [now apply ptl_alike|]. intros u v (E1 & _ & E3). split; auto. split; auto.
    eapply fte_trans; [exact E|]. apply hold_fte; auto. apply fte_l with x. now apply fte_sym.
  - intros n r x f lb K _ (E & G). apply ws_ptl_agrees; auto. now apply free_ok.
  - intros n r r' S K. eapply free_shape; eauto.
  - intros m i gc ex R seen N E. eapply N; eauto.
  - constructor.
  - intros i; intros; rewrite val_nil in *; discriminate.
Qed.
End C.

Lemma objects_are_values : forall (O : FOps) (H : hasher) dbg (pf : str -> option O) rd al (ops : list (pyworld * pyop O)),
  let calls := map (fun x => (pw_ord (fst x), snd x)) ops in
  no_string_lists rd (map snd ops) -> during H dbg pf rd al (named_ws H dbg) calls [] ->
  dbg = true \/ during H dbg pf rd al all_tidy calls [] \/ during H dbg pf rd al no_elems calls [] ->
  fst (py_run H dbg pf rd ops py_start) = value_run H dbg pf rd al calls [].
Proof.
  intros O H dbg pf rd al ops calls NL A B. rewrite (pool_invisible_no_lists O H dbg pf rd al ops NL). fold calls.
  destruct dbg eqn:D; [now apply runs_debug|]. destruct B as [B|[B|B]]; [discriminate|now apply runs_tidy|now apply runs_free].
Qed.

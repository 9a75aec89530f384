(** Python programs: the pool makes no difference. *)
From Coq Require Import List NArith PeanoNat Bool Lia.
From Verif Require Import Base FloatOps FloatB32 Model_Hash Model_Features Model_Types Model_Stack Model_Text Model_Metrics Model_Train Model_Json
  Model_Interactions Model_Weights Model_Loss Model_Explore Model_Coin Model_Factory Model_Config Model_Save Model_Export Model_Python
  Spec_Features Spec_Stack Spec_Text Spec_Json Spec_Total Spec_Python Proof_Hash Proof_Features Proof_FeaturesHist Proof_StackCong Proof_StackRestore Proof_StackProps Proof_Loose
  Proof_TextParse Proof_TextFeats Proof_TextChunk Proof_Train Proof_JsonPlan Proof_Json Proof_JsonChunk Proof_DsJson Proof_JsonTrain.
Import ListNotations.
Open Scope N_scope.

Section P.
Context {O : FOps} (H : hasher) (dbg : bool) (pf : str -> option O) (rd : str -> option (json O)).
Local Notation heap := (list (option (pyobj O))).

(** same objects; features look the same to the learner *)
Definition osim (x y : option (pyobj O)) : Prop :=
  match x, y with
  | Some (OFeats f), Some (OFeats g) => ftsim f g
  | _, _ => x = y /\ match x with Some (OFeats _) => False | _ => True end
  end.
Definition hsim (h g : heap) : Prop := Forall2 osim h g.
Lemma hsim_len : forall h g, hsim h g -> length h = length g.
Proof. intros h g S. induction S; simpl; auto. Qed.
Lemma hsim_app : forall h g a b, hsim h g -> Forall2 osim a b -> hsim (h ++ a) (g ++ b).
Proof. intros h g a b S F. induction S; simpl; auto. constructor; auto. Qed.
Lemma hsim_upd : forall h g i a b, hsim h g -> osim a b -> hsim (upd i a h) (upd i b g).
Proof. intros h g i a b S. revert i. induction S; intros [|i] K; simpl; constructor; auto. apply IHS; auto. Qed.
Lemma hsim_get : forall h g i, hsim h g -> osim (py_get h i) (py_get g i).
Proof.
  intros h g i S. unfold py_get. revert i. induction S as [|x y h g K S IH]; intros [|i]; simpl; auto.
  destruct x as [[]|], y as [[]|]; simpl in *; try tauto; try (destruct K; discriminate).
Qed.

Definition ohsim (x y : option heap) : Prop := match x, y with Some h, Some g => hsim h g | None, None => True | _, _ => False end.
Definition crel (B : Prop) (x y : option (pyres O * option heap)) : Prop :=
  match x, y with
  | None, None => True
  | Some (r, h), Some (r', h') => (r = r' /\ ohsim h h') \/ (B /\ (r = RPanic (badcap dbg) \/ r' = RPanic (badcap dbg)))
  | _, _ => False
  end.
Definition psim (B : Prop) (ps ps' : pyformat -> feat_type -> label_type -> N -> N -> str -> out (features O * option (label O))) (s : str) : Prop :=
  forall fm ft lt seed nb, (B /\ (ps fm ft lt seed nb s = Pn (badcap dbg) \/ ps' fm ft lt seed nb s = Pn (badcap dbg))) \/
    orel (fl_sim (O := O)) (ps fm ft lt seed nb s) (ps' fm ft lt seed nb s).
Definition pargs (op : pyop O) : option str := match op with Parse _ s => Some s | _ => None end.

Lemma same_ok : forall B r h g, hsim h g -> crel B (Some (py_same h r)) (Some (py_same g r)).
Proof. intros. left. split; auto. Qed.
Lemma new_ok : forall B o o' h g, hsim h g -> osim (Some o) (Some o') -> crel B (Some (py_new h o)) (Some (py_new g o')).
Proof.
  intros B o o' h g S K. left. split; [now rewrite (hsim_len _ _ S)|]. apply hsim_app; auto.
Qed.
Lemma made_ok : forall B ex x h g, hsim h g -> crel B (Some (py_made h ex x)) (Some (py_made g ex x)).
Proof.
  intros B ex x h g S. unfold py_made. destruct (unwrap_res x) as [(gc & R)| |]; [apply new_ok|apply same_ok..]; simpl; auto.
Qed.
Lemma pparser_ok : forall B fm ft lt seed nb h g, hsim h g -> crel B (Some (py_parser h fm ft lt seed nb)) (Some (py_parser g fm ft lt seed nb)).
Proof.
  intros B fm ft lt seed nb h g S. unfold py_parser. destruct fm, ft, lt; first [apply same_ok; now auto|apply new_ok; simpl; auto].
Qed.
Lemma pred_ok : forall B p h g, hsim h g -> crel B (Some (py_pred h p)) (Some (py_pred g p)).
Proof. intros B p h g S. unfold py_pred. destruct p; first [apply same_ok; now auto|apply new_ok; simpl; auto]. Qed.
Lemma parsed_ok : forall B f f' lb h g, hsim h g -> ftsim f f' -> crel B (Some (py_parsed h f lb)) (Some (py_parsed g f' lb)).
Proof.
  intros B f f' lb h g S K. unfold py_parsed. pose proof (hsim_len _ _ S) as L. destruct lb as [[]|]; first [now apply same_ok|left; rewrite L; split; auto];
    apply hsim_app; auto; repeat constructor; simpl; auto.
Qed.

Definition nofeats (o : pyobj O) : Prop := match o with OFeats _ => False | _ => True end.
Lemma get_cases : forall h g i, hsim h g ->
  (exists o, py_get h i = Some o /\ py_get g i = Some o /\ nofeats o) \/
  (exists f f', py_get h i = Some (OFeats f) /\ py_get g i = Some (OFeats f') /\ ftsim f f') \/
  (py_get h i = None /\ py_get g i = None).
Proof.
  intros h g i S. pose proof (hsim_get h g i S) as Q. unfold osim in Q.
  destruct (py_get h i) as [x|]; [|destruct Q as (<- & _); auto].
  destruct x; [destruct (py_get g i) as [[]|]; try (destruct Q; discriminate); try (destruct Q; contradiction); eauto 7|..];
    destruct Q as (<- & _); left; eexists; repeat split.
Qed.
Ltac two h g i S := let o := fresh "o" in let N := fresh "N" in let E1 := fresh in let E2 := fresh in
  let f := fresh "u" in let f' := fresh "v" in let K := fresh "K" in
  destruct (get_cases h g i S) as [(o & E1 & E2 & N)|[(f & f' & E1 & E2 & K)|(E1 & E2)]]; rewrite ?E1, ?E2;
  [destruct o as [?f|?l|?p|?gc ?ex ?R|?fm ?ft ?lt ?seed ?nb]; [contradiction|..]| |].

Lemma call_sim : forall B a b ps ps' ord op h g, hsim h g -> fsim a b ->
  (forall s, pargs op = Some s -> psim B ps ps' s) ->
  crel B (py_call H dbg a ps ord h op) (py_call H dbg b ps' ord g op).
Proof.
  intros B a b ps ps' ord op h g S F P. destruct op; cbn [py_call]; try (apply new_ok; simpl; auto; fail); try (apply made_ok; auto; fail).
  - destruct s as ((gc & ex) & m). now apply made_ok.
  - two h g w S; try exact Logic.I; now apply same_ok.
  - two h g w S; try exact Logic.I; now apply same_ok.
  - now apply pparser_ok.
  - two h g w S; try exact Logic.I; first [now apply same_ok|now apply pparser_ok].
  - two h g p S; try exact Logic.I; try now apply same_ok.
    destruct (P s eq_refl fm ft lt seed nb) as [(HB & [E|E])|E].
    + rewrite E. destruct (ps' fm ft lt seed nb s) as [(f & lb)| |]; [|right; auto..].
      destruct lb as [[]|]; right; auto.
    + rewrite E. destruct (ps fm ft lt seed nb s) as [(f & lb)| |]; [|right; auto..].
      destruct lb as [[]|]; right; auto.
    + destruct (ps fm ft lt seed nb s) as [(f & lb)| |], (ps' fm ft lt seed nb s) as [(f' & lb')| |]; inversion E as [? ? (K & L)| |]; subst;
        try now apply same_ok. cbn [fst snd] in *. subst. now apply parsed_ok.
  - two h g w S; two h g f S; try exact Logic.I; try now apply same_ok.
    pose proof (ws_predict_sim dbg _ (projT2 R) _ _ K) as E.
    destruct (ws_predict dbg _ u) as [(p & x)| |], (ws_predict dbg _ v) as [(p' & x')| |]; inversion E as [? ? (K1 & L)| |]; subst;
      try (left; split; simpl; auto; fail).
    cbn [fst snd] in *. subst. apply pred_ok. apply hsim_upd; auto.
  - two h g w S; two h g f S; two h g l S; try exact Logic.I; try now apply same_ok.
    pose proof (ws_ptl_sim dbg _ (projT2 R) _ _ l0 K) as E.
    destruct (ws_ptl dbg _ u l0) as [((p & r) & x)| |], (ws_ptl dbg _ v l0) as [((p' & r') & x')| |]; inversion E as [? ? (K1 & L)| |]; subst;
      try (left; split; simpl; auto; fail).
    cbn [fst snd] in *. inversion K1; subst. apply pred_ok. apply hsim_upd; [apply hsim_upd; auto|simpl; auto].
  - two h g w S; two h g f S; two h g l S; try exact Logic.I; try now apply same_ok.
    pose proof (ws_learn_sim dbg _ (projT2 R) _ _ l0 K) as E.
    destruct (ws_learn dbg _ u l0) as [(r & x)| |], (ws_learn dbg _ v l0) as [(r' & x')| |]; inversion E as [? ? (K1 & L)| |]; subst;
      try (left; split; simpl; auto; fail).
    cbn [fst snd] in *. subst. apply same_ok. apply hsim_upd; [apply hsim_upd; auto|simpl; auto].
  - two h g w S; try exact Logic.I; now apply same_ok.
  - two h g i S; try exact Logic.I; now apply same_ok.
  - two h g i S; try exact Logic.I; apply same_ok; apply hsim_upd; simpl; auto.
Qed.

Lemma caps_new : forall (w : pyworld (O := O)) i (pool : list (sfeats O)), Forall looks_new pool ->
  Forall (cnew (O := O)) (map (fun d => (snd d, pw_caps w (N.to_nat (fst d)))) (enum_from i pool)).
Proof. intros w i pool F. revert i. induction F; intros i; simpl; constructor; auto. Qed.
Lemma ps_sim : forall (B : Prop) al w pool s, Forall looks_new pool ->
  (B \/ forall v ft, rd s = Some v -> Forall no_lists (json_parts ft v)) ->
  psim B (py_ps H dbg pf rd w pool) (new_ps H dbg pf rd al) s.
Proof.
  intros B al w pool s F HB fm ft lt seed nb. destruct fm; cbn [py_ps new_ps].
  - right. apply parse_chunk_sim; auto.
  - destruct (example_two H dbg seed nb B (pw_al w) al rd ft lt _ [] s (match HB with or_introl b => or_introl b | or_intror k => or_intror (fun v => k v ft) end)
      (caps_new w 0 pool F) (Forall_nil _)) as [E|E]; auto.
    right. eapply orel_mono; [exact E|]. now intros x y (K & _).
  - right. eapply orel_mono; [apply ds_chunk_sim; auto|]. now intros x y (K & _).
Qed.

Definition sinv (st : pystate) (h : heap) : Prop := Forall looks_new (py_pool (O:=O) st) /\ hsim (py_heap st) h.
Lemma pool_step : forall w st h op, sinv st h -> Forall looks_new (py_pool_after H dbg pf rd w st op).
Proof.
  intros w st h op (F & S). unfold py_pool_after. destruct op; auto.
  - destruct F; simpl; auto.
  - destruct (py_get _ p) as [[]|]; auto. destruct (py_ps _ _ _ _ _ _ _ _ _ _ _ s); now apply skipn_new.
  - destruct (get_cases _ _ i S) as [(o & E1 & _ & N)|[(f & f' & E1 & _ & K)|(E1 & _)]]; rewrite E1; auto.
    + destruct o; auto. contradiction.
    + apply give_back_new; auto. eapply ftsim_wf_l; eauto.
Qed.
Definition ords (ops : list (pyworld * pyop O)) : list (pyord O * pyop O) := map (fun x => (pw_ord (fst x), snd x)) ops.
Lemma run_sim : forall (B : Prop) al ops st h, sinv st h ->
  (B \/ no_string_lists rd (map snd ops)) ->
  let rs := fst (py_run H dbg pf rd ops st) in
  let rs' := new_run H dbg pf rd al (ords ops) h in
  rs = rs' \/
  B /\ exists pre w op post, ops = pre ++ (w, op) :: post /\ is_parse op /\ firstn (length pre) rs = firstn (length pre) rs' /\
    exists r r', nth_error rs (length pre) = Some r /\ nth_error rs' (length pre) = Some r' /\ (r = RPanic (badcap dbg) \/ r' = RPanic (badcap dbg)).
Proof.
  intros B al ops. induction ops as [|(w & op) ops IH]; intros st h I HB; [left; reflexivity|].
  cbn [ords map fst snd py_run new_run].
  assert (Q : forall s, pargs op = Some s -> psim (B /\ is_parse op) (py_ps H dbg pf rd w (py_pool st)) (new_ps H dbg pf rd al) s).
  { intros s E. apply ps_sim; [apply I|]. destruct HB as [HB|HB]; [left; split; auto; destruct op; try discriminate; repeat eexists|right]. intros v ft. destruct op; try discriminate. inversion E; subst.
    apply (HB p). left. reflexivity. }
  assert (F : fsim (fst (pool_get sf_new (py_pool st))) sf_new).
  { destruct I as (I & _). destruct I; [apply (hd_new []); constructor|]. assumption. }
  pose proof (call_sim (B /\ is_parse op) _ _ _ _ (pw_ord w) op _ _ (proj2 I) F Q) as C. unfold py_exec.
  destruct (py_call H dbg (fst (pool_get sf_new (py_pool st))) _ _ (py_heap st) op) as [(r & h1)|] eqn:E1,
           (py_call H dbg sf_new _ _ h op) as [(r' & h1')|] eqn:E2; simpl in C; try contradiction; [|left; reflexivity].
  destruct C as [(<- & S)|((b & P) & D)].
  - destruct h1 as [h1|], h1' as [h1'|]; simpl in S; try contradiction; [|left; reflexivity].
    cbn [option_map]. destruct (IH (mkPy (py_pool_after H dbg pf rd w st op) h1) h1') as [E|(b & pre & w' & op' & post & E & P & FN & r1 & r1' & N1 & N2 & D)].
    + split; [|exact S]. eapply pool_step. exact I.
    + destruct HB as [HB|HB]; [now left|right]. intros p s v ft IN. eapply HB. right. exact IN.
    + left. cbn [fst]. f_equal. exact E.
    + right. split; auto. exists ((w, op) :: pre), w', op', post. subst ops. split; auto. split; auto.
      cbn [length fst firstn nth_error]. split; [f_equal; exact FN|]. exists r1, r1'. auto.
  - right. split; auto. exists [], w, op, ops. split; auto. split; auto. split; auto.
    exists r, r'. destruct h1, h1'; cbn; auto.
Qed.
End P.

Lemma pool_invisible : forall (O : FOps) (H : hasher) dbg (pf : str -> option O) rd al (ops : list (pyworld * pyop O)),
  let rs := fst (py_run H dbg pf rd ops py_start) in
  let rs' := new_run H dbg pf rd al (map (fun x => (pw_ord (fst x), snd x)) ops) [] in
  rs = rs' \/
  exists pre w op post, ops = pre ++ (w, op) :: post /\ is_parse op /\ firstn (length pre) rs = firstn (length pre) rs' /\
    exists r r', nth_error rs (length pre) = Some r /\ nth_error rs' (length pre) = Some r' /\
      (r = RPanic (badcap dbg) \/ r' = RPanic (badcap dbg)).
Proof.
  intros. destruct (run_sim H dbg pf rd True al ops py_start []) as [E|(_ & E)]; auto. split; constructor.
Qed.
Lemma pool_invisible_no_lists : forall (O : FOps) (H : hasher) dbg (pf : str -> option O) rd al (ops : list (pyworld * pyop O)),
  no_string_lists rd (map snd ops) ->
  fst (py_run H dbg pf rd ops py_start) = new_run H dbg pf rd al (map (fun x => (pw_ord (fst x), snd x)) ops) [].
Proof.
  intros. destruct (run_sim H dbg pf rd False al ops py_start []) as [E|(E & _)]; auto; [split; constructor|contradiction].
Qed.

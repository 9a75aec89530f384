(** Python programs: the size of the pool; labels; binary workspaces. *)
From Coq Require Import List NArith PeanoNat Bool Lia.
From Verif Require Import Base FloatOps Model_Hash Model_Features Model_Types Model_Stack Model_Text Model_Train Model_Json
  Model_Factory Model_Config Model_Save Model_Export Model_Python
  Spec_Features Spec_Stack Spec_Total Spec_Python Proof_StackRestore.
Import ListNotations.
Open Scope N_scope.

(** ** Calls keep the number of objects of an example *)
Section Shape.
Context {O : FOps}.
Implicit Types (f g : features O).
Definition plen f : nat := length (parts f).
(** kind of example, shared features or not, number of actions *)
Definition shp f : option (bool * nat) :=
  match f with FtsSimple _ => None | FtsCb s x => Some (match s with Some _ => true | None => false end, length x) end.
Lemma shp_plen : forall f g, shp f = shp g -> plen f = plen g.
Proof. intros [a|[s|] x] [b|[t|] y] E; inversion E; unfold plen; simpl; auto. Qed.


Lemma elem_shp : forall X dbg one two keep nb (call : features O -> out (pres O X)) f x f' d',
  elem_frame dbg one two keep nb call f = Ok (x, f', d') -> shp f' = shp f.
Proof.
  intros X dbg one two keep nb call f x f' d' H. unfold elem_frame in H.
  destruct f as [s|? ?]; simpl as_simple in H; cbn [bind] in H; [|discriminate]. binv H. destruct keep.
  - binv H. destruct v0 as ((y & g) & e). inversion H; reflexivity.
  - destruct (sf_remove_ns one _) as (o1 & s2). binv H. destruct (sf_remove_ns two _) as (o2 & s3). binv H. binv H.
    destruct v2 as ((y & g) & e). inversion H; reflexivity.
Qed.
Lemma cb_shp : forall (s s' : option (sfeats O)) x y, (s = None <-> s' = None) -> length x = length y -> shp (FtsCb s' y) = shp (FtsCb s x).
Proof.
  intros [s|] [s'|] x y E L; unfold shp; simpl; rewrite ?L; try reflexivity.
  - destruct E as (_ & E). discriminate (E eq_refl).
  - destruct E as (E & _). discriminate (E eq_refl).
Qed.
Lemma predict_loop_len : forall dbg child (s : option (sfeats O)) x i d sc acts d',
  cb_predict_loop dbg child s x i d = Ok (sc, acts, d') -> length x = length acts.
Proof.
  intros dbg child s x. induction x as [|a x IH]; intros i d sc acts d' H; simpl in H; [now inversion H|].
  binv H. binv H. destruct v0 as ((p & f') & d1). binv H. binv H. binv H. destruct v2 as ((scs & acs) & d2). inversion H; subst.
  simpl. f_equal. eapply IH; eauto.
Qed.
Lemma ips_loop_len : forall X dbg (le : X -> features O -> label O -> N -> N -> out (pres O X)) act cost prob (s : option (sfeats O)) x i ch d ch' acts d',
  cb_ips_loop dbg le act cost prob s x i ch d = Ok (ch', acts, d') -> length x = length acts.
Proof.
  intros X dbg le act cost prob s x. induction x as [|a x IH]; intros i ch d ch' acts d' H; simpl in H; [now inversion H|].
  binv H. binv H. binv H. destruct v1 as ((p & f') & d1). binv H. binv H. destruct v2 as ((scs & acs) & d2). inversion H; subst.
  simpl. f_equal. eapply IH; eauto.
Qed.

Lemma kind_predict_shp : forall dbg k child f d mo p f' d',
  (forall f d mo p f' d', child f d mo = Ok (p, f', d') -> shp f' = shp f) ->
  kind_predict dbg k child f d mo = Ok (p, f', d') -> shp f' = shp f.
Proof.
  intros dbg k child f d mo p f' d' IH H. destruct k; cbn [kind_predict] in H;
    try (binv H; destruct v as ((q & g) & e); binv H; try binv H; inversion H; subst; eapply IH; eauto; fail).
  - destruct f as [a|s x]; simpl as_cb in H; cbn [bind fst snd] in H; [discriminate|].
    binv H. destruct v as ((sc & acts) & e). inversion H; subst. apply cb_shp; [tauto|]. eapply predict_loop_len; eauto.
  - eapply elem_shp; eauto.
  - eapply IH; eauto.
Qed.
Lemma predict_shp : forall dbg n (r : red O n) f d mo p f' d', predict dbg n r f d mo = Ok (p, f', d') -> shp f' = shp f.
Proof.
  induction n as [|n IH]; intros r f d mo p f' d' H.
  - destruct r as (w & c). cbn [predict fst snd] in H. apply wrap_ok in H. destruct H as (d1 & d2 & H).
    unfold coin_predict_body in H. binv H. binv H. now inversion H.
  - destruct r as ((w & k) & ch). cbn [predict] in H. apply wrap_ok in H. destruct H as (d1 & d2 & H).
    eapply kind_predict_shp; [|exact H]. intros; eapply IH; eauto.
Qed.
Lemma kind_learn_shp : forall X dbg k (le : X -> features O -> label O -> N -> N -> out (pres O X)) ch f lb d mo x f' d',
  (forall ch f lb d mo ch' f' d', le ch f lb d mo = Ok (ch', f', d') -> shp f' = shp f) ->
  kind_learn dbg k le ch f lb d mo = Ok (x, f', d') -> shp f' = shp f.
Proof.
  intros X dbg k le ch f lb d mo x f' d' IH H. destruct k; cbn [kind_learn] in H.
  - binv H. binv H. destruct v0 as ((c' & g) & e). inversion H; subst. eapply IH; eauto.
  - destruct f as [a|s y]; simpl as_cb in H; cbn [bind fst snd] in H; [discriminate|].
    binv H. destruct v as ((act & cost) & prob). destruct ty.
    + binv H. destruct v as ((c' & acts) & e). inversion H; subst. apply cb_shp; [tauto|]. eapply ips_loop_len; eauto.
    + binv H. binv H. destruct s as [sh|]; [|discriminate]. binv H. binv H. binv H.
      destruct v3 as ((c' & g) & e). binv H. inversion H; subst. apply cb_shp; [split; discriminate|reflexivity].
  - binv H. destruct v as ((c' & g) & e). inversion H; subst. eapply IH; eauto.
  - binv H. destruct v as ((c' & g) & e). inversion H; subst. eapply IH; eauto.
  - binv H. destruct v as ((act & cost) & prob). binv H. destruct v as ((c' & g) & e). binv H. inversion H; subst. eapply IH; eauto.
  - binv H. destruct v as ((c' & g) & e). inversion H; subst. eapply elem_shp; eauto.
  - binv H. destruct v as ((c' & g) & e). inversion H; subst. eapply IH; eauto.
Qed.
Lemma learn_shp : forall dbg n (r : red O n) f lb d mo r' f' d', learn dbg n r f lb d mo = Ok (r', f', d') -> shp f' = shp f.
Proof.
  induction n as [|n IH]; intros r f lb d mo r' f' d' H.
  - destruct r as (w & c). cbn [learn] in H. apply wrap_ok in H. destruct H as (d1 & d2 & H).
    unfold coin_learn_body in H. binv H. destruct v as ((c' & g) & e). binv B. binv B. binv B. inversion B; inversion H; now subst.
  - destruct r as ((w & k) & ch). cbn [learn] in H. apply wrap_ok in H. destruct H as (d1 & d2 & H).
    binv H. destruct v as (((k' & ch') & g) & e). inversion H; subst. eapply kind_learn_shp; [|exact B]. intros; eapply IH; eauto.
Qed.
Lemma default_shp : forall X p (l : features O -> N -> out (pres O X)) f d x f' d',
  (forall f d p1 f' d', p f d = Ok (p1, f', d') -> shp f' = shp f) ->
  (forall f d x f' d', l f d = Ok (x, f', d') -> shp f' = shp f) ->
  default_ptl p l f d = Ok (x, f', d') -> shp f' = shp f.
Proof.
  intros X p l f d x f' d' HP HL H. unfold default_ptl in H. binv H. destruct v as ((p1 & g1) & d1). binv H. destruct v as ((y & g2) & d2).
  destruct (d2 =? d); inversion H; subst. rewrite <- (HP _ _ _ _ _ B). eapply HL; eauto.
Qed.
Lemma ptl_shp : forall dbg n (r : red O n) f lb d mo x f' d', predict_then_learn dbg n r f lb d mo = Ok (x, f', d') -> shp f' = shp f.
Proof.
  induction n as [|n IH]; intros r f lb d mo x f' d' H.
  - destruct r as (w & c). cbn [predict_then_learn] in H. apply wrap_ok in H. destruct H as (d1 & d2 & H).
    binv H. destruct v as (((p & c') & g) & e). inversion H; subst. eapply default_shp; [| |exact B].
    + intros ? ? ? ? ? E. unfold coin_predict_body in E. binv E. binv E. now inversion E.
    + intros ? ? ? ? ? E. unfold coin_learn_body in E. binv E. binv E. binv E. now inversion E.
  - destruct r as ((w & k) & ch). cbn [predict_then_learn] in H. apply wrap_ok in H. destruct H as (d1 & d2 & H).
    binv H. destruct v as (((p & k' & ch') & g) & e). inversion H; subst. clear H.
    destruct k; cbn [kind_ptl] in B;
      try (apply default_shp in B; [exact B| |]; intros ? ? ? ? ? E;
           [eapply kind_predict_shp; [|exact E]; intros; eapply predict_shp; eauto|
            eapply kind_learn_shp; [|exact E]; intros; eapply learn_shp; eauto]; fail).
    + binv B. binv B. destruct v0 as (((p0 & c0) & g0) & e0). binv B. inversion B; subst. eapply IH; eauto.
    + binv B. destruct v as (((p0 & c0) & g0) & e0). inversion B; subst. eapply elem_shp; eauto.
    + binv B. destruct v as (((p0 & c0) & g0) & e0). inversion B; subst. eapply IH; eauto.
Qed.
Lemma ws_predict_shp : forall dbg n (r : red O n) f p f', ws_predict dbg r f = Ok (p, f') -> shp f' = shp f.
Proof. intros dbg n r f p f' H. unfold ws_predict in H. binv H. destruct v as ((q & g) & e). inversion H; subst. eapply predict_shp; eauto. Qed.
Lemma ws_learn_shp : forall dbg n (r : red O n) f lb r' f', ws_learn dbg r f lb = Ok (r', f') -> shp f' = shp f.
Proof. intros dbg n r f lb r' f' H. unfold ws_learn in H. binv H. destruct v as ((q & g) & e). inversion H; subst. eapply learn_shp; eauto. Qed.
Lemma ws_ptl_shp : forall dbg n (r : red O n) f lb p r' f', ws_ptl dbg r f lb = Ok (p, r', f') -> shp f' = shp f.
Proof. intros dbg n r f lb p r' f' H. unfold ws_ptl in H. binv H. destruct v as (((q & s) & g) & e). inversion H; subst. eapply ptl_shp; eauto. Qed.
End Shape.

(** ** Parsers: objects taken and labels *)
Section Parsed.
Context {O : FOps} (H : hasher) (dbg : bool) (pf : str -> option O) (rd : str -> option (json O)).

Lemma lines_len : forall seed nb lt ls ds rs, parse_lines H pf dbg seed nb lt ls ds = Ok rs -> length rs = length ls.
Proof.
  induction ls as [|l ls IH]; intros ds rs E; simpl in E; [now inversion E|]. binv E. binv E. inversion E; subst. simpl. f_equal. eapply IH; eauto.
Qed.
Definition nobin (lb : option (label O)) : Prop := match lb with Some (LbBinary _) => False | _ => True end.
Lemma find_label_nobin : forall ls lb, find_label (O:=O) ls = Ok lb -> nobin lb.
Proof.
  intros ls lb E. unfold find_label in E.
  assert (G : forall l acc r, nobin acc ->
    foldm (fun acc cl => let* l := as_cb_tlabel (snd cl) in
             match snd l with None => Ok acc | Some (_, c, p) => match acc with Some _ => Er EInvalidArgument | None => Ok (Some (LbCb (fst cl) c p)) end end) l acc = Ok r -> nobin r).
  { induction l as [|a l IH]; intros acc r N F; simpl in F; [now inversion F; subst|]. binv F. binv B. destruct (snd v0) as [((? & c) & p)|].
    - destruct acc; [discriminate|]. inversion B; subst. eapply IH; [|exact F]. exact Logic.I.
    - inversion B; subst. eapply IH; eauto. }
  eapply G; [|exact E]. exact Logic.I.
Qed.
Lemma text_parsed : forall seed nb ft lt pool s f lb, parse_chunk H pf dbg seed nb ft lt pool s = Ok (f, lb) ->
  plen f = objects_used ft lt s /\ nobin lb.
Proof.
  intros seed nb ft lt pool s f lb E. unfold parse_chunk, objects_used in *. destruct (is_multiline ft lt) eqn:M.
  - binv E. apply lines_len in B. unfold finalize_multi in E. rewrite M in E. destruct v as [|(l0 & g0) rest]; [discriminate|].
    binv E. destruct (fst v); binv E; inversion E; subst; (split; [unfold plen; simpl; rewrite ?map_length; exact B|eapply find_label_nobin; eauto]).
  - binv E. unfold finalize_single in E. destruct (fst v) as [[]|]; inversion E; subst; (split; [reflexivity|exact Logic.I]).
Qed.
Lemma jactions_len : forall seed nb al l ds xs, json_actions O H dbg seed nb al l ds = Ok xs -> length xs = length l.
Proof. induction l as [|a l IH]; intros ds xs E; simpl in E; [now inversion E|]. binv E. binv E. inversion E; subst. simpl. f_equal. eapply IH; eauto. Qed.
Lemma jlabel_nobin : forall lt v lb, json_label O lt v = Ok lb -> nobin lb.
Proof.
  intros lt v lb E. unfold json_label in E. destruct lt; [|discriminate|].
  all: destruct (jget s_label v) as [| | | | |]; try (inversion E; subst; exact Logic.I);
    match type of E with match ?a with _ => _ end = _ => destruct a as [[|? [|? [|? [|]]]]|]; try discriminate end;
    repeat (binv E); inversion E; exact Logic.I.
Qed.
Lemma json_parsed : forall seed nb al ft lt ds s f lb, json_example O H dbg seed nb al rd ft lt ds s = Ok (f, lb) ->
  plen f = json_need O rd ft s /\ nobin lb.
Proof.
  intros seed nb al ft lt ds s f lb E. unfold json_example, json_chunk in E. binv E. inversion E; subst. clear E. binv B. binv B. binv B.
  inversion B; subst. clear B. cbn [fst snd]. split; [|eapply jlabel_nobin; eauto]. unfold opt_or in B0. destruct (rd s) as [v|] eqn:R; inversion B0; subst.
  unfold json_need. rewrite R. unfold json_features in B1. destruct ft; [reflexivity|]. binv B1.
  destruct (jget s_actions v0); try discriminate. binv B1. inversion B1; subst. apply jactions_len in B3.
  unfold plen. destruct (jget str_shared v0); try (binv B); inversion B; subst; cbn; rewrite map_length; first [exact B3|f_equal; exact B3].
Qed.
Lemma dsactions_len : forall seed nb l ds xs, ds_actions O H dbg seed nb l ds = Ok xs -> length xs = length l.
Proof. induction l as [|a l IH]; intros ds xs E; simpl in E; [now inversion E|]. binv E. binv E. binv E. inversion E; subst. simpl. f_equal. eapply IH; eauto. Qed.
Lemma ds_parsed : forall seed nb ds s f lb, ds_chunk O H dbg seed nb rd ds s = Ok (f, lb) -> plen f = ds_need O rd s /\ nobin lb.
Proof.
  intros seed nb ds s f lb E. unfold ds_chunk, ds_value in E. binv E. unfold opt_or in B. destruct (rd s) as [v0|] eqn:R; inversion B; subst v0. clear B.
  unfold ds_need. rewrite R. binv E. binv E. binv E. binv E. binv E. inversion E; subst. apply dsactions_len in B2.
  destruct (jget s_multi (jget s_c v)); inversion B1; subst. split; [unfold plen; simpl; f_equal; exact B2|].
  unfold ds_label in B3. destruct (jget s_label_cost v), (jget s_label_prob v), (jget s_label_index v); try discriminate; try (inversion B3; exact Logic.I).
  binv B3. inversion B3. exact Logic.I.
Qed.
Lemma py_parsed_ok : forall w pool fm ft lt seed nb s f lb, py_ps H dbg pf rd w pool fm ft lt seed nb s = Ok (f, lb) ->
  plen f = py_need rd fm ft lt s /\ nobin lb.
Proof.
  intros w pool fm ft lt seed nb s f lb E. destruct fm; cbn [py_ps py_need] in *.
  - eapply text_parsed; eauto.
  - eapply json_parsed; eauto.
  - eapply ds_parsed; eauto.
Qed.

(** ** Objects in the heap *)
Local Notation heap := (list (option (pyobj O))).
Definition osize (o : option (pyobj O)) : nat := match o with Some (OFeats f) => plen f | _ => 0%nat end.
Lemma held_sum : forall (h : heap), held h = list_sum (map osize h).
Proof. reflexivity. Qed.
Lemma held_app : forall (h k : heap), held (h ++ k) = (held h + held k)%nat.
Proof. intros h k. rewrite !held_sum, map_app, list_sum_app. reflexivity. Qed.
Lemma held_cons : forall a (h : heap), held (a :: h) = (osize a + held h)%nat.
Proof. reflexivity. Qed.
Lemma held_nil : held (@nil (option (pyobj O))) = 0%nat.
Proof. reflexivity. Qed.
Ltac hl := rewrite ?held_app, ?held_cons, ?held_nil; cbn [osize plen parts length fst snd pool_get]; lia.
Lemma held_upd : forall (h : heap) i o o', nth_error h i = Some o -> (held (upd i o' h) + osize o = held h + osize o')%nat.
Proof.
  induction h as [|a h IH]; intros [|i] o o' E; simpl in E; try discriminate.
  - inversion E; subst. rewrite !held_sum. simpl. lia.
  - specialize (IH i o o' E). rewrite !held_sum in *. simpl. lia.
Qed.
Lemma get_nth : forall (h : heap) i o, py_get h i = Some o -> nth_error h i = Some (Some o).
Proof. intros h i o E. unfold py_get in E. destruct (nth_error h i) as [[x|]|]; inversion E; subst; reflexivity. Qed.
Lemma get_upd : forall (h : heap) i j o, i <> j -> py_get (upd i o h) j = py_get h j.
Proof.
  unfold py_get. induction h as [|a h IH]; intros [|i] [|j] o D; simpl; auto; try congruence.
Qed.
Lemma get_upd_same : forall (h : heap) i o x, py_get h i = Some x -> py_get (upd i o h) i = o.
Proof.
  unfold py_get. induction h as [|a h IH]; intros [|i] o x D; simpl in *; try discriminate; [now destruct o|eauto].
Qed.
Lemma held_same : forall (h : heap) i f f', py_get h i = Some (OFeats f) -> plen f' = plen f -> held (upd i (Some (OFeats f')) h) = held h.
Proof. intros h i f f' G E. pose proof (held_upd h i _ (Some (OFeats f')) (get_nth _ _ _ G)) as Q. simpl in Q. lia. Qed.
Lemma held_other : forall (h : heap) i gc ex R o', py_get h i = Some (OWs gc ex R) -> osize o' = 0%nat -> held (upd i o' h) = held h.
Proof. intros h i gc ex R o' G E. pose proof (held_upd h i _ o' (get_nth _ _ _ G)) as Q. rewrite E in Q. simpl in Q. lia. Qed.
Lemma give_back_len : forall (f : features O) pool, length (give_back f pool) = (plen f + length pool)%nat.
Proof.
  assert (K : forall (x : list (sfeats O)) p, length (fold_left (fun p a => pool_return (sf_clear a) p) x p) = (length x + length p)%nat).
  { induction x as [|a x IH]; intros p; simpl; auto. rewrite IH. simpl. lia. }
  intros [s|s x] pool; unfold give_back, plen; simpl; auto. rewrite K. destruct s; simpl; lia.
Qed.

Lemma held_pred : forall (h : heap) p r h', py_pred h p = (r, Some h') -> held h' = held h.
Proof.
  intros h p r h' E. unfold py_pred, py_new, py_same in E. destruct p; inversion E; subst; try reflexivity; hl.
Qed.
Lemma held_parser : forall (h : heap) fm ft lt seed nb r h', py_parser h fm ft lt seed nb = (r, Some h') -> held h' = held h.
Proof.
  intros h fm ft lt seed nb r h' E. unfold py_parser, py_new, py_same in E. destruct fm, ft, lt; inversion E; subst; try reflexivity; hl.
Qed.
Lemma held_made : forall (h : heap) ex x r h', py_made h ex x = (r, Some h') -> held h' = held h.
Proof.
  intros h ex x r h' E. unfold py_made, py_new, py_same in E. destruct (unwrap_res x) as [(? & ?)| |]; inversion E; subst; try reflexivity; hl.
Qed.

(** the objects that exist: in the pool or held *)
Definition total (st : pystate (O := O)) : nat := (length (py_pool st) + held (py_heap st))%nat.
Lemma exec_total : forall w st op r st', py_exec H dbg pf rd w st op = Some (r, Some st') ->
  (total st' <= Nat.max (total st) (held (py_heap st')))%nat.
Proof.
  intros w (pool & h) op r st' E. unfold py_exec in E. cbn [py_pool py_heap] in E.
  destruct (py_call H dbg _ _ _ h op) as [(r0 & [h'|])|] eqn:C; try discriminate. cbn [option_map] in E. inversion E; subst. clear E.
  unfold total. cbn [py_pool py_heap]. unfold py_pool_after. cbn [py_pool py_heap].
  destruct op; cbn [py_call] in C.
  - inversion C; subst. destruct pool as [|a pool]; hl.
  - inversion C; subst. hl.
  - inversion C; subst. hl.
  - inversion C; subst. hl.
  - inversion C as [C1]. apply held_made in C1. lia.
  - destruct s as ((gc & ex) & m). inversion C as [C1]. apply held_made in C1. lia.
  - inversion C as [C1]. apply held_made in C1. lia.
  - destruct (py_get h w0) as [[]|]; inversion C; subst; lia.
  - destruct (py_get h w0) as [[]|]; inversion C; subst; lia.
  - inversion C as [C1]. apply held_parser in C1. lia.
  - destruct (py_get h w0) as [[]|]; inversion C; subst; try lia. apply held_parser in H1. lia.
  - destruct (py_get h p) as [[f|l|q|gc ex R|fm ft lt seed nb]|]; inversion C; subst; try lia. clear C.
    destruct (py_ps H dbg pf rd w pool fm ft lt seed nb s) as [(f & lb)| |] eqn:P; inversion H1; subst; try (rewrite skipn_length; lia).
    destruct (py_parsed_ok _ _ _ _ _ _ _ _ _ _ P) as (L & NB). rewrite skipn_length, <- L.
    destruct lb as [[]|]; simpl in NB; try contradiction; inversion H2; subst; hl.
  - destruct (py_get h w0) as [[]|]; try discriminate; destruct (py_get h f) as [[x| | | |]|] eqn:F; inversion C; subst; try lia. clear C.
    destruct (ws_predict dbg (projT2 R) x) as [(p & x')| |] eqn:P; inversion H1. apply held_pred in H1. rewrite H1, (held_same _ _ _ _ F); [lia|].
    eapply shp_plen, ws_predict_shp; eauto.
  - destruct (py_get h w0) as [[]|] eqn:W; try discriminate; destruct (py_get h f) as [[x| | | |]|] eqn:F; try discriminate;
      destruct (py_get h l) as [[| lb| | |]|]; inversion C; subst; try lia. clear C.
    destruct (ws_ptl dbg (projT2 R) x lb) as [((p & r') & x')| |] eqn:P; inversion H1. apply held_pred in H1. rewrite H1.
    assert (D : f <> w0) by (intros ->; rewrite W in F; discriminate).
    rewrite (held_other _ _ gc ex R); [|rewrite get_upd; auto|reflexivity]. rewrite (held_same _ _ _ _ F); [lia|]. eapply shp_plen, ws_ptl_shp; eauto.
  - destruct (py_get h w0) as [[]|] eqn:W; try discriminate; destruct (py_get h f) as [[x| | | |]|] eqn:F; try discriminate;
      destruct (py_get h l) as [[| lb| | |]|]; inversion C; subst; try lia. clear C.
    destruct (ws_learn dbg (projT2 R) x lb) as [(r' & x')| |] eqn:P; inversion H1; subst.
    assert (D : f <> w0) by (intros ->; rewrite W in F; discriminate).
    rewrite (held_other _ _ gc ex R); [|rewrite get_upd; auto|reflexivity]. rewrite (held_same _ _ _ _ F); [lia|]. eapply shp_plen, ws_learn_shp; eauto.
  - destruct (py_get h w0) as [[]|]; inversion C; subst; lia.
  - destruct (py_get h i) as [[]|]; inversion C; subst; lia.
  - destruct (py_get h i) as [o|] eqn:G; inversion C; subst. pose proof (held_upd h i _ None (get_nth _ _ _ G)) as Q. simpl in Q.
    destruct o; simpl in Q; try lia. rewrite give_back_len. lia.
Qed.
Lemma run_total : forall ops st, exists pre post, ops = pre ++ post /\
  (total (snd (py_run H dbg pf rd ops st)) <= Nat.max (total st) (held (py_heap (snd (py_run H dbg pf rd pre st)))))%nat.
Proof.
  induction ops as [|(w & op) ops IH]; intros st.
  - exists [], []. simpl. split; auto. lia.
  - simpl. destruct (py_exec H dbg pf rd w st op) as [(r1 & [st1|])|] eqn:E1.
    + destruct (IH st1) as (pre & post & -> & L). pose proof (exec_total _ _ _ _ _ E1) as L1. cbn [snd].
      destruct (Nat.le_gt_cases (total (snd (py_run H dbg pf rd (pre ++ post) st1))) (held (py_heap (snd (py_run H dbg pf rd pre st1))))) as [Q|Q].
      * exists ((w, op) :: pre), post. split; auto. simpl. rewrite E1. cbn [snd]. lia.
      * exists [(w, op)], (pre ++ post). split; auto. simpl. rewrite E1. cbn [snd]. lia.
    + exists [], ((w, op) :: ops). split; auto. simpl. lia.
    + exists [], ((w, op) :: ops). split; auto. simpl. lia.
Qed.
End Parsed.

(** ** Binary workspaces *)
Section Binary.
Context {O : FOps} (H : hasher) (dbg : bool) (pf : str -> option O) (rd : str -> option (json O)).
Local Notation heap := (list (option (pyobj O))).
Definition lbok (o : option (pyobj O)) : Prop := match o with Some (OLabel (LbBinary _)) => False | _ => True end.
Lemma lbok_upd : forall (h : heap) i o, Forall lbok h -> lbok o -> Forall lbok (upd i o h).
Proof. intros h i o F L. revert i. induction F; intros [|i]; simpl; auto. Qed.
Lemma lbok_app : forall h k : heap, Forall lbok h -> Forall lbok k -> Forall lbok (h ++ k).
Proof. intros. apply Forall_app. auto. Qed.
Lemma exec_lbok : forall w st op r st', py_exec H dbg pf rd w st op = Some (r, Some st') -> Forall lbok (py_heap st) -> Forall lbok (py_heap st').
Proof.
  intros w (pool & h) op r st' E F. unfold py_exec in E. cbn [py_pool py_heap] in *.
  destruct (py_call H dbg _ _ _ h op) as [(r0 & [h'|])|] eqn:C; try discriminate. cbn [option_map] in E. inversion E; subst. clear E.
  cbn [py_heap].
  assert (N1 : forall o, lbok (Some o) -> Forall lbok (h ++ [Some o])) by (intros; apply lbok_app; auto).
  destruct op; cbn [py_call] in C.
  - inversion C; subst. apply N1. exact Logic.I.
  - inversion C; subst. apply N1. exact Logic.I.
  - inversion C; subst. apply N1. exact Logic.I.
  - inversion C; subst. apply N1. exact Logic.I.
  - inversion C as [C1]. unfold py_made, py_new, py_same in C1. destruct (unwrap_res _) as [(? & ?)| |]; inversion C1; subst; auto. apply N1. exact Logic.I.
  - destruct s as ((gc & ex) & m). inversion C as [C1]. unfold py_made, py_new, py_same in C1. destruct (unwrap_res _) as [(? & ?)| |]; inversion C1; subst; auto. apply N1. exact Logic.I.
  - inversion C as [C1]. unfold py_made, py_new, py_same in C1. destruct (unwrap_res _) as [(? & ?)| |]; inversion C1; subst; auto. apply N1. exact Logic.I.
  - destruct (py_get h w0) as [[]|]; inversion C; subst; auto.
  - destruct (py_get h w0) as [[]|]; inversion C; subst; auto.
  - inversion C as [C1]. unfold py_parser, py_new, py_same in C1. destruct fm, ft, lt; inversion C1; subst; auto; apply N1; exact Logic.I.
  - destruct (py_get h w0) as [[]|]; inversion C; subst; auto. clear C. unfold py_parser, py_new, py_same in H1.
    destruct fm, (td_in_feats (red_types (projT2 R))), (td_in_label (red_types (projT2 R))); inversion H1; subst; auto; apply N1; exact Logic.I.
  - destruct (py_get h p) as [[f|l|q|gc ex R|fm ft lt seed nb]|]; inversion C; subst; auto. clear C.
    destruct (py_ps H dbg pf rd w pool fm ft lt seed nb s) as [(f & lb)| |] eqn:P; inversion H1; subst; auto.
    destruct lb as [[]|]; inversion H2; subst; auto; apply lbok_app; auto; repeat constructor.
  - destruct (py_get h w0) as [[]|]; try discriminate; destruct (py_get h f) as [[x| | | |]|] eqn:G; inversion C; subst; auto. clear C.
    destruct (ws_predict dbg (projT2 R) x) as [(p & x')| |] eqn:P; inversion H1. unfold py_pred, py_new, py_same in H1.
    destruct p; inversion H1; subst; try apply lbok_app; auto; try (apply lbok_upd; auto; exact Logic.I); repeat constructor.
  - destruct (py_get h w0) as [[]|] eqn:W; try discriminate; destruct (py_get h f) as [[x| | | |]|] eqn:G; try discriminate;
      destruct (py_get h l) as [[| lb| | |]|]; inversion C; subst; auto. clear C.
    destruct (ws_ptl dbg (projT2 R) x lb) as [((p & r') & x')| |] eqn:P; inversion H1. unfold py_pred, py_new, py_same in H1.
    destruct p; inversion H1; subst; try apply lbok_app; auto; try (apply lbok_upd; [apply lbok_upd; [auto|]|]; exact Logic.I); repeat constructor.
  - destruct (py_get h w0) as [[]|] eqn:W; try discriminate; destruct (py_get h f) as [[x| | | |]|] eqn:G; try discriminate;
      destruct (py_get h l) as [[| lb| | |]|]; inversion C; subst; auto. clear C.
    destruct (ws_learn dbg (projT2 R) x lb) as [(r' & x')| |] eqn:P; inversion H1; subst.
    apply lbok_upd; [apply lbok_upd; [auto|]|]; exact Logic.I.
  - destruct (py_get h w0) as [[]|]; inversion C; subst; auto.
  - destruct (py_get h i) as [[]|]; inversion C; subst; auto.
  - destruct (py_get h i) as [o|] eqn:G; inversion C; subst. apply lbok_upd; auto. exact Logic.I.
Qed.
Lemma run_lbok : forall ops st, Forall lbok (py_heap st) -> Forall lbok (py_heap (snd (py_run H dbg pf rd ops st))).
Proof.
  induction ops as [|(w & op) ops IH]; intros st F; simpl; auto.
  destruct (py_exec H dbg pf rd w st op) as [(r1 & [st1|])|] eqn:E1; auto. cbn [snd]. apply IH. eapply exec_lbok; eauto.
Qed.

Lemma binary_predict : forall n (r : red O n) f d mo p f' d', binary_top n r -> predict dbg n r f d mo = Ok (p, f', d') -> exists b, p = PrBinary b.
Proof.
  induction n as [|n IH]; intros r f d mo p f' d' T E; [contradiction|]. destruct r as ((w & k) & ch). cbn [predict] in E.
  apply wrap_ok in E. destruct E as (d1 & d2 & E). simpl in T. destruct k; try contradiction; cbn [kind_predict] in E.
  - binv E. destruct v as ((q & g) & e). binv E. inversion E; subst. eauto.
  - eapply IH; eauto.
Qed.
Definition plainlb (lb : label O) : Prop := match lb with LbBinary _ => False | _ => True end.
Lemma binary_learn : forall n (r : red O n) f lb d mo x, binary_top n r -> plainlb lb -> learn dbg n r f lb d mo <> Ok x.
Proof.
  induction n as [|n IH]; intros r f lb d mo ((x & g) & e) T L E; [contradiction|]. destruct r as ((w & k) & ch). cbn [learn] in E.
  apply wrap_ok in E. destruct E as (d1 & d2 & E). simpl in T. destruct k; try contradiction; cbn [kind_learn] in E.
  - binv E. binv B. destruct lb; simpl in L; try contradiction; discriminate.
  - binv E. binv B. eapply IH; eauto.
Qed.
Lemma binary_ptl : forall n (r : red O n) f lb d mo x, binary_top n r -> plainlb lb -> predict_then_learn dbg n r f lb d mo <> Ok x.
Proof.
  induction n as [|n IH]; intros r f lb d mo ((x & g) & e) T L E; [contradiction|]. destruct r as ((w & k) & ch). cbn [predict_then_learn] in E.
  apply wrap_ok in E. destruct E as (d1 & d2 & E). simpl in T. destruct k; try contradiction; cbn [kind_ptl] in E.
  - binv E. binv B. destruct lb; simpl in L; try contradiction; discriminate.
  - binv E. binv B. eapply IH; eauto.
Qed.
Lemma get_lbok : forall (h : heap) i lb, Forall lbok h -> py_get h i = Some (OLabel lb) -> plainlb lb.
Proof.
  intros h i lb F E. apply get_nth in E. apply nth_error_In in E. eapply Forall_forall in F; [|exact E]. destruct lb; auto.
Qed.

Lemma binary_unusable : forall ops w gc ex R op wd r s,
  let st := snd (py_run H dbg pf rd ops py_start) in
  py_get (py_heap st) w = Some (OWs gc ex R) -> binary_top (projT1 R) (projT2 R) ->
  (exists f, op = Predict w f) \/ (exists f l, op = Learn w f l \/ op = PredictThenLearn w f l) ->
  py_exec H dbg pf rd wd st op = Some (r, s) ->
  raised r /\ forall st', s = Some st' -> py_get (py_heap st') w = Some (OWs gc ex R).
Proof.
  intros ops w gc ex R op wd r s st G T D E.
  assert (F : Forall lbok (py_heap st)) by (apply run_lbok; constructor).
  unfold py_exec in E. destruct D as [(f & ->)|(f & l & [-> | ->])]; cbn [py_call] in E; rewrite G in E.
  - destruct (py_get (py_heap st) f) as [[x| | | |]|] eqn:GF;
      try (inversion E; subst; split; [exact Logic.I|intros st' E'; inversion E'; subst; exact G]; fail); [|discriminate].
    destruct (ws_predict dbg (projT2 R) x) as [(p & x')| |] eqn:P; inversion E; subst; try (split; [exact Logic.I|intros st' E'; discriminate]).
    unfold ws_predict in P. binv P. destruct v as ((q & g) & e). inversion P; subst. apply binary_predict in B; auto. destruct B as (b & ->).
    inversion E; subst. split; [exact Logic.I|]. intros st' E'. inversion E'; subst. cbn [py_heap].
    rewrite get_upd; auto. intros ->. rewrite G in GF. discriminate.
  - destruct (py_get (py_heap st) f) as [[x| | | |]|] eqn:GF; [destruct (py_get (py_heap st) l) as [[|lb| | |]|] eqn:GL|..];
      try (match type of E with context [py_get (py_heap st) l] => destruct (py_get (py_heap st) l) as [[]|] end);
      try (inversion E; subst; split; [exact Logic.I|intros st' E'; inversion E'; subst; exact G]; fail); try discriminate.
    destruct (ws_learn dbg (projT2 R) x lb) as [(p & x')| |] eqn:P; inversion E; subst; try (split; [exact Logic.I|intros st' E'; discriminate]).
    unfold ws_learn in P. binv P. exfalso. eapply binary_learn; eauto. eapply get_lbok; eauto.
  - destruct (py_get (py_heap st) f) as [[x| | | |]|] eqn:GF; [destruct (py_get (py_heap st) l) as [[|lb| | |]|] eqn:GL|..];
      try (match type of E with context [py_get (py_heap st) l] => destruct (py_get (py_heap st) l) as [[]|] end);
      try (inversion E; subst; split; [exact Logic.I|intros st' E'; inversion E'; subst; exact G]; fail); try discriminate.
    destruct (ws_ptl dbg (projT2 R) x lb) as [((p & r') & x')| |] eqn:P; inversion E; subst; try (split; [exact Logic.I|intros st' E'; discriminate]).
    unfold ws_ptl in P. binv P. exfalso. eapply binary_ptl; eauto. eapply get_lbok; eauto.
Qed.
End Binary.

Lemma pool_bounded : forall (O : FOps) (H : hasher) dbg (pf : str -> option O) rd (ops : list (pyworld * pyop O)),
  exists pre post, ops = pre ++ post /\
    let st := snd (py_run H dbg pf rd ops py_start) in
    (length (py_pool st) + held (py_heap st) <= held (py_heap (snd (py_run H dbg pf rd pre py_start))))%nat.
Proof.
  intros. destruct (run_total H dbg pf rd ops py_start) as (pre & post & E & L). exists pre, post. split; auto.
Qed.

(** Training with the JSON formats. *)
From Coq Require Import List NArith PeanoNat Bool Lia.
From Verif Require Import Base FloatOps FloatB32 Model_Hash Model_Features Model_Types Model_Stack Model_Text Model_Metrics Model_Train Model_Pipeline Model_Json Model_JsonTrain
  Model_Interactions Model_Weights Model_Loss Model_Explore Model_Coin Model_Factory Spec_Pipeline Proof_PipeTrain
  Spec_Features Spec_Stack Spec_Text Spec_Json Proof_Hash Proof_Features Proof_FeaturesHist Proof_StackCong Proof_StackRestore Proof_StackProps Proof_Loose
  Proof_TextParse Proof_TextFeats Proof_TextChunk Proof_Train Proof_JsonPlan Proof_Json Proof_JsonChunk Proof_DsJson.
Import ListNotations.
Open Scope N_scope.

Section P.
Context {O : FOps} (H : hasher) (dbg : bool) (seed nb : N) (al : alloc).
Notation cobj := (cobj O).
Definition wsim (a b : cobj) : Prop := fsim (fst a) (fst b) /\ snd a = snd b.
Lemma tf_wsim : forall v a b, wsim a b -> orel wsim (to_features O H dbg seed nb al v a) (to_features O H dbg seed nb al v b).
Proof.
  intros v a b S. unfold to_features. destruct v as [| | | | |l]; try constructor.
  apply orel_foldm; auto. intros kv (x & cx) (y & cy) _ (S1 & S2). cbn [fst snd] in S1, S2. subst cy. cbv zeta. unfold cobj_upd. set (k := ns_from_name H (fst kv) seed).
  cbn [fst snd].
  change (match fm_get k x with Some s => s | None => sfn_new k end) with (item k x).
  change (match fm_get k y with Some s => s | None => sfn_new k end) with (item k y).
  rewrite (fsim_item _ _ k S1).
  assert (W : sfn_wf k (sfn_set_active true (item k y))) by (apply set_active_wf, item_wf, S1).
  destruct (json_ns_eq H dbg nb al (ns_hash k) (snd kv) k (sfn_set_active true (item k y)) (cx k) W) as (cf & E).
  unfold Model_Json.cns in *. rewrite E.
  destruct (mask_from_bits dbg nb) as [mk| |]; cbn [bind]; [|constructor..].
  destruct (fails (snd kv) (cx k)); cbn [bind]; [constructor|].
  destruct (ns_feats H dbg mk (ns_hash k) (snd kv)) as [fs| |]; cbn [bind]; [|constructor..]. constructor.
  split; cbn [fst snd]; auto. apply fsim_set; auto. now apply cat_wf.
Qed.
Lemma orel_refl' : forall A (R : A -> A -> Prop) x, (forall a, R a a) -> orel R x x.
Proof. intros A R [a|e|p] K; constructor; auto. Qed.
Definition fresh (o : cobj) : Prop := looks_new (fst o) /\ snd o = no_caps.
Lemma fresh_new : fresh (cobj_new O).
Proof. split; auto. apply (hd_new []). constructor. Qed.
Lemma hd_fresh : forall ds, Forall fresh ds -> fresh (hd (cobj_new O) ds).
Proof. intros ds F. destruct F; auto. apply fresh_new. Qed.
Lemma tl_fresh : forall ds, Forall fresh ds -> Forall fresh (tl ds).
Proof. intros ds F. destruct F; [constructor|assumption]. Qed.
Lemma wsim_hd : forall ds es, Forall fresh ds /\ Forall fresh es -> wsim (hd (cobj_new O) ds) (hd (cobj_new O) es).
Proof.
  intros ds es (Fd & Fe). destruct (hd_fresh ds Fd) as (L & C), (hd_fresh es Fe) as (L' & C'). split; [|congruence].
  eapply fsim_trans; [exact L|apply fsim_sym; exact L'].
Qed.
Lemma wsim_tl : forall ds es, Forall fresh ds /\ Forall fresh es -> Forall fresh (tl ds) /\ Forall fresh (tl es).
Proof. intros ds es (Fd & Fe). split; now apply tl_fresh. Qed.
Lemma actions_wsim : forall l ds es, Forall fresh ds /\ Forall fresh es ->
  orel (fun _ _ => True) (json_actions O H dbg seed nb al l ds) (json_actions O H dbg seed nb al l es).
Proof.
  induction l as [|a l IH]; intros ds es F; cbn [json_actions]; [constructor; exact Logic.I|].
  eapply orel_bind; [apply tf_wsim, wsim_hd, F|]. intros x y _. eapply orel_bind; [apply IH, wsim_tl, F|]. intros. constructor. exact Logic.I.
Qed.
Lemma example_wsim : forall rd ft lt ds es chunk, Forall fresh ds /\ Forall fresh es ->
  orel (fun _ _ => True) (json_example O H dbg seed nb al rd ft lt ds chunk) (json_example O H dbg seed nb al rd ft lt es chunk).
Proof.
  intros rd ft lt ds es chunk F. unfold json_example, json_chunk. destruct (rd chunk) as [v|]; cbn [opt_or bind]; [|constructor].
  eapply orel_bind with (R := fun _ _ => True); [|intros; constructor; exact Logic.I].
  eapply orel_bind with (R := fun _ _ => True).
  - unfold json_features. destruct ft.
    + pose proof (tf_wsim (jget s_features v) _ _ (wsim_hd _ _ F)) as Q.
      assert (K : orel (fun _ _ => True) (let* x := to_features O H dbg seed nb al (jget s_features v) (hd (cobj_new O) ds) in Ok ([x], @None cobj))
        (let* x := to_features O H dbg seed nb al (jget s_features v) (hd (cobj_new O) es) in Ok ([x], @None cobj))).
      { eapply orel_bind; [exact Q|]. intros. constructor. exact Logic.I. }
      destruct (jget s_features v); exact K.
    + eapply orel_bind with (R := fun a b => Forall fresh (snd a) /\ Forall fresh (snd b)).
      * pose proof (tf_wsim (jget str_shared v) _ _ (wsim_hd _ _ F)) as Q.
        assert (K : orel (fun a b => Forall fresh (snd a) /\ Forall fresh (snd b)) (let* x := to_features O H dbg seed nb al (jget str_shared v) (hd (cobj_new O) ds) in Ok (Some x, tl ds))
          (let* x := to_features O H dbg seed nb al (jget str_shared v) (hd (cobj_new O) es) in Ok (Some x, tl es))).
        { eapply orel_bind; [exact Q|]. intros. constructor. cbn [snd]. now apply wsim_tl. }
        destruct (jget str_shared v); try exact K. constructor. exact F.
      * intros a b Fab. destruct (jget s_actions v); try constructor.
        eapply orel_bind; [apply actions_wsim, Fab|]. intros. constructor. exact Logic.I.
  - intros x y _. destruct (json_label O lt v); constructor. exact Logic.I.
Qed.
End P.

Lemma json_parser_ok : forall (O : FOps) (H : hasher) dbg seed nb rd al n (r : red O n), parser_ok (json_parser H dbg seed nb rd al r).
Proof.
  intros O H dbg seed nb rd al n r ds es chunk Fd Fe. unfold json_parser.
  set (ft := td_in_feats _). set (lt := td_in_label _).
  assert (Q : forall ds : list (sfeats O), Forall looks_new ds -> Forall (fresh (O := O)) (map (fun d => (d, no_caps)) ds)).
  { intros l F. induction F; constructor; auto. split; auto. }
  assert (Q' : forall ds : list (sfeats O), Forall looks_new ds -> Forall (cnew (O := O)) (map (fun d => (d, no_caps)) ds)).
  { intros l F. induction F; constructor; auto. }
  pose proof (example_wsim H dbg seed nb al rd ft lt _ _ chunk (conj (Q ds Fd) (Q es Fe))) as W.
  destruct (example_two H dbg seed nb True al al rd ft lt _ _ chunk (or_introl Logic.I) (Q' ds Fd) (Q' es Fe)) as [(_ & [E|E])|E]; auto.
  - rewrite E in *. inversion W. constructor.
  - rewrite E in *. inversion W. constructor.
Qed.
Lemma ds_parser_ok : forall (O : FOps) (H : hasher) dbg seed nb rd, parser_ok (O := O) (ds_parser H dbg seed nb rd).
Proof. intros. intros ds es chunk Fd Fe. unfold ds_parser. now apply ds_chunk_sim. Qed.

Lemma format_ok : forall {O : FOps} H dbg seed nb rd n (r : red O n) ps need, json_format H dbg seed nb rd r ps need -> parser_ok ps.
Proof. intros O H dbg seed nb rd n r ps need [(al & -> & _)|(-> & _)]; [apply json_parser_ok|apply ds_parser_ok]. Qed.

Section F.
Context {O : FOps} (H : hasher) (dbg : bool) (md : tmode) (seed nb : N) (rd : str -> option (json O)) (n : nat) (r : red O n).
Context (ps : parser O) (need : str -> nat) (q : nat) (rd_ok : bool).
Lemma format_final : forall k pool (st : tstate O n) chunks p,
  json_format H dbg seed nb rd r ps need -> Forall pooled pool ->
  train_run dbg md ps need n q rd_ok k pool st chunks p ->
  (exists j, (j <= length chunks)%nat /\ one_thread dbg md ps need n (firstn j chunks) st = Ok (pi_st p)) /\
  (pi_learner p = LExit -> one_thread dbg md ps need n chunks st = Ok (pi_st p)).
Proof.
  intros k pool st chunks p J F G. apply format_ok in J. split; [eapply pipe_prefix; eauto|]. intros E. eapply pipe_final; eauto.
Qed.
Lemma format_progress : forall k pool (st : tstate O n) chunks p sN, (0 < k)%nat ->
  json_format H dbg seed nb rd r ps need -> Forall pooled pool -> one_thread dbg md ps need n chunks st = Ok sN ->
  train_run dbg md ps need n q rd_ok k pool st chunks p ->
  (pi_learner p <> LDead /\ forall i, ~ In (PDead i) (pi_par p)) /\
  no_endless (train_step dbg md ps need n q rd_ok) p /\
  ((exists p', train_step dbg md ps need n q rd_ok p p') \/
   (pi_inp p = (if rd_ok then IDone else IDead) /\ (forall x, In x (pi_par p) -> x = PExit) /\ pi_learner p = LExit /\ pi_st p = sN)).
Proof.
  intros k pool st chunks p sN K J F E G. apply format_ok in J. split; [eapply pipe_no_panic; eauto|]. split; [eapply pipe_stops; eauto|].
  eapply pipe_progress; eauto.
Qed.
Lemma format_hangs : forall k pool (st : tstate O n) chunks p i s c,
  json_format H dbg seed nb rd r ps need -> Forall pooled pool ->
  one_thread dbg md ps need n (firstn i chunks) st = Ok s ->
  nth_error chunks i = Some c -> is_pn (ps [] c) = true ->
  train_run dbg md ps need n q rd_ok k pool st chunks p -> ~ all_ended p.
Proof. intros k pool st chunks p i s c J F. apply format_ok in J. eapply pipe_panic_hangs; eauto. Qed.
End F.

(** *** C42 in terms of observable features *)
Section E.
Context {O : FOps} (H : hasher) (dbg : bool) (seed nb : N).
Lemma pooled_cnew : forall ds : list (cobj O), Forall (fun o => pooled (fst o)) ds -> Forall (cnew (O := O)) ds.
Proof. intros ds F. eapply Forall_impl; [|exact F]. intros o. apply pooled_new. Qed.
Lemma recycled_or : forall al al' rd ft lt (ds es : list (cobj O)) chunk,
  Forall (fun o => pooled (fst o)) ds -> Forall (fun o => pooled (fst o)) es ->
  (json_example O H dbg seed nb al rd ft lt ds chunk = Pn (badcap dbg) \/ json_example O H dbg seed nb al' rd ft lt es chunk = Pn (badcap dbg)) \/
  orel same_example (json_example O H dbg seed nb al rd ft lt ds chunk) (json_example O H dbg seed nb al' rd ft lt es chunk).
Proof.
  intros al al' rd ft lt ds es chunk Fd Fe.
  destruct (example_two H dbg seed nb True al al' rd ft lt ds es chunk (or_introl Logic.I) (pooled_cnew _ Fd) (pooled_cnew _ Fe)) as [(_ & E)|E]; auto.
  right. eapply orel_mono; [exact E|]. intros x y ((S & L) & _). split; auto. now apply ftsim_same.
Qed.
Lemma recycled_same : forall al al' rd ft lt (ds es : list (cobj O)) chunk,
  (forall v, rd chunk = Some v -> Forall no_lists (json_parts ft v)) ->
  Forall (fun o => pooled (fst o)) ds -> Forall (fun o => pooled (fst o)) es ->
  orel same_example (json_example O H dbg seed nb al rd ft lt ds chunk) (json_example O H dbg seed nb al' rd ft lt es chunk).
Proof.
  intros al al' rd ft lt ds es chunk NL Fd Fe.
  destruct (example_two H dbg seed nb False al al' rd ft lt ds es chunk (or_intror NL) (pooled_cnew _ Fd) (pooled_cnew _ Fe)) as [([] & E)|E]; auto.
  eapply orel_mono; [exact E|]. intros x y ((S & L) & _). split; auto. now apply ftsim_same.
Qed.
End E.

(** *** examples *)
Definition jn (n : N) : json BF0 := JNum (mkNum (@f_of_N BF0 n) (@f_of_N BF0 n) (Some n)).
Definition ja (n : N) : jnum BF0 := mkNum (@f_of_N BF0 n) (@f_of_N BF0 n) (Some n).
Definition ex_al : alloc := mkAlloc (fun c l a => (l + a)%nat) (fun c l a => Nat.max (2 * c) (l + a)).
(** {"a": [1, 2], ":default": {"x": 3, "y": "z", "t": true, "f": false}, "b": ["u", "v"]} *)
Definition ex_json : json BF0 :=
  JObj [([97], JArr [jn 1; jn 2]);
        (str_default, JObj [([120], jn 3); ([121], JStr [122]); ([116], JBool true); ([102], JBool false)]);
        ([98], JArr [JStr [117]; JStr [118]])].
(** {"a": {"x": 1, "_y": {"z": 2}}, "t": true, "l": [3, null, {"u": 4}]} *)
Definition ex_context : list (str * json BF0) :=
  [([97], JObj [([120], jn 1); ([95; 121], JObj [([122], jn 2)])]); ([116], JBool true); ([108], JArr [jn 3; JNull; JObj [([117], jn 4)]])].
(** the reader of the examples: one byte per document *)
Definition ex_rd (s : str) : option (json BF0) :=
  match s with
  | [1] => Some (JObj [(str_shared, ex_json); (s_actions, JArr [ex_json; ex_json]);
                       (s_label, JObj [(s_action, jn 1); (s_cost, jn 1); (s_probability, jn 1)])])
  | [2] => Some (JObj [(s_label_cost, jn 1); (s_label_prob, jn 1); (s_label_index, jn 1);
                       (s_c, JObj (ex_context ++ [(s_multi, JArr [JObj ex_context; JObj []])]))])
  | _ => None
  end.
Lemma ex_formats : exists (R : anyred BF0) st s1 s2, ws_new ex_hash false ex_gc ex_cfg = Ok R /\
  train_start [] (Additive 1) (projT2 R) = Ok st /\
  one_thread false (mkMode true true) (json_parser ex_hash false 0 4 ex_rd ex_al (projT2 R)) (json_takes ex_rd (projT2 R)) _ [[1]; [1]; [1]] st = Ok s1 /\
  one_thread false (mkMode true true) (ds_parser ex_hash false 0 4 ex_rd) (ds_takes ex_rd) _ [[2]; [2]; [2]] st = Ok s2.
Proof.
  destruct (ex_check_true (fun n r st =>
    is_ok (one_thread false (mkMode true true) (json_parser ex_hash false 0 4 ex_rd ex_al r) (json_takes ex_rd r) _ [[1]; [1]; [1]] st) &&
    is_ok (one_thread false (mkMode true true) (ds_parser ex_hash false 0 4 ex_rd) (ds_takes ex_rd) _ [[2]; [2]; [2]] st)))
    as (R & st & E1 & E2 & E3); [vm_compute; reflexivity|].
  apply andb_true_iff in E3. destruct E3 as (E3 & E4). exists R, st.
  destruct (one_thread _ _ (json_parser _ _ _ _ _ _ _) _ _ _ _) as [s1| |]; try discriminate.
  destruct (one_thread _ _ (ds_parser _ _ _ _ _) _ _ _ _) as [s2| |]; try discriminate.
  exists s1, s2. auto.
Qed.
Lemma is_ok_ex : forall A (x : out A), is_ok x = true -> exists a, x = Ok a.
Proof. intros A [a| |] E; try discriminate. now exists a. Qed.
Lemma ex_context_ok : exists f, ds_handle BF0 ex_hash true 0 18 (JObj ex_context) str_space sf_new [] = Ok (f, []) /\
  map (fun k => option_map (fun s => length (sfn_idx s)) (sf_get k f))
    [NsDefault; NsNamed (hash_bytes ex_hash [97] 0); NsNamed (hash_bytes ex_hash [108] 0); NsNamed (hash_bytes ex_hash [95; 121] 0)] =
  [Some 1; Some 1; Some 2; None]%nat.
Proof.
  destruct (ds_handle BF0 ex_hash true 0 18 (JObj ex_context) str_space sf_new []) as [(f & [|])| |] eqn:E; try (vm_compute in E; discriminate).
  exists f. split; auto. vm_compute in E. injection E as <-. vm_compute. reflexivity.
Qed.
Lemma ex_fits : ds_fits ex_hash 0 [PKey str_space] (JObj ex_context) /\ ds_fine str_space (JObj ex_context) /\ ds_root (JObj ex_context).
Proof.
  split; [|split].
  - intros i outer x nm I IG E. cbn in I. repeat (destruct I as [I|I]; [try discriminate|]); try contradiction.
    injection I as <- <- <-. cbn in E. injection E as <-. vm_compute. reflexivity.
  - apply df_obj. repeat apply Forall_cons; try apply Forall_nil; cbn [fst snd].
    + apply df_obj. repeat apply Forall_cons; try apply Forall_nil; cbn [fst snd]; [apply df_num|]. now apply df_ignored.
    + apply df_bool.
    + apply df_arr. repeat apply Forall_cons; try apply Forall_nil; [left; eexists; reflexivity|right; now left|right; right].
      eexists. split; [reflexivity|]. apply df_obj. constructor; [apply df_num|constructor].
  - exact Logic.I.
Qed.
Lemma ex_json_ok : exists nss o', jdoc ex_hash 0 ex_json nss /\ jfits ex_hash 0 ex_json /\ distinct_ns ex_hash 0 ex_json /\
  to_features BF0 ex_hash true 0 18 ex_al ex_json (cobj_new BF0) = Ok o'.
Proof.
  destruct (is_ok_ex _ (to_features BF0 ex_hash true 0 18 ex_al ex_json (cobj_new BF0))) as (o' & E); [vm_compute; reflexivity|].
  destruct (features_ok ex_hash true 0 18 ex_al _ _ _ eq_refl (or_introl eq_refl : pooled (fst (cobj_new BF0))) E) as (nss & D & F & _).
  exists nss, o'. split; auto. split; auto. split; auto.
  intros l L. injection L as <-. cbn [map fst]. repeat constructor; vm_compute; intros K; decompose [or] K; try discriminate; contradiction.
Qed.
(** "1 |a x:2 y:q z| w" and {"a": {"x": 2, "y": "q", "z": true}, " ": ["w"]} *)
Definition ex_text : list tns :=
  [mkTns (Some ([97], None)) [([32], ([120], Some [50])); ([32], ([121], Some [113])); ([32], ([122], None))] [];
   mkTns None [([32], ([119], None))] []].
Definition ex_same_json : list (str * json BF0) :=
  [([97], JObj [([120], jn 2); ([121], JStr [113]); ([122], JBool true)]); (str_space, JArr [JStr [119]])].
Lemma ex_text_ok : Forall (tn_ok ex_pf) ex_text.
Proof.
  assert (W : forall c, is_ws c = false /\ c =? 58 = false /\ c =? 124 = false -> plain_char c).
  { intros c (A & B & C). apply N.eqb_neq in B. apply N.eqb_neq in C. repeat split; assumption. }
  unfold ex_text, tn_ok, item_ok, word, gap. cbn [tn_head tn_feats tn_trail fst snd].
  repeat match goal with
  | |- _ /\ _ => split
  | |- Forall _ [] => constructor
  | |- Forall _ (_ :: _) => constructor
  | |- True => exact Logic.I
  | |- _ <> [] => discriminate
  | |- plain_char _ => apply W
  | |- ex_pf _ <> None => discriminate
  | |- exists r, _ => eexists; reflexivity
  | |- _ = _ => reflexivity
  | _ => progress cbn [tn_head tn_feats tn_trail fst snd]
  end.
Qed.
Lemma ex_same : label_words [49; 32] [[49]] /\ simple_label ex_pf [[49]] (Some (@f_of_N BF0 1, None)) /\
  Forall (tn_ok ex_pf) ex_text /\ Forall (anon_fits ex_h 0) ex_text /\ Forall2 (same_ns ex_pf) ex_text ex_same_json /\
  exists o', to_features BF0 ex_h true 0 4 ex_al (JObj ex_same_json) (cobj_new BF0) = Ok o'.
Proof.
  split; [apply label_words_tokens; reflexivity|]. split; [constructor; reflexivity|]. split; [exact ex_text_ok|].
  split; [repeat constructor|]. split; [|apply is_ok_ex; vm_compute; reflexivity].
  repeat constructor.
  - eapply (si_num ex_pf 120 [] [50]). reflexivity.
  - exact (sm_names ex_pf [[119]]).
Qed.
Lemma ex_lawful : lawful ex_al /\ exists v, ex_rd [1] = Some v /\ is_ok (json_example BF0 ex_hash true 0 18 ex_al ex_rd FTCb LTCb [] [1]) = true.
Proof.
  split; [intros c l a; cbn [ex_al al_exact al_amortized]; lia|]. eexists. split; [reflexivity|]. vm_compute. reflexivity.
Qed.

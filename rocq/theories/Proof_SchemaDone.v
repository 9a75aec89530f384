(** What the loader accepts and is written in the usual way is valid (C65). *)
From Coq Require Import List NArith Bool String Lia PeanoNat.
From Verif Require Import Base FloatOps Model_Hash Model_Features Model_Weights Model_Loss Model_Interactions Model_Types Model_Coin
  Model_Stack Model_Factory Model_Text Model_Json Model_Config Spec_Config Spec_Schema Model_Schema Proof_TextParse Proof_Config
  Proof_Schema Proof_SchemaLeaf Proof_SchemaLoad.
Import ListNotations.
Open Scope list_scope.
Open Scope N_scope.

Section Done.
Context {O : FOps} (isint nonneg : jnum O -> bool) (rx : str -> str -> bool).
Context (HI : forall n k, jn_u64 n = Some k -> isint n = true /\ nonneg n = true) (HR : forall s, rx (lit ".*") s = true).
Local Notation json := (json O).
Local Notation obj := (list (str * json)).
Local Notation V := (valid isint nonneg rx pdefs).
Local Notation NV := (invalid isint nonneg rx pdefs).
Local Notation fits := (fits isint nonneg rx).

Lemma plain_nodup : forall (o : obj), plain (JObj o) -> NoDup (map fst o).
Proof. intros o P. apply P. Qed.
Lemma plain_in : forall (o : obj) k x, plain (JObj o) -> In (k, x) o -> k <> lit "interactions" -> plain x.
Proof.
  intros o k x (_ & _ & P) I N. revert P I. induction o as [|[k' y] o IH]; cbn [fold_right fst snd]; [intros _ []|].
  intros (A & B) [E|I]; auto. inversion E; subst. rewrite str_eqb_ne in A; auto.
Qed.
Lemma plain_inter : forall (o : obj) x, plain (JObj o) -> In (lit "interactions", x) o ->
  forall ps, x = JArr ps -> forall ds, In (JArr ds) ps -> forall w, In w ds -> plain w.
Proof.
  intros o x (_ & _ & P) I ps -> ds J w K. revert P I. induction o as [|[k' y] o IH]; cbn [fold_right fst snd]; [intros _ []|].
  intros (A & B) [E|I]; auto. inversion E; subst. rewrite str_eqb_refl in A. pose proof (each_in _ _ _ A J) as Q. cbn in Q. exact (each_in _ _ _ Q K).
Qed.

Lemma known_in : forall names (o : obj) k x, known names o = true -> In (k, x) o -> In k names.
Proof.
  intros names o k x K I. unfold known in K. rewrite forallb_forall in K. specialize (K _ I). apply existsb_exists in K.
  destruct K as (nm & J & E). apply str_eqb_eq in E. cbn in E. now subst.
Qed.
Lemma dflt_at : forall A (de : json -> option A) d nm (c : obj) z x, plain (JObj c) -> dflt de d (jfield O nm c) = Some z -> In (nm, x) c -> de x = Some z.
Proof. intros A de d nm c z x P E I. rewrite (in_jfield _ _ _ (plain_nodup _ P) I) in E. exact E. Qed.

(** ** leaves *)
Lemma plain_one : forall k (x : json), plain (JObj [(k, x)]) -> k <> lit "interactions" -> plain x.
Proof. intros k x P N. eapply plain_in; [exact P|now left|auto]. Qed.
Lemma num_done : forall x z, de_f32 x = Some z -> V snum x.
Proof. intros x z E. apply V_num. destruct x; try discriminate. eauto. Qed.
Lemma bool_done : forall x z, de_bool x = Some z -> V sbool x.
Proof. intros x z E. apply V_sbool. destruct x; try discriminate. eauto. Qed.
Lemma str_done : forall x z, de_str x = Some z -> V sstring x.
Proof. intros x z E. apply V_string. destruct x; try discriminate. eauto. Qed.
Lemma int_done : forall b x z, de_uint b x = Some z -> V suint x.
Proof.
  intros b x z E. apply V_uint. destruct x as [| |n| | |]; try discriminate. cbn in E. destruct (jn_u64 n) as [k|] eqn:Q; [|discriminate].
  exists n. split; auto. now apply HI with k.
Qed.
Lemma one_nodup : forall (k : str) (x : json), NoDup (map fst [(k, x)]).
Proof. intros. constructor; [intros []|constructor]. Qed.
Lemma enum_done : forall l s, In s l -> V (SObj [KType TString; KEnum l]) (JStr s).
Proof. intros. apply V_enum. eauto. Qed.
Lemma ns_done : forall x z, plain x -> de_nsdef x = Some z -> V (sref (lit "NamespaceDef")) x.
Proof.
  intros x z P E. apply (V_ref _ _ _ _ _ _ _ get_nsdef). unfold de_nsdef in E. destruct x as [| | |s| |o]; try discriminate.
  - cbn [jvariant] in E. destruct (str_eqb s (lit "Name")); [discriminate|]. destruct (str_eqb s (lit "Default")) eqn:Q; [|discriminate].
    apply str_eqb_eq in Q. subst s. apply V_oneof_l; [apply enum_done; now left|]. eapply K_type_not; [now left|]. reflexivity.
  - destruct o as [|[k y] [|]]; try discriminate. cbn [jvariant] in E. destruct (str_eqb k (lit "Name")) eqn:Q.
    + apply str_eqb_eq in Q. subst k. destruct y; try discriminate. apply V_oneof_r.
      * eapply K_type_not; [now left|]. reflexivity.
      * apply (V_variant isint nonneg rx pdefs (lit "Name") sstring). eexists. split; [reflexivity|]. split; [now left|].
        intros k x [W|[]]. inversion W; subst. split; auto. apply V_string. eauto.
    + destruct (str_eqb k (lit "Default")) eqn:Q'; [|discriminate]. apply str_eqb_eq in Q'. subst k. apply plain_one in P; [|discriminate]. cbn in E. destruct y; try discriminate. exfalso. apply P.
Qed.
Lemma link_done : forall x z, plain x -> de_link x = Some z -> V (sfield (lit "LinkFunction")) x.
Proof.
  intros x z P E. apply V_sfield, (V_ref _ _ _ _ _ _ _ get_link). unfold de_link in E. destruct x as [| | |s| |o]; try discriminate.
  - cbn [jvariant] in E. destruct (str_eqb s (lit "Identity")) eqn:Q; [apply str_eqb_eq in Q; subst; apply enum_done; now left|].
    destruct (str_eqb s (lit "Logistic")) eqn:Q'; [apply str_eqb_eq in Q'; subst; apply enum_done; right; now left|discriminate].
  - destruct o as [|[k y] [|]]; try discriminate. cbn [jvariant] in E. exfalso.
    destruct (str_eqb k (lit "Identity")) eqn:Q; [|destruct (str_eqb k (lit "Logistic")) eqn:Q'; [|discriminate]];
      (match goal with W : str_eqb k _ = true |- _ => apply str_eqb_eq in W; subst k end); (apply plain_one in P; [|discriminate]); destruct y; try discriminate; apply P.
Qed.
Lemma cbtype_done : forall x z, plain x -> de_cbtype x = Some z -> V (sfield (lit "CBType")) x.
Proof.
  intros x z P E. apply V_sfield, (V_ref _ _ _ _ _ _ _ get_cbtype). unfold de_cbtype in E. destruct x as [| | |s| |o]; try discriminate.
  - cbn [jvariant] in E. destruct (str_eqb s (lit "ips")) eqn:Q; [apply str_eqb_eq in Q; subst; apply enum_done; now left|].
    destruct (str_eqb s (lit "mtr")) eqn:Q'; [apply str_eqb_eq in Q'; subst; apply enum_done; right; now left|discriminate].
  - destruct o as [|[k y] [|]]; try discriminate. cbn [jvariant] in E. exfalso.
    destruct (str_eqb k (lit "ips")) eqn:Q; [|destruct (str_eqb k (lit "mtr")) eqn:Q'; [|discriminate]];
      (match goal with W : str_eqb k _ = true |- _ => apply str_eqb_eq in W; subst k end); (apply plain_one in P; [|discriminate]); destruct y; try discriminate; apply P.
Qed.
Lemma loss_done : forall x z, plain x -> de_loss x = Some z -> V (sfield (lit "LossFunction")) x.
Proof.
  intros x z P E. apply V_sfield, (V_ref _ _ _ _ _ _ _ get_loss). unfold de_loss in E. destruct x as [| | |s| |o]; try discriminate.
  - cbn [jvariant req] in E. destruct (str_eqb s (lit "Squared")); [discriminate|]. now destruct (str_eqb s (lit "Logistic")).
  - destruct o as [|[k y] [|]]; try discriminate. cbn [jvariant req] in E. destruct (str_eqb k (lit "Squared")) eqn:Q.
    + apply str_eqb_eq in Q. subst k. apply plain_one in P; [|discriminate]. apply V_oneof_l.
      * apply V_variant. eexists. split; [reflexivity|]. split; [now left|]. intros k x [W|[]]. inversion W; subst. split; auto.
        apply (V_ref _ _ _ _ _ _ _ get_squared), V_obj. intros kk [<- |[]]. apply K_type. destruct x; try discriminate; auto.
      * eapply NV_variant; [now left|]. discriminate.
    + destruct (str_eqb k (lit "Logistic")) eqn:Q'; [|discriminate]. apply str_eqb_eq in Q'. subst k. apply plain_one in P; [|discriminate].
      destruct y as [| | | |l|p]; try discriminate; [exfalso; apply P|]. cbn [jstruct andb map] in E.
      destruct (dflt de_f32 (f_neg O f1) (jfield O (lit "min_label") p)) as [a|] eqn:Ea; [|discriminate].
      destruct (dflt de_f32 f1 (jfield O (lit "max_label") p)) as [b|] eqn:Eb; [|discriminate].
      apply V_oneof_r.
      * eapply NV_variant; [now left|]. discriminate.
      * apply V_variant. eexists. split; [reflexivity|]. split; [now left|]. intros k x [W|[]]. inversion W; subst. split; auto.
        apply (V_ref _ _ _ _ _ _ _ get_logistic), V_object. exists p. split; auto. intros k x I s Es. unfold prop_schema in Es.
        rewrite !sget_cons in Es. destruct (str_eqb k (lit "max_label")) eqn:K1.
        -- apply str_eqb_eq in K1. subst k. inversion Es; subst. eapply num_done, dflt_at; [exact P|exact Eb|exact I].
        -- destruct (str_eqb k (lit "min_label")) eqn:K2; [|discriminate]. apply str_eqb_eq in K2. subst k. inversion Es; subst.
           eapply num_done, dflt_at; [exact P|exact Ea|exact I].
Qed.

(** ** reductions *)
Definition done_at (y : json) : Prop := forall j, plain y -> de_jrc y = Some j -> complete (parse_jrc j) -> V any_ref y.
Lemma below_done : forall (c : obj) nm d n j y, plain (JObj c) -> nm <> lit "interactions" -> (forall y, In (nm, y) c -> done_at y) ->
  dflt de_jrc d (jfield O nm c) = Some j -> complete (parse_config n j) -> (jdepth (JObj c) + 3 <= n)%nat -> In (nm, y) c -> V (sfield s_any) y.
Proof.
  intros c nm d n j y P N D E Q L I. apply V_sfield. pose proof (in_jfield _ _ _ (plain_nodup _ P) I) as Ey. rewrite Ey in E. cbn [dflt] in E.
  apply (D y I j); auto; [eapply plain_in; eauto|]. rewrite (parse_jrc_fuel n j); auto. pose proof (jfield_depth _ _ _ Ey).
  unfold jrc_depth. destruct j as [ty [x|]]; cbn [snd]; [|lia]. pose proof (de_jrc_depth _ _ _ E). lia.
Qed.
Lemma fits_intro : forall ps names (c : obj), known names c = true ->
  (forall k x, In k names -> In (k, x) c -> exists s, sget k ps = Some s /\ V s x) -> fits ps c.
Proof. intros ps names c K Q k x I. apply Q; auto. eapply known_in; eauto. Qed.

Ltac at_name P := match goal with
  | I : In (?nm, ?x) ?c, E : dflt ?de ?d (jfield O ?nm ?c) = Some ?z |- ex _ =>
      eexists; split; [reflexivity|];
      first [ eapply num_done; eapply dflt_at; [exact P|exact E|exact I]
            | eapply bool_done; eapply dflt_at; [exact P|exact E|exact I]
            | eapply str_done; eapply dflt_at; [exact P|exact E|exact I]
            | eapply int_done; eapply dflt_at; [exact P|exact E|exact I]
            | eapply link_done; [eapply plain_in; [exact P|exact I|discriminate]|eapply dflt_at; [exact P|exact E|exact I]]
            | eapply cbtype_done; [eapply plain_in; [exact P|exact I|discriminate]|eapply dflt_at; [exact P|exact E|exact I]]
            | eapply loss_done; [eapply plain_in; [exact P|exact I|discriminate]|eapply dflt_at; [exact P|exact E|exact I]]
            | apply V_sfield; eapply ns_done; [eapply plain_in; [exact P|exact I|discriminate]|eapply dflt_at; [exact P|exact E|exact I]]
            | eapply (below_done c nm); [exact P|discriminate| |exact E|eassumption|eassumption|exact I]; eauto ]
  end.

Lemma options_done : forall f t (c : obj) n, In f factories -> registry_get (fa_name f) = Some t -> plain (JObj c) ->
  (forall k y, In (k, y) c -> done_at y) -> (jdepth (JObj c) + 3 <= n)%nat ->
  complete (parse_with (parse_config n) t (JObj c)) -> V (fa_schema f) (JObj c).
Proof.
  intros f t c n I T P SB L Q. cbn in I.
  repeat (destruct I as [<- |I]; [vm_compute in T; injection T as <-; cbn [fa_schema f_binary f_cb_adf f_greedy f_softmax f_squarecb f_coin f_debug f_elem];
    apply V_config; exists c; split; [reflexivity|]; unfold parse_with, de_coin, jstruct, coin_names in Q;
    match type of Q with context [known ?names c] => destruct (known names c) eqn:K; [|destruct Q] end; cbn [negb andb map coin_names] in Q;
    repeat match type of Q with
    | context [dflt ?de ?d ?r] => let z := fresh "z" in let E := fresh "E" in destruct (dflt de d r) as [z|] eqn:E; [|destruct Q]
    end; cbn [opt_cfg complete] in Q;
    eapply fits_intro; [exact K|]; intros k x J I'; unfold coin_names in J; cbn [In] in J;
    repeat match type of J with _ \/ _ => destruct J as [J|J]; [subst k; at_name P|] end; destruct J|]). destruct I.
Qed.

Lemma red_done : forall n v, (jdepth v < n)%nat -> done_at v.
Proof.
  induction n as [|n IH]; intros v L j P E Q; [lia|]. destruct v as [| | | |l|o]; try discriminate; [exfalso; apply P|].
  rewrite de_jrc_obj in E. destruct (jfield O (lit "typename") o) as [[| | |ty| |]|] eqn:Et; try discriminate.
  pose proof (jfield_in _ _ _ Et) as It.
  assert (R : exists t, registry_get ty = Some t).
  { inversion E; subst j. unfold parse_jrc in Q. match type of Q with context [parse_config (?a + 4)] => replace (a + 4)%nat with (S (a + 3)) in Q by lia end.
    cbn [parse_config fst] in Q. destruct (registry_get ty); eauto. destruct Q. }
  destruct R as (t & Rt).
  assert (F : exists f, In f factories /\ fa_name f = ty).
  { unfold registry_get in Rt. apply find_some in Rt. destruct Rt as (_ & Rt). apply str_eqb_eq in Rt. subst ty.
    destruct t; [exists f_coin|exists f_binary|exists f_cb_adf|exists f_greedy|exists f_debug|exists f_squarecb|exists f_softmax|exists f_elem];
      (split; [cbn; tauto|reflexivity]). }
  destruct F as (f & If & <-).
  apply (V_any_named _ _ _ _ factories pub_distinct pub_registered o (fa_name f) (plain_nodup _ P) It).
  exists f. split; auto. split; auto. intros k x I.
  assert (K : k = lit "typename" \/ k = lit "config").
  { destruct P as (_ & P & _). apply P; [|apply in_map_iff; exists (k, x); auto]. apply in_map_iff. exists (lit "typename", JStr (fa_name f)). auto. }
  destruct K as [-> | ->]; auto. right. split; auto. pose proof (in_jfield _ _ _ (plain_nodup _ P) I) as Ex. rewrite Ex in E.
  assert (Px : plain x) by (eapply plain_in; [exact P|exact I|discriminate]). pose proof (jfield_depth _ _ _ Ex) as Ld.
  assert (Qx : complete (parse_with (parse_config (jdepth x + 3)) t x)).
  { assert (Ej : j = (fa_name f, Some x)) by (destruct x; inversion E; auto; destruct Px). subst j. unfold parse_jrc in Q. cbn [snd] in Q.
    replace (jdepth x + 4)%nat with (S (jdepth x + 3)) in Q by lia. cbn [parse_config fst snd] in Q. rewrite Rt in Q. exact Q. }
  assert (Eo : exists c, x = JObj c).
  { destruct x as [| | | |l|c]; eauto; exfalso; try (now apply Px); clear - Qx If Rt; cbn in If;
    repeat (destruct If as [<- |If]; [vm_compute in Rt; injection Rt as <-; destruct Qx|]); destruct If. }
  destruct Eo as (c & ->). eapply options_done; [exact If|exact Rt|exact Px| |apply le_n|exact Qx].
  intros k y J. apply IH. destruct (key_jfield k c) as (y' & Ey); [apply in_map_iff; exists (k, y); auto|].
  rewrite <- (nodup_same c k y' y (plain_nodup _ Px) (jfield_in _ _ _ Ey) J). pose proof (jfield_depth _ _ _ Ey). lia.
Qed.

(** ** the file *)
Lemma global_done : forall x gc, plain x -> de_global x = Some gc -> V (sref (lit "GlobalConfig")) x.
Proof.
  intros x gc P E. apply (V_ref _ _ _ _ _ _ _ get_global). unfold global_schema. apply V_config.
  unfold de_global, jstruct, global_names in E. destruct x as [| | | |l|c]; try discriminate; [exfalso; apply P|].
  exists c. split; auto. match type of E with context [known ?names c] => destruct (known names c) eqn:K; [|discriminate] end. cbn [negb andb map] in E.
  repeat match type of E with
  | context [dflt ?de ?d ?r] => let z := fresh "z" in let E' := fresh "E" in destruct (dflt de d r) as [z|] eqn:E'; [|discriminate]
  end.
  eapply fits_intro; [exact K|]; intros k x J I'; cbn [In] in J. destruct J as [<- |[<- |[<- |[<- |[]]]]].
  - at_name P.
  - at_name P.
  - at_name P.
  - eexists. split; [reflexivity|]. pose proof (dflt_at _ _ _ _ _ _ _ P E3 I') as D.
    assert (All : forall A (de : json -> option A) l zs y, de_all de l = Some zs -> In y l -> exists z, de y = Some z).
    { intros A de l. induction l as [|w l IH]; intros zs y D' Iy; [destruct Iy|]. cbn in D'. destruct (de w) as [z'|] eqn:Ew; [|discriminate].
      destruct (de_all de l) as [zs'|] eqn:El; [|discriminate]. destruct Iy as [<- |Iy]; eauto. }
    assert (Arr : forall s l, (forall y, In y l -> V s y) -> V (SObj [KType TArray; KItems s]) (JArr l)).
    { intros s l Y. apply V_obj. intros kk [<- |[<- |[]]]; [now apply K_type|]. apply K_items. intros l' El. inversion El; now subst. }
    destruct x as [| | | |ps|]; try discriminate. cbn in D. apply Arr. intros p Ip. destruct (All _ _ _ _ _ D Ip) as (is & Di).
    destruct p as [| | | |ds|]; try discriminate. cbn in Di. apply Arr. intros w Iw. destruct (All _ _ _ _ _ Di Iw) as (nd & Dn).
    eapply ns_done; [|exact Dn]. eapply plain_inter; eauto.
Qed.
Lemma file_done : forall v gc j, plain v -> de_configuration v = Some (gc, j) -> complete (parse_jrc j) -> V (fst published) v.
Proof.
  intros v gc j P E Q. assert (T : fst published = fst schema_new) by (vm_compute; reflexivity). rewrite T. cbn [fst schema_new].
  destruct v as [| | | |l|o]; try discriminate; [exfalso; apply P|]. rewrite de_configuration_obj in E.
  match type of E with context [known ?names o] => destruct (known names o) eqn:K; [|discriminate] end.
  destruct (dflt (de_opt de_str) None (jfield O (lit "$schema") o)) as [z1|] eqn:E1; [|discriminate].
  destruct (jfield O (lit "globalConfig") o) as [g|] eqn:Eg; [|discriminate]. cbn [req] in E. destruct (de_global g) as [gc'|] eqn:Dg; [|discriminate].
  destruct (jfield O (lit "entryReduction") o) as [e|] eqn:Ee; [|discriminate]. cbn [req] in E. destruct (de_jrc e) as [j'|] eqn:De; [|discriminate].
  inversion E; subst gc' j'. pose proof (jfield_in _ _ _ Eg) as Ig. pose proof (jfield_in _ _ _ Ee) as Ie.
  apply V_obj. intros k [<- |[<- |[<- |[]]]].
  - now apply K_type.
  - apply K_required. intros o' Eo k I. inversion Eo; subst o'. destruct I as [<- |[<- |[]]]; apply in_map_iff; [exists (lit "entryReduction", e)|exists (lit "globalConfig", g)]; auto.
  - apply K_properties. intros o' Eo k x I s Es. inversion Eo; subst o'. pose proof (known_in _ _ _ _ K I) as N. cbn in N. destruct N as [<- |[<- |[<- |[]]]].
    + assert (s = SObj [KPattern (lit ".*")]) by (vm_compute in Es; vm_compute; congruence). subst s. apply V_obj. intros kk [<- |[]].
      exists 0%nat. unfold kw. cbn [holds]. f_equal. destruct x; auto.
    + assert (s = sref (lit "GlobalConfig")) by (vm_compute in Es; vm_compute; congruence). subst s.
      rewrite (nodup_same o _ _ _ (plain_nodup _ P) I Ig). eapply global_done; [|exact Dg]. eapply plain_in; [exact P|exact Ig|discriminate].
    + assert (s = any_ref) by (vm_compute in Es; vm_compute; congruence). subst s.
      rewrite (nodup_same o _ _ _ (plain_nodup _ P) I Ie). eapply (red_done (S (jdepth e))); [lia| |exact De|exact Q].
      eapply plain_in; [exact P|exact Ie|discriminate].
Qed.
End Done.

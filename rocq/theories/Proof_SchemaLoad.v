(** The schema of configuration files against the loader (C65). *)
From Coq Require Import List NArith Bool String Lia PeanoNat.
From Verif Require Import Base FloatOps Model_Hash Model_Features Model_Weights Model_Loss Model_Interactions Model_Types Model_Coin
  Model_Stack Model_Factory Model_Text Model_Json Model_Config Spec_Config Spec_Schema Model_Schema Proof_TextParse Proof_Config
  Proof_Schema Proof_SchemaLeaf.
Import ListNotations.
Open Scope list_scope.
Open Scope N_scope.

Definition pdefs : sdefs := snd published.
Lemma pub_build : build_schema factories = Ok published.
Proof. vm_compute. reflexivity. Qed.
Lemma pub_distinct : NoDup (map fa_name factories).
Proof. repeat constructor; intros I; vm_compute in I; repeat (destruct I as [I|I]; [discriminate|]); destruct I. Qed.
Lemma pub_registered : registered factories pdefs.
Proof.
  split; [vm_compute; reflexivity|]. intros f I. cbn in I.
  repeat (destruct I as [<- |I]; [vm_compute; reflexivity|]). destruct I.
Qed.
Lemma get_global : sget (lit "GlobalConfig") pdefs = Some global_schema. Proof. vm_compute. reflexivity. Qed.
Lemma get_nsdef : sget (lit "NamespaceDef") pdefs = Some nsdef_schema. Proof. vm_compute. reflexivity. Qed.
Lemma get_cbtype : sget (lit "CBType") pdefs = Some (SObj [KType TString; KEnum [lit "ips"; lit "mtr"]]). Proof. vm_compute. reflexivity. Qed.
Lemma get_link : sget (lit "LinkFunction") pdefs = Some (SObj [KType TString; KEnum [lit "Identity"; lit "Logistic"]]). Proof. vm_compute. reflexivity. Qed.
Lemma get_loss : sget (lit "LossFunction") pdefs =
  Some (SObj [KOneOf [one_variant (lit "Squared") (sref (lit "SquaredLoss")); one_variant (lit "Logistic") (sref (lit "LogisticLoss"))]]).
Proof. vm_compute. reflexivity. Qed.
Lemma get_squared : sget (lit "SquaredLoss") pdefs = Some (SObj [KType TObject]). Proof. vm_compute. reflexivity. Qed.
Lemma get_logistic : sget (lit "LogisticLoss") pdefs = Some logistic_schema. Proof. vm_compute. reflexivity. Qed.

Section Load.
Context {O : FOps} (isint nonneg : jnum O -> bool) (rx : str -> str -> bool).
Local Notation json := (json O).
Local Notation obj := (list (str * json)).
Local Notation V := (valid isint nonneg rx pdefs).
Local Notation NV := (invalid isint nonneg rx pdefs).

(** ** objects *)
Lemma jfield_in : forall k (o : obj) x, jfield O k o = Some x -> In (k, x) o.
Proof.
  intros k o x. unfold jfield. destruct (find _ (rev o)) as [[k' y]|] eqn:E; [|discriminate]. intros Q. inversion Q; subst.
  apply find_some in E. destruct E as (I & E). apply str_eqb_eq in E. cbn in *. subst k'. now apply in_rev.
Qed.
Lemma in_jfield : forall k (o : obj) x, NoDup (map fst o) -> In (k, x) o -> jfield O k o = Some x.
Proof.
  intros k o x N I. destruct (jfield O k o) as [y|] eqn:E.
  - f_equal. eapply nodup_same; eauto. now apply jfield_in.
  - exfalso. unfold jfield in E. destruct (find _ (rev o)) eqn:F; [discriminate|]. apply in_rev in I.
    pose proof (find_none _ _ F _ I) as Q. cbn in Q. rewrite str_eqb_refl in Q. discriminate.
Qed.
Lemma key_jfield : forall k (o : obj), In k (map fst o) -> exists x, jfield O k o = Some x.
Proof.
  intros k o I. apply in_map_iff in I. destruct I as ([k' x] & <- & I). cbn. destruct (jfield O k' o) as [y|] eqn:E; eauto.
  exfalso. unfold jfield in E. destruct (find _ (rev o)) eqn:F; [discriminate|]. apply in_rev in I.
  pose proof (find_none _ _ F _ I) as Q. cbn in Q. rewrite str_eqb_refl in Q. discriminate.
Qed.
Lemma every_in : forall (P : json -> Prop) o k x, every P o -> In (k, x) o -> P x.
Proof. intros P o k x. induction o as [|[k' y] o IH]; cbn; [tauto|]. intros (A & B) [E|I]; [inversion E; now subst|auto]. Qed.
Lemma each_in : forall (P : json -> Prop) l x, each P l -> In x l -> P x.
Proof. intros P l x. induction l as [|y o IH]; cbn; [tauto|]. intros (A & B) [E|I]; [now subst|auto]. Qed.
Lemma careful_in : forall (o : obj) k x, careful (JObj o) -> In (k, x) o -> careful x.
Proof. intros o k x (_ & _ & _ & _ & _ & _ & _ & C). apply every_in. exact C. Qed.
Lemma dflt_ok : forall A (de : json -> option A) d nm (c : obj), (forall x, In (nm, x) c -> exists z, de x = Some z) ->
  exists z, dflt de d (jfield O nm c) = Some z.
Proof. intros A de d nm c Q. destruct (jfield O nm c) as [x|] eqn:E; cbn; [apply Q; now apply jfield_in|eauto]. Qed.
Definition fits (ps : sdefs) (o : obj) : Prop := forall k x, In (k, x) o -> exists s, sget k ps = Some s /\ V s x.
Lemma fits_at : forall ps o nm x s, fits ps o -> In (nm, x) o -> sget nm ps = Some s -> V s x.
Proof. intros ps o nm x s F I E. destruct (F nm x I) as (s' & E' & Q). congruence. Qed.
Lemma fits_known : forall ps o names, fits ps o -> (forall kv, In kv ps -> In (fst kv) names) -> known names o = true.
Proof.
  intros ps o names F Q. unfold known. apply forallb_forall. intros [k x] I. destruct (F k x I) as (s & E & _).
  unfold sget in E. destruct (find _ ps) as [kv|] eqn:G; [|discriminate]. apply find_some in G. destruct G as (J & K).
  apply str_eqb_eq in K. apply existsb_exists. exists (fst kv). split; [now apply Q|]. cbn. now apply str_eqb_eq.
Qed.

(** ** leaves *)
Lemma de_num : forall x, V snum x -> exists z, de_f32 x = Some z.
Proof. intros x Q. apply V_num in Q. destruct Q as (n & ->). cbn. eauto. Qed.
Lemma de_sbool : forall x, V sbool x -> exists z, de_bool x = Some z.
Proof. intros x Q. apply V_sbool in Q. destruct Q as (n & ->). cbn. eauto. Qed.
Lemma de_sstr : forall x, V sstring x -> exists z, de_str x = Some z.
Proof. intros x Q. apply V_string in Q. destruct Q as (n & ->). cbn. eauto. Qed.
Lemma de_int : forall b x, V suint x -> (forall n, x = JNum n -> exists k, jn_u64 n = Some k /\ k < b) -> exists z, de_uint b x = Some z.
Proof.
  intros b x Q B. apply V_uint in Q. destruct Q as (n & -> & _). destruct (B n eq_refl) as (k & E & L). cbn. rewrite E.
  apply N.ltb_lt in L. rewrite L. eauto.
Qed.
Lemma de_ns : forall x, V (sref (lit "NamespaceDef")) x -> careful x -> exists z, de_nsdef x = Some z.
Proof.
  intros x Q C. rewrite (V_ref _ _ _ _ _ _ _ get_nsdef) in Q. apply V_oneof2 in Q. destruct Q as [Q|Q].
  - apply V_enum in Q. destruct Q as (s & -> & [<- |[]]). eexists. reflexivity.
  - apply (V_variant isint nonneg rx pdefs (lit "Name") sstring) in Q. destruct Q as (o & -> & N & Q).
    destruct (one_entry o _ (proj1 C) N (fun k x I => proj1 (Q k x I))) as (y & ->).
    destruct (Q _ y (or_introl eq_refl)) as (_ & S). apply V_string in S. destruct S as (s & ->). eexists. reflexivity.
Qed.
Lemma de_links : forall x, V (sfield (lit "LinkFunction")) x -> exists z, de_link x = Some z.
Proof.
  intros x Q. apply V_sfield in Q. rewrite (V_ref _ _ _ _ _ _ _ get_link) in Q. apply V_enum in Q.
  destruct Q as (s & -> & [<- |[<- |[]]]); eexists; reflexivity.
Qed.
Lemma de_cbtypes : forall x, V (sfield (lit "CBType")) x -> exists z, de_cbtype x = Some z.
Proof.
  intros x Q. apply V_sfield in Q. rewrite (V_ref _ _ _ _ _ _ _ get_cbtype) in Q. apply V_enum in Q.
  destruct Q as (s & -> & [<- |[<- |[]]]); eexists; reflexivity.
Qed.
Lemma de_losses : forall x, V (sfield (lit "LossFunction")) x -> careful x -> exists z, de_loss x = Some z.
Proof.
  intros x Q C. apply V_sfield in Q. rewrite (V_ref _ _ _ _ _ _ _ get_loss) in Q. apply V_oneof2 in Q. destruct Q as [Q|Q];
  apply V_variant in Q; destruct Q as (o & -> & N & Q); destruct (one_entry o _ (proj1 C) N (fun k x I => proj1 (Q k x I))) as (y & ->);
  destruct (Q _ y (or_introl eq_refl)) as (_ & S).
  - rewrite (V_ref _ _ _ _ _ _ _ get_squared) in S. rewrite V_obj in S. specialize (S _ (or_introl eq_refl)). apply K_type in S.
    destruct y; try discriminate. eexists. reflexivity.
  - rewrite (V_ref _ _ _ _ _ _ _ get_logistic) in S. apply V_object in S. destruct S as (p & -> & S).
    destruct (dflt_ok _ de_f32 (f_neg O f1) (lit "min_label") p) as (a & Ea).
    { intros x I. apply de_num. apply (S _ x I). reflexivity. }
    destruct (dflt_ok _ de_f32 f1 (lit "max_label") p) as (b & Eb).
    { intros x I. apply de_num. apply (S _ x I). reflexivity. }
    unfold de_loss. cbn [jvariant]. change (str_eqb (lit "Logistic") (lit "Squared")) with false. rewrite str_eqb_refl.
    cbn [req jstruct andb map]. rewrite Ea, Eb. eauto.
Qed.

(** ** reductions *)
Definition sound_at (y : json) : Prop := V any_ref y -> careful y -> exists j, de_jrc y = Some j /\ complete (parse_jrc j).
Lemma below_ok : forall (c : obj) nm d n, (forall y, In (nm, y) c -> sound_at y) -> (forall y, In (nm, y) c -> V (sfield s_any) y) ->
  careful (JObj c) -> complete (parse_config n d) \/ In nm (map fst c) -> (jdepth (JObj c) + 3 <= n)%nat ->
  exists j, dflt de_jrc d (jfield O nm c) = Some j /\ complete (parse_config n j).
Proof.
  intros c nm d n S Q C D L. destruct (jfield O nm c) as [y|] eqn:E; cbn.
  - pose proof (jfield_in _ _ _ E) as I. destruct (S y I (proj1 (V_sfield _ _ _ _ _ _) (Q y I)) (careful_in _ _ _ C I)) as (j & Ej & P).
    exists j. split; auto. pose proof (jfield_depth _ _ _ E). rewrite (parse_jrc_fuel n j) in P; auto.
    unfold jrc_depth. destruct j as [ty [x|]]; cbn [snd]; [|lia]. pose proof (de_jrc_depth _ _ _ Ej). lia.
  - exists d. split; auto. destruct D as [D|D]; auto. apply key_jfield in D. destruct D as (x & D). congruence.
Qed.

Ltac known_tac F := match goal with |- context [known ?names ?o] =>
  let K := fresh in assert (K : known names o = true) by
    (eapply fits_known; [exact F|intros kv I; cbn in I; repeat (destruct I as [<- |I]; [cbn [fst]; cbn; tauto|]); destruct I]);
  rewrite K; clear K end.
Ltac fld F C nm := match goal with |- context [dflt ?de ?d (jfield O (lit nm) ?c)] =>
  let z := fresh "z" in let E := fresh in
  assert (E : exists z, dflt de d (jfield O (lit nm) c) = Some z) by
    (apply dflt_ok; let x := fresh "x" in let I := fresh in intros x I;
     first [ apply de_num; eapply fits_at; [exact F|exact I|reflexivity]
           | apply de_sbool; eapply fits_at; [exact F|exact I|reflexivity]
           | apply de_sstr; eapply fits_at; [exact F|exact I|reflexivity]
           | apply de_links; eapply fits_at; [exact F|exact I|reflexivity]
           | apply de_cbtypes; eapply fits_at; [exact F|exact I|reflexivity]
           | apply de_losses; [eapply fits_at; [exact F|exact I|reflexivity]|eapply careful_in; eauto]
           | apply de_ns; [apply V_sfield; eapply fits_at; [exact F|exact I|reflexivity]|eapply careful_in; eauto] ]);
  destruct E as (z & E); rewrite E; clear E end.

Lemma options_sound : forall f t (c : obj) n, In f factories -> registry_get (fa_name f) = Some t -> V (fa_schema f) (JObj c) -> careful (JObj c) ->
  (forall k y, In (k, y) c -> sound_at y) -> (fa_name f = lit "Debug" -> keyof c "next") -> (jdepth (JObj c) + 3 <= n)%nat ->
  complete (parse_with (parse_config n) t (JObj c)).
Proof.
  intros f t c n I T Q C SB D L. destruct n as [|[|[|n]]]; try lia. cbn in I.
  assert (B : forall d nm, complete (parse_config (S (S (S n))) d) \/ In nm (map fst c) -> (forall y, In (nm, y) c -> V (sfield s_any) y) ->
    exists j, dflt de_jrc d (jfield O nm c) = Some j /\ complete (parse_config (S (S (S n))) j)).
  { intros d nm Dd W. apply below_ok; auto. intros y J. eapply SB; eauto. }
  repeat (destruct I as [<- |I]; [vm_compute in T; injection T as <-; cbn [fa_schema fa_name f_binary f_cb_adf f_greedy f_softmax f_squarecb f_coin f_debug f_elem] in Q, D;
    apply V_config in Q; destruct Q as (o & E & F); injection E as <-; fold (fits) in F; unfold parse_with, jstruct|]); [..|destruct I].
  - known_tac F. cbn [negb andb map].
    destruct (B default_regressor (lit "regressor")) as (j & Ej & P); [now left|intros y J; eapply fits_at; [exact F|exact J|reflexivity]|].
    rewrite Ej. exact P.
  - known_tac F. cbn [negb andb map].
    destruct (B default_regressor (lit "regressor")) as (j & Ej & P); [now left|intros y J; eapply fits_at; [exact F|exact J|reflexivity]|].
    fld F C "cbType"%string. rewrite Ej. exact P.
  - known_tac F. cbn [negb andb map].
    destruct (B default_cb_adf (lit "cbAdf")) as (j & Ej & P); [now left|intros y J; eapply fits_at; [exact F|exact J|reflexivity]|].
    fld F C "epsilon"%string. rewrite Ej. exact P.
  - known_tac F. cbn [negb andb map].
    destruct (B default_cb_adf (lit "cbAdf")) as (j & Ej & P); [now left|intros y J; eapply fits_at; [exact F|exact J|reflexivity]|].
    fld F C "uniformEpsilon"%string. fld F C "lambda"%string. rewrite Ej. exact P.
  - known_tac F. cbn [negb andb map].
    destruct (B default_cb_adf (lit "cbAdf")) as (j & Ej & P); [now left|intros y J; eapply fits_at; [exact F|exact J|reflexivity]|].
    fld F C "uniformEpsilon"%string. fld F C "gammaScale"%string. fld F C "gammaExponent"%string. rewrite Ej. exact P.
  - unfold de_coin, jstruct, coin_names. known_tac F. cbn [negb andb map].
    fld F C "alpha"%string. fld F C "beta"%string. fld F C "l1Lambda"%string. fld F C "l2Lambda"%string.
    fld F C "lossFunction"%string. fld F C "linkFunction"%string. exact Logic.I.
  - known_tac F. cbn [negb andb map].
    destruct (B default_next (lit "next")) as (j & Ej & P); [right; apply D; reflexivity|intros y J; eapply fits_at; [exact F|exact J|reflexivity]|].
    fld F C "id"%string. fld F C "prediction"%string. fld F C "label"%string. fld F C "features"%string.
    assert (E : exists z, dflt de_usize 0 (jfield O (lit "indent") c) = Some z).
    { apply dflt_ok. intros x J. apply de_int; [eapply fits_at; [exact F|exact J|reflexivity]|]. intros m ->.
      destruct C as (_ & _ & _ & _ & _ & C & _). now apply C. }
    destruct E as (z4 & E). rewrite E, Ej. exact P.
  - known_tac F. cbn [negb andb map].
    destruct (B default_regressor (lit "regressor")) as (j & Ej & P); [now left|intros y J; eapply fits_at; [exact F|exact J|reflexivity]|].
    rewrite Ej. fld F C "one"%string. fld F C "two"%string. fld F C "keepOriginalFeatures"%string. exact P.
Qed.

Lemma factory_registry : forall f, In f factories -> exists t, registry_get (fa_name f) = Some t /\
  (fa_name f = lit "Debug" \/ complete (O:=O) (parse_jrc (fa_name f, None))).
Proof.
  intros f I. cbn in I. repeat (destruct I as [<- |I]; [eexists; split; [vm_compute; reflexivity|first [left; reflexivity|right; vm_compute; exact Logic.I]]|]). destruct I.
Qed.

Lemma red_sound : forall n v, (jdepth v < n)%nat -> sound_at v.
Proof.
  induction n as [|n IH]; intros v L Q C; [lia|].
  destruct (V_any_object _ _ _ _ factories pub_registered v ltac:(discriminate) Q) as (o & -> & K).
  assert (K' : In (lit "typename") (map fst o)) by (destruct K as [K|K]; auto; now apply (proj1 (proj2 C))).
  destruct (key_jfield _ _ K') as (x & Ex). pose proof (jfield_in _ _ _ Ex) as Ix.
  assert (Es : exists t, x = JStr t).
  { destruct (V_any_elim _ _ _ _ factories pub_registered _ Q) as (f & _ & Qf). rewrite V_reduction in Qf.
    destruct (Qf o eq_refl _ _ Ix) as [(E & _)|(_ & E)]; [vm_compute in E; discriminate|eauto]. }
  destruct Es as (t & ->).
  apply (V_any_named _ _ _ _ factories pub_distinct pub_registered o t (proj1 C) Ix) in Q. destruct Q as (f & If & <- & Q).
  rewrite de_jrc_obj, Ex. destruct (factory_registry f If) as (t & T & Dn).
  destruct (jfield O (lit "config") o) as [y|] eqn:Ey.
  - pose proof (jfield_in _ _ _ Ey) as Iy. destruct (Q _ _ Iy) as [E|(_ & Vy)]; [vm_compute in E; discriminate|].
    assert (Eo : exists c, y = JObj c).
    { destruct (in_split f factories If) as (? & ? & _). clear - Vy If. cbn in If.
      repeat (destruct If as [<- |If]; [apply V_config in Vy; destruct Vy as (c & -> & _); eauto|]). destruct If. }
    destruct Eo as (c & ->). eexists. split; [reflexivity|].
    unfold parse_jrc. cbn [snd]. pose proof (jfield_depth _ _ _ Ey) as Ld. replace (jdepth (JObj c) + 4)%nat with (S (jdepth (JObj c) + 3)) by lia.
    cbn [parse_config fst snd]. rewrite T. pose proof (careful_in _ _ _ C Iy) as Cy.
    apply (options_sound f); auto.
    + intros k z Iz. apply IH. assert (jdepth z < jdepth (JObj c))%nat; [|lia].
      destruct (key_jfield k c) as (z' & Ez); [apply in_map_iff; exists (k, z); auto|].
      rewrite <- (nodup_same c k z' z (proj1 Cy) (jfield_in _ _ _ Ez) Iz). eapply jfield_depth; eauto.
    + intros E. rewrite E in Ix. destruct (proj1 (proj2 (proj2 C)) Ix) as (c' & Ic & N).
      pose proof (nodup_same o _ _ _ (proj1 C) Iy Ic) as E'. injection E' as <-. exact N.
  - eexists. split; [reflexivity|]. destruct Dn as [E|P]; auto. exfalso. rewrite E in Ix.
    destruct (proj1 (proj2 (proj2 C)) Ix) as (c' & Ic & N). rewrite (in_jfield _ _ _ (proj1 C) Ic) in Ey. discriminate.
Qed.

(** ** the file *)
Lemma global_sound : forall x, V (sref (lit "GlobalConfig")) x -> careful x -> exists gc, de_global x = Some gc.
Proof.
  intros x Q C. rewrite (V_ref _ _ _ _ _ _ _ get_global) in Q. unfold global_schema in Q. apply V_config in Q. destruct Q as (o & -> & F).
  fold fits in F. unfold de_global, jstruct, global_names. known_tac F. cbn [negb andb map].
  pose proof C as (_ & _ & _ & C1 & C2 & _).
  assert (E1 : exists z, dflt de_u8 18 (jfield O (lit "numBits") o) = Some z).
  { apply dflt_ok. intros x J. apply de_int; [eapply fits_at; [exact F|exact J|reflexivity]|]. intros m ->. now apply C1. }
  assert (E2 : exists z, dflt de_u32 0 (jfield O (lit "hashSeed") o) = Some z).
  { apply dflt_ok. intros x J. apply de_int; [eapply fits_at; [exact F|exact J|reflexivity]|]. intros m ->. now apply C2. }
  destruct E1 as (z1 & ->), E2 as (z2 & ->). fld F C "constantFeatureEnabled"%string.
  assert (E3 : exists z, dflt (de_vec (de_vec de_nsdef)) [] (jfield O (lit "interactions") o) = Some z).
  { apply dflt_ok. intros x J. pose proof (fits_at _ _ _ _ _ F J eq_refl) as Q. pose proof (careful_in _ _ _ C J) as Cx.
    assert (All : forall A (de : json -> option A) l, (forall y, In y l -> exists z, de y = Some z) -> exists zs, de_all de l = Some zs).
    { intros A de l. induction l as [|y l IH]; intros Y; cbn; eauto. destruct (Y y (or_introl eq_refl)) as (z' & ->).
      destruct IH as (zs & ->); eauto. intros; apply Y; now right. }
    assert (Arr : forall s y, V (SObj [KType TArray; KItems s]) y -> exists l, y = JArr l /\ forall w, In w l -> V s w).
    { intros s y Y. rewrite V_obj in Y. pose proof (Y _ (or_introl eq_refl)) as Y1. pose proof (Y _ (or_intror (or_introl eq_refl))) as Y2.
      apply K_type in Y1. destruct y as [| | | |l|]; try discriminate. exists l. split; auto. rewrite K_items in Y2. now apply Y2. }
    apply Arr in Q. destruct Q as (l & -> & Q). cbn. apply All. intros y Iy. destruct (Arr _ _ (Q y Iy)) as (m & -> & Qm). cbn. apply All.
    intros w Iw. apply de_ns; auto. pose proof (each_in _ _ _ Cx Iy) as Cy. exact (each_in _ _ _ Cy Iw). }
  destruct E3 as (z3 & ->). eauto.
Qed.

Lemma file_sound : forall v, V (fst published) v -> careful v ->
  exists gc j, de_configuration v = Some (gc, j) /\ complete (parse_jrc j).
Proof.
  intros v Q C. assert (T : fst published = fst schema_new) by (vm_compute; reflexivity). rewrite T in Q. cbn [fst schema_new] in Q.
  rewrite V_obj in Q. pose proof (Q _ (or_introl eq_refl)) as Q1. pose proof (Q _ (or_intror (or_introl eq_refl))) as Q2.
  pose proof (Q _ (or_intror (or_intror (or_introl eq_refl)))) as Q3. clear Q. apply K_type in Q1. destruct v as [| | | | |o]; try discriminate.
  rewrite K_required in Q2. specialize (Q2 o eq_refl). rewrite K_properties in Q3. specialize (Q3 o eq_refl).
  assert (F : fits ((lit "$schema", SObj [KPattern (lit ".*")]) :: configuration_props) o).
  { intros k x I. specialize (Q3 k x I). unfold prop_schema in Q3. destruct (sget k _) as [s|]; eauto.
    specialize (Q3 _ eq_refl). apply V_bool in Q3. discriminate. }
  rewrite de_configuration_obj. known_tac F.
  assert (E1 : exists z, dflt (de_opt de_str) None (jfield O (lit "$schema") o) = Some z).
  { apply dflt_ok. intros x I. pose proof C as (_ & _ & _ & _ & _ & _ & Cs & _). destruct (Cs x I) as (s & ->). cbn. eauto. }
  destruct E1 as (z1 & ->).
  destruct (key_jfield (lit "globalConfig") o) as (g & Eg); [apply Q2; right; now left|].
  destruct (key_jfield (lit "entryReduction") o) as (e & Ee); [apply Q2; now left|].
  rewrite Eg, Ee. cbn [req]. pose proof (jfield_in _ _ _ Eg) as Ig. pose proof (jfield_in _ _ _ Ee) as Ie.
  destruct (global_sound g) as (gc & ->); [eapply fits_at; [exact F|exact Ig|reflexivity]|eapply careful_in; eauto|].
  destruct (red_sound (S (jdepth e)) e) as (j & -> & P); [lia|eapply fits_at; [exact F|exact Ie|reflexivity]|eapply careful_in; eauto|].
  eauto.
Qed.
End Load.

(** Whole JSON examples (C41, C42). *)
From Coq Require Import List NArith PeanoNat Bool Lia.
From Verif Require Import Base FloatOps FloatB32 Model_Hash Model_Features Model_Types Model_Stack Model_Text Model_Metrics Model_Train Model_Json Spec_Features
  Spec_Stack Spec_Text Spec_Json Proof_Hash Proof_Features Proof_FeaturesHist Proof_StackCong Proof_StackRestore Proof_StackProps Proof_Loose Proof_TextParse Proof_TextFeats
  Proof_TextChunk Proof_Train Proof_JsonPlan Proof_Json.
Import ListNotations.
Open Scope N_scope.

(** the same outcome, or, if [B], one is the panic [b] *)
Definition orelq {A C} (B : Prop) (b : panic) (R : A -> C -> Prop) (x : out A) (y : out C) : Prop :=
  (B /\ (x = Pn b \/ y = Pn b)) \/ orel R x y.
Lemma orelq_bind : forall A1 A2 C1 C2 B b (R : A1 -> A2 -> Prop) (S : C1 -> C2 -> Prop) x y f g,
  orelq B b R x y -> (forall u v, R u v -> orelq B b S (f u) (g v)) -> orelq B b S (bind x f) (bind y g).
Proof.
  intros A1 A2 C1 C2 B b R S x y f g [(HB & [->| ->])|[u v E|e|p]] K; [left; auto|left; auto|cbn [bind]; auto|right; constructor..].
Qed.

Section P.
Context {O : FOps} (H : hasher) (dbg : bool) (seed nb : N).
Notation cobj := (cobj O).
Notation bad := (badcap dbg).

Definition csim (a b : cobj) : Prop := fsim (fst a) (fst b) /\ pclean (fst a) /\ pclean (fst b).
Lemma plan_clean : forall v plan (m : sfeats O), features_plan H dbg seed nb v = Ok plan -> pclean m -> pclean (apply_plan plan m).
Proof.
  intros v plan m E C. apply apply_plan_clean; auto. unfold features_plan in E. destruct v as [| | | | |l]; try discriminate.
  apply mapm_F2 in E. induction E as [|kv p l plan E F IH]; constructor; auto.
  cbv zeta in E. binv E. binv E. injection E as <-. apply (name_not_raw (O := O) H (fun _ => None)).
Qed.
Lemma to_features_two : forall B al al' v o o',
  (B \/ no_lists v) -> looks_new (fst o) -> looks_new (fst o') ->
  orelq B bad csim (to_features O H dbg seed nb al v o) (to_features O H dbg seed nb al' v o').
Proof.
  intros B al al' v o o' HB L L'.
  assert (Q : forall plan, features_plan H dbg seed nb v = Ok plan -> fsim (apply_plan plan (fst o)) (apply_plan plan (fst o')) /\
     pclean (apply_plan plan (fst o)) /\ pclean (apply_plan plan (fst o'))).
  { intros plan E. split; [apply apply_plan_sim; eapply fsim_trans; [exact L|apply fsim_sym; exact L']|].
    split; apply (plan_clean v); auto; now apply looks_new_clean. }
  destruct HB as [HB|NL].
  - destruct (features_plan_ok H dbg seed nb al v o (proj1 L)) as [->|R]; [left; auto|].
    destruct (features_plan_ok H dbg seed nb al' v o' (proj1 L')) as [->|R']; [left; auto|]. right.
    destruct (features_plan H dbg seed nb v) as [plan| |]; inversion R as [a ? E| |]; inversion R' as [a' ? E'| |]; subst; constructor.
    unfold csim. rewrite E, E'. now apply Q.
  - pose proof (features_safe H dbg seed nb al v o (proj1 L) (or_introl NL)) as R.
    pose proof (features_safe H dbg seed nb al' v o' (proj1 L') (or_introl NL)) as R'. right.
    destruct (features_plan H dbg seed nb v) as [plan| |]; inversion R as [a ? E| |]; inversion R' as [a' ? E'| |]; subst; constructor.
    unfold csim. rewrite E, E'. now apply Q.
Qed.
Definition cnew (o : cobj) : Prop := looks_new (fst o).
Lemma hd_cnew : forall ds, Forall cnew ds -> cnew (hd (cobj_new O) ds).
Proof. intros ds F. destruct F; auto. apply (hd_new []). constructor. Qed.
Lemma tl_cnew : forall ds, Forall cnew ds -> Forall cnew (tl ds).
Proof. intros ds F. destruct F; [constructor|assumption]. Qed.
Lemma actions_two : forall B al al' l ds es,
  (B \/ Forall no_lists l) -> Forall cnew ds -> Forall cnew es ->
  orelq B bad (Forall2 csim) (json_actions O H dbg seed nb al l ds) (json_actions O H dbg seed nb al' l es).
Proof.
  induction l as [|a l IH]; intros ds es HB Fd Fe; cbn [json_actions]; [right; constructor; constructor|].
  eapply orelq_bind; [apply to_features_two; [|now apply hd_cnew..]|].
  { destruct HB as [HB|F]; auto. inversion F; auto. }
  intros u v S. eapply orelq_bind; [apply IH; [|now apply tl_cnew..]|].
  { destruct HB as [HB|F]; auto. inversion F; auto. }
  intros us vs F. right. constructor. now constructor.
Qed.
Definition fcsim (x y : list cobj * option cobj) : Prop :=
  Forall2 csim (fst x) (fst y) /\ match snd x, snd y with Some a, Some b => csim a b | None, None => True | _, _ => False end.
Lemma features_two : forall B al al' ft v ds es,
  (B \/ Forall no_lists (json_parts ft v)) -> Forall cnew ds -> Forall cnew es ->
  orelq B bad (fun x y => fcsim x y /\ (ft = FTSimple -> length (fst x) = 1%nat /\ length (fst y) = 1%nat))
    (json_features O H dbg seed nb al ft v ds) (json_features O H dbg seed nb al' ft v es).
Proof.
  intros B al al' ft v ds es HB Fd Fe. unfold json_features. destruct ft.
  - assert (HB' : B \/ no_lists (jget s_features v)) by (destruct HB as [HB|F]; auto; inversion F; auto).
    assert (K : orelq B bad (fun x y => fcsim x y /\ (FTSimple = FTSimple -> length (fst x) = 1%nat /\ length (fst y) = 1%nat))
      (let* x := to_features O H dbg seed nb al (jget s_features v) (hd (cobj_new O) ds) in Ok ([x], None))
      (let* x := to_features O H dbg seed nb al' (jget s_features v) (hd (cobj_new O) es) in Ok ([x], None))).
    { eapply orelq_bind; [apply to_features_two; [exact HB'|now apply hd_cnew..]|].
      intros a b S. right. constructor. split; auto. split; cbn [fst snd]; auto. }
    destruct (jget s_features v); exact K.
  - eapply orelq_bind with (R := fun a b => (match fst a, fst b with Some a, Some b => csim a b | None, None => True | _, _ => False end) /\
      Forall cnew (snd a) /\ Forall cnew (snd b)).
    + assert (HB' : B \/ no_lists (jget str_shared v)) by (destruct HB as [HB|F]; auto; inversion F; auto).
      assert (K : orelq B bad (fun a b => (match fst a, fst b with Some a, Some b => csim a b | None, None => True | _, _ => False end) /\
            Forall cnew (snd a) /\ Forall cnew (snd b))
        (let* x := to_features O H dbg seed nb al (jget str_shared v) (hd (cobj_new O) ds) in Ok (Some x, tl ds))
        (let* x := to_features O H dbg seed nb al' (jget str_shared v) (hd (cobj_new O) es) in Ok (Some x, tl es))).
      { eapply orelq_bind; [apply to_features_two; [exact HB'|now apply hd_cnew..]|].
        intros a b S. right. constructor. cbn [fst snd]. auto using tl_cnew. }
      destruct (jget str_shared v); try exact K. right. constructor. cbn [fst snd]. auto.
    + intros a b (S & Fa & Fb). destruct (jget s_actions v) as [| | | |l|] eqn:EA; try (right; constructor).
      eapply orelq_bind; [apply actions_two; [|exact Fa|exact Fb]|].
      * destruct HB as [HB|F]; auto. right. cbn [json_parts] in F. rewrite EA in F. now inversion F.
      * intros xs ys F. right. constructor. split; [split; auto|discriminate].
Qed.

Lemma fcsim_fts : forall ft x y, fcsim x y -> (ft = FTSimple -> length (fst x) = 1%nat /\ length (fst y) = 1%nat) ->
  ftsim (json_fts O ft x) (json_fts O ft y) /\ pgood (json_fts O ft x) /\ pgood (json_fts O ft y).
Proof.
  intros ft (xs & sx) (ys & sy) (F & S) L. cbn [fst snd] in *. destruct ft; cbn [json_fts fst snd].
  - destruct (L eq_refl) as (L1 & L2). destruct F as [|a b xs ys C F]; [discriminate|]. cbn [hd ftsim pgood].
    destruct C as (C1 & C2 & C3). split; auto. split; [apply C2|apply C3].
  - split; [|split].
    + cbn [ftsim]. split.
      * destruct sx, sy; cbn [option_map]; try tauto. apply S.
      * clear -F. induction F as [|a b xs ys C F IH]; cbn [map]; constructor; auto. apply C.
    + apply clean_loosef; [destruct sx, sy; cbn [option_map]; try tauto; apply S|].
      clear -F. induction F as [|a b xs ys C F IH]; cbn [map]; constructor; auto. apply C.
    + apply clean_loosef; [destruct sx, sy; cbn [option_map]; try tauto; apply S|].
      clear -F. induction F as [|a b xs ys C F IH]; cbn [map]; constructor; auto. apply C.
Qed.
Lemma example_two : forall B al al' rd ft lt ds es chunk,
  (B \/ forall v, rd chunk = Some v -> Forall no_lists (json_parts ft v)) -> Forall cnew ds -> Forall cnew es ->
  orelq B bad (fun u v => fl_sim u v /\ pgood (fst u) /\ pgood (fst v))
    (json_example O H dbg seed nb al rd ft lt ds chunk) (json_example O H dbg seed nb al' rd ft lt es chunk).
Proof.
  intros B al al' rd ft lt ds es chunk HB Fd Fe. unfold json_example, json_chunk.
  destruct (rd chunk) as [v|]; cbn [opt_or bind]; [|right; constructor].
  eapply orelq_bind with (R := fun x y => (ftsim (json_fts O ft (fst x)) (json_fts O ft (fst y)) /\
      pgood (json_fts O ft (fst x)) /\ pgood (json_fts O ft (fst y))) /\ snd x = snd y).
  2: { intros a b ((K1 & K2 & K3) & K4). right. constructor. split; [split|split]; auto. }
  eapply orelq_bind; [apply (features_two B al al'); eauto|].
  { destruct HB as [HB|HB]; auto. }
  intros x y (S & L). destruct (json_label O lt v) as [lb| |]; cbn [bind]; right; constructor. cbn [fst snd]. split; auto. now apply fcsim_fts.
Qed.
End P.

(** *** the same indices as in the text format *)
Section T.
Context {O : FOps} (H : hasher) (pf : str -> option O) (seed nb : N).

Lemma masked_fst : forall l : list (N * O), map fst (masked nb l) = map (fun i => i mod 2 ^ nb) (map fst l).
Proof. intros l. unfold masked. rewrite !map_map. reflexivity. Qed.
Lemma content_fst : forall n : tns, map fst (tn_content H pf seed nb n) =
  map (fun i => i mod 2 ^ nb) (map fst (tn_values H pf (key_hash (tn_key H seed n)) 0 (map snd (tn_feats n)))).
Proof. intros n. unfold tn_content. rewrite !map_map. reflexivity. Qed.
Lemma items_same : forall nsh fs v l, same_items pf fs v -> jns H nsh v l ->
  (forall n r, v = JArr (JNum n :: r) -> nsh + N.of_nat (length (JNum n :: r)) < 4294967296) ->
  map fst (tn_values H pf nsh 0 fs) = map fst l.
Proof.
  intros nsh fs v l S J FT. inversion S as [fs' en F E1 E2|vs ns L NP E1 E2|ss E1 E2]; subst.
  - inversion J as [ | |en' gs FG]; subst. generalize 0. clear S J FT. revert gs FG.
    induction F as [|(name & w) (k & y) fs en I F IH]; intros gs FG z; inversion FG as [|? g ? gs' G FG']; subst; auto.
    cbn [concat]. rewrite map_app, <- (IH _ FG' z). inversion I; subst; inversion G; subst; cbn [tn_values map app fst].
    + reflexivity.
    + rewrite H1. reflexivity.
    + rewrite H1. reflexivity.
  - assert (B : ns <> [] -> nsh + N.of_nat (length ns) < 4294967296).
    { intros NE. destruct ns as [|n ns]; [congruence|]. specialize (FT n (map JNum ns) eq_refl). cbn [length] in *. now rewrite map_length in FT. }
    assert (EL : ns <> [] /\ l = map (fun p => (nsh + fst p, jn_f64 (snd p))) (enum_from 0 ns)).
    { inversion J as [ns' NE E|ss NE E| ]; subst.
      - assert (ns = ns') as ->; auto. clear -E. revert ns E. induction ns' as [|a ns' IH]; intros [|b ns] E; try discriminate; auto.
        injection E as <- E. f_equal. now apply IH.
      - destruct ss; [congruence|]. destruct ns; discriminate. }
    destruct EL as (NE & ->). specialize (B NE). clear -L NP B.
    assert (K : forall z vs (ns : list (jnum O)), length vs = length ns -> (forall v, In v vs -> pf v <> None) ->
       nsh + z + N.of_nat (length ns) < 4294967296 ->
       map fst (tn_values H pf nsh z (map (fun v => ([], Some v)) vs)) = map fst (map (fun p => (nsh + fst p, jn_f64 (snd p))) (enum_from z ns))).
    { clear. intros z vs. revert z. induction vs as [|v vs IH]; intros z [|n ns] L NP B; try discriminate; auto.
      cbn [map tn_values enum_from fst snd]. pose proof (NP v (or_introl eq_refl)) as PV. destruct (pf v) as [x|]; [|congruence].
      cbn [map fst]. rewrite N.mod_small by (cbn [length] in B; lia). f_equal. rewrite N.add_1_r. apply IH; auto.
      - intros w I. apply NP. now right.
      - cbn [length] in B. lia. }
    apply K; auto. lia.
  - assert (EL : l = map (fun s => (h32 H s nsh, f1)) ss).
    { inversion J as [ns NE E|ss' NE E| ]; subst.
      - destruct ns; [congruence|]. destruct ss; discriminate.
      - assert (ss = ss') as ->; auto. clear -E. revert ss E. induction ss' as [|a ss' IH]; intros [|b ss] E; try discriminate; auto.
        injection E as <- E. f_equal. now apply IH. }
    subst. clear. generalize 0. induction ss as [|s ss IH]; intros z; auto. cbn [map tn_values fst]. now rewrite IH.
Qed.
Lemma word_key : forall name, word name -> jkey H seed name = NsNamed (h32 H name seed).
Proof.
  intros name W. unfold jkey. destruct (str_eqb name str_space) eqn:E1.
  { apply str_eqb_eq in E1. subst. inversion W as [|? ? (A & _)]; subst. discriminate. }
  destruct (str_eqb name str_default) eqn:E2; auto.
  apply str_eqb_eq in E2. subst. inversion W as [|? ? (_ & A & _)]; subst. congruence.
Qed.
Lemma same_content : forall (ns : list tns) (l : list (str * json O)) nss k,
  Forall (tn_ok pf) ns -> Forall2 (same_ns pf) ns l -> jdoc H seed (JObj l) nss -> jfits H seed (JObj l) ->
  option_map (map fst) (line_content H pf seed nb ns k) = option_map (map fst) (jcontent nb nss k).
Proof.
  intros ns l nss k OKn S (l' & E & D) FT. injection E as <-.
  assert (FT' : forall kv n r, In kv l -> snd kv = JArr (JNum n :: r) -> key_hash (jkey H seed (fst kv)) + N.of_nat (length (JNum n :: r)) < 4294967296).
  { intros (name & v) n r I E. cbn [fst snd] in *. subst v. exact (FT l name n r eq_refl I). }
  clear FT. unfold line_content, jcontent.
  assert (Q : Forall2 (fun n p => tn_key H seed n = fst p /\ map fst (tn_content H pf seed nb n) = map fst (masked nb (snd p))) ns nss).
  { revert nss D. induction S as [|n kv ns l Sn S IH]; intros nss D; inversion D as [|? p ? nss' (Ek & J) D']; subst; constructor.
    2: { apply IH; auto; [now inversion OKn|]. intros kv' m r I. apply FT'. now right. }
    inversion OKn as [|? ? OK1 _]; subst. destruct Sn as (Hd & It).
    assert (EK : tn_key H seed n = fst p).
    { rewrite Ek. unfold tn_key. destruct OK1 as (_ & _ & OK1). destruct (tn_head n) as [(name & w)|].
      - cbn [fst] in *. rewrite Hd. symmetry. apply word_key. apply OK1.
      - destruct Hd as [->| ->]; reflexivity. }
    split; auto. rewrite content_fst, masked_fst, EK. f_equal. eapply items_same; eauto.
    intros m r E. rewrite Ek. apply (FT' kv m r); auto. now left. }
  assert (Q2 : Forall2 (fun n p => tn_key H seed n = fst p /\ map fst (tn_content H pf seed nb n) = map fst (masked nb (snd p)))
     (filter (fun n => ns_eqb k (tn_key H seed n)) ns) (filter (fun n => ns_eqb k (fst n)) nss)).
  { clear -Q. induction Q as [|n p ns nss (E & M) Q IH]; cbn [filter]; [constructor|]. rewrite E. destruct (ns_eqb k (fst p)); auto. }
  destruct Q2 as [|n p a b (E & M) Q2]; auto. cbn [option_map]. f_equal.
  cbn [flat_map]. rewrite masked_app, !map_app, M. f_equal. clear -Q2.
  induction Q2 as [|n p a b (E & M) Q2 IH]; auto. cbn [flat_map]. now rewrite masked_app, !map_app, M, IH.
Qed.
Lemma same_as_text : forall dbg dbg' al ft (ds : list (sfeats O)) initial ns ws s l o o',
  nb < 32 -> Forall pooled ds -> ~ In 124 initial -> label_words initial ws -> simple_label pf ws s ->
  Forall (tn_ok pf) ns -> (dbg = true -> Forall (anon_fits H seed) ns) ->
  Forall2 (same_ns pf) ns l -> pooled (fst o) -> to_features O H dbg' seed nb al (JObj l) o = Ok o' ->
  exists d lb, parse_chunk H pf dbg seed nb ft LTSimple ds (line_text initial ns) = Ok (FtsSimple d, lb) /\
    forall k, option_map sfn_idx (sf_get k d) = option_map sfn_idx (sf_get k (fst o')).
Proof.
  intros dbg dbg' al ft ds initial ns ws s l o o' Hb Pd NI LW SL OKn AF S P E.
  destruct (chunk_simple_ok H pf seed nb dbg ft ds initial ns ws s Hb Pd NI LW SL OKn AF) as (d & PC & G).
  exists d. eexists. split; [exact PC|]. intros k.
  destruct (features_ok H dbg' seed nb al _ o o' Hb P E) as (nss & D & FT & G').
  rewrite G, G'. pose proof (same_content ns l nss k OKn S D FT) as Q. unfold as_sfn.
  destruct (line_content H pf seed nb ns k), (jcontent nb nss k); cbn [option_map sfn_idx] in *; congruence.
Qed.
End T.

(** *** a recycled object *)
Section R.
Context {O : FOps} (H : hasher) (dbg : bool) (seed nb : N) (al : alloc).
(** {"a": ["x", "y"]} and {"a": ["x"]} *)
Definition v_two : json O := JObj [([97], JArr [JStr [120]; JStr [121]])].
Definition v_one : json O := JObj [([97], JArr [JStr [120]])].
Definition v_both : json O := JObj [([97], JArr [JStr [120]; JStr [121]]); ([97], JArr [JStr [120]])].

Lemma ns_a : ns_from_name H [97] seed = NsNamed (hash_bytes H [97] seed).
Proof. reflexivity. Qed.
Lemma list_ok : forall ss, ss <> [] -> nb < 32 ->
  exists o, to_features O H dbg seed nb al (JObj [([97], JArr (map JStr ss))]) (cobj_new O) = Ok o.
Proof.
  intros ss NE Hb. eapply features_accepted with (nss := [(jkey H seed [97], map (fun s => (h32 H s (key_hash (jkey H seed [97])), f1)) ss)]); auto.
  - now left.
  - exists [([97], JArr (map JStr ss))]. split; auto. constructor; [|constructor]. split; auto. cbn [snd]. apply jn_strings. exact NE.
  - intros l name n r E I. injection E as <-. destruct I as [I|[]]. injection I as _ I. destruct ss; discriminate.
  - right. split; auto. intros l E. injection E as <-. cbn [map]. constructor; [intros []|constructor].
Qed.
Lemma two_caps : lawful al -> nb < 32 -> exists m cs c e,
  to_features O H dbg seed nb al v_two (cobj_new O) = Ok (m, cs) /\ cs (NsNamed (hash_bytes H [97] seed)) = (S (S c), S (S e)) /\ fwf m.
Proof.
  intros L Hb. destruct (list_ok [[120]; [121]] ltac:(discriminate) Hb) as ((m & cs) & E). change (JObj _) with v_two in E. rewrite E.
    exists m, cs.
    assert (W : fwf m).
    { destruct (features_plan_ok H dbg seed nb al v_two (cobj_new O) fwf_nil) as [B|R]; [congruence|]. rewrite E in R.
      inversion R as [? plan EP| |]; subst. cbn [fst] in EP. subst m. apply apply_plan_wf, fwf_nil. }
    unfold to_features, v_two in E. cbn [foldm fst snd] in E. rewrite ns_a in E. set (h := hash_bytes H [97] seed) in *.
    unfold cobj_upd in E. cbn [fm_get fst snd cobj_new sf_new] in E. unfold json_ns in E. rewrite (mask_ok dbg nb Hb) in E. cbn [bind length] in E.
    unfold cns_reserve, no_caps in E. cbn [sfn_set_active sfn_new sfn_idx sfn_val length] in E.
    change (Nat.ltb 2 0) with false in E. cbv iota in E. cbn [bind] in E. unfold vec_room at 1 2 in E. cbn [Nat.leb Nat.sub] in E.
    destruct (L 0 0 2)%nat as (L1 & L2).
    destruct (al_exact al 0 0 2) as [|[|c]]; [lia|lia|]. destruct (al_amortized al 0 0 2) as [|[|e]]; [lia|lia|].
    cbn in E. injection E as <- <-. exists c, e. split; auto. unfold caps_set.
    replace (ns_eqb (NsNamed h) (NsNamed h)) with true by (symmetry; now apply ns_eqb_eq). auto.
Qed.
Lemma recycled_fails : lawful al -> nb < 32 ->
  exists o1 o2, to_features O H dbg seed nb al v_two (cobj_new O) = Ok o1 /\ to_features O H dbg seed nb al v_one (cobj_new O) = Ok o2 /\
    to_features O H dbg seed nb al v_one (cobj_clear O o1) = Pn (badcap dbg) /\
    to_features O H dbg seed nb al v_both (cobj_new O) = Pn (badcap dbg).
Proof.
  intros L Hb. destruct (two_caps L Hb) as (m & cs & c & e & E & C & W).
  destruct (list_ok [[120]] ltac:(discriminate) Hb) as (o2 & E2). change (JObj _) with v_one in E2.
  assert (K : forall m cs, fwf m -> cs (NsNamed (hash_bytes H [97] seed)) = (S (S c), S (S e)) ->
     to_features O H dbg seed nb al v_one (m, cs) = Pn (badcap dbg)).
  { clear -Hb. intros m cs W C. unfold to_features, v_one. cbn [foldm].
    destruct (doc_step H dbg seed nb al ([97], JArr [JStr [120]]) (m, cs) W) as (cf & Q). cbv zeta in Q. rewrite Q.
    rewrite (mask_ok dbg nb Hb). cbn [bind fst snd]. rewrite ns_a. unfold caps in *. rewrite C. reflexivity. }
  exists (m, cs), o2. split; auto. split; auto. split.
  - apply K; auto. cbn [cobj_clear fst]. apply fsim_clear_new. exact W.
  - assert (Q : to_features O H dbg seed nb al v_both (cobj_new O) =
      (let* o := to_features O H dbg seed nb al v_two (cobj_new O) in to_features O H dbg seed nb al v_one o)).
    { unfold to_features, v_both, v_two, v_one. cbn [foldm]. destruct (cobj_upd _ _ _ _); reflexivity. }
    rewrite Q, E. cbn [bind]. now apply K.
Qed.
End R.

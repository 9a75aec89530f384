(** What the schemas of the parts of a configuration say, and any registry of reductions (C65). *)
From Coq Require Import List NArith Bool String Lia PeanoNat.
From Verif Require Import Base FloatOps Model_Hash Model_Features Model_Weights Model_Loss Model_Interactions Model_Types Model_Coin
  Model_Stack Model_Factory Model_Text Model_Json Model_Config Spec_Config Spec_Schema Model_Schema Proof_TextParse Proof_Config Proof_Schema.
Import ListNotations.
Open Scope list_scope.
Open Scope N_scope.

Lemma sget_app : forall k l1 l2, sget k (l1 ++ l2) = match sget k l1 with Some s => Some s | None => sget k l2 end.
Proof.
  intros k l1 l2. unfold sget. induction l1 as [|[k' s] l1 IH]; cbn; auto. destruct (str_eqb k k'); auto.
Qed.
Lemma sget_cons : forall k k' s l, sget k ((k', s) :: l) = if str_eqb k k' then Some s else sget k l.
Proof. intros. unfold sget. cbn. now destruct (str_eqb k k'). Qed.
Lemma sget_none : forall k l, ~ In k (map fst l) -> sget k l = None.
Proof.
  intros k l. induction l as [|[k' s] l IH]; auto. intros N. rewrite sget_cons. destruct (str_eqb k k') eqn:E.
  - apply str_eqb_eq in E. subst. destruct N. now left.
  - apply IH. intros I. apply N. now right.
Qed.
Lemma str_eqb_refl : forall k, str_eqb k k = true.
Proof. intros. now apply str_eqb_eq. Qed.
Lemma str_eqb_ne : forall a b, a <> b -> str_eqb a b = false.
Proof. intros a b N. apply not_true_iff_false. intros E. now apply str_eqb_eq in E. Qed.

(** ** any registry *)
Definition distinct (fs : list factory) : Prop :=
  NoDup (map fa_name fs) /\ ~ In s_any (map fa_name fs) /\
  forall f k, In f fs -> In k (map fst (fa_defs f)) -> k <> s_any /\ ~ In k (map fa_name fs).
Definition registered (fs : list factory) (defs : sdefs) : Prop :=
  sget s_any defs = Some (SObj [KOneOf (map (fun f => sref (fa_name f)) fs)]) /\
  forall f, In f fs -> sget (fa_name f) defs = Some (reduction_schema f).

Lemma add_all : forall l d top defs, distinct (d ++ l) -> registered d defs ->
  exists defs', add_reductions (top, defs) l = Ok (top, defs') /\ registered (d ++ l) defs'.
Proof.
  induction l as [|f l IH]; intros d top defs D R.
  - exists defs. rewrite app_nil_r. auto.
  - destruct D as (D1 & D2 & D3). destruct R as (R1 & R2). cbn [add_reductions]. unfold add_reduction. cbn [fst snd].
    assert (N1 : s_any <> fa_name f) by (intros E; apply D2; rewrite E, map_app; apply in_or_app; right; now left).
    rewrite sget_cons, str_eqb_ne, R1 by auto. cbn [push_ref bind].
    replace (d ++ f :: l) with ((d ++ [f]) ++ l) by now rewrite <- app_assoc.
    apply IH; [rewrite <- app_assoc; split; auto|].
    assert (F : In f (d ++ f :: l)) by (apply in_or_app; right; now left).
    split.
    + rewrite sget_app, sget_none, sget_cons, str_eqb_refl by (intros I; now destruct (D3 f s_any F I)).
      now rewrite map_app.
    + intros g I. assert (G : In g (d ++ f :: l)) by (apply in_app_or in I; apply in_or_app; destruct I as [I|[<- |[]]]; [left|right; left]; auto).
      rewrite sget_app, sget_none by (intros J; destruct (D3 f _ F J) as (_ & Q); apply Q, in_map, G).
      rewrite sget_cons, str_eqb_ne by (intros E; apply D2; rewrite <- E; now apply in_map).
      rewrite sget_cons. apply in_app_or in I. destruct I as [I|[<- |[]]].
      * rewrite str_eqb_ne; [now apply R2|]. intros E. rewrite map_app in D1. cbn in D1. apply NoDup_remove_2 in D1.
        apply D1, in_or_app. left. rewrite <- E. now apply in_map.
      * now rewrite str_eqb_refl.
Qed.
Lemma build_registered : forall fs, distinct fs -> exists defs, build_schema fs = Ok (fst schema_new, defs) /\ registered fs defs.
Proof.
  intros fs D. apply (add_all fs [] (fst schema_new) (snd schema_new)); auto.
  split; [reflexivity|intros f []].
Qed.

Section Sem.
Context {O : FOps} (isint nonneg : jnum O -> bool) (rx : str -> str -> bool) (defs : sdefs).
Local Notation json := (json O).
Local Notation obj := (list (str * json)).
Local Notation V := (valid isint nonneg rx defs).
Local Notation NV := (invalid isint nonneg rx defs).
Local Notation KV := (KV isint nonneg rx defs).

Lemma nodup_same : forall (o : obj) k x y, NoDup (map fst o) -> In (k, x) o -> In (k, y) o -> x = y.
Proof.
  induction o as [|[k' z] o IH]; intros k x y N I J; [destruct I|]. cbn in N. inversion N as [|? ? N1 N2]; subst.
  destruct I as [I|I], J as [J|J].
  - congruence.
  - inversion I; subst. destruct N1. apply in_map_iff. exists (k, y). auto.
  - inversion J; subst. destruct N1. apply in_map_iff. exists (k, x). auto.
  - eapply IH; eauto.
Qed.
Lemma V_reduction : forall f v, V (reduction_schema f) v <->
  forall o, v = JObj o -> forall k x, In (k, x) o ->
    (k = lit "config" /\ V (fa_schema f) x) \/ (k = lit "typename" /\ x = JStr (fa_name f)).
Proof.
  intros f v. unfold reduction_schema. rewrite V_obj. split.
  - intros Q o -> k x I. specialize (Q _ (or_introl eq_refl)). rewrite K_properties in Q. specialize (Q o eq_refl k x I).
    unfold prop_schema in Q. rewrite !sget_cons in Q. destruct (str_eqb k (lit "config")) eqn:E1.
    + left. apply str_eqb_eq in E1. split; auto.
    + destruct (str_eqb k (lit "typename")) eqn:E2.
      * right. apply str_eqb_eq in E2. split; auto. specialize (Q _ eq_refl). rewrite V_obj in Q. specialize (Q _ (or_introl eq_refl)).
        rewrite K_constant in Q. destruct x; try discriminate. cbn in Q. rewrite orb_false_r in Q. apply str_eqb_eq in Q. now subst.
      * exfalso. specialize (Q _ eq_refl). apply V_bool in Q. discriminate.
  - intros Q k [<- |[]]. apply K_properties. intros o -> k x I s E. unfold prop_schema in E. rewrite !sget_cons in E.
    destruct (Q o eq_refl k x I) as [(-> & P)|(-> & ->)].
    + rewrite str_eqb_refl in E. inversion E; now subst.
    + change (str_eqb (lit "typename") (lit "config")) with false in E. rewrite str_eqb_refl in E. inversion E; subst.
      apply V_obj. intros k [<- |[]]. apply K_constant. cbn. now rewrite str_eqb_refl.
Qed.
Lemma NV_reduction : forall f o t, In (lit "typename", JStr t) o -> t <> fa_name f -> NV (reduction_schema f) (JObj o).
Proof.
  intros f o t I N. eapply NV_obj; [left; reflexivity|]. eapply KN_properties; [exact I|reflexivity|].
  eapply NV_obj; [left; reflexivity|]. exists 0%nat. unfold kw. cbn. now rewrite str_eqb_ne.
Qed.

Section Registry.
Context (fs : list factory) (D : NoDup (map fa_name fs)) (R : registered fs defs).

Lemma V_any_elim : forall v, V any_ref v -> exists f, In f fs /\ V (reduction_schema f) v.
Proof.
  intros v Q. destruct R as (R1 & R2). unfold any_ref in Q. rewrite (V_ref _ _ _ _ _ _ _ R1) in Q. rewrite V_obj in Q.
  specialize (Q _ (or_introl eq_refl)). apply K_oneof_elim in Q. destruct Q as (s & I & Q). apply in_map_iff in I.
  destruct I as (f & <- & I). exists f. split; auto. rewrite (V_ref _ _ _ _ _ _ _ (R2 f I)) in Q. exact Q.
Qed.
Lemma V_any_intro : forall f o, In f fs -> In (lit "typename", JStr (fa_name f)) o -> V (reduction_schema f) (JObj o) -> V any_ref (JObj o).
Proof.
  intros f o I T Q. destruct R as (R1 & R2). unfold any_ref. rewrite (V_ref _ _ _ _ _ _ _ R1). apply V_obj. intros k [<- |[]].
  apply in_split in I. destruct I as (l1 & l2 & E). rewrite E, map_app. cbn [map]. apply K_oneof_intro.
  - apply (V_ref _ _ _ _ _ _ _ (R2 f ltac:(rewrite E; apply in_or_app; right; now left))). exact Q.
  - intros s' J. rewrite <- map_app in J. apply in_map_iff in J. destruct J as (g & <- & J).
    apply (NV_ref _ _ _ _ _ _ (reduction_schema g)).
    + apply R2. rewrite E. apply in_app_or in J. apply in_or_app. destruct J; [now left|right; now right].
    + apply NV_reduction with (fa_name f); auto. intros Q'. rewrite E, map_app in D. cbn in D. apply NoDup_remove_2 in D.
      apply D. rewrite <- map_app. rewrite Q'. now apply in_map.
Qed.
(** A document with a type name is valid exactly if a reduction of this name is registered
    and its schema holds for the options. *)
Lemma V_any_named : forall o t, NoDup (map fst o) -> In (lit "typename", JStr t) o ->
  (V any_ref (JObj o) <-> exists f, In f fs /\ fa_name f = t /\
     forall k x, In (k, x) o -> k = lit "typename" \/ (k = lit "config" /\ V (fa_schema f) x)).
Proof.
  intros o t N T. split.
  - intros Q. apply V_any_elim in Q. destruct Q as (f & I & Q). rewrite V_reduction in Q. exists f. split; auto.
    specialize (Q o eq_refl). split.
    + destruct (Q _ _ T) as [(E & _)|(_ & E)]; [vm_compute in E; discriminate|now inversion E].
    + intros k x J. destruct (Q k x J) as [(-> & P)|(-> & P)]; auto.
  - intros (f & I & E & Q). apply (V_any_intro f); [auto|now rewrite E|]. apply V_reduction. intros o' E' k x J. inversion E'; subst o'.
    destruct (Q k x J) as [-> |(-> & P)]; auto. right. split; auto. rewrite E. now apply (nodup_same o (lit "typename")).
Qed.
(** Without a type name: it has options, if there is more than one reduction. *)
Lemma V_any_object : forall v, List.length fs <> 1%nat -> V any_ref v ->
  exists o, v = JObj o /\ (In (lit "typename") (map fst o) \/ In (lit "config") (map fst o)).
Proof.
  intros v L Q. pose proof (V_any_elim v Q) as (f & I & Qf). rewrite V_reduction in Qf.
  assert (X : (forall o, v = JObj o -> o = []) -> False).
  { intros X. destruct R as (R1 & R2). unfold any_ref in Q. rewrite (V_ref _ _ _ _ _ _ _ R1) in Q. rewrite V_obj in Q.
    specialize (Q _ (or_introl eq_refl)). eapply KV_KNV; [exact Q|]. apply K_oneof_many; [|now rewrite map_length].
    intros s J. apply in_map_iff in J. destruct J as (g & <- & J). apply (V_ref _ _ _ _ _ _ _ (R2 g J)). apply V_reduction.
    intros o E k x K. rewrite (X o E) in K. destruct K. }
  destruct v as [| | | | |o]; try (exfalso; apply X; intros; discriminate).
  exists o. split; auto. destruct o as [|[k x] o]; [exfalso; apply X; intros o E; now inversion E|].
  destruct (Qf _ eq_refl k x (or_introl eq_refl)) as [(-> & _)|(-> & _)]; [right|left]; now left.
Qed.
End Registry.

(** ** leaves *)
Lemma K_type_not : forall t v ks, In (KType t) ks -> has_type isint t v = false -> NV (SObj ks) v.
Proof. intros t v ks I E. eapply NV_obj; [exact I|]. exists 0%nat. unfold kw. cbn. now rewrite E. Qed.
Lemma V_num : forall v, V snum v <-> exists n, v = JNum n.
Proof.
  intros v. unfold snum. rewrite V_obj. split.
  - intros Q. specialize (Q _ (or_introl eq_refl)). apply K_type in Q. destruct v; try discriminate. eauto.
  - intros (n & ->) k [<- |[]]. now apply K_type.
Qed.
Lemma V_sbool : forall v, V sbool v <-> exists b, v = JBool b.
Proof.
  intros v. unfold sbool. rewrite V_obj. split.
  - intros Q. specialize (Q _ (or_introl eq_refl)). apply K_type in Q. destruct v; try discriminate. eauto.
  - intros (n & ->) k [<- |[]]. now apply K_type.
Qed.
Lemma V_string : forall v, V sstring v <-> exists s, v = JStr s.
Proof.
  intros v. unfold sstring. rewrite V_obj. split.
  - intros Q. specialize (Q _ (or_introl eq_refl)). apply K_type in Q. destruct v; try discriminate. eauto.
  - intros (n & ->) k [<- |[]]. now apply K_type.
Qed.
Lemma V_uint : forall v, V suint v <-> exists n, v = JNum n /\ isint n = true /\ nonneg n = true.
Proof.
  intros v. unfold suint. rewrite V_obj. split.
  - intros Q. pose proof (Q _ (or_introl eq_refl)) as Q1. pose proof (Q _ (or_intror (or_introl eq_refl))) as Q2.
    apply K_type in Q1. destruct v as [| |n| | |]; try discriminate. exists n. split; auto. split; auto.
    apply (K_const _ _ _ _ _ _ (nonneg n)) in Q2; auto.
  - intros (n & -> & A & B) k [<- |[<- |[]]]; [now apply K_type|]. apply (K_const _ _ _ _ _ _ (nonneg n)); auto.
Qed.
Lemma V_enum : forall l v, V (SObj [KType TString; KEnum l]) v <-> exists s, v = JStr s /\ In s l.
Proof.
  intros l v. rewrite V_obj. split.
  - intros Q. pose proof (Q _ (or_intror (or_introl eq_refl))) as Q2. apply K_enum in Q2. destruct v; try discriminate. cbn in Q2.
    apply existsb_exists in Q2. destruct Q2 as (s' & I & E). apply str_eqb_eq in E. subst. eauto.
  - intros (s & -> & I) k [<- |[<- |[]]]; [now apply K_type|]. apply K_enum. cbn. apply existsb_exists. exists s. split; auto. apply str_eqb_refl.
Qed.
Lemma V_object : forall ps rest v, V (SObj [KType TObject; KProperties ps rest]) v <->
  exists o, v = JObj o /\ forall k x, In (k, x) o -> forall s, prop_schema ps rest k = Some s -> V s x.
Proof.
  intros ps rest v. rewrite V_obj. split.
  - intros Q. pose proof (Q _ (or_introl eq_refl)) as Q1. pose proof (Q _ (or_intror (or_introl eq_refl))) as Q2.
    apply K_type in Q1. destruct v as [| | | | |o]; try discriminate. exists o. split; auto. rewrite K_properties in Q2. now apply Q2.
  - intros (o & -> & Q) k [<- |[<- |[]]]; [now apply K_type|]. apply K_properties. intros o' E. inversion E; subst. exact Q.
Qed.
Lemma V_config : forall ps v, V (config_schema_of ps) v <->
  exists o, v = JObj o /\ forall k x, In (k, x) o -> exists s, sget k ps = Some s /\ V s x.
Proof.
  intros ps v. unfold config_schema_of. rewrite V_object. split.
  - intros (o & -> & Q). exists o. split; auto. intros k x I. specialize (Q k x I). unfold prop_schema in Q. destruct (sget k ps) as [s|]; eauto.
    specialize (Q _ eq_refl). apply V_bool in Q. discriminate.
  - intros (o & -> & Q). exists o. split; auto. intros k x I s E. destruct (Q k x I) as (s' & E' & P). unfold prop_schema in E. rewrite E' in E. now inversion E; subst.
Qed.
Lemma V_variant : forall name s v, V (one_variant name s) v <->
  exists o, v = JObj o /\ In name (map fst o) /\ forall k x, In (k, x) o -> k = name /\ V s x.
Proof.
  intros name s v. unfold one_variant. rewrite V_obj. split.
  - intros Q. pose proof (Q _ (or_introl eq_refl)) as Q1. pose proof (Q _ (or_intror (or_introl eq_refl))) as Q2.
    pose proof (Q _ (or_intror (or_intror (or_introl eq_refl)))) as Q3.
    apply K_type in Q1. destruct v as [| | | | |o]; try discriminate. exists o. split; auto. rewrite K_required in Q2. rewrite K_properties in Q3.
    split; [apply (Q2 o eq_refl); now left|]. intros k x I. specialize (Q3 o eq_refl k x I). unfold prop_schema in Q3. rewrite sget_cons in Q3.
    destruct (str_eqb k name) eqn:E; [apply str_eqb_eq in E; split; auto|]. specialize (Q3 _ eq_refl). apply V_bool in Q3. discriminate.
  - intros (o & -> & N & Q) k [<- |[<- |[<- |[]]]]; [now apply K_type| |].
    + apply K_required. intros o' E k [<- |[]]. inversion E; now subst.
    + apply K_properties. intros o' E k x I s' E'. inversion E; subst o'. destruct (Q k x I) as (-> & P). unfold prop_schema in E'.
      rewrite sget_cons, str_eqb_refl in E'. inversion E'; now subst.
Qed.
Lemma NV_variant : forall name s o k x, In (k, x) o -> k <> name -> NV (one_variant name s) (JObj o).
Proof.
  intros name s o k x I N. eapply NV_obj; [right; right; left; reflexivity|]. eapply KN_properties; [exact I| |apply NV_bool].
  unfold prop_schema. rewrite sget_cons, str_eqb_ne by auto. reflexivity.
Qed.
Lemma V_oneof2 : forall a b v, V (SObj [KOneOf [a; b]]) v -> V a v \/ V b v.
Proof.
  intros a b v Q. rewrite V_obj in Q. specialize (Q _ (or_introl eq_refl)). apply K_oneof_elim in Q. destruct Q as (s & [<- |[<- |[]]] & Q); auto.
Qed.
Lemma V_oneof_l : forall a b v, V a v -> NV b v -> V (SObj [KOneOf [a; b]]) v.
Proof. intros a b v A B. apply V_obj. intros k [<- |[]]. apply (K_oneof_intro _ _ _ _ [] a [b]); auto. intros s [<- |[]]. exact B. Qed.
Lemma V_oneof_r : forall a b v, NV a v -> V b v -> V (SObj [KOneOf [a; b]]) v.
Proof. intros a b v A B. apply V_obj. intros k [<- |[]]. apply (K_oneof_intro _ _ _ _ [a] b []); auto. intros s [<- |[]]. exact A. Qed.
(** an object with one entry *)
Lemma one_entry : forall (o : obj) name, NoDup (map fst o) -> In name (map fst o) -> (forall k x, In (k, x) o -> k = name) ->
  exists x, o = [(name, x)].
Proof.
  intros o name N I Q. destruct o as [|[k x] o]; [destruct I|]. pose proof (Q k x (or_introl eq_refl)) as ->. exists x.
  destruct o as [|[k y] o]; auto. exfalso. pose proof (Q k y (or_intror (or_introl eq_refl))) as ->. inversion N as [|? ? N1 _]. apply N1. now left.
Qed.
End Sem.

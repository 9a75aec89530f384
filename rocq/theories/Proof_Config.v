(** Proofs about configurations as JSON. *)
From Coq Require Import List NArith ZArith Bool String Lia PeanoNat.
From Verif Require Import Base FloatOps Model_Hash Model_Features Model_Weights Model_Loss Model_Interactions
  Model_Types Model_Explore Model_Coin Model_Stack Model_Factory Model_Text Model_Json Model_Config
  Spec_Types Spec_Config Proof_TextParse Proof_Types Proof_Weights Proof_Inter.
Import ListNotations.
Open Scope list_scope.
Open Scope N_scope.

(** comparison of literals *)
Ltac lits :=
  repeat match goal with
  | |- context [str_eqb (lit ?a) (lit ?b)] =>
      let r := eval vm_compute in (str_eqb (lit a) (lit b)) in change (str_eqb (lit a) (lit b)) with r
  end.

Section Proofs.
Context {O : FOps}.
Local Notation json := (json O).
Local Notation obj := (list (str * json)).

Lemma jfield_none : forall k (l : obj), ~ In k (map fst l) -> jfield O k l = None.
Proof.
  intros k l N. unfold jfield. destruct (find (fun kv => str_eqb k (fst kv)) (rev l)) as [[k' x]|] eqn:F; auto.
  exfalso. apply find_some in F. destruct F as (I & E). apply str_eqb_eq in E. cbn in E. subst k'.
  apply N. apply in_rev in I. apply in_map_iff. exists (k, x). auto.
Qed.
Lemma find_app : forall A (f : A -> bool) l1 l2, find f (l1 ++ l2) = match find f l1 with Some x => Some x | None => find f l2 end.
Proof. induction l1 as [|a l1 IH]; intro l2; cbn; auto. destruct (f a); auto. Qed.
Lemma jfield_app : forall k (l1 l2 : obj), jfield O k (l1 ++ l2) = match jfield O k l2 with Some x => Some x | None => jfield O k l1 end.
Proof.
  intros k l1 l2. unfold jfield. rewrite rev_app_distr, find_app.
  destruct (find _ (rev l2)); auto.
Qed.
Lemma jfield_one : forall k k' (x : json), jfield O k [(k', x)] = if str_eqb k k' then Some x else None.
Proof. intros. unfold jfield. cbn. destruct (str_eqb k k'); auto. Qed.
Lemma jfield_snoc : forall nm k (d : json) (l : obj), ~ In k (map fst l) ->
  jfield O nm (l ++ [(k, d)]) = if str_eqb nm k then Some d else jfield O nm l.
Proof. intros. rewrite jfield_app, jfield_one. destruct (str_eqb nm k); auto. Qed.
Lemma jfield_mid : forall nm k (x : json) (l1 l2 : obj), ~ In k (map fst l2) ->
  jfield O nm (l1 ++ (k, x) :: l2) = if str_eqb nm k then Some x else match jfield O nm l2 with Some y => Some y | None => jfield O nm l1 end.
Proof.
  intros nm k x l1 l2 N. change ((k, x) :: l2) with ([(k, x)] ++ l2). rewrite !jfield_app, jfield_one.
  destruct (str_eqb nm k) eqn:E; [|destruct (jfield O nm l2); auto].
  apply str_eqb_eq in E. subst nm. rewrite (jfield_none k l2 N). auto.
Qed.
Lemma has_field : forall (l : obj) k x, has l k x -> jfield O (lit k) l = Some x.
Proof.
  intros l k x (l1 & l2 & -> & _ & N). rewrite jfield_mid by auto. rewrite (proj2 (str_eqb_eq (lit k) (lit k)) eq_refl). auto.
Qed.
Lemma swapped_field : forall (l : obj) k x y l', swapped l k x y l' ->
  jfield O (lit k) l = Some x /\ jfield O (lit k) l' = Some y /\
  (forall nm, str_eqb nm (lit k) = false -> jfield O nm l' = jfield O nm l) /\
  (forall names, known names l' = known names l).
Proof.
  intros l k x y l' (l1 & l2 & -> & -> & N1 & N2).
  assert (E : str_eqb (lit k) (lit k) = true) by (apply str_eqb_eq; auto).
  rewrite !jfield_mid, E by auto. repeat split; auto.
  - intros nm D. rewrite !jfield_mid, D by auto. auto.
  - intro names. unfold known. rewrite !forallb_app. auto.
Qed.
Lemma lacks_field : forall (l : obj) k, lacks l k -> jfield O (lit k) l = None.
Proof. intros l k L. apply jfield_none, L. Qed.
Lemma known_app : forall names (l1 l2 : obj), known names (l1 ++ l2) = known names l1 && known names l2.
Proof. intros. apply forallb_app. Qed.

(** *** depth *)
Lemma fold_max_in : forall A (f : A -> nat) l x, In x l -> (f x <= fold_right (fun y m => Nat.max (f y) m) 0 l)%nat.
Proof.
  induction l as [|a l IH]; intros x I; cbn in *; [tauto|]. destruct I as [->|I]; [lia|]. pose proof (IH x I). lia.
Qed.
Lemma jfield_depth : forall k (l : obj) x, jfield O k l = Some x -> (jdepth x < jdepth (JObj l))%nat.
Proof.
  intros k l x E. unfold jfield in E. destruct (find _ (rev l)) as [[k' y]|] eqn:F; [|discriminate].
  injection E as <-. apply find_some in F. destruct F as (I & _). apply in_rev in I.
  pose proof (fold_max_in _ (fun kv : str * json => jdepth (snd kv)) l _ I) as M. cbn in M |- *. lia.
Qed.
Lemma jstruct_depth : forall b names (v : json) fs x, jstruct b names v = Some fs -> In (Some x) fs -> (jdepth x < jdepth v)%nat.
Proof.
  intros b names v fs x E I. destruct v; cbn in E; try discriminate.
  - destruct (Nat.leb _ _); [|discriminate]. injection E as <-. apply in_map_iff in I.
    destruct I as (i & E & _). apply nth_error_In in E. pose proof (fold_max_in _ jdepth l _ E) as M. cbn. lia.
  - destruct (b && negb (known names l)); [discriminate|]. injection E as <-. apply in_map_iff in I.
    destruct I as (nm & E & _). eapply jfield_depth; eauto.
Qed.
Lemma de_jrc_depth : forall (v : json) ty x, de_jrc v = Some (ty, Some x) -> (jdepth x < jdepth v)%nat.
Proof.
  intros v ty x E. unfold de_jrc in E.
  destruct (jstruct false [lit "typename"; lit "config"] v) as [[|t [|c [|? ?]]]|] eqn:S; try discriminate.
  assert (C : c = Some x).
  { destruct (req de_str t); [|discriminate]. destruct c as [c|]; [|destruct v; discriminate].
    destruct c; destruct v; cbn in E; try discriminate; congruence. }
  subst c. eapply jstruct_depth; eauto. right. left. auto.
Qed.

(** *** what the factories ask for *)
Lemma parse_with_default : forall sub t, parse_with (O:=O) sub t (config_default t) = parse_with sub t (JObj []).
Proof. intros sub t. destruct t; reflexivity. Qed.

Definition asked (v : json) (j : jrc O) : Prop :=
  j = default_regressor \/ j = default_cb_adf \/ j = default_next \/ exists s, (jdepth s < jdepth v)%nat /\ de_jrc s = Some j.
Lemma asked_dflt : forall v b names fs r d j, jstruct b names v = Some fs -> In r fs ->
  d = default_regressor \/ d = default_cb_adf \/ d = default_next -> dflt de_jrc d r = Some j -> asked v j.
Proof.
  intros v b names fs r d j S I D E. unfold asked. destruct r as [s|]; cbn in E.
  - right. right. right. exists s. split; auto. eapply jstruct_depth; eauto.
  - injection E as <-. tauto.
Qed.
Lemma parse_with_ext : forall sub sub' t v, (forall j, asked v j -> sub j = sub' j) ->
  parse_with sub t v = parse_with sub' t v.
Proof.
  intros sub sub' t v E. destruct t; unfold parse_with; auto;
  match goal with |- context [jstruct ?b ?names v] => destruct (jstruct b names v) as [fs|] eqn:S; auto end;
  repeat (destruct fs as [|? fs]; auto);
  repeat match goal with
  | |- context [dflt de_jrc ?d ?r] => destruct (dflt de_jrc d r) as [j|] eqn:?; auto
  | |- context [dflt ?de ?d ?r] => destruct (dflt de d r); auto
  end;
  rewrite (E j); auto; (eapply asked_dflt; [exact S| |..|eassumption]; cbn; auto 10).
Qed.

Lemma parse_default_regressor : forall n, parse_config (S n) (default_regressor (O:=O)) = CCoin coin_default.
Proof. reflexivity. Qed.
Lemma parse_default_cb : forall n, parse_config (S (S n)) (default_cb_adf (O:=O)) = CCbAdf Mtr (CCoin coin_default).
Proof. reflexivity. Qed.
Lemma parse_default_next : forall n, parse_config (S n) (default_next (O:=O)) = CBad EInvalidArgument.
Proof. reflexivity. Qed.

Definition jrc_depth (j : jrc O) : nat := match snd j with Some v => jdepth v | None => 0 end.
Lemma parse_fuel : forall n m j, (jrc_depth j + 4 <= n)%nat -> (n <= m)%nat -> parse_config n j = parse_config m j.
Proof.
  induction n as [|n IH]; intros m j D L; [lia|]. destruct m as [|m]; [lia|].
  cbn [parse_config]. destruct (registry_get (fst j)) as [t|]; auto.
  assert (A : forall v : json, (jdepth v <= jrc_depth j)%nat \/ v = JObj [] ->
              parse_with (parse_config n) t v = parse_with (parse_config m) t v).
  { intros v B. apply parse_with_ext. intros j' [->|[->|[->|(s & D' & E)]]].
    - destruct n, m; try lia. rewrite !parse_default_regressor. auto.
    - destruct n as [|[|n]], m as [|[|m]]; try lia. rewrite !parse_default_cb. auto.
    - destruct n, m; try lia. rewrite !parse_default_next. auto.
    - destruct B as [B| ->].
      + apply IH; [|lia]. destruct j' as [ty [x|]]; unfold jrc_depth in *; cbn [snd] in *.
        * apply de_jrc_depth in E. lia.
        * lia.
      + cbn in D'. assert (Z : jdepth s = 0%nat) by lia. destruct s; cbn in Z; try discriminate; discriminate E. }
  destruct j as [ty [v|]]; cbn [snd] in *.
  - apply A. left. unfold jrc_depth. cbn. lia.
  - rewrite !parse_with_default. apply A. auto.
Qed.
Lemma parse_jrc_fuel : forall n j, (jrc_depth j + 4 <= n)%nat -> parse_jrc j = parse_config n j.
Proof. intros n j L. unfold parse_jrc. apply parse_fuel; unfold jrc_depth in *; lia. Qed.

(** *** spelled out *)
Definition same_red (v w : json) : Prop :=
  match de_jrc v, de_jrc w with
  | Some j, Some j' => forall n, parse_config n j = parse_config n j'
  | None, None => True
  | _, _ => False
  end.
Lemma de_jrc_obj : forall (l : obj), de_jrc (JObj l) =
  match jfield O (lit "typename") l with
  | Some (JStr ty) => Some (ty, match jfield O (lit "config") l with Some JNull | None => None | Some x => Some x end)
  | _ => None
  end.
Proof.
  intro l. unfold de_jrc. cbn [jstruct andb map]. destruct (jfield O (lit "typename") l) as [[]|]; cbn [req de_str]; auto.
  destruct (jfield O (lit "config") l) as [[]|]; auto.
Qed.
Lemma registry_doc : forall ty ds, In (ty, ds) (doc (O:=O)) -> exists t, registry_get (lit ty) = Some t.
Proof. intros ty ds I. cbn in I. repeat (destruct I as [I|I]; [injection I as <- <-; eexists; reflexivity|]). tauto. Qed.

Lemma option_same : forall ty ds k d t, In (ty, ds) (doc (O:=O)) -> In (k, d) ds -> registry_get (lit ty) = Some t ->
  forall n o, lacks o k -> parse_with (parse_config n) t (JObj (o ++ [(lit k, d)])) = parse_with (parse_config n) t (JObj o).
Proof.
  intros ty ds k d t I K R n o L. pose proof (lacks_field o k L) as F. unfold lacks in L.
  cbn in I.
  repeat (destruct I as [I|I];
    [injection I as <- <-; vm_compute in R; injection R as <-;
     cbn in K; repeat (destruct K as [K|K]; [injection K as <- <-;
       unfold parse_with, de_coin, coin_names, jstruct; rewrite known_app; cbn [map andb known forallb existsb fst];
       repeat rewrite jfield_snoc by exact L; lits; cbn [orb andb]; rewrite ?F, ?andb_true_r;
       destruct (known _ o); cbn [andb negb]; try reflexivity;
       destruct n; reflexivity|]); destruct K|]).
  destruct I.
Qed.

Lemma same_red_refl : forall v, same_red v v.
Proof. intro v. unfold same_red. destruct (de_jrc v); auto. Qed.
Lemma same_red_trans : forall u v w, same_red u v -> same_red v w -> same_red u w.
Proof.
  unfold same_red. intros u v w A B. destruct (de_jrc u), (de_jrc v), (de_jrc w); try tauto.
  intro n. rewrite A. apply B.
Qed.
(** one option of a reduction object is exchanged *)
Lemma swap_config : forall (l : obj) x y l' , swapped l "config" x y l' ->
  (forall ty, jfield O (lit "typename") l = Some (JStr ty) -> forall n, parse_config n (ty, match x with JNull => None | x => Some x end) =
                                             parse_config n (ty, match y with JNull => None | y => Some y end)) ->
  same_red (JObj l) (JObj l').
Proof.
  intros l x y l' S E. destruct (swapped_field _ _ _ _ _ S) as (F1 & F2 & FO & _).
  unfold same_red. rewrite !de_jrc_obj, F1, F2, (FO (lit "typename") eq_refl).
  destruct (jfield O (lit "typename") l) as [[]|]; try exact Logic.I.
  specialize (E _ eq_refl). intro n. specialize (E n). destruct x, y; exact E.
Qed.
Lemma parse_none_empty : forall ty n, parse_config n (ty, None) = parse_config (O:=O) n (ty, Some (JObj [])).
Proof.
  intros ty n. destruct n; auto. cbn [parse_config fst snd]. destruct (registry_get ty); auto. apply parse_with_default.
Qed.
Lemma below_same : forall ty k t, In (ty, k) below -> registry_get (lit ty) = Some t ->
  forall n o o' s s', same_red s s' -> swapped o k s s' o' ->
  parse_with (parse_config n) t (JObj o) = parse_with (parse_config n) t (JObj o').
Proof.
  intros ty k t I R n o o' s s' S W. destruct (swapped_field _ _ _ _ _ W) as (F1 & F2 & FO & K).
  cbn in I.
  repeat (destruct I as [I|I];
    [injection I as <- <-; vm_compute in R; injection R as <-;
     unfold parse_with, jstruct; rewrite K; cbn [andb map];
     destruct (known _ o); cbn [negb]; auto; rewrite F1, F2;
     repeat match goal with |- context [jfield O ?nm o'] => rewrite (FO nm eq_refl) end;
     cbn [dflt];
     repeat match goal with |- context [dflt ?de ?d ?r] => destruct (dflt de d r); auto end;
     apply (f_equal opt_cfg);
     unfold same_red in S; destruct (de_jrc s), (de_jrc s'); try tauto; rewrite S; auto|]).
  destruct I.
Qed.

Lemma spelled_same : forall v w, spelled v w -> same_red v w.
Proof.
  induction 1 as [l L|l l' S|l l' o ty ds k d T D I L S|l l' o o' ty k s s' T I Sp IH W S|v|u v w _ A _ B].
  - unfold same_red. rewrite !de_jrc_obj, !jfield_snoc by exact L. lits.
    destruct (jfield O (lit "typename") l) as [[]|]; auto. rewrite (lacks_field _ _ L). intro n. apply parse_none_empty.
  - eapply swap_config; eauto. intros ty E n. apply parse_none_empty.
  - eapply swap_config; eauto. intros ty' E n. rewrite (has_field _ _ _ T) in E. injection E as <-.
    destruct n; auto. cbn [parse_config fst snd]. destruct (registry_doc _ _ D) as (t & R). rewrite R.
    symmetry. eapply option_same; eauto.
  - eapply swap_config; eauto. intros ty' E n. rewrite (has_field _ _ _ T) in E. injection E as <-.
    destruct n; auto. cbn [parse_config fst snd]. destruct (registry_get (lit ty)) as [t|] eqn:R; auto.
    eapply below_same; eauto.
  - apply same_red_refl.
  - eapply same_red_trans; eauto.
Qed.

Definition same_file (v w : json) : Prop :=
  match de_configuration v, de_configuration w with
  | Some (g, j), Some (g', j') => g = g' /\ parse_jrc j = parse_jrc j'
  | None, None => True
  | _, _ => False
  end.
Lemma same_jrc : forall j j' : jrc O, (forall n, parse_config n j = parse_config n j') -> parse_jrc j = parse_jrc j'.
Proof.
  intros j j' E. rewrite (parse_jrc_fuel (jrc_depth j + jrc_depth j' + 4) j) by lia.
  rewrite (parse_jrc_fuel (jrc_depth j + jrc_depth j' + 4) j') by lia. apply E.
Qed.
Lemma de_configuration_obj : forall (l : obj), de_configuration (JObj l) =
  if known [lit "$schema"; lit "globalConfig"; lit "entryReduction"] l then
    match dflt (de_opt de_str) None (jfield O (lit "$schema") l), req de_global (jfield O (lit "globalConfig") l),
          req de_jrc (jfield O (lit "entryReduction") l) with
    | Some _, Some gc, Some j => Some (gc, j)
    | _, _, _ => None
    end
  else None.
Proof. intro l. unfold de_configuration, jstruct. cbn [andb]. destruct (known _ l); auto. Qed.
Lemma global_option : forall k d o, In (k, d) (doc_global (O:=O)) -> lacks o k ->
  de_global (JObj (o ++ [(lit k, d)])) = de_global (JObj o).
Proof.
  intros k d o K L. pose proof (lacks_field o k L) as F. unfold lacks in L. cbn in K.
  repeat (destruct K as [K|K]; [injection K as <- <-;
    unfold de_global, global_names, jstruct; rewrite known_app; cbn [map andb known forallb existsb fst];
    repeat rewrite jfield_snoc by exact L; lits; cbn [orb andb]; rewrite ?F, ?andb_true_r;
    destruct (known _ o); cbn [andb negb]; try reflexivity|]).
  destruct K.
Qed.
Lemma same_file_refl : forall v, same_file v v.
Proof. intro v. unfold same_file. destruct (de_configuration v) as [[]|]; auto. Qed.
Lemma spelled_file : forall v w, spelled_out v w -> same_file v w.
Proof.
  induction 1 as [l l' s s' Sp W|l l' o k d I L W|l s L|v|u v w _ A _ B].
  - apply spelled_same in Sp. destruct (swapped_field _ _ _ _ _ W) as (F1 & F2 & FO & K).
    unfold same_file. rewrite !de_configuration_obj, K, F1, F2, (FO (lit "$schema") eq_refl), (FO (lit "globalConfig") eq_refl).
    destruct (known _ l); auto. destruct (dflt _ _ _); auto. destruct (req de_global _); auto. cbn [req].
    unfold same_red in Sp. destruct (de_jrc s), (de_jrc s'); try tauto. split; auto. apply same_jrc; auto.
  - destruct (swapped_field _ _ _ _ _ W) as (F1 & F2 & FO & K).
    unfold same_file. rewrite !de_configuration_obj, K, F1, F2, (FO (lit "$schema") eq_refl), (FO (lit "entryReduction") eq_refl). cbn [req]. rewrite (global_option k d o I L).
    destruct (known _ l); auto. destruct (dflt _ _ _); auto. destruct (de_global _); auto.
    destruct (req de_jrc _); auto.
  - unfold same_file. rewrite !de_configuration_obj, known_app, !jfield_snoc by exact L. cbn [known forallb existsb fst]. lits.
    rewrite (lacks_field _ _ L). cbn [orb andb]. rewrite andb_true_r. destruct (known _ l); auto. cbn [dflt de_opt de_str].
    destruct (req de_global _); auto. destruct (req de_jrc _); auto.
  - apply same_file_refl.
  - unfold same_file in *. destruct (de_configuration u) as [[]|], (de_configuration v) as [[]|], (de_configuration w) as [[]|]; try tauto.
    destruct A, B. split; congruence.
Qed.
Lemma spelled_load : forall H dbg (v w : json), spelled_out v w -> load H dbg v = load H dbg w.
Proof.
  intros H dbg v w S. apply spelled_file in S. unfold same_file in S. unfold load.
  destruct (de_configuration v) as [[]|], (de_configuration w) as [[]|]; try tauto. destruct S as (-> & ->). auto.
Qed.

(** *** misspelled keys *)
Lemma unknown_false : forall names k (l : obj), In k (map fst l) -> ~ In k names -> known names l = false.
Proof.
  intros names k l I N. apply not_true_iff_false. intro K. unfold known in K. rewrite forallb_forall in K.
  apply in_map_iff in I. destruct I as ((k' & x) & E & I). cbn in E. subst k'. specialize (K _ I).
  apply existsb_exists in K. destruct K as (nm & In' & E). apply str_eqb_eq in E. cbn in E. subst nm. auto.
Qed.
(** an error at the top or further down, which creating the stack reports *)
Fixpoint bad (c : rcfg O) : Prop :=
  match c with
  | CCoin _ => False
  | CBinary c | CCbAdf _ c | CGreedy _ c | CSoftmax _ _ c | CSquareCb _ _ _ c | CElem _ _ _ c | CDebug c => bad c
  | CBad _ => True
  end.
Lemma bad_create : forall H dbg gc c nma, bad c -> exists e, create H dbg gc nma c = Er e.
Proof.
  intros H dbg gc c nma. induction c; intro B; cbn [bad] in B; try tauto; cbn [create];
    try (destruct (IHc B) as (e & ->); cbn [bind]; eauto).
  - destruct c; eauto. destruct ty; eauto.
  - eauto.
Qed.
Lemma here_bad : forall ty ds t k (o : obj) sub, In (ty, ds) (doc (O:=O)) -> registry_get (lit ty) = Some t ->
  In k (map fst o) -> ~ In k (map (fun kd => lit (fst kd)) ds) -> parse_with sub t (JObj o) = CBad EJson.
Proof.
  intros ty ds t k o sub I R K N. cbn in I.
  repeat (destruct I as [I|I];
    [injection I as <- <-; vm_compute in R; injection R as <-; cbn [map fst] in N;
     unfold parse_with, de_coin, coin_names, jstruct; rewrite (unknown_false _ k o K) by (intro X; apply N; cbn [In] in X |- *; tauto); reflexivity|]).
  destruct I.
Qed.
Lemma below_bad : forall ty k t (o : obj) s sub, In (ty, k) below -> registry_get (lit ty) = Some t -> has o k s ->
  (forall j, de_jrc s = Some j -> bad (sub j)) -> bad (parse_with sub t (JObj o)).
Proof.
  intros ty k t o s sub I R W B. apply has_field in W. cbn in I.
  repeat (destruct I as [I|I];
    [injection I as <- <-; vm_compute in R; injection R as <-;
     unfold parse_with, jstruct; cbn [andb map]; destruct (known _ o); cbn [negb opt_cfg bad]; auto; rewrite W; cbn [dflt];
     repeat match goal with |- context [dflt ?de ?d ?r] => destruct (dflt de d r); cbn [opt_cfg bad]; auto end;
     destruct (de_jrc s) as [j|] eqn:J; cbn [opt_cfg bad]; auto|]).
  destruct I.
Qed.
Lemma misspelled_bad : forall v, misspelled v -> forall j n, de_jrc v = Some j -> bad (parse_config (O:=O) n j).
Proof.
  induction 1 as [l o ty ds k T C D I N|l o ty k s T C I K M IH]; intros j n E; destruct n; cbn [bad parse_config]; auto;
    rewrite de_jrc_obj, (has_field _ _ _ T), (has_field _ _ _ C) in E; cbn [text] in E; injection E as <-; cbn [fst snd].
  - destruct (registry_doc _ _ D) as (t & R). rewrite R. erewrite here_bad; eauto. cbn. auto.
  - destruct (registry_get (lit ty)) as [t|] eqn:R; cbn [bad]; auto. eapply below_bad; eauto.
Qed.
Lemma misspelled_refused : forall H dbg (v : json), misspelled_file v -> exists e, load H dbg v = Er e.
Proof.
  intros H dbg v [l k I N|l o k G I N|l s E M]; unfold load; rewrite de_configuration_obj.
  - rewrite (unknown_false _ k l I N). eauto.
  - rewrite (has_field _ _ _ G). cbn [req]. unfold de_global at 1, jstruct, global_names.
    rewrite (unknown_false _ k o I) by exact N. cbn [andb negb]. destruct (known _ l); eauto. destruct (dflt _ _ _); eauto.
  - destruct (known _ l); eauto. destruct (dflt _ _ _); eauto. destruct (req de_global _) as [gc|]; eauto.
    rewrite (has_field _ _ _ E). cbn [req]. destruct (de_jrc s) as [j|] eqn:J; eauto.
    destruct (bad_create H dbg gc (parse_jrc j) 1 (misspelled_bad _ M _ _ J)) as (e & Ee).
    unfold ws_new. rewrite Ee. cbn [bind]. eauto.
Qed.
(** keys next to [typename] and [config] do not matter *)
Lemma extra_ignored : forall (l : obj) k x, ~ In k (map fst l) -> k <> lit "typename" -> k <> lit "config" ->
  de_jrc (JObj (l ++ [(k, x)])) = de_jrc (JObj l).
Proof.
  intros l k x N A B. rewrite !de_jrc_obj, !jfield_snoc by exact N.
  assert (E : forall s, k <> s -> str_eqb s k = false).
  { intros s D. apply not_true_iff_false. intro E. apply str_eqb_eq in E. congruence. }
  rewrite !E by auto. auto.
Qed.
Lemma extra_load : forall H dbg (l l' o : obj) k x, swapped l "entryReduction" (JObj o) (JObj (o ++ [(k, x)])) l' ->
  ~ In k (map fst o) -> k <> lit "typename" -> k <> lit "config" -> load H dbg (JObj l') = load H dbg (JObj l).
Proof.
  intros H dbg l l' o k x W N A B. destruct (swapped_field _ _ _ _ _ W) as (F1 & F2 & FO & K).
  unfold load. rewrite !de_configuration_obj, K, F1, F2, (FO (lit "$schema") eq_refl), (FO (lit "globalConfig") eq_refl). cbn [req]. rewrite extra_ignored; auto.
Qed.

(** *** what is written is what is used *)
Lemma show_jrc : forall c, complete c -> exists j, de_jrc (O:=O) (show c) = Some j /\
  exists n0, forall n, (n0 <= n)%nat -> parse_config n j = c.
Proof.
  induction c; intro C; cbn [complete] in C; try contradiction;
    try (destruct (IHc C) as (j & J & n0 & P));
    cbn [show red_obj]; (eexists; split; [reflexivity|]).
  - exists 1%nat. intros [|n] L; [lia|]. destruct cfg as [a b l1 l2 lo li]. destruct lo, li; reflexivity.
  - exists (S n0). intros [|n] L; [lia|].
    match goal with |- parse_config (S n) ?x = _ => change (parse_config (S n) x) with
      (opt_cfg match de_jrc (show c) with Some j => Some (CBinary (parse_config n j)) | None => None end) end.
    rewrite J. cbn [opt_cfg]. rewrite P by lia. reflexivity.
  - exists (S n0). intros [|n] L; [lia|]. destruct ty;
    (match goal with |- parse_config (S n) ?x = CCbAdf ?t _ => change (parse_config (S n) x) with
      (opt_cfg match de_jrc (show c) with Some j => Some (CCbAdf t (parse_config n j)) | None => None end) end;
    rewrite J; cbn [opt_cfg]; rewrite P by lia; reflexivity).
  - exists (S n0). intros [|n] L; [lia|].
    match goal with |- parse_config (S n) ?x = CGreedy ?e _ => change (parse_config (S n) x) with
      (opt_cfg match de_jrc (show c) with Some j => Some (CGreedy e (parse_config n j)) | None => None end) end.
    rewrite J. cbn [opt_cfg]. rewrite P by lia. reflexivity.
  - exists (S n0). intros [|n] L; [lia|].
    match goal with |- parse_config (S n) ?x = CSoftmax ?e ?d _ => change (parse_config (S n) x) with
      (opt_cfg match de_jrc (show c) with Some j => Some (CSoftmax e d (parse_config n j)) | None => None end) end.
    rewrite J. cbn [opt_cfg]. rewrite P by lia. reflexivity.
  - exists (S n0). intros [|n] L; [lia|].
    match goal with |- parse_config (S n) ?x = CSquareCb ?e ?d ?k _ => change (parse_config (S n) x) with
      (opt_cfg match de_jrc (show c) with Some j => Some (CSquareCb e d k (parse_config n j)) | None => None end) end.
    rewrite J. cbn [opt_cfg]. rewrite P by lia. reflexivity.
  - exists (S n0). intros [|n] L; [lia|]. destruct one, two;
    (match goal with |- parse_config (S n) ?x = CElem ?e ?d ?k _ => change (parse_config (S n) x) with
      (opt_cfg match de_jrc (show c) with Some j => Some (CElem e d k (parse_config n j)) | None => None end) end;
    rewrite J; cbn [opt_cfg]; rewrite P by lia; reflexivity).
  - exists (S n0). intros [|n] L; [lia|].
    match goal with |- parse_config (S n) ?x = _ => change (parse_config (S n) x) with
      (opt_cfg match de_jrc (show c) with Some j => Some (CDebug (parse_config n j)) | None => None end) end.
    rewrite J. cbn [opt_cfg]. rewrite P by lia. reflexivity.
Qed.
Lemma show_parse : forall c, complete c -> exists j, de_jrc (O:=O) (show c) = Some j /\ parse_jrc j = c.
Proof.
  intros c C. destruct (show_jrc c C) as (j & J & n0 & P). exists j. split; auto.
  rewrite (parse_jrc_fuel (jrc_depth j + 4 + n0)) by lia. apply P. lia.
Qed.
Lemma show_nsdefs : forall i, de_vec (O:=O) de_nsdef (JArr (map show_nsdef i)) = Some i.
Proof.
  cbn [de_vec]. induction i as [|d i IH]; cbn [map de_all]; auto.
  rewrite IH. destruct d; reflexivity.
Qed.
Lemma show_inters : forall is, de_vec (O:=O) (de_vec de_nsdef) (JArr (map (fun i => JArr (map show_nsdef i)) is)) = Some is.
Proof.
  unfold de_vec at 1. induction is as [|i is IH]; cbn [map de_all]; auto. rewrite show_nsdefs, IH. auto.
Qed.
Lemma de_uint_int : forall b n, n < b -> de_uint (O:=O) b (int n) = Some n.
Proof. intros b n L. cbn. rewrite (proj2 (N.ltb_lt _ _) L). auto. Qed.
Lemma show_global_ok : forall g, gc_bits g < 256 -> gc_seed g < 2 ^ 32 -> de_global (O:=O) (show_global g) = Some g.
Proof.
  intros [nb seed cf is] A B. cbn [gc_bits gc_seed] in *.
  change (de_global (show_global {| gc_bits := nb; gc_seed := seed; gc_const := cf; gc_inter := is |})) with
    (match de_u8 (O:=O) (int nb), de_u32 (O:=O) (int seed), Some cf,
       de_vec (O:=O) (de_vec de_nsdef) (JArr (map (fun i => JArr (map show_nsdef i)) is)) with
     | Some nb, Some seed, Some cf, Some is => Some (mkGc nb seed cf is)
     | _, _, _, _ => None end).
  unfold de_u8, de_u32. rewrite !de_uint_int, show_inters by auto. auto.
Qed.
Lemma show_load : forall H dbg g c, gc_bits g < 256 -> gc_seed g < 2 ^ 32 -> complete c ->
  load H dbg (show_file (O:=O) g c) = (let* r := ws_new H dbg g c in Ok (g, r)).
Proof.
  intros H dbg g c A B C. destruct (show_parse c C) as (j & J & P).
  unfold load, show_file. rewrite de_configuration_obj.
  change (known [lit "$schema"; lit "globalConfig"; lit "entryReduction"] [(lit "globalConfig", show_global (O:=O) g); (lit "entryReduction", show c)]) with true.
  change (jfield O (lit "$schema") [(lit "globalConfig", show_global (O:=O) g); (lit "entryReduction", show c)]) with (@None json).
  change (jfield O (lit "globalConfig") [(lit "globalConfig", show_global (O:=O) g); (lit "entryReduction", show c)]) with (Some (show_global (O:=O) g)).
  change (jfield O (lit "entryReduction") [(lit "globalConfig", show_global (O:=O) g); (lit "entryReduction", show c)]) with (Some (show c)).
  cbn [dflt req]. rewrite show_global_ok, J, P by auto. auto.
Qed.

(** *** which settings let the program panic *)
Definition fine (dbg : bool) (gc : gconfig) : Prop :=
  (dbg = true -> gc_bits gc < 32) /\ Forall (fun i => List.length i = 2%nat \/ List.length i = 3%nat) (gc_inter gc).
Lemma coin_new_fine : forall H dbg (cfg : coin_config O) gc, fine dbg gc -> exists co, coin_new H dbg cfg gc 1 = Ok co.
Proof.
  intros H dbg cfg gc (B & I). unfold coin_new. destruct (compile_spec H (gc_seed gc) (gc_inter gc)) as (_ & S & E & P).
  destruct (compile_interactions H (gc_seed gc) (gc_inter gc)) as [pt|e|p] eqn:C; cbn [bind].
  - destruct (match cc_loss cfg with LossSquared => _ | LossLogistic _ _ => _ end) as (mn & mx).
    assert (F : exists k, bits_to_max_feature_index dbg (gc_bits gc) = Ok k /\ k <> 0 /\ k < 2 ^ 32).
    { unfold bits_to_max_feature_index. destruct (gc_bits gc <? 32) eqn:L.
      - apply N.ltb_lt in L. eexists. split; [reflexivity|]. split; [apply N.pow_nonzero; lia|apply N.pow_lt_mono_r; lia].
      - destruct dbg. { apply N.ltb_ge in L. specialize (B eq_refl). lia. }
        eexists. split; [reflexivity|]. split; [apply N.pow_nonzero; lia|apply N.pow_lt_mono_r; [lia|]]. apply N.mod_lt. lia. }
    destruct F as (k & -> & K1 & K2). cbn [bind].
    destruct (dw_new_ok (O:=O) dbg k 1 6) as (w & -> & _); try lia. cbn [bind]. eauto.
  - destruct (E e eq_refl).
  - rewrite (P _ eq_refl) in S. destruct (proj1 S eq_refl) as (i & Ii & L2 & L3).
    rewrite Forall_forall in I. destruct (I _ Ii); contradiction.
Qed.
Lemma coin_new_panics : forall H dbg (cfg : coin_config O) gc, ~ fine dbg gc -> exists p, coin_new H dbg cfg gc 1 = Pn p.
Proof.
  intros H dbg cfg gc N. unfold coin_new. destruct (compile_spec H (gc_seed gc) (gc_inter gc)) as (_ & S & E & P).
  destruct (compile_interactions H (gc_seed gc) (gc_inter gc)) as [pt|e|p] eqn:C; cbn [bind]; eauto; [|destruct (E e eq_refl)].
  destruct (match cc_loss cfg with LossSquared => _ | LossLogistic _ _ => _ end) as (mn & mx).
  unfold bits_to_max_feature_index. destruct (gc_bits gc <? 32) eqn:L; [|destruct dbg; cbn [bind]; eauto]; exfalso; apply N.
  all: split; [try discriminate; try (intros _; now apply N.ltb_lt in L)|].
  all: destruct (bad_or_good (gc_inter gc)) as [G|B]; auto; exfalso;
    apply Exists_exists in B; destruct B as (i & Ii & B1 & B2); discriminate (proj2 S (ex_intro _ i (conj Ii (conj B1 B2)))).
Qed.
Lemma create_no_panic : forall H dbg gc (c : rcfg O), fine dbg gc -> is_pn (create H dbg gc 1 c) = false.
Proof.
  intros H dbg gc c F. induction c; cbn [create];
    try (destruct (create H dbg gc 1 c) as [ch|e|p]; cbn [bind]; auto; unfold add_level; destruct (td_bad _ _); auto; fail).
  - destruct (coin_new_fine H dbg cfg gc F) as (co & ->). auto.
  - assert (Q : is_pn (let* ch := create H dbg gc 1 c in add_level 1 td_explore (KSquareCb ueps gscale gexp 0) ch) = false).
    { destruct (create H dbg gc 1 c) as [ch|e|p]; cbn [bind]; auto; unfold add_level; destruct (td_bad _ _); auto. }
    destruct c; auto. destruct ty; auto.
  - auto.
Qed.
Lemma create_panics : forall H dbg gc (c : rcfg O) l f p, wt c l f p -> ~ fine dbg gc -> exists q, create H dbg gc 1 c = Pn q.
Proof.
  intros H dbg gc c l f p W N. induction W; cbn [create]; try (destruct IHW as (q & E); rewrite E; cbn [bind]; eauto; fail).
  - destruct (coin_new_panics H dbg cfg gc N) as (q & ->). cbn. eauto.
  - destruct IHW as (q & E). destruct c; try (rewrite E; cbn [bind]; eauto; fail).
    destruct ty; [cbn in H0; tauto|]. rewrite E. cbn. eauto.
Qed.
Lemma wt_complete : forall (c : rcfg O) l f p, wt c l f p -> complete c.
Proof. induction 1; cbn; auto. Qed.
Lemma nodup_split : forall (g : obj) k x, NoDup (map fst g) -> jfield O (lit k) g = Some x -> has g k x.
Proof.
  intros g k x D E. unfold jfield in E. destruct (find _ (rev g)) as [[k' x']|] eqn:F; [|discriminate].
  cbn in E. injection E as ->. apply find_some in F. destruct F as (I & E). apply str_eqb_eq in E. cbn in E. subst k'.
  apply in_rev in I. apply in_split in I. destruct I as (l1 & l2 & ->). exists l1, l2. split; auto.
  rewrite map_app in D. cbn [map fst] in D. apply NoDup_remove_2 in D. rewrite in_app_iff in D. tauto.
Qed.
Lemma supported_fine : forall dbg (o : obj) gc, supported o -> de_global (JObj o) = Some gc -> fine dbg gc.
Proof.
  intros dbg o gc (D & B & I) E. unfold de_global, jstruct, global_names in E.
  destruct (known _ o); [|discriminate]. cbn [andb negb map] in E.
  destruct (dflt de_u8 18 _) as [nb|] eqn:E1; [|discriminate].
  destruct (dflt de_u32 _ _) as [sd|]; [|discriminate].
  destruct (dflt de_bool _ _) as [cf|]; [|discriminate].
  destruct (dflt (de_vec _) [] _) as [is|] eqn:E2; [|discriminate]. injection E as <-.
  split; cbn [gc_bits gc_inter].
  - intros _. destruct (jfield O (lit "numBits") o) as [v|] eqn:V; cbn [dflt] in E1; [|injection E1 as <-; lia].
    apply nodup_split in V; auto. unfold de_u8, de_uint in E1. destruct v; try discriminate.
    destruct (jn_u64 n) as [k|] eqn:K; [|discriminate]. destruct (k <? 256); [|discriminate]. injection E1 as <-. eauto.
  - destruct (jfield O (lit "interactions") o) as [v|] eqn:V; cbn [dflt] in E2; [|injection E2 as <-; constructor].
    apply nodup_split in V; auto. unfold de_vec at 1 in E2. destruct v; try discriminate. specialize (I _ V). clear V.
    revert is E2. induction I as [|v l J _ IH]; intros is E2; cbn [de_all] in E2; [injection E2 as <-; constructor|].
    destruct (de_vec de_nsdef v) as [i|] eqn:Ei; [|discriminate]. destruct (de_all _ l) as [is'|]; [|discriminate].
    injection E2 as <-. constructor; [|apply IH; auto].
    destruct v as [| | | |a|]; cbn [de_vec] in Ei; try discriminate. specialize (J _ eq_refl).
    assert (List.length i = List.length a) as ->; auto.
    clear -Ei. revert i Ei. induction a as [|x a IH]; intros i Ei; cbn [de_all] in Ei; [injection Ei as <-; auto|].
    destruct (de_nsdef x), (de_all de_nsdef a); try discriminate. injection Ei as <-. cbn. f_equal. auto.
Qed.
Lemma load_no_panic : forall H dbg (l o : obj), has l "globalConfig" (JObj o) -> supported o ->
  is_pn (load H dbg (JObj l)) = false.
Proof.
  intros H dbg l o G S. unfold load. rewrite de_configuration_obj, (has_field _ _ _ G). cbn [req].
  destruct (known _ l); auto. destruct (dflt _ _ _); auto. destruct (de_global (JObj o)) as [gc|] eqn:E; auto.
  destruct (req de_jrc _) as [j|]; auto. pose proof (create_no_panic H dbg gc (parse_jrc j) (supported_fine dbg _ _ S E)) as K.
  unfold ws_new. destruct (create H dbg gc 1 (parse_jrc j)); auto.
Qed.
Lemma load_panics : forall H dbg g (c : rcfg O) l f p, wt c l f p -> gc_bits g < 256 -> gc_seed g < 2 ^ 32 ->
  (dbg = true /\ 32 <= gc_bits g) \/ (exists i, In i (gc_inter g) /\ List.length i <> 2%nat /\ List.length i <> 3%nat) ->
  is_pn (load H dbg (show_file g c)) = true.
Proof.
  intros H dbg g c l f p W A B D. rewrite show_load by (eauto using wt_complete).
  assert (N : ~ fine dbg g).
  { intros (F1 & F2). destruct D as [(E & L)|(i & I & L2 & L3)]; [specialize (F1 E); lia|].
    rewrite Forall_forall in F2. destruct (F2 _ I); contradiction. }
  destruct (create_panics H dbg g c _ _ _ W N) as (q & E). unfold ws_new. rewrite E. auto.
Qed.

(** *** config new *)
Lemma config_new_ok : forall H dbg url ty ds, In (ty, ds) (doc (O:=O)) -> ty <> "Debug"%string ->
  exists v, config_new (O:=O) url (lit ty) = Some v /\ config_check H dbg v = true /\ load H dbg v = load H dbg (minimal ty).
Proof.
  intros H dbg url ty ds I N.
  assert (P : exists v gc c l f p cfg j j', config_new (O:=O) url (lit ty) = Some v /\
    de_configuration v = Some (gc, j) /\ de_configuration (minimal ty) = Some (gc, j') /\ parse_jrc j = c /\ parse_jrc j' = c /\ wt c l f p /\
    base_cfg c = Some cfg /\ gc = mkGc 18 0 true []).
  { cbn in I. repeat (destruct I as [I|I];
    [injection I as <- <-; try contradiction;
     do 9 eexists; (repeat match goal with |- _ /\ _ => split end); try reflexivity;
     repeat (constructor; try exact Logic.I)|]). destruct I. }
  destruct P as (v & gc & c & l & f & p & cfg & j & j' & -> & E1 & E2 & P1 & P2 & W & B & G).
  assert (F : fine dbg gc) by (subst gc; split; [intros _; reflexivity|constructor]).
  destruct (coin_new_fine H dbg cfg gc F) as (co & C).
  destruct (proj2 (accepted_iff O H dbg gc c)) as (R & E); eauto 8.
  exists v. split; auto. unfold config_check, load. rewrite E1, E2, P1, P2, E. auto.
Qed.
Lemma config_new_debug : forall H dbg url, exists v, config_new (O:=O) url (lit "Debug") = Some v /\ load H dbg v = Er EInvalidArgument.
Proof. intros H dbg url. eexists. split; [reflexivity|]. reflexivity. Qed.
Lemma config_new_unknown : forall url name, (forall ty ds, In (ty, ds) (doc (O:=O)) -> name <> lit ty) -> config_new (O:=O) url name = None.
Proof.
  intros url name N. unfold config_new. destruct (registry_get name) as [t|] eqn:R; auto. exfalso.
  unfold registry_get in R. apply find_some in R. destruct R as (_ & E). apply str_eqb_eq in E. subst name.
  destruct t; eapply N; unfold typename; try reflexivity; cbn; eauto 12.
Qed.

(** *** keys that are ignored *)
Definition file_with (s : json) : json := JObj [(lit "globalConfig", JObj []); (lit "entryReduction", s)].
Lemma ignored_beside : forall H dbg, let v := file_with (JObj [(lit "typename", text "Coin"); (lit "Config", JObj [(lit "alpha", num f1)])]) in
  is_ok (load H dbg v) = true /\ load H dbg v = load H dbg (minimal "Coin").
Proof.
  intros H dbg. destruct (config_new_ok H dbg [] "Coin" _ (or_introl eq_refl)) as (w & _ & C & E); [discriminate|].
  assert (X : load H dbg (file_with (JObj [(lit "typename", text "Coin"); (lit "Config", JObj [(lit "alpha", num f1)])])) = load H dbg (minimal "Coin")).
  { apply (extra_load H dbg _ _ [(lit "typename", text "Coin")] (lit "Config") (JObj [(lit "alpha", num f1)])).
    - exists [(lit "globalConfig", JObj [])], []. repeat split; cbn; intros K; repeat (destruct K as [K|K]); auto; discriminate.
    - cbn. intros [K|[]]. discriminate.
    - discriminate.
    - discriminate. }
  cbv zeta. split; [rewrite X, <- E; exact C|exact X].
Qed.
Definition logistic_file (o : obj) : json :=
  file_with (JObj [(lit "typename", text "Coin"); (lit "config", JObj [(lit "lossFunction", JObj [(lit "Logistic", JObj o)])])]).
Lemma ignored_loss : forall H dbg, let v := logistic_file [(lit "minLabel", num f0); (lit "maxLabel", num f1)] in
  is_ok (load H dbg v) = true /\ load H dbg v = load H dbg (logistic_file []).
Proof.
  intros H dbg v. split; [destruct dbg; reflexivity|reflexivity].
Qed.
End Proofs.

(** *** examples *)
Section Examples.
Context {O : FOps}.
(** only epsilon and one of the regressor's options given; then with more said *)
Definition ex_short : json O := JObj [(lit "globalConfig", JObj [(lit "hashSeed", int 7)]);
  (lit "entryReduction", red_obj "CbExploreAdfGreedy" [(lit "epsilon", num (f_lit O 1 10));
     (lit "cbAdf", red_obj "CbAdf" [(lit "regressor", red_obj "Coin" [(lit "alpha", num f1)])])])].
Definition ex_long : json O := JObj [(lit "globalConfig", JObj [(lit "hashSeed", int 7); (lit "numBits", int 18)]);
  (lit "entryReduction", red_obj "CbExploreAdfGreedy" [(lit "epsilon", num (f_lit O 1 10));
     (lit "cbAdf", red_obj "CbAdf" [(lit "regressor", red_obj "Coin" [(lit "alpha", num f1); (lit "beta", num (fl 1))]);
                                    (lit "cbType", text "mtr")])])].
Ltac away := cbn; intros K; repeat (destruct K as [K|K]); auto; discriminate.
Lemma ex_spelled : spelled_out ex_short ex_long.
Proof.
  eapply so_trans.
  - eapply so_global with (k := "numBits"%string); [left; reflexivity| |].
    2: exists [], (tl match ex_short with JObj l => l | _ => [] end); repeat split; [away|away]. unfold lacks. away.
  - eapply so_entry.
    2: exists [(lit "globalConfig", JObj [(lit "hashSeed", int 7); (lit "numBits", int 18)])], []; repeat split; [away|away].
    eapply sp_below with (ty := "CbExploreAdfGreedy"%string) (k := "cbAdf"%string);
      [exists [], (match (red_obj (O:=O) "CbExploreAdfGreedy" [(lit "epsilon", num (f_lit O 1 10));
     (lit "cbAdf", red_obj "CbAdf" [(lit "regressor", red_obj "Coin" [(lit "alpha", num f1)])])]) with JObj (_ :: l) => l | _ => [] end);
        repeat split; away|cbn; tauto| | |].
    2: exists [(lit "epsilon", num (f_lit O 1 10))], []; repeat split; [away|away].
    2: exists [(lit "typename", text "CbExploreAdfGreedy")], []; repeat split; [away|away].
    eapply sp_trans.
    + eapply sp_below with (ty := "CbAdf"%string) (k := "regressor"%string);
        [exists [], [(lit "config", JObj [(lit "regressor", red_obj "Coin" [(lit "alpha", num f1)])])]; repeat split; away|cbn; tauto| | |].
      2: exists [], []; repeat split; [away|away].
      2: exists [(lit "typename", text "CbAdf")], []; repeat split; [away|away].
      eapply sp_option with (ty := "Coin"%string) (k := "beta"%string) (o := [(lit "alpha", num f1)]).
      * exists [], [(lit "config", JObj [(lit "alpha", num f1)])]. repeat split; away.
      * left. reflexivity.
      * cbn. right. left. reflexivity.
      * unfold lacks. away.
      * exists [(lit "typename", text "Coin")], []. repeat split; away.
    + eapply sp_option with (ty := "CbAdf"%string) (k := "cbType"%string) (o := [(lit "regressor", red_obj "Coin" [(lit "alpha", num f1); (lit "beta", num (fl 1))])]).
      * exists [], [(lit "config", JObj [(lit "regressor", red_obj "Coin" [(lit "alpha", num f1); (lit "beta", num (fl 1))])])]. repeat split; away.
      * cbn. right. right. left. reflexivity.
      * cbn. left. reflexivity.
      * unfold lacks. away.
      * exists [(lit "typename", text "CbAdf")], []. repeat split; away.
Qed.
(** a regressor two levels down with "l1_lambda" instead of "l1Lambda" *)
Definition ex_typo : json O := JObj [(lit "globalConfig", JObj []);
  (lit "entryReduction", red_obj "CbAdf" [(lit "regressor", red_obj "Coin" [(lit "l1_lambda", num f1)])])].
Lemma ex_misspelled : misspelled_file ex_typo.
Proof.
  apply (mf_entry _ (red_obj "CbAdf" [(lit "regressor", red_obj "Coin" [(lit "l1_lambda", num f1)])])).
  { exists [(lit "globalConfig", JObj [])], []. repeat split; away. }
  eapply (mi_below _ _ "CbAdf" "regressor").
  { exists [], [(lit "config", JObj [(lit "regressor", red_obj "Coin" [(lit "l1_lambda", num f1)])])]. repeat split; away. }
  { exists [(lit "typename", text "CbAdf")], []. repeat split; away. }
  { cbn. tauto. }
  { exists [], []. repeat split; away. }
  eapply (mi_here _ _ "Coin" _ (lit "l1_lambda")).
  { exists [], [(lit "config", JObj [(lit "l1_lambda", num f1)])]. repeat split; away. }
  { exists [(lit "typename", text "Coin")], []. repeat split; away. }
  { left. reflexivity. }
  { cbn. auto. }
  { away. }
Qed.
Definition ex_full : rcfg O :=
  CSquareCb f0 (fl 20) (f_lit O 1 4) (CCbAdf Mtr (CElem (NDName (lit "a")) NDDefault true
    (CCoin (mkCoinCfg f1 f1 f0 f0 (LossLogistic f0 f1) LinkLogistic)))).
Lemma ex_supported : supported (O:=O) [(lit "numBits", int 20);
  (lit "interactions", JArr [JArr [text "Default"; JObj [(lit "Name", text "a")]]])].
Proof.
  split; [repeat constructor; away|]. split.
  - intros n k (l1 & l2 & E & _ & _) K. destruct l1 as [|p l1]; [injection E as <- _; cbn in K; injection K as <-; lia|].
    destruct l1 as [|q l1]; [discriminate E|]. destruct l1; discriminate E.
  - intros is (l1 & l2 & E & _ & _). destruct l1 as [|p l1]; [discriminate E|].
    destruct l1 as [|q l1]; [injection E as _ <- _|destruct l1; discriminate E].
    constructor; [|constructor]. intros a A. injection A as <-. auto.
Qed.
End Examples.

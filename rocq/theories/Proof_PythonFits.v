(** Python programs: what a workspace's own parser gives, the workspace accepts (release
    builds). *)
From Coq Require Import List NArith ZArith Bool Lia.
From Verif Require Import Base FloatOps FloatB32 Model_Hash Model_Features Model_Weights Model_Loss
  Model_Interactions Model_Types Model_Explore Model_Coin Model_Stack Model_Factory Model_Text Model_Metrics Model_Train Model_Json Model_Config Model_Save Model_Export Model_Python
  Spec_Features Proof_Weights Proof_WeightsProps Proof_Features Proof_FeaturesHist Proof_FloatOrder Spec_Coin Proof_Coin Spec_Stack Spec_Reductions Spec_Total
  Proof_StackCong Proof_StackRestore Proof_StackPtl Proof_StackShape Proof_StackProps Proof_Types Proof_Total
  Spec_Text Proof_TextRead Proof_TextParse Proof_TextFeats Proof_TextChunk Proof_Loose Proof_Train Spec_Release Proof_Release
  Spec_Json Proof_JsonPlan Proof_Json Proof_JsonChunk Proof_DsJson Spec_Python Proof_Python Proof_PythonPool.
Import ListNotations.
Open Scope N_scope.

Section Rok.
Context {O : FOps} (fs : N).
Implicit Types (f g : features O) (a b : sfeats O).

Lemma rok_get : forall a k s, rok fs a -> fm_get k a = Some s -> sfn_wf k s /\ Forall (fun i => i < fs) (sfn_idx s).
Proof.
  intros a k s (W & A) E. rewrite allf_fget in A by auto. pose proof (proj2 W _ _ E) as Ws. split; auto. apply Forall_forall. intros i Hi.
  destruct (In_nth_error _ _ Hi) as (j & Hj). destruct Ws as (_ & L).
  assert (Hv : exists v, nth_error (sfn_val s) j = Some v).
  { destruct (nth_error (sfn_val s) j) as [v|] eqn:Ev; eauto. apply nth_error_None in Ev. assert (j < length (sfn_idx s))%nat by (apply nth_error_Some; congruence). lia. }
  destruct Hv as (v & Hv). eapply A; [exact E|]. unfold sfn_iter. instantiate (1 := v).
  clear - Hj Hv. revert Hj Hv. generalize (sfn_idx s) (sfn_val s). revert j. induction j as [|j IH]; intros [|x l] [|y m] Hj Hv; simpl in *; try discriminate.
  - left. congruence.
  - right. eauto.
Qed.
Lemma rok_set : forall a k s, rok fs a -> sfn_wf k s -> Forall (fun i => i < fs) (sfn_idx s) -> rok fs (fm_set k s a).
Proof.
  intros a k s (W & A) Ws F. assert (W1 : fwf (fm_set k s a)) by now apply fwf_set. split; auto.
  rewrite allf_fget in * by auto. intros j t i v E Hin. rewrite fm_get_set in E. destruct (ns_eqb j k); [|eapply A; eauto].
  inversion E; subst. unfold sfn_iter in Hin. apply in_combine_l in Hin. eapply Forall_forall in F; eauto.
Qed.
Definition sok k (s : sfn O) : Prop := sfn_wf k s /\ Forall (fun i => i < fs) (sfn_idx s).
Lemma rok_item : forall a k, rok fs a -> sok k (sfn_set_active true match fm_get k a with Some s => s | None => sfn_new k end).
Proof.
  intros a k R. destruct (fm_get k a) as [s|] eqn:E.
  - destruct (rok_get _ _ _ R E). split; auto.
  - split; [split; reflexivity|constructor].
Qed.
Lemma truncate_sok : forall k n (s s' : sfn O), sok k s -> sfn_truncate_by false n s = Ok s' -> sok k s'.
Proof.
  intros k n s s' ((Nm & L) & F) E. unfold sfn_truncate_by in E.
  assert (Q : forall m, Forall (fun i => i < fs) (firstn m (sfn_idx s))).
  { intros m. apply Forall_forall. intros i Hi. eapply Forall_forall in F; [exact F|]. rewrite <- (firstn_skipn m (sfn_idx s)). apply in_app_iff. auto. }
  destruct (Nat.leb n (sfn_size s)).
  - destruct (Nat.eqb _ 0); inversion E; subst; (split; [split; simpl; [first [exact Nm|reflexivity]|rewrite !firstn_length; lia]|apply Q]).
  - destruct (Nat.eqb _ 0); inversion E; subst; (split; [split; simpl; auto|exact F]).
Qed.
Lemma remove_rok : forall b a r, rok fs a -> sf_remove false a b = Ok r -> rok fs r.
Proof.
  unfold sf_remove. induction b as [|(k & s) b IH]; intros a r R E; cbn [foldm] in E; [now inversion E; subst|].
  binv E. eapply IH; [|exact E]. cbn [fst snd] in B. destruct (sfn_active s); [|now inversion B; subst].
  unfold sf_updm_ns in B. binv B. inversion B; subst. destruct (truncate_sok k _ _ _ (rok_item a k R) B0). now apply rok_set.
Qed.
Lemma remove_opt_rok : forall s a r, rok fs a -> remove_opt false a s = Ok r -> rok fs r.
Proof. intros [s|] a r R E; simpl in E; [eapply remove_rok; eauto|now inversion E; subst]. Qed.
Lemma append_opt_rok : forall s a r, rok fs a -> (forall sh, s = Some sh -> rok fs sh) -> append_opt a s = Ok r -> rok fs r.
Proof. intros s a r R S E. destruct (append_opt_release fs a s R S) as (r' & E' & R'). congruence. Qed.
Lemma back_rok : forall a f, rok fs a -> rgood fs f -> rok fs (back_simple a f).
Proof. intros a [b|s x] R G; simpl; auto. apply G. now left. Qed.
Lemma rgood_Cb : forall s (x : list (sfeats O)), (forall sh, s = Some sh -> rok fs sh) -> Forall (rok fs) x -> rgood fs (FtsCb s x).
Proof.
  intros s x S F a Ha. destruct s as [sh|]; simpl in Ha.
  - destruct Ha as [<-|Ha]; auto. eapply Forall_forall in F; eauto.
  - eapply Forall_forall in F; eauto.
Qed.

(** ** calls keep features inside the table *)
Lemma loop_rok : forall child (s : option (sfeats O)) x i d sc acts d',
  (forall f d mo p f' d', rgood fs f -> child f d mo = Ok (p, f', d') -> rgood fs f') ->
  (forall sh, s = Some sh -> rok fs sh) -> Forall (rok fs) x ->
  cb_predict_loop false child s x i d = Ok (sc, acts, d') -> Forall (rok fs) acts.
Proof.
  intros child s x i d sc acts d' HC S F. revert i d sc acts d'. induction F as [|a x Ra F IH]; intros i d sc acts d' E; simpl in E; [inversion E; constructor|].
  binv E. binv E. destruct v0 as ((p & f') & d1). binv E. binv E. binv E. destruct v2 as ((scs & acs) & d2). inversion E; subst. clear E.
  pose proof (append_opt_rok _ _ _ Ra S B) as R1. constructor; [|eapply IH; eauto].
  eapply remove_opt_rok; [|exact B2]. apply back_rok; auto. eapply HC; [|exact B0]. now apply rgood_simple.
Qed.
Lemma ips_rok : forall X (P : X -> Prop) (le : X -> features O -> label O -> N -> N -> out (pres O X)) act cost prob (s : option (sfeats O)) x i ch d ch' acts d',
  (forall ch f lb d mo ch' f' d', P ch -> rgood fs f -> le ch f lb d mo = Ok (ch', f', d') -> P ch' /\ rgood fs f') ->
  P ch -> (forall sh, s = Some sh -> rok fs sh) -> Forall (rok fs) x ->
  cb_ips_loop false le act cost prob s x i ch d = Ok (ch', acts, d') -> Forall (rok fs) acts.
Proof.
  intros X P le act cost prob s x i ch d ch' acts d' HC HP S F. revert i ch d ch' acts d' HP.
  induction F as [|a x Ra F IH]; intros i ch d ch' acts d' HP E; simpl in E; [inversion E; constructor|].
  binv E. binv E. binv E. destruct v1 as ((c1 & f') & d1). binv E. binv E. destruct v2 as ((scs & acs) & d2). inversion E; subst. clear E.
  pose proof (append_opt_rok _ _ _ Ra S B) as R1. destruct (HC _ _ _ _ _ _ _ _ HP (rgood_simple _ _ R1) B1) as (HP' & G').
  constructor; [|eapply IH; eauto]. eapply remove_opt_rok; [|exact B2]. now apply back_rok.
Qed.
Lemma uses_elem_S : forall n w k (ch : red O n), uses_elem (n := S n) (w, k, ch) = false ->
  match k with KElem _ _ _ _ => False | _ => True end /\ uses_elem ch = false.
Proof.
  intros n w k ch E. unfold uses_elem in *. cbn [some_kind fst snd] in E. apply orb_false_elim in E. destruct E as (E1 & E2). split; auto.
  destruct k; auto. discriminate.
Qed.
Lemma kpredict_rgood : forall k child f d mo p f' d', match k with KElem _ _ _ _ => False | _ => True end ->
  (forall f d mo p f' d', rgood fs f -> child f d mo = Ok (p, f', d') -> rgood fs f') ->
  rgood fs f -> kind_predict false k child f d mo = Ok (p, f', d') -> rgood fs f'.
Proof.
  intros k child f d mo p f' d' K IH G E. destruct k; try contradiction; cbn [kind_predict] in E;
    try (binv E; destruct v as ((q & g) & e); binv E; try binv E; inversion E; subst; eapply IH; eauto; fail).
  - destruct f as [a|s x]; simpl as_cb in E; cbn [bind fst snd] in E; [discriminate|].
    binv E. destruct v as ((sc & acts) & e). inversion E; subst. apply rgood_cb in G. destruct G as (Gs & Gx).
    apply rgood_Cb; auto. eapply loop_rok; eauto.
  - eapply IH; eauto.
Qed.
Lemma predict_rgood : forall n (r : red O n) f d mo p f' d', uses_elem r = false -> rgood fs f ->
  predict false n r f d mo = Ok (p, f', d') -> rgood fs f'.
Proof.
  induction n as [|n IH]; intros r f d mo p f' d' U G E.
  - destruct r as (w & c). cbn [predict fst snd] in E. apply wrap_ok in E. destruct E as (d1 & d2 & E).
    unfold coin_predict_body in E. binv E. binv E. now inversion E; subst.
  - destruct r as ((w & k) & ch). apply uses_elem_S in U. cbn [predict] in E. apply wrap_ok in E. destruct E as (d1 & d2 & E).
    eapply kpredict_rgood; [apply U| |exact G|exact E]. intros; eapply IH; eauto. apply U.
Qed.
Lemma klearn_rgood : forall X (P : X -> Prop) k (le : X -> features O -> label O -> N -> N -> out (pres O X)) ch f lb d mo x f' d',
  match k with KElem _ _ _ _ => False | _ => True end ->
  (forall ch f lb d mo ch' f' d', P ch -> rgood fs f -> le ch f lb d mo = Ok (ch', f', d') -> P ch' /\ rgood fs f') ->
  P ch -> rgood fs f -> kind_learn false k le ch f lb d mo = Ok (x, f', d') -> rgood fs f'.
Proof.
  intros X P k le ch f lb d mo x f' d' K IH HP G E. destruct k; try contradiction; cbn [kind_learn] in E.
  - binv E. binv E. destruct v0 as ((c' & g) & e). inversion E; subst. eapply IH; eauto.
  - destruct f as [a|s y]; simpl as_cb in E; cbn [bind fst snd] in E; [discriminate|]. apply rgood_cb in G. destruct G as (Gs & Gx).
    binv E. destruct v as ((act & cost) & prob). destruct ty.
    + binv E. destruct v as ((c' & acts) & e). inversion E; subst. apply rgood_Cb; auto. eapply ips_rok; eauto.
    + binv E. binv E. destruct s as [sh|]; [|discriminate]. binv E. binv E. binv E.
      destruct v3 as ((c' & g) & e). binv E. inversion E; subst. clear E. specialize (Gs sh eq_refl).
      assert (Ra : rok fs v1). { unfold opt_or in B2. destruct (nth_error y (N.to_nat act)) as [z|] eqn:Z; inversion B2; subst.
        eapply Forall_forall in Gx; [exact Gx|]. eapply nth_error_In; eauto. }
      destruct (append_release fs sh v1 Gs Ra) as (z & Ez & Rz). assert (z = v2) by congruence. subst z.
      destruct (IH _ _ _ _ _ _ _ _ HP (rgood_simple _ _ Rz) B4) as (_ & G').
      apply rgood_Cb; auto. intros sh' Es. inversion Es; subst. eapply remove_rok; [|exact B5]. now apply back_rok.
  - binv E. destruct v as ((c' & g) & e). inversion E; subst. eapply IH; eauto.
  - binv E. destruct v as ((c' & g) & e). inversion E; subst. eapply IH; eauto.
  - binv E. destruct v as ((act & cost) & prob). binv E. destruct v as ((c' & g) & e). binv E. inversion E; subst. eapply IH; eauto.
  - binv E. destruct v as ((c' & g) & e). inversion E; subst. eapply IH; eauto.
Qed.
Lemma learn_rgood : forall n (r : red O n) f lb d mo r' f' d', uses_elem r = false -> rgood fs f ->
  learn false n r f lb d mo = Ok (r', f', d') -> uses_elem r' = false /\ rgood fs f'.
Proof.
  induction n as [|n IH]; intros r f lb d mo r' f' d' U G E; (split; [rewrite (shape_elem _ _ _ (learn_shape _ _ _ _ _ _ _ _ _ _ E)); exact U|]).
  - destruct r as (w & c). cbn [learn] in E. apply wrap_ok in E. destruct E as (d1 & d2 & E).
    unfold coin_learn_body in E. binv E. destruct v as ((c' & g) & e). binv B. binv B. binv B. inversion B; inversion E; now subst.
  - destruct r as ((w & k) & ch). apply uses_elem_S in U. cbn [learn] in E. apply wrap_ok in E. destruct E as (d1 & d2 & E).
    binv E. destruct v as (((k' & ch') & g) & e). inversion E; subst.
    eapply (klearn_rgood _ (fun ch => uses_elem ch = false)); [apply U| |apply U|exact G|exact B]. intros; eapply IH; eauto.
Qed.
Lemma ptl_rgood : forall n (r : red O n) f lb d mo x f' d', uses_elem r = false -> rgood fs f ->
  predict_then_learn false n r f lb d mo = Ok (x, f', d') -> rgood fs f'.
Proof.
  assert (D : forall X p (l : features O -> N -> out (pres O X)) f d x f' d',
    (forall f d p1 f' d', rgood fs f -> p f d = Ok (p1, f', d') -> rgood fs f') ->
    (forall f d x f' d', rgood fs f -> l f d = Ok (x, f', d') -> rgood fs f') ->
    rgood fs f -> default_ptl p l f d = Ok (x, f', d') -> rgood fs f').
  { intros X p l f d x f' d' HP HL G E. unfold default_ptl in E. binv E. destruct v as ((p1 & g1) & d1). binv E. destruct v as ((y & g2) & d2).
    destruct (d2 =? d); inversion E; subst. eauto. }
  induction n as [|n IH]; intros r f lb d mo x f' d' U G E.
  - destruct r as (w & c). cbn [predict_then_learn] in E. apply wrap_ok in E. destruct E as (d1 & d2 & E).
    binv E. destruct v as (((p & c') & g) & e). inversion E; subst. apply D in B; auto.
    + intros ? ? ? ? ? G' E'. unfold coin_predict_body in E'. binv E'. binv E'. now inversion E'; subst.
    + intros ? ? ? ? ? G' E'. unfold coin_learn_body in E'. binv E'. binv E'. binv E'. now inversion E'; subst.
  - destruct r as ((w & k) & ch). apply uses_elem_S in U. destruct U as (U1 & U2). cbn [predict_then_learn] in E. apply wrap_ok in E. destruct E as (d1 & d2 & E).
    binv E. destruct v as (((p & k' & ch') & g) & e). inversion E; subst. clear E.
    destruct k; try contradiction; cbn [kind_ptl] in B;
      try (apply D in B; auto; intros ? ? ? ? ? G' E';
           [eapply kpredict_rgood; [| |exact G'|exact E']; [exact Logic.I|]; intros; eapply predict_rgood; eauto|
            eapply (klearn_rgood _ (fun ch => uses_elem ch = false)); [| | |exact G'|exact E']; [exact Logic.I| |exact U2]; intros; eapply learn_rgood; eauto]; fail).
    + binv B. binv B. destruct v0 as (((p0 & c0) & g0) & e0). binv B. inversion B; subst. eapply IH; eauto.
    + binv B. destruct v as (((p0 & c0) & g0) & e0). inversion B; subst. eapply IH; eauto.
Qed.
End Rok.

(** ** the JSON parsers stay inside the table *)
Section JRok.
Context {O : FOps} (H : hasher) (seed nb fs : N) (Hfs : bits_to_max_feature_index false nb = Ok fs).
Implicit Types (a b : sfeats O).

Lemma add_parsed_sok : forall al mk nsh p v k (x x' : cns O), mask_from_bits false nb = Ok mk -> sok fs k (fst x) ->
  add_parsed O H false al mk nsh p v x = Ok x' -> sok fs k (fst x').
Proof.
  intros al mk nsh p v k x x' M ((Nm & L) & F) E. unfold add_parsed in E. binv E. inversion E; subst. unfold cns_add. cbn [fst].
  split; [split|]; simpl; auto.
  - rewrite !app_length, L. reflexivity.
  - apply Forall_app. split; auto. constructor; auto. eapply mask_lt; eauto.
Qed.
Lemma fold_sok : forall A (g : cns O -> A -> out (cns O)) k l x x', (forall x (y : A) x', sok fs k (fst x) -> g x y = Ok x' -> sok fs k (fst x')) ->
  sok fs k (fst x) -> foldm g l x = Ok x' -> sok fs k (fst x').
Proof.
  intros A g k l. induction l as [|a l IH]; intros x x' G S E; cbn [foldm] in E; [now inversion E; subst|]. binv E. eapply IH; [exact G| |exact E]. eapply G; [exact S|exact B].
Qed.
Lemma json_ns_sok : forall al nsh v k (x x' : cns O), sok fs k (fst x) -> json_ns O H false nb al nsh v x = Ok x' -> sok fs k (fst x').
Proof.
  intros al nsh v k x x' S E. unfold json_ns in E. binv E. rename v0 into mk. destruct v as [| | | |ar|l]; try discriminate.
  - destruct ar as [|y ar]; [discriminate|]. destruct y as [| |n|s| |]; try discriminate.
    + binv E. binv E. unfold cns_adds_iter in E. binv E. inversion E; subst. cbn [fst]. unfold sfn_adds_iter in B2.
      destruct (Nat.eqb _ _) eqn:Q; inversion B2; subst. apply PeanoNat.Nat.eqb_eq in Q. destruct S as ((Nm & L) & F).
      split; [split|]; simpl; auto. apply Forall_app. split; auto. apply Forall_forall. intros i Hi. apply in_map_iff in Hi.
      destruct Hi as (h & <- & _). eapply mask_lt; eauto.
    + binv E. assert (S1 : sok fs k (fst v)).
      { unfold cns_reserve in B0. destruct x as (s0 & (ci & cv)). destruct (Nat.ltb _ ci); [discriminate|]. destruct (Nat.ltb _ cv); inversion B0; subst. exact S. }
      eapply fold_sok; [|exact S1|exact E]. intros x0 y0 x1 S0 E0. binv E0. eapply add_parsed_sok; eauto.
  - eapply fold_sok; [|exact S|exact E]. intros x0 (nm & y) x1 S0 E0. unfold json_entry in E0. cbn [fst snd] in E0.
    destruct y as [|b|n|s| |]; try discriminate; try (eapply add_parsed_sok; eauto; fail).
    destruct b; [eapply add_parsed_sok; eauto|inversion E0; now subst].
Qed.
Lemma to_features_rok : forall al v (o o' : cobj O), rok fs (fst o) -> to_features O H false seed nb al v o = Ok o' -> rok fs (fst o').
Proof.
  intros al v o o' R E. unfold to_features in E. destruct v as [| | | | |l]; try discriminate.
  revert o R E. induction l as [|kv l IH]; intros o R E; cbn [foldm] in E; [now inversion E; subst|]. binv E. eapply IH; [|exact E].
  unfold cobj_upd in B. binv B. inversion B; subst. cbn [fst].
  apply (json_ns_sok al _ _ (ns_from_name H (fst kv) seed)) in B0; [|exact (rok_item fs (fst o) _ R)]. destruct B0. now apply rok_set.
Qed.
Lemma hd_crok : forall ds : list (cobj O), Forall (cnew (O := O)) ds -> rok fs (fst (hd (cobj_new O) ds)).
Proof. intros ds F. apply looks_new_rok. apply (hd_cnew ds F). Qed.
Lemma json_actions_rok : forall al l ds xs, Forall (cnew (O := O)) ds -> json_actions O H false seed nb al l ds = Ok xs ->
  Forall (fun o => rok fs (fst o)) xs.
Proof.
  intros al l. induction l as [|v l IH]; intros ds xs F E; cbn [json_actions] in E; [inversion E; constructor|].
  binv E. binv E. inversion E; subst. constructor; [eapply to_features_rok; [|exact B]; now apply hd_crok|]. eapply IH; [|exact B0]. now apply tl_cnew.
Qed.
Lemma json_rgood : forall al rd ft lt ds s f lb, Forall (cnew (O := O)) ds -> json_example O H false seed nb al rd ft lt ds s = Ok (f, lb) -> rgood fs f.
Proof.
  intros al rd ft lt ds s f lb F E. unfold json_example, json_chunk in E. binv E. inversion E; subst. clear E. binv B. binv B. binv B.
  inversion B; subst. clear B. cbn [fst]. unfold json_features in B1. destruct ft.
  - destruct (jget s_features v0); try discriminate; binv B1; inversion B1; subst; cbn [json_fts fst hd]; apply rgood_simple;
      (eapply to_features_rok; [|exact B]; now apply hd_crok).
  - binv B1. destruct (jget s_actions v0); try discriminate. binv B1. inversion B1; subst. clear B1. cbn [json_fts fst snd].
    assert (Q : (forall sh, option_map fst (fst v) = Some sh -> rok fs sh) /\ Forall (cnew (O := O)) (snd v)).
    { destruct (jget str_shared v0); try (inversion B; subst; cbn [fst snd option_map]; split; [discriminate|exact F]);
        (binv B; inversion B; subst; cbn [fst snd option_map]; split; [|now apply tl_cnew]; intros sh Es; inversion Es; subst;
         eapply to_features_rok; [|exact B1]; now apply hd_crok). }
    destruct Q as (Q1 & Q2). apply rgood_Cb; auto. apply json_actions_rok in B3; auto. clear - B3. induction B3; constructor; auto.
Qed.

Lemma ds_add_rok : forall p v st a a', rok fs a -> ds_add O H false nb p v st a = Ok a' -> rok fs a'.
Proof.
  intros p v st a a' R E. unfold ds_add in E. destruct st as [|k st]; [discriminate|]. binv E. binv E. inversion E; subst.
  apply upd_rok; auto.
  - intros s (Nm & L). split; simpl; auto. rewrite !app_length, L. reflexivity.
  - intros s i x Ws Hin. apply (add_iter k) in Hin; auto. destruct Hin as [Hin | ->]; auto. right. eapply mask_lt; eauto.
Qed.
Lemma handle_rok : forall v key a st a' st', rok fs a -> ds_handle O H false seed nb v key a st = Ok (a', st') -> rok fs a'.
Proof.
  intros v. induction v as [|b|n|s|l F|l F] using json_rect'; intros key a st a' st' R E.
  - cbn [ds_handle] in E. destruct (starts_with 95 key); inversion E; now subst.
  - cbn [ds_handle] in E. destruct (starts_with 95 key); [inversion E; now subst|]. destruct b; [|inversion E; now subst].
    binv E. inversion E; subst. eapply ds_add_rok; eauto.
  - cbn [ds_handle] in E. destruct (starts_with 95 key); [inversion E; now subst|]. binv E. inversion E; subst. eapply ds_add_rok; eauto.
  - cbn [ds_handle] in E. destruct (starts_with 95 key); [inversion E; now subst|]. binv E. inversion E; subst. eapply ds_add_rok; eauto.
  - rewrite handle_arr in E. destruct (starts_with 95 key); [inversion E; now subst|]. binv E.
    assert (Q : rok fs (fst v)).
    { clear E. revert B. generalize 0, (ns_from_name H key seed :: st), a, R. clear R a a' st st'.
      induction F as [|y l Hy F IH]; intros i st a R E; cbn [items] in E; [inversion E; now subst|]. binv E. eapply IH; [|exact E].
      destruct v0 as (a1 & st1). cbn [fst]. unfold item_step in B. destruct y; try discriminate; try (inversion B; now subst).
      - binv B. inversion B; subst. eapply ds_add_rok; eauto.
      - eapply Hy; eauto. }
    unfold ds_pop in E. destruct (snd v); inversion E; now subst.
  - rewrite handle_obj in E. destruct (starts_with 95 key); [inversion E; now subst|]. binv E.
    assert (Q : rok fs (fst v)).
    { clear E. revert B. generalize (ns_from_name H key seed :: st), a, R. clear R a a' st st'.
      induction F as [|y l Hy F IH]; intros st a R E; cbn [entries] in E; [inversion E; now subst|]. binv E. eapply IH; [|exact E].
      destruct v0 as (a1 & st1). cbn [fst]. eapply Hy; eauto. }
    unfold ds_pop in E. destruct (snd v); inversion E; now subst.
Qed.
Lemma hd_rok : forall ds : list (sfeats O), Forall looks_new ds -> rok fs (hd sf_new ds).
Proof. intros ds F. now apply looks_new_rok, hd_new. Qed.
Lemma ds_rgood : forall rd ds s f lb, Forall looks_new ds -> ds_chunk O H false seed nb rd ds s = Ok (f, lb) -> rgood fs f.
Proof.
  intros rd ds s f lb F E. unfold ds_chunk, ds_value in E. binv E. binv E. binv E. binv E. binv E. binv E. inversion E; subst.
  destruct v0 as (a & st). apply rgood_Cb.
  - intros sh Es. inversion Es; subst. eapply handle_rok; [|exact B0]. now apply hd_rok.
  - assert (F' : Forall looks_new (tl ds)) by (destruct F; [constructor|assumption]).
    clear - B3 F' Hfs. revert ds F' v3 B3. generalize v2. intros l. 
    assert (G : forall (ds : list (sfeats O)), Forall looks_new ds -> forall xs, ds_actions O H false seed nb l ds = Ok xs -> Forall (rok fs) xs).
    { induction l as [|y l IH]; intros ds F xs E; cbn [ds_actions] in E; [inversion E; constructor|]. binv E. binv E. binv E. inversion E; subst.
      destruct v as (a1 & st1). constructor; [eapply handle_rok; [|exact B]; now apply hd_rok|]. eapply IH; [|exact B1].
      destruct F; [constructor|assumption]. }
    intros ds F' v3 B3. eapply G; eauto.
Qed.
End JRok.

Section Fits.
Context {O : FOps} (FO : ford O) (H : hasher) (pf : str -> option O) (rd : str -> option (json O)).
Local Notation heap := (list (option (pyobj O))).

Lemma ps_rgood : forall w pool fm ft lt seed nb fs s f lb, bits_to_max_feature_index false nb = Ok fs -> Forall looks_new pool ->
  py_ps H false pf rd w pool fm ft lt seed nb s = Ok (f, lb) -> rgood fs f.
Proof.
  intros w pool fm ft lt seed nb fs s f lb B F E. destruct fm; cbn [py_ps] in E.
  - apply (parse_chunk_rgood H pf seed nb fs B ft lt pool s (f, lb) F E).
  - eapply json_rgood; [exact B| |exact E]. now apply caps_new.
  - eapply ds_rgood; [exact B|exact F|exact E].
Qed.

(** predict_then_learn in release builds *)
Lemma shp_acts : forall f g : features O, shp f = shp g -> num_actions f = num_actions g.
Proof. intros [a|[s|] x] [b|[t|] y] E; inversion E; simpl; auto; f_equal; auto. Qed.
Lemma shp_type : forall f g : features O, shp f = shp g -> feat_type_of f = feat_type_of g.
Proof. intros [a|[s|] x] [b|[t|] y] E; inversion E; reflexivity. Qed.
Lemma shp_mtr : forall (f g : features O) lb, shp f = shp g -> mtr_example f lb -> mtr_example g lb.
Proof.
  intros f g lb E (sh & x & i & c & p & -> & -> & L). destruct g as [b|[t|] y]; inversion E. exists t, y, i, c, p. repeat split. lia.
Qed.
Lemma wrap_inv : forall X nmb (f : features O) d (body : features O -> N -> out (pres O X)) x f' d', d < 256 ->
  wrap false nmb 0 f d body = Ok (x, f', d') -> body f d = Ok (x, f', d').
Proof.
  intros X nmb f d body x f' d' Hd E. unfold wrap in E. rewrite depth_inc0 in E by auto. cbn [bind] in E. binv E. destruct v as ((y & g) & e).
  rewrite depth_dec0 in E. cbn [bind andb] in E. inversion E; now subst.
Qed.
Lemma rel_both : forall fs n (r : red O n) f lb d, d < 256 -> inv false fs n r -> uses_weighted r = false -> rgood fs f ->
  feat_type_of f = td_in_feats (red_types r) -> label_type_of lb = td_in_label (red_types r) -> mtr_needs n r f lb ->
  (td_out_pred (red_types r) = PTProbs -> num_actions f <> 0) ->
  exists p f1 r' f2, predict false n r f d 0 = Ok (p, f1, d) /\ learn false n r f1 lb d 0 = Ok (r', f2, d) /\ pred_type_of p = td_out_pred (red_types r).
Proof.
  intros fs n r f lb d Hd I U G Tf Tl M NA. destruct (rel_predict fs n d Hd r f I U G Tf NA) as (p & f1 & E & Tp & _).
  pose proof (predict_shp _ _ _ _ _ _ _ _ _ E) as Sh.
  destruct (rel_learn FO fs n d Hd r f1 lb I) as (r' & f2 & L); auto.
  - eapply predict_rgood; [|exact G|exact E]. apply I.
  - rewrite (shp_type _ _ Sh). exact Tf.
  - intros Um. apply (shp_mtr f); auto.
  - exists p, f1, r', f2. auto.
Qed.
Lemma rel_ptl : forall fs n d, d < 256 -> forall (r : red O n) f lb, inv false fs n r -> uses_weighted r = false -> rgood fs f ->
  feat_type_of f = td_in_feats (red_types r) -> label_type_of lb = td_in_label (red_types r) -> mtr_needs n r f lb ->
  (td_out_pred (red_types r) = PTProbs -> num_actions f <> 0) ->
  exists p r' f', predict_then_learn false n r f lb d 0 = Ok ((p, r'), f', d) /\ pred_type_of p = td_out_pred (red_types r).
Proof.
  intros fs n d Hd. induction n as [|n IH]; intros r f lb I U G Tf Tl M NA.
  - destruct (rel_both fs 0 r f lb d Hd I U G Tf Tl M NA) as (p & f1 & r' & f2 & P & L & Tp). destruct r as (w & c).
    cbn [predict learn] in P, L. apply wrap_inv in P; auto. apply wrap_inv in L; auto. binv L. destruct v as ((c' & g) & e). inversion L; subst.
    exists p, (w, c'), f2. split; auto. cbn [predict_then_learn]. apply wrap_release; auto. unfold default_ptl. cbn [fst snd] in P. rewrite P. cbn [bind].
    rewrite B. cbn [bind]. rewrite N.eqb_refl. reflexivity.
  - assert (D : match snd (fst r) with KBinary | KDebug | KElem _ _ _ _ => False | _ => True end ->
      exists p r' f', predict_then_learn false (S n) r f lb d 0 = Ok ((p, r'), f', d) /\ pred_type_of p = td_out_pred (red_types r)).
    { intros K. destruct (rel_both fs (S n) r f lb d Hd I U G Tf Tl M NA) as (p & f1 & r' & f2 & P & L & Tp). destruct r as ((w & k) & ch).
      cbn [predict learn] in P, L. apply wrap_inv in P; auto. apply wrap_inv in L; auto. binv L. destruct v as (((k' & ch') & g) & e). inversion L; subst.
      exists p, (w, k', ch'), f2. split; auto. cbn [predict_then_learn]. apply wrap_release; auto. cbn [fst snd] in K.
      destruct k; try contradiction; cbn [kind_ptl]; unfold default_ptl; rewrite P; cbn [bind]; rewrite B; cbn [bind]; rewrite N.eqb_refl; reflexivity. }
    destruct r as ((w & k) & ch).
    destruct I as (T & El & C). pose proof T as (T1 & T2 & T3). pose proof (td_good _ _ T3) as (G1 & G2 & G3).
    unfold uses_elem in El. cbn [some_kind fst snd] in El. apply orb_false_elim in El. destruct El as (El1 & El2).
    unfold uses_weighted in U. cbn [some_kind fst snd] in U. apply orb_false_elim in U. destruct U as (U1 & U2).
    assert (Ic : inv false fs n ch) by (split; [exact T1|split; [exact El2|exact C]]).
    change (red_types (n := S n) (w, k, ch)) with (w_types w) in *. rewrite T2 in *.
    unfold mtr_needs, uses_mtr in M. cbn [some_kind fst snd] in M.
    destruct k; try discriminate; try (apply D; exact Logic.I);
      cbn [kind_td td_in_feats td_in_label td_out_label td_out_feats td_in_pred td_out_pred td_cb_adf td_explore] in *;
      inversion G1 as [G1']; inversion G2 as [G2']; inversion G3 as [G3'].
    + destruct lb as [|b|]; try discriminate.
      destruct (IH ch f (binary_label b)) as (p & ch' & f' & E & Tp); auto; try congruence. { apply mtr_simple; auto. }
      rewrite <- G3' in Tp. destruct p as [u v|?|?|?]; try discriminate.
      exists (PrBinary (f_gtb u f0)), (w, KBinary, ch'), f'. split; auto.
      cbn [predict_then_learn]. apply wrap_release; auto. cbn [kind_ptl as_binary_label bind]. rewrite E. reflexivity.
    + destruct (IH ch f lb) as (p & ch' & f' & E & Tp); auto; try congruence.
      exists p, (w, KDebug, ch'), f'. split; auto.
      cbn [predict_then_learn]. apply wrap_release; auto. cbn [kind_ptl bind]. rewrite E. reflexivity.
Qed.

(** ** how objects change *)
Definition evolves (o o' : pyobj O) : Prop :=
  match o, o' with
  | OFeats f, OFeats f' => shp f' = shp f /\ forall fs, rgood fs f -> rgood fs f'
  | OWs gc ex R, OWs gc' ex' R' => gc' = gc /\ ex' = ex /\ exists r', R' = existT _ (projT1 R) r' /\ reach false (projT2 R) r'
  | _, _ => o' = o
  end.
Lemma evolves_refl : forall o, evolves o o.
Proof. intros [| | |gc ex (n & r)|]; simpl; auto. repeat split. exists r. split; auto. constructor. Qed.
Lemma reach_trans : forall n (a b c : red O n), reach false a b -> reach false b c -> reach false a c.
Proof. intros n a b c R1 R2. induction R2; auto; [eapply reach_learn; eauto|eapply reach_ptl; eauto]. Qed.
Lemma evolves_trans : forall a b c, evolves a b -> evolves b c -> evolves a c.
Proof.
  intros [f|?|?|gc ex R|? ? ? ? ?] [f'|?|?|gc' ex' R'|? ? ? ? ?] [f''|?|?|gc'' ex'' R''|? ? ? ? ?] E1 E2; cbn [evolves] in *; try discriminate; try congruence.
  - destruct E1 as (S1 & G1), E2 as (S2 & G2). split; [congruence|auto].
  - destruct E1 as (-> & -> & r1 & -> & Q1), E2 as (-> & -> & r2 & -> & Q2). repeat split. exists r2. split; auto. cbn [projT1 projT2] in *. eapply reach_trans; eauto.
Qed.
Definition kept (h h' : heap) : Prop := (length h <= length h')%nat /\
  forall i o, (i < length h)%nat -> py_get h' i = Some o -> exists o0, py_get h i = Some o0 /\ evolves o0 o.
Lemma upd_len : forall (h : heap) i o, length (upd i o h) = length h.
Proof. induction h as [|a h IH]; intros [|i] o; simpl; auto. Qed.
Lemma kept_refl : forall h, kept h h.
Proof. intros h. split; auto. intros i o _ E. exists o. split; auto. apply evolves_refl. Qed.
Lemma kept_trans : forall a b c, kept a b -> kept b c -> kept a c.
Proof.
  intros a b c (L1 & K1) (L2 & K2). split; [lia|]. intros i o Li E. destruct (K2 i o) as (o1 & E1 & V1); auto; [lia|].
  destruct (K1 i o1) as (o0 & E0 & V0); auto. exists o0. split; auto. eapply evolves_trans; eauto.
Qed.
Lemma kept_app : forall h k, kept h (h ++ k).
Proof.
  intros h k. split; [rewrite app_length; lia|]. intros i o L E. unfold py_get in E. rewrite nth_error_app1 in E by auto.
  exists o. split; auto. apply evolves_refl.
Qed.
Lemma kept_upd : forall h i o x, py_get h i = Some o -> (forall o', x = Some o' -> evolves o o') -> kept h (upd i x h).
Proof.
  intros h i o x G V. split; [rewrite upd_len; lia|]. intros j o' L E. destruct (PeanoNat.Nat.eq_dec i j) as [->|D].
  - rewrite (get_upd_same _ _ _ _ G) in E. exists o. auto.
  - rewrite get_upd in E by auto. exists o'. split; auto. apply evolves_refl.
Qed.

Lemma exec_kept : forall w st op r st', no_elem st -> py_exec H false pf rd w st op = Some (r, Some st') -> kept (py_heap st) (py_heap st').
Proof.
  intros w (pool & h) op r st' NE E. unfold py_exec in E. cbn [py_pool py_heap] in *.
  destruct (py_call H false _ _ _ h op) as [(r0 & [h'|])|] eqn:C; try discriminate. cbn [option_map] in E. inversion E; subst. clear E.
  cbn [py_heap]. unfold no_elem in NE. cbn [py_heap] in NE.
  assert (PR : forall h1 p r h', kept h h1 -> py_pred h1 p = (r, Some h') -> kept h h').
  { intros h1 p r1 h2 K E. unfold py_pred, py_new, py_same in E. destruct p; inversion E; subst; auto; (eapply kept_trans; [exact K|apply kept_app]). }
  destruct op; cbn [py_call] in C.
  - inversion C; subst. apply kept_app.
  - inversion C; subst. apply kept_app.
  - inversion C; subst. apply kept_app.
  - inversion C; subst. apply kept_app.
  - inversion C as [C1]. unfold py_made, py_new, py_same in C1. destruct (unwrap_res _) as [(? & ?)| |]; inversion C1; subst; auto using kept_refl, kept_app.
  - destruct s as ((gc & ex) & m). inversion C as [C1]. unfold py_made, py_new, py_same in C1. destruct (unwrap_res _) as [(? & ?)| |]; inversion C1; subst; auto using kept_refl, kept_app.
  - inversion C as [C1]. unfold py_made, py_new, py_same in C1. destruct (unwrap_res _) as [(? & ?)| |]; inversion C1; subst; auto using kept_refl, kept_app.
  - destruct (py_get h w0) as [[]|]; inversion C; subst; apply kept_refl.
  - destruct (py_get h w0) as [[]|]; inversion C; subst; apply kept_refl.
  - inversion C as [C1]. unfold py_parser, py_new, py_same in C1. destruct fm, ft, lt; inversion C1; subst; auto using kept_refl, kept_app.
  - destruct (py_get h w0) as [[]|]; inversion C; subst; auto using kept_refl. clear C. unfold py_parser, py_new, py_same in H1.
    destruct fm, (td_in_feats (red_types (projT2 R))), (td_in_label (red_types (projT2 R))); inversion H1; subst; auto using kept_refl, kept_app.
  - destruct (py_get h p) as [[f|l|q|gc ex R|fm ft lt seed nb]|]; inversion C; subst; auto using kept_refl. clear C.
    destruct (py_ps H false pf rd w pool fm ft lt seed nb s) as [(f & lb)| |] eqn:P; inversion H1; subst; auto using kept_refl.
    destruct lb as [[]|]; inversion H2; subst; auto using kept_refl, kept_app.
  - destruct (py_get h w0) as [[]|] eqn:W; try discriminate; destruct (py_get h f) as [[x| | | |]|] eqn:G; inversion C; subst; auto using kept_refl. clear C.
    destruct (ws_predict false (projT2 R) x) as [(p & x')| |] eqn:P; inversion H1. eapply PR; [|exact H1].
    eapply kept_upd; [exact G|]. intros o' E. inversion E; subst. split; [eapply ws_predict_shp; eauto|].
    intros fs Gf. unfold ws_predict in P. binv P. destruct v as ((q & g) & e). inversion P; subst. eapply predict_rgood; [|exact Gf|exact B]. eapply NE; eauto.
  - destruct (py_get h w0) as [[]|] eqn:W; try discriminate; destruct (py_get h f) as [[x| | | |]|] eqn:G; try discriminate;
      destruct (py_get h l) as [[| lb| | |]|]; inversion C; subst; auto using kept_refl. clear C.
    destruct (ws_ptl false (projT2 R) x lb) as [((p & r') & x')| |] eqn:P; inversion H1. eapply PR; [|exact H1].
    assert (D : f <> w0) by (intros ->; rewrite W in G; discriminate).
    eapply kept_trans; [eapply (kept_upd _ f); [exact G|]|eapply (kept_upd _ w0 (OWs gc ex R)); [now rewrite get_upd|]]; intros o' E; inversion E; subst.
    + split; [eapply ws_ptl_shp; eauto|]. intros fs Gf. unfold ws_ptl in P. binv P. destruct v as (((q & r1) & g) & e). inversion P; subst. eapply ptl_rgood; [|exact Gf|exact B]. eapply NE; eauto.
    + repeat split. exists r'. split; auto. eapply reach_ptl; [constructor|exact P].
  - destruct (py_get h w0) as [[]|] eqn:W; try discriminate; destruct (py_get h f) as [[x| | | |]|] eqn:G; try discriminate;
      destruct (py_get h l) as [[| lb| | |]|]; inversion C; subst; auto using kept_refl. clear C.
    destruct (ws_learn false (projT2 R) x lb) as [(r' & x')| |] eqn:P; inversion H1; subst.
    assert (D : f <> w0) by (intros ->; rewrite W in G; discriminate).
    eapply kept_trans; [eapply (kept_upd _ f); [exact G|]|eapply (kept_upd _ w0 (OWs gc ex R)); [now rewrite get_upd|]]; intros o' E; inversion E; subst.
    + split; [eapply ws_learn_shp; eauto|]. intros fs Gf. unfold ws_learn in P. binv P. destruct v as ((r1 & g) & e). inversion P; subst.
      eapply (learn_rgood fs _ _ _ _ _ _ _ _ _ (NE _ _ _ _ W) Gf B).
    + repeat split. exists r'. split; auto. eapply reach_learn; [constructor|exact P].
  - destruct (py_get h w0) as [[]|]; inversion C; subst; apply kept_refl.
  - destruct (py_get h i) as [[]|]; inversion C; subst; apply kept_refl.
  - destruct (py_get h i) as [o|] eqn:G; inversion C; subst. eapply kept_upd; [exact G|]. intros o' E. discriminate.
Qed.
Lemma steps_kept : forall st st', steps H false pf rd no_elem st st' -> kept (py_heap st) (py_heap st').
Proof. induction 1; [apply kept_refl|]. eapply kept_trans; [eapply exec_kept; eauto|exact IHsteps]. Qed.
Lemma steps_last : forall P st st', steps H false pf rd P st st' -> P st'.
Proof. induction 1; auto. Qed.
Lemma rgood_wf : forall fs f, rgood fs f -> ftwf (O:=O) f.
Proof.
  intros fs [a|sh x] G; cbn [ftwf]; [apply G; now left|]. unfold rgood in G. cbn [parts] in G. split.
  - destruct sh as [a|]; auto. apply G. now left.
  - apply Forall_forall. intros a IN. apply G. destruct sh; simpl; auto.
Qed.
Lemma exec_new : forall w st op r st', sinv st (py_heap st) -> py_exec H false pf rd w st op = Some (r, Some st') -> sinv st' (py_heap st').
Proof.
  intros w st op r st' I E. unfold py_exec in E.
  destruct (py_call H false (fst (pool_get sf_new (py_pool st))) _ _ (py_heap st) op) as [(r0 & [h1|])|] eqn:C; try discriminate.
  cbn [option_map] in E. inversion E; subst. split; [eapply pool_step; exact I|]. cbn [py_heap].
  assert (F : fsim (fst (pool_get sf_new (py_pool st))) (fst (pool_get sf_new (py_pool st)))).
  { destruct I as (I & _). destruct I as [|x l L _]; cbn [pool_get fst]; apply fsim_refl; [apply (hd_new [] (Forall_nil _))|apply L]. }
  assert (Q : forall s, pargs op = Some s -> Proof_Python.psim false False (py_ps H false pf rd w (py_pool st)) (py_ps H false pf rd w (py_pool st)) s).
  { intros s Es fm ft lt seed nb. right. destruct (py_ps H false pf rd w (py_pool st) fm ft lt seed nb s) as [(f & lb)| |] eqn:P; constructor.
    destruct (bits_release nb) as (fs & Bf). split; auto. apply ftsim_refl. eapply rgood_wf. eapply ps_rgood; [exact Bf|apply I|exact P]. }
  pose proof (call_sim H false False _ _ _ _ (pw_ord w) op _ _ (proj2 I) F Q) as K. rewrite C in K. simpl in K. destruct K as [(_ & K)|(K & _)]; [exact K|contradiction].
Qed.
Lemma steps_new : forall P st st', steps H false pf rd P st st' -> sinv st (py_heap st) -> sinv st' (py_heap st').
Proof. induction 1; intros I; auto. apply IHsteps. eapply exec_new; eauto. Qed.
Lemma start_inv : sinv (@py_start O) (py_heap py_start).
Proof. split; constructor. Qed.

Lemma find_label_cb : forall ls lb, find_label (O:=O) ls = Ok (Some lb) -> label_type_of lb = LTCb.
Proof.
  intros ls lb E. unfold find_label in E.
  assert (G : forall l acc r, (forall u, acc = Some u -> label_type_of u = LTCb) ->
    foldm (fun acc cl => let* l := as_cb_tlabel (O:=O) (snd cl) in
             match snd l with None => Ok acc | Some (_, c, p) => match acc with Some _ => Er EInvalidArgument | None => Ok (Some (LbCb (fst cl) c p)) end end) l acc = Ok r ->
    forall u, r = Some u -> label_type_of u = LTCb).
  { induction l as [|a l IH]; intros acc r A F; simpl in F; [inversion F; now subst|]. binv F. binv B. destruct (snd v0) as [((? & c) & p)|].
    - destruct acc; [discriminate|]. inversion B; subst. eapply IH; [|exact F]. intros u Eu. inversion Eu. reflexivity.
    - inversion B; subst. eapply IH; eauto. }
  eapply G; [|exact E|reflexivity]. discriminate.
Qed.
Lemma jlabel_type : forall lt v lb, json_label O lt v = Ok (Some lb) -> label_type_of lb = lt.
Proof.
  intros lt v lb E. unfold json_label in E. destruct lt; [|discriminate|].
  all: destruct (jget s_label v) as [| | | | |]; try (inversion E; subst; reflexivity);
    match type of E with match ?a with _ => _ end = _ => destruct a as [[|? [|? [|? [|]]]]|]; try discriminate end;
    repeat (binv E); inversion E; reflexivity.
Qed.
(** ** parsed examples have the types of the parser *)
Lemma parsed_types : forall w pool fm ft lt seed nb s f lb,
  (ft = FTSimple /\ lt <> LTCb \/ ft = FTCb /\ lt = LTCb) -> (fm = FDsJson -> ft = FTCb) ->
  py_ps H false pf rd w pool fm ft lt seed nb s = Ok (f, lb) ->
  feat_type_of f = ft /\ forall l, lb = Some l -> label_type_of l = lt.
Proof.
  intros w pool fm ft lt seed nb s f lb T D E. destruct fm; cbn [py_ps] in E.
  - unfold parse_chunk in E. destruct T as [(-> & T)|(-> & ->)].
    + cbn [is_multiline feat_type_eqb andb] in E. binv E. unfold parse_line in B. destruct (split_char 124 s) as [|i segs]; [discriminate|]. binv B.
      destruct lt; [|discriminate|contradiction]. unfold finalize_single in E. destruct (fst v) as [[]|]; inversion E; subst; (split; [reflexivity|]); intros l0 E0; inversion E0; reflexivity.
    + change (is_multiline FTCb LTCb) with true in E. cbn [andb] in E. binv E. unfold finalize_multi in E. change (is_multiline FTCb LTCb) with true in E. cbv match in E.
      destruct v as [|(l0 & g0) rest]; [discriminate|]. binv E.
      destruct (fst v); binv E; inversion E; subst; (split; [reflexivity|]); intros l1 ->; eapply find_label_cb; eauto.
  - unfold json_example in E. binv E. inversion E; subst. split; [destruct ft; reflexivity|]. intros l0 E0. unfold json_chunk in B. binv B. binv B. binv B. inversion B; subst. cbn [snd] in E0. subst. eapply jlabel_type; eauto.
  - specialize (D eq_refl). destruct T as [(? & _)|(-> & ->)]; [congruence|]. unfold ds_chunk, ds_value in E. binv E. binv E. binv E. binv E. binv E. binv E. inversion E; subst. split; auto.
    intros l0 ->. unfold ds_label in B4. destruct (jget s_label_cost v), (jget s_label_prob v), (jget s_label_index v); try discriminate. binv B4. inversion B4. reflexivity.
Qed.

(** ** the main statement *)
Lemma ws_types : forall gc (c : rcfg O) R, ws_new H false gc c = Ok R ->
  let T := red_types (projT2 R) in td_in_feats T = FTSimple /\ td_in_label T <> LTCb \/ td_in_feats T = FTCb /\ td_in_label T = LTCb.
Proof.
  intros gc c R E. destruct (entry_types _ _ (create_typed _ _ _ _ _ _ E)) as [(A & B & _)|[(A & B)|(A & B)]]; simpl; rewrite A, B; auto; left; split; auto; discriminate.
Qed.
Lemma kept_get : forall h h' i o o', kept h h' -> py_get h i = Some o -> py_get h' i = Some o' -> evolves o o'.
Proof.
  intros h h' i o o' (_ & K) G G'. destruct (K i o') as (o0 & G0 & V); auto.
  - unfold py_get in G. destruct (nth_error h i) eqn:E; [|discriminate]. apply nth_error_Some. congruence.
  - rewrite G in G0. inversion G0; now subst.
Qed.
Lemma get_new : forall (h : heap) o k, py_get (h ++ Some o :: k) (length h) = Some o.
Proof. intros h o k. unfold py_get. rewrite nth_error_app2, PeanoNat.Nat.sub_diag by auto. reflexivity. Qed.
Lemma get_new2 : forall (h : heap) o o', py_get (h ++ [o; Some o']) (S (length h)) = Some o'.
Proof. intros h o o'. unfold py_get. rewrite nth_error_app2 by auto. replace (S (length h) - length h)%nat with 1%nat by lia. reflexivity. Qed.

Lemma config_inv : forall w st gc ex c i st', py_exec H false pf rd w st (FromConfig gc ex c) = Some (RNew i, Some st') ->
  exists R, ws_new H false gc c = Ok R /\ py_get (py_heap st') i = Some (OWs gc ex R).
Proof.
  intros w st gc ex c i st' E. unfold py_exec in E. cbn [py_call option_map] in E. unfold py_made, py_new, py_same in E.
  destruct (ws_new H false gc c) as [R|e|p] eqn:W; cbn [bind unwrap_res] in E; try discriminate.
  inversion E; subst. exists R. split; auto. cbn [py_heap]. apply get_new.
Qed.
Lemma parser_inv : forall w st v fm i st' gc ex R, py_get (py_heap st) v = Some (OWs gc ex R) ->
  py_exec H false pf rd w st (ParserOf v fm) = Some (RNew i, Some st') ->
  let T := red_types (projT2 R) in
  py_get (py_heap st') i = Some (OParser fm (td_in_feats T) (td_in_label T) (gc_seed gc) (gc_bits gc)) /\ (fm = FDsJson -> td_in_feats T = FTCb).
Proof.
  intros w st v fm i st' gc ex R G E T. unfold py_exec in E. cbn [py_call option_map] in E. rewrite G in E. fold T in E. unfold py_parser, py_new, py_same in E.
  destruct fm, (td_in_feats T), (td_in_label T); inversion E; subst; cbn [py_heap]; (split; [apply get_new|congruence]).
Qed.
Lemma parse_inv : forall w st v s i o st' fm ft lt seed nb, py_get (py_heap st) v = Some (OParser fm ft lt seed nb) ->
  py_exec H false pf rd w st (Parse v s) = Some (RParsed i o, Some st') ->
  exists x lb, py_ps H false pf rd w (py_pool st) fm ft lt seed nb s = Ok (x, lb) /\ py_get (py_heap st') i = Some (OFeats x) /\
    (forall j, o = Some j -> exists lab, lb = Some lab /\ py_get (py_heap st') j = Some (OLabel lab)).
Proof.
  intros w st v s i o st' fm ft lt seed nb G E. unfold py_exec in E. cbn [py_call option_map] in E. rewrite G in E.
  destruct (py_ps H false pf rd w (py_pool st) fm ft lt seed nb s) as [(x & lb)| |] eqn:P; try discriminate. exists x, lb. split; auto.
  destruct lb as [[]|]; cbn [py_parsed py_same] in E; inversion E; subst; cbn [py_heap]; (split; [apply get_new|]); intros j Ej; inversion Ej; subst; eexists; (split; [reflexivity|apply get_new2]).
Qed.

Lemma accepted : forall gc ex c R st0 w1 w st1 st2 w2 fm p st3 st4 w3 s f lb st5 st6 x,
  ws_new H false gc c = Ok R ->
  steps H false pf rd no_elem py_start st0 -> py_exec H false pf rd w1 st0 (FromConfig gc ex c) = Some (RNew w, Some st1) ->
  steps H false pf rd no_elem st1 st2 -> py_exec H false pf rd w2 st2 (ParserOf w fm) = Some (RNew p, Some st3) ->
  steps H false pf rd no_elem st3 st4 -> py_exec H false pf rd w3 st4 (Parse p s) = Some (RParsed f lb, Some st5) ->
  steps H false pf rd no_elem st5 st6 ->
  py_get (py_heap st5) f = Some (OFeats x) ->
  (forall j, lb = Some j -> exists lab, py_get (py_heap st5) j = Some (OLabel lab) /\ label_type_of lab = td_in_label (red_types (projT2 R))) /\
  (forall w4 r o, py_exec H false pf rd w4 st6 (Predict w f) = Some (r, o) -> can_predict (projT2 R) x ->
     exists j st', r = RNew j /\ o = Some st') /\
  (forall w4 l lab r o, py_exec H false pf rd w4 st6 (Learn w f l) = Some (r, o) -> py_get (py_heap st6) l = Some (OLabel lab) -> can_learn (projT2 R) x lab ->
     exists st', r = RNone /\ o = Some st') /\
  (forall w4 l lab r o, py_exec H false pf rd w4 st6 (PredictThenLearn w f l) = Some (r, o) -> py_get (py_heap st6) l = Some (OLabel lab) ->
     can_predict (projT2 R) x -> can_learn (projT2 R) x lab -> exists j st', r = RNew j /\ o = Some st').
Proof.
  intros gc ex c R st0 w1 w st1 st2 w2 fm p st3 st4 w3 s f lb st5 st6 x W S0 X0 S1 X1 S2 X2 S3 Gx.
  assert (N0 := steps_last _ _ _ S0). assert (N2 := steps_last _ _ _ S1). assert (N4 := steps_last _ _ _ S2). assert (N6 := steps_last _ _ _ S3).
  assert (I4 : sinv st4 (py_heap st4)).
  { apply (steps_new _ _ _ S2). eapply exec_new; [|exact X1]. apply (steps_new _ _ _ S1). eapply exec_new; [|exact X0]. apply (steps_new _ _ _ S0). apply start_inv. }
  destruct (config_inv _ _ _ _ _ _ _ X0) as (R0 & W0 & G1). rewrite W in W0. inversion W0; subst R0. clear W0.
  pose proof (steps_kept _ _ S1) as K1. pose proof (exec_kept _ _ _ _ _ N2 X1) as K2. pose proof (steps_kept _ _ S2) as K3.
  pose proof (exec_kept _ _ _ _ _ N4 X2) as K4. pose proof (steps_kept _ _ S3) as K5.
  (* the parser *)
  assert (G2 : exists gc2 ex2 R2, py_get (py_heap st2) w = Some (OWs gc2 ex2 R2)).
  { unfold py_exec in X1. cbn [py_call] in X1. destruct (py_get (py_heap st2) w) as [[]|]; try discriminate. eauto. }
  destruct G2 as (gc2 & ex2 & R2 & G2). pose proof (kept_get _ _ _ _ _ K1 G1 G2) as V2. cbn [evolves] in V2. destruct V2 as (-> & -> & r2 & -> & Q2).
  destruct (parser_inv _ _ _ _ _ _ _ _ _ G2 X1) as (G3 & Dm). cbn [projT1 projT2] in G3, Dm.
  assert (TT : red_types r2 = red_types (projT2 R)).
  { destruct (shape_typed _ _ _ (reach_shape _ _ _ _ Q2) (create_typed _ _ _ _ _ _ W)) as (_ & T'). exact T'. }
  rewrite TT in G3, Dm.
  assert (G4 : exists o4, py_get (py_heap st4) p = Some o4).
  { unfold py_exec in X2. cbn [py_call] in X2. destruct (py_get (py_heap st4) p); try discriminate. eauto. }
  destruct G4 as (o4 & G4). pose proof (kept_get _ _ _ _ _ K3 G3 G4) as V4. destruct o4; cbn [evolves] in V4; try discriminate. inversion V4; subst. clear V4.
  destruct (parse_inv _ _ _ _ _ _ _ _ _ _ _ _ G4 X2) as (x0 & lb0 & P & Gx0 & Glb). rewrite Gx in Gx0. inversion Gx0; subst x0. clear Gx0.
  destruct (parsed_types _ _ _ _ _ _ _ _ _ _ (ws_types _ _ _ W) Dm P) as (Tx & Tl).
  destruct (bits_release (gc_bits gc)) as (fs & Bf).
  pose proof (ps_rgood _ _ _ _ _ _ _ _ _ _ _ Bf (proj1 I4) P) as Rx.
  split; [|].
  { intros j ->. destruct (Glb _ eq_refl) as (lab & -> & E). exists lab. split; auto. }
  (* what there is at the call *)
  assert (AW : forall oW, py_get (py_heap st6) w = Some oW -> exists r6, oW = OWs gc ex (existT _ (projT1 R) r6) /\ inv false fs (projT1 R) r6 /\
     red_types r6 = red_types (projT2 R) /\ uses_mtr r6 = uses_mtr (projT2 R) /\ uses_weighted r6 = uses_weighted (projT2 R)).
  { intros oW G6. assert (K : kept (py_heap st1) (py_heap st6)) by (repeat (eapply kept_trans; [eassumption|]); apply kept_refl).
    pose proof (kept_get _ _ _ _ _ K G1 G6) as V6. destruct oW; cbn [evolves] in V6; try discriminate. destruct V6 as (-> & -> & r6 & -> & Q6).
    assert (U : uses_elem (projT2 R) = false).
    { rewrite <- (shape_elem _ _ _ (reach_shape _ _ _ _ Q6)). exact (N6 _ _ _ _ G6). }
    exists r6. split; auto. destruct (reach_inv FO H false gc c R r6 fs W Q6 Bf U) as (A & B & C). split; [exact A|]. split; [exact B|]. split; [exact C|]. apply (shape_weighted _ _ _ (reach_shape _ _ _ _ Q6)). }
  assert (AF : forall oF, py_get (py_heap st6) f = Some oF -> exists x6, oF = OFeats x6 /\ shp x6 = shp x /\ rgood fs x6 /\ feat_type_of x6 = td_in_feats (red_types (projT2 R))).
  { intros oF G6. pose proof (kept_get _ _ _ _ _ K5 Gx G6) as V6. destruct oF as [x6| | | |]; cbn [evolves] in V6; try discriminate. destruct V6 as (Sh & Gd).
    exists x6. split; [reflexivity|]. split; [exact Sh|]. split; [apply Gd; exact Rx|]. rewrite (shp_type _ _ Sh). exact Tx. }
  assert (PP : forall h q, pred_type_of q = td_out_pred (red_types (projT2 R)) -> td_out_pred (red_types (projT2 R)) <> PTBinary -> exists j h', py_pred (O:=O) h q = (RNew j, Some h')).
  { intros h q E NB. destruct q; unfold py_pred, py_new; try (do 2 eexists; reflexivity). exfalso. apply NB. rewrite <- E. reflexivity. }
  split; [|split].
  - intros w4 r o X (NB & UW & NA). unfold py_exec in X. cbn [py_call] in X.
    destruct (py_get (py_heap st6) w) as [oW|] eqn:GW; try discriminate. destruct (AW _ eq_refl) as (r6 & -> & I6 & T6 & M6 & U6).
    destruct (py_get (py_heap st6) f) as [oF|] eqn:GF; try discriminate. destruct (AF _ eq_refl) as (x6 & -> & Sh & G6 & Tf).
    cbn [projT1 projT2] in X. destruct (rel_predict fs _ 0 eq_refl r6 x6 I6) as (q & x7 & E & Tq & _); auto; try congruence.
    { intros TP. rewrite (shp_acts _ _ Sh). apply NA. congruence. }
    unfold ws_predict in X. rewrite E in X. cbn [bind option_map] in X. rewrite T6 in Tq.
    destruct (PP (upd f (Some (OFeats x7)) (py_heap st6)) q Tq NB) as (j & h' & EP). rewrite EP in X. cbn [option_map] in X. inversion X; subst. eauto.
  - intros w4 l lab r o X Gl (Tlab & Mt). unfold py_exec in X. cbn [py_call] in X. rewrite Gl in X.
    destruct (py_get (py_heap st6) w) as [oW|] eqn:GW; try discriminate. destruct (AW _ eq_refl) as (r6 & -> & I6 & T6 & M6 & U6).
    destruct (py_get (py_heap st6) f) as [oF|] eqn:GF; try discriminate. destruct (AF _ eq_refl) as (x6 & -> & Sh & G6 & Tf).
    cbn [projT1 projT2] in X. destruct (rel_learn FO fs _ 0 eq_refl r6 x6 lab I6) as (r7 & x7 & E); auto; try congruence.
    { intros UM. apply (shp_mtr x); auto. apply Mt. congruence. }
    unfold ws_learn in X. rewrite E in X. cbn [bind option_map py_same] in X. inversion X; subst. eauto.
  - intros w4 l lab r o X Gl (NB & UW & NA) (Tlab & Mt). unfold py_exec in X. cbn [py_call] in X. rewrite Gl in X.
    destruct (py_get (py_heap st6) w) as [oW|] eqn:GW; try discriminate. destruct (AW _ eq_refl) as (r6 & -> & I6 & T6 & M6 & U6).
    destruct (py_get (py_heap st6) f) as [oF|] eqn:GF; try discriminate. destruct (AF _ eq_refl) as (x6 & -> & Sh & G6 & Tf).
    cbn [projT1 projT2] in X. destruct (rel_ptl fs _ 0 eq_refl r6 x6 lab I6) as (q & r7 & x7 & E & Tq); auto; try congruence.
    { intros UM. apply (shp_mtr x); auto. apply Mt. congruence. }
    { intros TP. rewrite (shp_acts _ _ Sh). apply NA. congruence. }
    unfold ws_ptl in X. rewrite E in X. cbn [bind option_map] in X. rewrite T6 in Tq.
    match type of X with context [py_pred ?h q] => destruct (PP h q Tq NB) as (j & h' & EP) end. rewrite EP in X. cbn [option_map] in X. inversion X; subst. eauto.
Qed.
End Fits.

(** C81: when calls return for stacks with the element-wise reduction (release builds). *)
From Coq Require Import List NArith ZArith Bool Lia PeanoNat.
From Verif Require Import Base FloatOps FloatB32 Model_Hash Model_Features Model_Weights Model_Loss
  Model_Interactions Model_Types Model_Explore Model_Coin Model_Stack Model_Factory
  Spec_Features Proof_Weights Proof_WeightsProps Proof_Features Proof_FloatOrder Spec_Coin Proof_Coin Spec_Stack Spec_Reductions Spec_Total
  Proof_StackCong Proof_StackRestore Proof_StackPtl Proof_StackShape Proof_StackProps Proof_Types Proof_Total Proof_CliRuns Proof_Release
  Spec_Elem Proof_Elem Spec_ElemStack.
Import ListNotations.
Open Scope N_scope.

Lemma foldm_all : forall A B (g : B -> A -> out B) l b c, foldm g l b = Ok c ->
  forall a, In a l -> exists x y, g x a = Ok y.
Proof.
  induction l as [|h l IH]; intros b c E a [].
  - subst. cbn [foldm] in E. binv E. eauto.
  - cbn [foldm] in E. binv E. eauto.
Qed.

Section ES.
Context {O : FOps} (FO : ford O).
Implicit Types (f g : features O) (a b s t u : sfeats O).

(** ** the regressor never gets past an index outside the table *)
Lemma size_pow : forall nb, N.size (2 ^ nb - 1) = nb.
Proof.
  intros nb. destruct (N.eq_dec nb 0) as [->|Nz]; [reflexivity|].
  rewrite N.size_log2.
  - rewrite N.sub_1_r, N.log2_pred_pow2 by lia. lia.
  - assert (2 ^ 1 <= 2 ^ nb) by (apply N.pow_le_mono_r; lia). change (2 ^ 1) with 2 in *. lia.
Qed.
Lemma in_table : forall nb (w : dweights O) i k, dw_wf w -> dw_fsize w = 2 ^ nb ->
  (N.to_nat (N.shiftl i (dw_mshift w + dw_sshift w) + k) < length (dw_w w))%nat -> i < 2 ^ nb.
Proof.
  intros nb w i k W Fs L. destruct W as (_ & _ & _ & _ & _ & _ & _ & _ & Len). rewrite Fs, size_pow in Len.
  assert (Q : N.shiftl i (dw_mshift w + dw_sshift w) + k < 2 ^ nb * 2 ^ dw_mshift w * 2 ^ dw_sshift w) by lia.
  rewrite N.shiftl_mul_pow2, N.pow_add_r in Q.
  destruct (N.lt_ge_cases i (2 ^ nb)) as [|Ge]; auto. exfalso.
  assert (2 ^ nb * (2 ^ dw_mshift w * 2 ^ dw_sshift w) <= i * (2 ^ dw_mshift w * 2 ^ dw_sshift w)) by (apply N.mul_le_mono_r; exact Ge).
  nia.
Qed.
Lemma feats_all : forall (c : coin O) a l, coin_feats false c a = Ok l -> forall i v, In (i, v) (sf_all a) -> In (i, v) l.
Proof.
  intros c a l E i v Hin. unfold coin_feats, fe_list in E. binv E. binv E. inversion E; subst. apply in_or_app. now left.
Qed.
Lemma predict_inside : forall nb (c : coin O) a p, cgood false (2 ^ nb) c -> coin_predict false c a = Ok p -> below (2 ^ nb) a.
Proof.
  intros nb c a p (W & Fs & _) E i v Hin. unfold coin_predict in E. binv E. binv E.
  pose proof (feats_all _ _ _ B _ _ Hin) as Hl. unfold coin_dot in B0.
  destruct (foldm_all _ _ _ _ _ _ B0 _ Hl) as (x & y & Q). cbn [fst snd] in Q. binv Q. unfold dw_weight_at, dw_index in B1.
  cbn [andb bind] in B1. destruct (nth_error _ _) eqn:En in B1; [|discriminate].
  eapply (in_table nb (co_w c)); [apply W|exact Fs|]. apply nth_error_Some. rewrite En. discriminate.
Qed.
Lemma learn_inside : forall nb (c : coin O) a y wt c', cgood false (2 ^ nb) c -> coin_learn false c a y wt = Ok c' -> below (2 ^ nb) a.
Proof.
  intros nb c a y wt c' (W & Fs & _) E i v Hin. unfold coin_learn in E. binv E. clear E. unfold coin_betting_predict in B.
  binv B. binv B. clear B. 
  assert (Hl : In (i, v) v1). { eapply feats_all; [|exact Hin]. exact B0. }
  destruct (foldm_all _ _ _ _ _ _ B1 _ Hl) as (x & z & Q). cbn [fst snd] in Q. binv Q. unfold dw_state_at, dw_index in B.
  cbn [andb bind] in B. unfold slice in B. destruct (Nat.leb _ _) eqn:En in B; [|discriminate]. apply Nat.leb_le in En.
  eapply (in_table nb (co_w c)); [apply W|exact Fs|]. 
  pose proof (cw_ss _ _ W) as S6. change (co_w (coin_range c y)) with (co_w c) in En. rewrite S6 in En.
  eapply Nat.lt_le_trans; [|exact En]. apply Nat.lt_add_pos_r. vm_compute. lia.
Qed.

(** ** one element-wise reduction *)
Lemma frame2 : forall dbg nb s one two keep (v w : vec O),
  in_order s -> nb < 32 -> nameable one -> nameable two -> vectors nb s one two keep v w ->
  exists t, in_order t /\ (forall k, fm_get k t = view nb s one two keep v w k) /\
    forall X (call : features O -> out (pres O X)),
      (forall x f' d', elem_frame dbg one two keep nb call (FtsSimple s) = Ok (x, f', d') ->
         exists g, call (FtsSimple t) = Ok (x, g, d')) /\
      (forall x d', call (FtsSimple t) = Ok (x, FtsSimple t, d') ->
         elem_frame dbg one two keep nb call (FtsSimple s) = Ok (x, FtsSimple s, d')).
Proof.
  intros dbg nb s one two keep v w So Hb N1 N2 (Hk & H1 & H2 & Iv & Iw & Hc & Hn).
  pose proof (multiply_products O dbg nb s one two v w Hb H1 H2 Iv Iw Hc) as E.
  assert (C1 := composite_ne one two one N1). assert (C2 := composite_ne one two two N2).
  destruct H1 as (x1 & G1 & _). destruct H2 as (x2 & G2 & _).
  apply fm_get_active in G1. apply fm_get_active in G2. destruct G1 as [G1 _]. destruct G2 as [G2 _].
  set (c := composite one two) in *. set (P := prod_ns nb one two v w) in *.
  assert (S1 : in_order (fm_set c P s)) by (apply fm_sorted_set; exact So).
  destruct keep.
  - exists (fm_set c P s). split; [exact S1|]. split.
    + intros k. rewrite fm_get_set. unfold view. fold c. fold P. destruct (ns_eqb k c); reflexivity.
    + intros X call. unfold elem_frame. cbn [as_simple bind].
      rewrite E. cbn [bind]. fold c. change (elem_ns one two) with c. unfold sf_set_ns. fold P. split.
      * intros x f' d' Q. binv Q. destruct v0 as ((y & g) & e). inversion Q; subst. eauto.
      * intros x d' Hcall. rewrite Hcall. cbn [bind back_simple sf_remove_ns snd].
        do 3 f_equal. f_equal. apply fm_ext; [apply fm_sorted_del; exact S1|exact So|].
        intros k. rewrite fm_get_del by exact S1. rewrite fm_get_set.
        destruct (ns_eqb k c) eqn:Ek; [|reflexivity]. apply ns_eqb_eq in Ek. subst k. now rewrite Hn.
  - specialize (Hk eq_refl).
    assert (Sd1 : in_order (fm_del one (fm_set c P s))) by (apply fm_sorted_del; exact S1).
    assert (Sd2 : in_order (fm_del two (fm_del one (fm_set c P s)))) by (apply fm_sorted_del; exact Sd1).
    exists (fm_del two (fm_del one (fm_set c P s))). split; [exact Sd2|]. split.
    + intros k. rewrite !fm_get_del by assumption. rewrite fm_get_set. unfold view. fold c. fold P.
      cbn [negb andb]. destruct (ns_eqb k two) eqn:K2.
      * apply ns_eqb_eq in K2. subst k. rewrite (eqb_neq' two c) by auto. now rewrite orb_true_r.
      * destruct (ns_eqb k one) eqn:K1; [|reflexivity].
        apply ns_eqb_eq in K1. subst k. rewrite (eqb_neq' one c) by auto. reflexivity.
    + intros X call. unfold elem_frame. cbn [as_simple bind].
      rewrite E. cbn [bind]. change (elem_ns one two) with c. unfold sf_set_ns, sf_remove_ns. fold P.
      rewrite fm_get_set, (eqb_neq' one c) by auto. rewrite G1. cbn [opt_or bind].
      rewrite fm_get_del by exact S1. rewrite (eqb_neq' two one) by auto.
      rewrite fm_get_set, (eqb_neq' two c) by auto. rewrite G2. cbn [opt_or bind]. split.
      * intros x f' d' Q. binv Q. destruct v0 as ((y & g) & e). inversion Q; subst. eauto.
      * intros x d' Hcall. rewrite Hcall. cbn [bind back_simple snd].
        do 3 f_equal. f_equal. apply fm_ext; [|exact So|].
        { apply fm_sorted_set. apply fm_sorted_set. apply fm_sorted_del. exact Sd2. }
        intros k. rewrite !fm_get_set.
        destruct (ns_eqb k two) eqn:K2; [apply ns_eqb_eq in K2; subst; congruence|].
        destruct (ns_eqb k one) eqn:K1; [apply ns_eqb_eq in K1; subst; congruence|].
        rewrite fm_get_del by exact Sd2. rewrite !fm_get_del, fm_get_set by assumption.
        rewrite K1, K2. destruct (ns_eqb k c) eqn:Ek; [|reflexivity].
        apply ns_eqb_eq in Ek. subst k. now rewrite Hn.
Qed.

(** ** merging *)
Lemma joined_append : forall a b u, fwf a -> fwf b -> joined a b u -> sf_append a b = Ok u.
Proof.
  intros a b u Wa Wb (Su & J). destruct (append_get a b Wa Wb) as (r & E & Wr & G). rewrite E. f_equal.
  apply fm_ext; [apply Wr|exact Su|]. intros k. rewrite G, J. unfold sf_get.
  destruct (fm_get k b) as [y|] eqn:Eb; [|reflexivity]. destruct (sfn_active y); [|reflexivity].
  unfold sfn_cat, item. destruct (fm_get k a) as [x|] eqn:Ea; [|reflexivity].
  destruct Wa as (_ & Wa). destruct (Wa _ _ Ea) as (-> & _). reflexivity.
Qed.

(** ** what every reached stack satisfies *)
Fixpoint ebits (nb : N) (n : nat) : red O n -> Prop :=
  match n with
  | 0%nat => fun _ => True
  | S m => fun r => match snd (fst r) with KElem _ _ _ b => b = nb | _ => True end /\ ebits nb m (snd r)
  end.
Definition einv (nb : N) (n : nat) (r : red O n) : Prop :=
  typed n r /\ elems_ok n r /\ ebits nb n r /\ cgood false (2 ^ nb) (bottom n r).
Lemma shape_ebits : forall nb n (r r' : red O n), shape n r r' -> ebits nb n r -> ebits nb n r'.
Proof.
  induction n as [|n IH]; intros r r' Sh E; [exact I|]. destruct Sh as (_ & S1 & S2). destruct E as (E1 & E2). split; [|eapply IH; eauto].
  destruct (snd (fst r)), (snd (fst r')); simpl in S1; try tauto. destruct S1 as (_ & _ & _ & ->). auto.
Qed.
Lemma shape_finds : forall n (r r' : red O n) f ts, shape n r r' -> finds n r f ts -> finds n r' f ts.
Proof.
  induction n as [|n IH]; intros r r' f ts Sh F; [exact F|]. destruct Sh as (_ & S1 & S2). cbn [finds] in *.
  destruct (snd (fst r)) as [| | | | |o1 o2 kp b|], (snd (fst r')) as [| | | | |o1' o2' kp' b'|]; simpl in S1; try tauto;
    try (eapply IH; eauto; fail).
  - destruct F as (sh & x & tss & -> & -> & F). exists sh, x, tss. do 2 (split; [reflexivity|]).
    induction F as [|a l x tss (u & J & Fu) F IHF]; constructor; [|exact IHF]. exists u. split; auto. eapply IH; eauto.
  - destruct S1 as (-> & -> & -> & ->). destruct F as (s & v & w & u & Q1 & Q2 & Q3 & Q4 & F).
    exists s, v, w, u. do 4 (split; [assumption|]). eapply IH; eauto.
Qed.
Lemma einv_step : forall nb n (r : red O n) f lb d r' f' d', einv nb n r -> learn false n r f lb d 0 = Ok (r', f', d') ->
  einv nb n r' /\ shape n r r'.
Proof.
  intros nb n r f lb d r' f' d' (T & El & Eb & C) E. pose proof (learn_shape _ _ _ _ _ _ _ _ _ _ E) as Sh. split; auto.
  split; [|split; [|split]].
  - eapply shape_typed; eauto.
  - eapply shape_elems_ok; eauto.
  - eapply shape_ebits; eauto.
  - eapply learn_bottom; eauto.
Qed.
Lemma nameable_raw : forall x, ~ israw x -> nameable x.
Proof. intros [h|h|] K; simpl in *; auto. Qed.
Definition gf f : Prop :=
  match f with
  | FtsSimple s => in_order s
  | FtsCb sh x => (forall b, sh = Some b -> fwf b) /\ Forall fwf x
  end.
Lemma joined_opt_append : forall a sh u, fwf a -> (forall b, sh = Some b -> fwf b) -> joined_opt a sh u ->
  append_opt a sh = Ok u /\ in_order u.
Proof.
  intros a [b|] u Wa Wb J; simpl in *.
  - split; [apply joined_append; auto|apply J].
  - subst. split; [reflexivity|apply Wa].
Qed.

(** ** predict *)
Definition rin (nb : N) (ts : list (sfeats O)) : Prop := Forall (below (2 ^ nb)) ts.
Lemma rin_concat : forall nb (tss : list (list (sfeats O))), rin nb (concat tss) <-> Forall (rin nb) tss.
Proof. intros nb tss. unfold rin. induction tss as [|l tss IH]; simpl; [split; auto|]. rewrite Forall_app, Forall_cons_iff, IH. tauto. Qed.

Lemma loop_fwd : forall nb n (ch : red O n) sh d x tss, (forall b, sh = Some b -> fwf b) -> Forall fwf x ->
  (forall s ts, in_order s -> finds n ch (FtsSimple s) ts -> rin nb ts ->
     exists p f', predict false n ch (FtsSimple s) d 0 = Ok (p, f', d) /\ pred_type_of p = PTScalar) ->
  Forall2 (fun a l => exists u, joined_opt a sh u /\ finds n ch (FtsSimple u) l) x tss -> Forall (rin nb) tss ->
  forall i, exists scores acts, cb_predict_loop false (predict false n ch) sh x i d = Ok (scores, acts, d) /\
    map fst scores = map (fun k => i + N.of_nat k) (seq 0 (length x)).
Proof.
  intros nb n ch sh d x tss Hs Fx IH F. revert Fx. induction F as [|a l x tss (u & J & Fu) F IHF]; intros Fx R i.
  - exists [], []. auto.
  - inversion Fx; subst. inversion R; subst. destruct (joined_opt_append a sh u) as (E1 & Su); auto.
    cbn [cb_predict_loop]. rewrite E1. cbn [bind].
    destruct (IH u l Su Fu) as (p & f' & E2 & T2); auto. rewrite E2. cbn [bind].
    destruct p as [y z|?|?|?]; try discriminate. cbn [as_scalar bind snd].
    destruct (remove_opt_release (back_simple u f') sh) as (a2 & E3). rewrite E3. cbn [bind].
    destruct (IHF H2 H4 (i + 1)) as (sc & acts & E4 & L4). rewrite E4. cbn [bind]. repeat eexists. cbn [map fst length seq].
    f_equal; [lia|]. rewrite L4, <- seq_shift, map_map. apply map_ext. intros k. lia.
Qed.
Lemma loop_bwd : forall nb n (ch : red O n) sh x tss, (forall b, sh = Some b -> fwf b) -> Forall fwf x ->
  (forall s ts d p f' d', in_order s -> finds n ch (FtsSimple s) ts -> predict false n ch (FtsSimple s) d 0 = Ok (p, f', d') -> rin nb ts) ->
  Forall2 (fun a l => exists u, joined_opt a sh u /\ finds n ch (FtsSimple u) l) x tss ->
  forall i d y, cb_predict_loop false (predict false n ch) sh x i d = Ok y -> Forall (rin nb) tss.
Proof.
  intros nb n ch sh x tss Hs Fx IH F. revert Fx. induction F as [|a l x tss (u & J & Fu) F IHF]; intros Fx i d y E; [constructor|].
  inversion Fx; subst. destruct (joined_opt_append a sh u) as (E1 & Su); auto.
  cbn [cb_predict_loop] in E. rewrite E1 in E. cbn [bind] in E. binv E. destruct v as ((p & f') & d1).
  binv E. binv E. binv E. constructor; [eapply IH; eauto|]. eapply IHF; eauto.
Qed.

Lemma es_predict_fwd : forall nb n d, nb < 32 -> d < 256 -> forall (r : red O n) f ts, einv nb n r -> uses_weighted r = false ->
  gf f -> feat_type_of f = td_in_feats (red_types r) -> (td_out_pred (red_types r) = PTProbs -> num_actions f <> 0) ->
  finds n r f ts -> rin nb ts ->
  exists p f', predict false n r f d 0 = Ok (p, f', d) /\ pred_type_of p = td_out_pred (red_types r) /\ acts_in_order f p /\
    (forall s, f = FtsSimple s -> f' = f).
Proof.
  intros nb n d Hb Hd. induction n as [|n IH]; intros r f ts I U G Tf NE F Rn.
  - destruct r as (w & c). destruct I as (T & _ & _ & C). simpl in T, C. destruct F as (s & -> & ->).
    inversion Rn as [|? ? B _]; subst.
    destruct (coin_predict_ok false _ c s C B) as (x & y & E).
    exists (PrScalar x y), (FtsSimple s). split; [|split; [rewrite T; reflexivity|split; [exact Logic.I|auto]]].
    cbn [predict]. apply wrap_release; auto. unfold coin_predict_body. cbn [as_simple bind fst snd]. rewrite E. reflexivity.
  - destruct r as ((w & k) & ch).
    assert (RS : forall p f', kind_predict false k (predict false n ch) f d 0 = Ok (p, f', d) -> acts_in_order f p -> (forall s, f = FtsSimple s -> f' = f) ->
              exists p f', predict false (S n) (w, k, ch) f d 0 = Ok (p, f', d) /\
                pred_type_of p = td_out_pred (red_types (n := S n) (w, k, ch)) /\ acts_in_order f p /\ (forall s, f = FtsSimple s -> f' = f)).
    { intros p f' E Ns Rt.
      assert (E' : predict false (S n) (w, k, ch) f d 0 = Ok (p, f', d)) by (cbn [predict]; apply wrap_release; auto).
      exists p, f'. split; auto. split; auto.
      pose proof (predict_nt false (S n) (w, k, ch) f d 0 (proj1 I) Tf) as Q. rewrite E' in Q. apply Q. }
    destruct I as (T & El & Eb & C). pose proof T as (T1 & T2 & T3). pose proof (td_good _ _ T3) as (G1 & G2 & G3).
    destruct El as (El1 & El2). destruct Eb as (Eb1 & Eb2). cbn [fst snd] in *.
    unfold uses_weighted in U. cbn [some_kind fst snd] in U. apply orb_false_elim in U. destruct U as (U1 & U2).
    assert (Ic : einv nb n ch) by (split; [exact T1|split; [exact El2|split; [exact Eb2|exact C]]]).
    change (red_types (n := S n) (w, k, ch)) with (w_types w) in *. rewrite T2 in *. cbn [finds fst snd] in F.
    destruct k; try discriminate; cbn [kind_td td_in_feats td_in_label td_out_label td_out_feats td_in_pred td_out_pred td_cb_adf td_explore] in *;
      inversion G1 as [G1']; inversion G2 as [G2']; inversion G3 as [G3'].
    + destruct (IH ch f ts) as (p & f' & E & Tp & _ & Rt); auto; try congruence. rewrite <- G3' in Tp.
      destruct p as [u v|?|?|?]; try discriminate. eapply RS; [simpl; rewrite E; reflexivity|exact Logic.I|exact Rt].
    + destruct F as (sh & x & tss & -> & -> & F). destruct G as (Gs & Gx). apply rin_concat in Rn.
      destruct (loop_fwd nb n ch sh d x tss Gs Gx) with (i := 0) as (sc & acts & E & L); auto.
      { intros s ts Su Fu Ru. destruct (IH ch (FtsSimple s) ts) as (p & f' & E & Tp & _); auto; try congruence.
        exists p, f'. split; auto. congruence. }
      eapply RS; [cbn [kind_predict as_cb bind fst snd]; rewrite E; reflexivity| |congruence].
      cbn [acts_in_order]. rewrite L. cbn [num_actions]. rewrite Nnat.Nat2N.id. apply map_ext. intros; lia.
    + destruct (IH ch f ts) as (p & f' & E & Tp & Ns & Rt); auto; try congruence. rewrite <- G3' in Tp.
      destruct p as [?|?|l|?]; try discriminate. cbn [acts_in_order] in Ns.
      destruct (greedy_total eps l) as (pr & Ep).
      { intros ->. cbn [map] in Ns. specialize (NE eq_refl).
        destruct (N.to_nat (num_actions f)) eqn:En; [lia|discriminate]. }
      eapply RS; [simpl; rewrite E; cbn [bind as_scores]; rewrite Ep; reflexivity| |exact Rt].
      cbn [acts_in_order]. rewrite (greedy_acts _ _ _ Ep). exact Ns.
    + destruct F as (s & v & z & u & -> & V & Su & Gu & F). subst nb0.
      destruct (frame2 false nb s one two keep v z G Hb (nameable_raw _ (proj1 El1)) (nameable_raw _ (proj2 El1)) V) as (t & St & Gt & Fr).
      assert (t = u) by (apply fm_ext; auto; intros k; rewrite Gt, Gu; reflexivity). subst t.
      destruct (IH ch (FtsSimple u) ts) as (p & f' & E & Tp & Ns & Rt); auto; try congruence.
      pose proof (Rt u eq_refl). subst f'.
      eapply RS; [cbn [kind_predict]; apply (proj2 (Fr _ (fun f => predict false n ch f d 0))); exact E| |auto].
      exact Ns.
    + destruct (IH ch f ts) as (p & f' & E & Tp & Ns & Rt); auto; try congruence.
      eapply RS; [simpl; exact E|exact Ns|exact Rt].
Qed.
Lemma es_predict_bwd : forall nb n, nb < 32 -> forall (r : red O n) f ts d p f' d', einv nb n r -> gf f ->
  finds n r f ts -> predict false n r f d 0 = Ok (p, f', d') -> rin nb ts.
Proof.
  intros nb n Hb. induction n as [|n IH]; intros r f ts d p f' d' I G F E.
  - destruct r as (w & c). destruct I as (T & _ & _ & C). simpl in C. destruct F as (s & -> & ->).
    cbn [predict] in E. apply wrap_ok in E. destruct E as (d1 & d2 & E). unfold coin_predict_body in E. cbn [as_simple bind snd] in E. binv E.
    constructor; [|constructor]. eapply predict_inside; eauto.
  - destruct r as ((w & k) & ch).
    destruct I as (T & El & Eb & C). pose proof T as (T1 & T2 & T3).
    destruct El as (El1 & El2). destruct Eb as (Eb1 & Eb2). cbn [fst snd] in *.
    assert (Ic : einv nb n ch) by (split; [exact T1|split; [exact El2|split; [exact Eb2|exact C]]]).
    cbn [finds fst snd] in F. cbn [predict] in E. apply wrap_ok in E. destruct E as (d1 & d2 & E).
    destruct k; cbn [kind_predict] in E; try (binv E; destruct v as ((q & h) & e); eapply IH; eauto; fail).
    + destruct F as (sh & x & tss & -> & -> & F). destruct G as (Gs & Gx). cbn [as_cb bind fst snd] in E. binv E.
      apply rin_concat. eapply loop_bwd; [exact Gs|exact Gx| |exact F|exact B]. intros s ts e q g e' Su Fu Eu. eapply (IH ch (FtsSimple s)); [exact Ic|exact Su|exact Fu|exact Eu].
    + destruct F as (s & v & z & u & -> & V & Su & Gu & F). subst nb0.
      destruct (frame2 false nb s one two keep v z G Hb (nameable_raw _ (proj1 El1)) (nameable_raw _ (proj2 El1)) V) as (t & St & Gt & Fr).
      assert (t = u) by (apply fm_ext; auto; intros k; rewrite Gt, Gu; reflexivity). subst t.
      apply (proj1 (Fr _ (fun f => predict false n ch f d1 0))) in E. destruct E as (g & E).
      eapply (IH ch (FtsSimple u)); [exact Ic|exact Su|exact F|exact E].
    + eapply IH; eauto.
Qed.

(** ** learn *)
Definition lab_for (n : nat) (r : red O n) (lb : label O) : Prop := label_type_of lb = td_in_label (red_types r).
Lemma ips_fwd : forall nb n act cost prob sh d x tss, (forall b, sh = Some b -> fwf b) -> Forall fwf x ->
  (forall (r : red O n) s ts lb, einv nb n r -> td_in_feats (red_types r) = FTSimple -> lab_for n r lb -> label_type_of lb = LTSimple ->
     in_order s -> finds n r (FtsSimple s) ts -> rin nb ts ->
     exists r' f', learn false n r (FtsSimple s) lb d 0 = Ok (r', f', d)) ->
  forall (ch : red O n) i, einv nb n ch -> td_in_feats (red_types ch) = FTSimple -> td_in_label (red_types ch) = LTSimple ->
  Forall2 (fun a l => exists u, joined_opt a sh u /\ finds n ch (FtsSimple u) l) x tss -> Forall (rin nb) tss ->
  exists ch' acts, cb_ips_loop false (learn false n) act cost prob sh x i ch d = Ok (ch', acts, d).
Proof.
  intros nb n act cost prob sh d. induction x as [|a x IHx]; intros tss Hs Fx IH ch i I Tf Tl F R; [simpl; eauto|].
  inversion F as [|? l ? tss' (u & J & Fu) F']; subst. inversion Fx; subst. inversion R; subst.
  destruct (joined_opt_append a sh u) as (E1 & Su); auto. cbn [cb_ips_loop]. rewrite E1. cbn [bind].
  assert (exists y z, ips_label false act cost prob i = Ok (LbSimple y z)) as (y & z & El).
  { unfold ips_label. destruct (i =? act); simpl; eauto. }
  rewrite El. cbn [bind].
  destruct (IH ch u l (LbSimple y z)) as (ch' & f' & E2); auto. { unfold lab_for. now rewrite Tl. }
  rewrite E2. cbn [bind]. destruct (remove_opt_release (back_simple u f') sh) as (a2 & E3). rewrite E3. cbn [bind].
  destruct (einv_step _ _ _ _ _ _ _ _ _ I E2) as (I' & Sh). pose proof (shape_typed _ _ _ Sh (proj1 I)) as (_ & Ty).
  destruct (IHx tss') with (ch := ch') (i := i + 1) as (ch'' & acts & E4); auto; try congruence.
  { clear -F' Sh. induction F' as [|b l x tss (u & J & Fu) F IHF]; constructor; auto. exists u. split; auto. eapply shape_finds; eauto. }
  rewrite E4. cbn [bind]. eauto.
Qed.
Lemma ips_bwd : forall nb n act cost prob sh x tss, (forall b, sh = Some b -> fwf b) -> Forall fwf x ->
  (forall (r : red O n) s ts lb d r' f' d', einv nb n r -> in_order s -> finds n r (FtsSimple s) ts ->
     learn false n r (FtsSimple s) lb d 0 = Ok (r', f', d') -> rin nb ts) ->
  forall (ch : red O n) i d y, einv nb n ch ->
  Forall2 (fun a l => exists u, joined_opt a sh u /\ finds n ch (FtsSimple u) l) x tss ->
  cb_ips_loop false (learn false n) act cost prob sh x i ch d = Ok y -> Forall (rin nb) tss.
Proof.
  intros nb n act cost prob sh. induction x as [|a x IHx]; intros tss Hs Fx IH ch i d y I F E; [inversion F; constructor|].
  inversion F as [|? l ? tss' (u & J & Fu) F']; subst. inversion Fx; subst.
  destruct (joined_opt_append a sh u) as (E1 & Su); auto. cbn [cb_ips_loop] in E. rewrite E1 in E. cbn [bind] in E.
  binv E. binv E. destruct v0 as ((ch' & f') & d1). binv E. binv E.
  destruct (einv_step _ _ _ _ _ _ _ _ _ I B0) as (I' & Sh).
  constructor; [exact (IH ch u l _ _ _ _ _ I Su Fu B0)|].
  eapply (IHx tss'); [exact Hs|assumption|exact IH|exact I'| |exact B2].
  clear -F' Sh. induction F' as [|b l x tss (u & J & Fu) F IHF]; constructor; auto. exists u. split; auto. eapply shape_finds; eauto.
Qed.

Lemma meets_simple : forall act n (r : red O n) f ts, typed n r -> td_in_label (red_types r) <> LTCb ->
  meets act n r f ts <-> finds n r f ts.
Proof.
  intros act. induction n as [|n IH]; intros r f ts T L; [reflexivity|].
  destruct r as ((w & k) & ch). destruct T as (T1 & T2 & T3). pose proof (td_good _ _ T3) as (G1 & G2 & G3).
  change (red_types (n := S n) (w, k, ch)) with (w_types w) in L. rewrite T2 in *. cbn [meets finds fst snd].
  destruct k; cbn [kind_td td_in_label td_out_label td_cb_adf td_explore] in *; try congruence; inversion G1 as [G];
    try reflexivity; apply IH; auto; rewrite <- ?G; congruence.
Qed.

Lemma simple_feats : forall n (r : red O n), typed n r -> td_in_feats (red_types r) = FTSimple -> td_in_label (red_types r) <> LTCb.
Proof.
  induction n as [|n IH]; intros r T L; [simpl in T; rewrite T; discriminate|].
  destruct r as ((w & k) & ch). destruct T as (T1 & T2 & T3). pose proof (td_good _ _ T3) as (G1 & G2 & G3).
  change (red_types (n := S n) (w, k, ch)) with (w_types w) in *. rewrite T2 in *.
  destruct k; cbn [kind_td td_in_label td_out_label td_in_feats td_out_feats td_cb_adf td_explore] in *; try congruence; inversion G2 as [G];
    apply IH; auto; congruence.
Qed.

Lemma es_learn_fwd : forall nb n d, nb < 32 -> d < 256 -> forall (r : red O n) f lb ts, einv nb n r ->
  gf f -> feat_type_of f = td_in_feats (red_types r) -> lab_for n r lb ->
  meets (labelled lb) n r f ts -> rin nb ts ->
  exists r' f', learn false n r f lb d 0 = Ok (r', f', d) /\ (forall s, f = FtsSimple s -> f' = f).
Proof.
  intros nb n d Hb Hd. induction n as [|n IH]; intros r f lb ts I G Tf Tl F Rn.
  - destruct r as (w & c). destruct I as (T & _ & _ & C). simpl in T, C. destruct F as (s & -> & ->). unfold lab_for in Tl. rewrite T in Tl. simpl in Tl.
    inversion Rn as [|? ? B _]; subst. destruct lb as [y wt| |]; try discriminate. destruct C as (W & Fs & Rg).
    destruct (learn_ok false c s y wt W) as (c' & l & p & cb & u & E & _); [now rewrite Fs|now apply range_step|].
    exists (w, c'), (FtsSimple s). split; auto.
    cbn [learn]. apply wrap_release; auto. cbn [bind]. unfold coin_learn_body. cbn [as_simple as_simple_label bind fst snd]. rewrite E. reflexivity.
  - destruct r as ((w & k) & ch).
    assert (RS : forall k' ch' f', kind_learn false k (learn false n) ch f lb d 0 = Ok ((k', ch'), f', d) -> (forall s, f = FtsSimple s -> f' = f) ->
              exists r' f', learn false (S n) (w, k, ch) f lb d 0 = Ok (r', f', d) /\ (forall s, f = FtsSimple s -> f' = f)).
    { intros k' ch' f' E Rt. exists (w, k', ch'), f'. split; auto. cbn [learn]. apply wrap_release; auto. rewrite E. reflexivity. }
    destruct I as (T & El & Eb & C). pose proof T as (T1 & T2 & T3). pose proof (td_good _ _ T3) as (G1 & G2 & G3).
    destruct El as (El1 & El2). destruct Eb as (Eb1 & Eb2). cbn [fst snd] in *.
    assert (Ic : einv nb n ch) by (split; [exact T1|split; [exact El2|split; [exact Eb2|exact C]]]).
    unfold lab_for in *. change (red_types (n := S n) (w, k, ch)) with (w_types w) in *. rewrite T2 in *. cbn [meets fst snd] in F.
    destruct k; cbn [kind_td td_in_feats td_in_label td_out_label td_out_feats td_in_pred td_out_pred td_cb_adf td_explore] in *;
      inversion G1 as [G1']; inversion G2 as [G2']; inversion G3 as [G3'].
    + destruct lb as [|b|]; try discriminate.
      destruct (IH ch f (binary_label b) ts) as (ch' & f' & E & Rt); auto; try congruence.
      eapply RS; [simpl; rewrite E; reflexivity|exact Rt].
    + destruct lb as [| |act cost prob]; try discriminate. destruct ty.
      * destruct F as (sh & x & tss & -> & -> & F). destruct G as (Gs & Gx). apply rin_concat in Rn. cbn [fst snd] in F.
        destruct (ips_fwd nb n act cost prob sh d x tss Gs Gx) with (ch := ch) (i := 0) as (ch' & acts & E); auto; try congruence.
        { intros r s ts lb Ir Fr Lr Ls Su Fu Ru. destruct (IH r (FtsSimple s) lb ts) as (r' & f' & E & _); eauto; try congruence.
          apply meets_simple; auto; [apply Ir|]. unfold lab_for in Lr. congruence. }
        eapply RS; [cbn [kind_learn as_cb as_cb_label bind fst snd]; rewrite E; reflexivity|congruence].
      * destruct F as (sh & x & a & u & -> & Ea & J & F). destruct G as (Gs & Gx). cbn [labelled] in Ea.
        assert (Wa : fwf a). { apply nth_error_In in Ea. eapply Forall_forall in Gx; eauto. }
        pose proof (joined_append sh a u (Gs _ eq_refl) Wa J) as E1.
        destruct (add64_release action_sum (N.of_nat (length x))) as (as' & Ea1).
        destruct (add64_release event_sum 1) as (es' & Ea2).
        destruct (IH ch (FtsSimple u) (LbSimple cost (f_mul O (f_div O f1 prob) (f_div O (f_of_N es') (f_of_N as')))) ts)
          as (ch' & f' & E & _); auto; try congruence. { apply J. } { apply meets_simple; auto; congruence. }
        destruct (remove_release (back_simple u f') a) as (s2 & E2).
        eapply RS; [cbn [kind_learn as_cb as_cb_label bind fst snd]; rewrite Ea1; cbn [bind]; rewrite Ea2; cbn [bind];
          rewrite Ea; cbn [opt_or bind]; rewrite E1; cbn [bind]; rewrite E; cbn [bind]; rewrite E2; reflexivity|congruence].
    + destruct (IH ch f lb ts) as (ch' & f' & E & Rt); auto; try congruence.
      eapply RS; [simpl; rewrite E; reflexivity|exact Rt].
    + destruct (IH ch f lb ts) as (ch' & f' & E & Rt); auto; try congruence.
      eapply RS; [simpl; rewrite E; reflexivity|exact Rt].
    + destruct lb as [| |act cost prob]; try discriminate.
      destruct (IH ch f (LbCb act cost f1) ts) as (ch' & f' & E & Rt); auto; try congruence.
      destruct (add64_release counter 1) as (cn & Ec).
      eapply RS; [cbn [kind_learn as_cb_label bind]; rewrite E; cbn [bind]; rewrite Ec; reflexivity|exact Rt].
    + destruct F as (s & v & z & u & -> & V & Su & Gu & F). subst nb0. cbn [fst snd] in F.
      destruct (frame2 false nb s one two keep v z G Hb (nameable_raw _ (proj1 El1)) (nameable_raw _ (proj2 El1)) V) as (t & St & Gt & Fr).
      assert (t = u) by (apply fm_ext; auto; intros k; rewrite Gt, Gu; reflexivity). subst t.
      assert (Ls : td_in_label (red_types ch) <> LTCb).
      { apply simple_feats; auto; congruence. }
      destruct (IH ch (FtsSimple u) lb ts) as (ch' & f' & E & Rt); auto; try congruence.
      { apply meets_simple; auto. }
      pose proof (Rt u eq_refl). subst f'.
      eapply RS; [cbn [kind_learn]; rewrite (proj2 (Fr _ (fun f => learn false n ch f lb d 0)) _ _ E); reflexivity|auto].
    + destruct (IH ch f lb ts) as (ch' & f' & E & Rt); auto; try congruence.
      eapply RS; [simpl; rewrite E; reflexivity|exact Rt].
Qed.

Lemma finds_feats : forall n (r : red O n) f ts, typed n r -> finds n r f ts -> feat_type_of f = td_in_feats (red_types r).
Proof.
  induction n as [|n IH]; intros r f ts T F; [destruct F as (s & -> & _); simpl in T; now rewrite T|].
  destruct r as ((w & k) & ch). destruct T as (T1 & T2 & T3). pose proof (td_good _ _ T3) as (G1 & G2 & G3).
  change (red_types (n := S n) (w, k, ch)) with (w_types w) in *. rewrite T2 in *. cbn [finds fst snd] in F.
  destruct k; cbn [kind_td td_in_label td_out_label td_in_feats td_out_feats td_cb_adf td_explore] in *; inversion G2 as [G].
  all: try (rewrite G; eapply IH; eauto; fail).
  all: try (eapply IH; eauto; fail).
  - destruct F as (sh & x & tss & -> & _). reflexivity.
  - destruct F as (s & v & z & u & -> & _). reflexivity.
Qed.
Lemma es_learn_bwd : forall nb n, nb < 32 -> forall (r : red O n) f lb ts d r' f' d', einv nb n r -> gf f ->
  meets (labelled lb) n r f ts -> learn false n r f lb d 0 = Ok (r', f', d') -> rin nb ts.
Proof.
  intros nb n Hb. induction n as [|n IH]; intros r f lb ts d r' f' d' I G F E.
  - destruct r as (w & c). destruct I as (T & _ & _ & C). simpl in C. destruct F as (s & -> & ->).
    cbn [learn] in E. apply wrap_ok in E. destruct E as (d1 & d2 & E). unfold coin_learn_body in E. cbn [as_simple bind snd] in E. binv E. binv B. binv B.
    constructor; [|constructor]. eapply learn_inside; eauto.
  - destruct r as ((w & k) & ch).
    destruct I as (T & El & Eb & C). pose proof T as (T1 & T2 & T3). pose proof (td_good _ _ T3) as (G1 & G2 & G3).
    destruct El as (El1 & El2). destruct Eb as (Eb1 & Eb2). cbn [fst snd] in *.
    assert (Ic : einv nb n ch) by (split; [exact T1|split; [exact El2|split; [exact Eb2|exact C]]]).
    assert (FS : forall (r : red O n) s ts lb d r' f' d', einv nb n r -> td_in_label (red_types ch) <> LTCb -> red_types r = red_types ch -> in_order s -> finds n r (FtsSimple s) ts ->
        learn false n r (FtsSimple s) lb d 0 = Ok (r', f', d') -> rin nb ts).
    { intros r s ts0 lb0 e q g e' Ir Lc Tr Su Fu Eu. eapply (IH r (FtsSimple s)); [exact Ir|exact Su| |exact Eu].
      apply meets_simple; [apply Ir|congruence|exact Fu]. }
    cbn [learn] in E. apply wrap_ok in E. destruct E as (d1 & d2 & E). binv E. destruct v as (((k' & ch') & g) & e). clear E.
    rewrite T2 in G1, G2, G3. cbn [meets fst snd] in F.
    destruct k; cbn [kind_learn kind_td td_in_feats td_in_label td_out_label td_out_feats td_in_pred td_out_pred td_cb_adf td_explore] in *;
      inversion G1 as [G1']; inversion G2 as [G2']; inversion G3 as [G3'].
    + binv B. binv B. destruct v0 as ((q & h) & x). destruct lb as [|b|]; try discriminate.
      eapply (IH ch f _ ts); [exact Ic|exact G| |exact B1]. exact F.
    + destruct ty.
      * destruct F as (sh & x & tss & -> & -> & F). destruct G as (Gs & Gx). cbn [fst snd] in F. cbn [as_cb bind] in B. binv B. destruct v as ((a & c) & p).
        binv B. apply rin_concat.
        assert (Lc : td_in_label (red_types ch) <> LTCb) by congruence.
        eapply (ips_bwd nb n a c p sh x tss Gs Gx) with (ch := ch); [|exact Ic|exact F|exact B1].
        intros r s ts lb0 d0 r0 f0 d0' Ir Su Fu Eu. eapply (IH r (FtsSimple s)); [exact Ir|exact Su| |exact Eu].
        apply meets_simple; [apply Ir| |exact Fu]. pose proof (finds_feats _ _ _ _ (proj1 Ir) Fu) as Q. apply simple_feats; [apply Ir|]. now rewrite <- Q.
      * destruct F as (sh & x & a & u & -> & Ea & J & F). destruct G as (Gs & Gx). destruct lb as [| |act cost prob]; [binv B; binv B; discriminate..|].
        cbn [labelled] in Ea. cbn [as_cb as_cb_label bind] in B. binv B. binv B. rewrite Ea in B. cbn [opt_or bind] in B.
        assert (Wa : fwf a). { apply nth_error_In in Ea. eapply Forall_forall in Gx; eauto. }
        rewrite (joined_append sh a u (Gs _ eq_refl) Wa J) in B. cbn [bind] in B. binv B. destruct v1 as ((q & h) & y).
        eapply FS; [exact Ic|congruence|reflexivity| |exact F|exact B2]. apply J.
    + binv B. destruct v as ((q & h) & x). eapply (IH ch); eauto.
    + binv B. destruct v as ((q & h) & x). eapply (IH ch); eauto.
    + binv B. destruct v as ((a & c) & p). binv B. destruct v as ((q & h) & x). destruct lb; try discriminate. inversion B0; subst.
      eapply (IH ch); [exact Ic|exact G| |exact B1]. exact F.
    + destruct F as (s & v & z & u & -> & V & Su & Gu & F). subst nb0. cbn [fst snd] in F.
      destruct (frame2 false nb s one two keep v z G Hb (nameable_raw _ (proj1 El1)) (nameable_raw _ (proj2 El1)) V) as (t & St & Gt & Fr).
      assert (t = u) by (apply fm_ext; auto; intros k; rewrite Gt, Gu; reflexivity). subst t.
      binv B. destruct v0 as ((q & h) & x).
      apply (proj1 (Fr _ (fun f => learn false n ch f lb d1 0))) in B0. destruct B0 as (g' & B0).
      eapply FS; [exact Ic| |reflexivity|exact Su|exact F|exact B0]. apply simple_feats; auto; congruence.
    + binv B. destruct v as ((q & h) & x). eapply (IH ch); eauto.
Qed.

(** ** reached stacks *)
Lemma create_ebits : forall H dbg gc nma (c : rcfg O) R, create H dbg gc nma c = Ok R -> ebits (gc_bits gc) (projT1 R) (projT2 R).
Proof.
  induction c; intros R E; cbn [create] in E; try discriminate;
    try (binv E; apply add_level_ok in E; destruct E as (-> & _); cbn [projT1 projT2]; split; [|apply IHc; auto]; simpl; auto; fail).
  - binv E. inversion E; subst. exact I.
  - assert (E' : (let* ch := create H dbg gc nma c in add_level nma td_explore (KSquareCb ueps gscale gexp 0) ch) = Ok R).
    { destruct c; auto. destruct ty; auto. discriminate. }
    clear E. rename E' into E. binv E. apply add_level_ok in E. destruct E as (-> & _). split; simpl; auto.
Qed.
Lemma reach_einv : forall H gc (c : rcfg O) R r, ws_new H false gc c = Ok R -> reach false (projT2 R) r -> gc_bits gc < 32 ->
  einv (gc_bits gc) (projT1 R) r /\ shape _ (projT2 R) r.
Proof.
  intros H gc c R r E Q Hb. pose proof (reach_shape _ _ _ _ Q) as Sh. split; auto.
  split; [|split; [|split]].
  - eapply shape_typed; [exact Sh|]. eapply create_typed; exact E.
  - eapply reach_elems; eauto.
  - eapply shape_ebits; [exact Sh|]. eapply create_ebits; exact E.
  - eapply (reach_bottom FO); eauto. unfold bits_to_max_feature_index. apply N.ltb_lt in Hb. now rewrite Hb.
Qed.
Lemma built_gf : forall f, built_fts f -> gf f.
Proof.
  intros [s|sh x] B; simpl in *.
  - apply built_wf in B. apply B.
  - destruct B as (B1 & B2). split.
    + intros b ->. now apply built_wf.
    + apply Forall_forall. intros a Ha. apply built_wf. auto.
Qed.
Lemma ne_or : forall A (x : out A), ne x -> (exists y, x = Ok y) \/ (exists p, x = Pn p).
Proof. intros A [y|e|p] K; eauto. exfalso. exact (K e eq_refl). Qed.
Lemma elem_predict : forall H gc (c : rcfg O) R r f ts,
  ws_new H false gc c = Ok R -> reach false (projT2 R) r -> gc_bits gc < 32 -> uses_weighted (projT2 R) = false ->
  built_fts f -> (td_out_pred (red_types (projT2 R)) = PTProbs -> num_actions f <> 0) ->
  finds _ (projT2 R) f ts ->
  (Forall (below (2 ^ gc_bits gc)) ts -> exists pr f', ws_predict false r f = Ok (pr, f') /\ pred_type_of pr = td_out_pred (red_types (projT2 R))) /\
  (~ Forall (below (2 ^ gc_bits gc)) ts -> exists p, ws_predict false r f = Pn p).
Proof.
  intros H gc c R r f ts E Q Hb U Bf NE F. destruct (reach_einv _ _ _ _ _ E Q Hb) as (I & Sh).
  destruct (shape_typed _ _ _ Sh (create_typed _ _ _ _ _ _ E)) as (T & Ty).
  pose proof (shape_finds _ _ _ _ _ Sh F) as F'. apply built_gf in Bf. split; intros B.
  - destruct (es_predict_fwd (gc_bits gc) _ 0 Hb eq_refl r f ts I) as (p & f' & L & Tp & _); auto.
    + now rewrite (shape_weighted _ _ _ Sh).
    + eapply finds_feats; eauto.
    + now rewrite Ty.
    + exists p, f'. split; [unfold ws_predict; rewrite L; reflexivity|congruence].
  - unfold ws_predict. destruct (ne_or _ _ (ne_predict false _ r f 0 0)) as [(((p & f') & d') & L)|(p & L)]; rewrite L; cbn [bind]; eauto.
    exfalso. apply B. exact (es_predict_bwd _ _ Hb _ _ _ _ _ _ _ I Bf F' L).
Qed.
Lemma shape_meets : forall act n (r r' : red O n) f ts, shape n r r' -> meets act n r f ts -> meets act n r' f ts.
Proof.
  intros act. induction n as [|n IH]; intros r r' f ts Sh F; [exact F|]. pose proof Sh as (_ & S1 & S2). cbn [meets] in *.
  destruct (snd (fst r)) as [|t1 ? ?| | | |o1 o2 kp b|] eqn:K, (snd (fst r')) as [|t2 ? ?| | | |o1' o2' kp' b'|] eqn:K'; simpl in S1; try tauto;
    try (eapply IH; eauto; fail).
  - subst t2. destruct t1; [eapply shape_finds; [exact Sh|exact F]|].
    destruct F as (sh & x & a & u & Q1 & Q2 & J & F). exists sh, x, a, u. do 3 (split; [assumption|]). eapply shape_finds; eauto.
  - eapply shape_finds; [exact Sh|exact F].
Qed.
Lemma elem_learn : forall H gc (c : rcfg O) R r f lb ts,
  ws_new H false gc c = Ok R -> reach false (projT2 R) r -> gc_bits gc < 32 ->
  built_fts f -> feat_type_of f = td_in_feats (red_types (projT2 R)) -> label_type_of lb = td_in_label (red_types (projT2 R)) ->
  meets (labelled lb) _ (projT2 R) f ts ->
  (Forall (below (2 ^ gc_bits gc)) ts -> exists r' f', ws_learn false r f lb = Ok (r', f')) /\
  (~ Forall (below (2 ^ gc_bits gc)) ts -> exists p, ws_learn false r f lb = Pn p).
Proof.
  intros H gc c R r f lb ts E Q Hb Bf Tf Tl F. destruct (reach_einv _ _ _ _ _ E Q Hb) as (I & Sh).
  destruct (shape_typed _ _ _ Sh (create_typed _ _ _ _ _ _ E)) as (T & Ty).
  pose proof (shape_meets _ _ _ _ _ _ Sh F) as F'. apply built_gf in Bf. split; intros B.
  - destruct (es_learn_fwd (gc_bits gc) _ 0 Hb eq_refl r f lb ts I) as (r' & f' & L & _); auto.
    + now rewrite Ty.
    + unfold lab_for. now rewrite Ty.
    + exists r', f'. unfold ws_learn. rewrite L. reflexivity.
  - unfold ws_learn. destruct (ne_or _ _ (ne_learn false _ r f lb 0 0)) as [(((p & f') & d') & L)|(p & L)]; rewrite L; cbn [bind]; eauto.
    exfalso. apply B. exact (es_learn_bwd _ _ Hb _ _ _ _ _ _ _ _ I Bf F' L).
Qed.
End ES.

(** C90: an exported model has entries only for the features it was trained on. *)
From Coq Require Import List NArith ZArith Bool Lia PeanoNat.
From Verif Require Import Base FloatOps FloatB32 Model_Hash Model_Features Model_Weights Model_Loss
  Model_Interactions Model_Types Model_Explore Model_Coin Model_Stack Model_Factory
  Spec_Features Spec_Weights Proof_Weights Proof_WeightsProps Proof_Features Proof_FloatOrder Spec_Coin Proof_Coin Spec_Stack Spec_Reductions Spec_Total
  Spec_Delegate Proof_StackCong Proof_StackRestore Proof_StackPtl Proof_StackShape Proof_StackProps Proof_StackRel Proof_Types Proof_Total Proof_CliRuns Proof_Release
  Proof_Inter Spec_Elem Proof_Elem Spec_ElemStack Proof_ElemStack Proof_ElemStackEx Spec_Trained.
Import ListNotations.
Open Scope N_scope.

Section Main.
Context {O : FOps} (FO : ford O).
Implicit Types (f g : features O) (a b s t u : sfeats O).

Definition at_rest (i : N) (c c' : coin O) : Prop := read (co_w c') i 0 = read (co_w c) i 0.
Definition idle (c : coin O) (ts : list (sfeats O)) (i : N) : Prop := forall t, In t ts -> ~ uses false c t i.

Lemma coin_frame : forall nb (c : coin O) t y wt c' i, cgood false (2 ^ nb) c -> coin_learn false c t y wt = Ok c' ->
  i < 2 ^ nb -> ~ uses false c t i -> at_rest i c c'.
Proof.
  intros nb c t y wt c' i C E Hi Nu. pose proof (learn_inside nb c t y wt c' C E) as Bl. destruct C as (W & Fs & Rg).
  destruct (learn_ok false c t y wt W) as (c1 & l & p & cb & u & E1 & _ & El & _ & _ & _ & _ & _ & _ & _ & _ & _ & _ & _ & Rd);
    [now rewrite Fs|now apply (range_step FO)|].
  rewrite E in E1. inversion E1; subst c1. unfold at_rest. rewrite Rd by (rewrite Fs; auto).
  apply (fold_skip _ (fun st v => iu (co_cfg c) (co_avg cb) u v st)). intros v Hv. apply Nu. exists l, v. auto.
Qed.
Lemma shape_uses : forall n (r r' : red O n) t i, shape n r r' -> uses false (bottom n r') t i -> uses false (bottom n r) t i.
Proof.
  induction n as [|n IH]; intros r r' t i Sh U.
  - destruct Sh as (_ & _ & _ & _ & _ & P & T & B & C). simpl in *. destruct U as (l & v & E & Hin). exists l, v.
    rewrite P, T, B, C. auto.
  - destruct Sh as (_ & _ & Sh). simpl in *. eapply IH; eauto.
Qed.

Lemma ips_rest : forall nb n act cost prob sh i x tss, (forall b, sh = Some b -> fwf b) -> Forall fwf x ->
  (forall (r : red O n) s ts lb d r' f' d', einv nb n r -> in_order s -> finds n r (FtsSimple s) ts ->
     learn false n r (FtsSimple s) lb d 0 = Ok (r', f', d') -> idle (bottom n r) ts i -> at_rest i (bottom n r) (bottom n r')) ->
  forall (ch : red O n) j d ch' acts d', einv nb n ch ->
  Forall2 (fun a l => exists u, joined_opt a sh u /\ finds n ch (FtsSimple u) l) x tss ->
  cb_ips_loop false (learn false n) act cost prob sh x j ch d = Ok (ch', acts, d') ->
  idle (bottom n ch) (concat tss) i -> at_rest i (bottom n ch) (bottom n ch').
Proof.
  intros nb n act cost prob sh i. induction x as [|a x IHx]; intros tss Hs Fx IH ch j d ch' acts d' I F E Id.
  { cbn [cb_ips_loop] in E. inversion E; subst. reflexivity. }
  inversion F as [|? l ? tss' (u & J & Fu) F']; subst. inversion Fx; subst.
  destruct (joined_opt_append a sh u) as (E1 & Su); auto. cbn [cb_ips_loop] in E. rewrite E1 in E. cbn [bind] in E.
  binv E. binv E. destruct v0 as ((c1 & f') & d1). binv E. binv E. destruct v1 as ((c2 & ac2) & d2). inversion E; subst.
  destruct (einv_step FO _ _ _ _ _ _ _ _ _ I B0) as (I' & Sh).
  assert (A1 : at_rest i (bottom n ch) (bottom n c1)).
  { eapply IH; [exact I|exact Su|exact Fu|exact B0|]. intros t Ht. apply Id. cbn [concat]. apply in_or_app. now left. }
  unfold at_rest in *. rewrite <- A1. eapply (IHx tss'); [exact Hs|assumption|exact IH|exact I'| |exact B2|].
  - clear -F' Sh. induction F' as [|b l x tss (u & J & Fu) F IHF]; constructor; auto. exists u. split; auto. eapply shape_finds; eauto.
  - intros t Ht U. apply (Id t); [cbn [concat]; apply in_or_app; now right|]. eapply shape_uses; eauto.
Qed.

Lemma learn_rest : forall nb n i, nb < 32 -> i < 2 ^ nb -> forall (r : red O n) f lb ts d r' f' d', einv nb n r -> gf f ->
  meets (labelled lb) n r f ts -> learn false n r f lb d 0 = Ok (r', f', d') -> idle (bottom n r) ts i -> at_rest i (bottom n r) (bottom n r').
Proof.
  intros nb n i Hb Hi. induction n as [|n IH]; intros r f lb ts d r' f' d' I G F E Id.
  - destruct r as (w & c). destruct I as (T & _ & _ & C). simpl in C. destruct F as (s & -> & ->).
    cbn [learn] in E. apply wrap_ok in E. destruct E as (d1 & d2 & E). unfold coin_learn_body in E. cbn [as_simple bind snd fst] in E. binv E. binv B. binv B. 
    inversion B; subst. inversion E; subst. cbn [bottom snd] in *.
    eapply (coin_frame nb); eauto. apply Id. now left.
  - destruct r as ((w & k) & ch).
    destruct I as (T & El & Eb & C). pose proof T as (T1 & T2 & T3). pose proof (td_good _ _ T3) as (G1 & G2 & G3).
    destruct El as (El1 & El2). destruct Eb as (Eb1 & Eb2). cbn [fst snd] in *.
    assert (Ic : einv nb n ch) by (split; [exact T1|split; [exact El2|split; [exact Eb2|exact C]]]).
    assert (FS : forall (r : red O n) s ts lb d r' f' d', einv nb n r -> td_in_label (red_types ch) <> LTCb -> red_types r = red_types ch -> in_order s -> finds n r (FtsSimple s) ts ->
        learn false n r (FtsSimple s) lb d 0 = Ok (r', f', d') -> idle (bottom n r) ts i -> at_rest i (bottom n r) (bottom n r')).
    { intros r s ts0 lb0 e q g e' Ir Lc Tr Su Fu Eu. eapply (IH r (FtsSimple s)); [exact Ir|exact Su| |exact Eu].
      apply meets_simple; [apply Ir|congruence|exact Fu]. }
    cbn [learn] in E. apply wrap_ok in E. destruct E as (d1 & d2 & E). binv E. destruct v as (((k' & ch') & g) & e). inversion E; subst. clear E.
    cbn [bottom snd] in Id |- *.
    rewrite T2 in G1, G2, G3. cbn [meets fst snd] in F.
    destruct k; cbn [kind_learn kind_td td_in_feats td_in_label td_out_label td_out_feats td_in_pred td_out_pred td_cb_adf td_explore] in *;
      inversion G1 as [G1']; inversion G2 as [G2']; inversion G3 as [G3'].
    + binv B. binv B. destruct v0 as ((q & h) & x). inversion B; subst. destruct lb as [|b|]; try discriminate.
      eapply (IH ch f _ ts); [exact Ic|exact G| |exact B1|exact Id]. exact F.
    + destruct ty.
      * destruct F as (sh & x & tss & -> & -> & F). destruct G as (Gs & Gx). cbn [fst snd] in F. cbn [as_cb bind] in B. binv B. destruct v as ((a & c) & p).
        binv B. destruct v as ((q & h) & y). inversion B; subst.
        eapply (ips_rest nb n a c p sh i x tss Gs Gx) with (ch := ch); [|exact Ic|exact F|exact B1|exact Id].
        intros r s ts lb0 d0 r0 f0 d0' Ir Su Fu Eu. eapply (IH r (FtsSimple s)); [exact Ir|exact Su| |exact Eu].
        apply meets_simple; [apply Ir| |exact Fu]. pose proof (finds_feats _ _ _ _ (proj1 Ir) Fu) as Q. apply simple_feats; [apply Ir|]. now rewrite <- Q.
      * destruct F as (sh & x & a & u & -> & Ea & J & F). destruct G as (Gs & Gx). destruct lb as [| |act cost prob]; [binv B; binv B; discriminate..|].
        cbn [labelled] in Ea. cbn [as_cb as_cb_label bind] in B. binv B. binv B. rewrite Ea in B. cbn [opt_or bind] in B.
        assert (Wa : fwf a). { apply nth_error_In in Ea. eapply Forall_forall in Gx; eauto. }
        rewrite (joined_append sh a u (Gs _ eq_refl) Wa J) in B. cbn [bind] in B. binv B. destruct v1 as ((q & h) & y). binv B. inversion B; subst.
        eapply FS; [exact Ic|congruence|reflexivity| |exact F|exact B2|exact Id]. apply J.
    + binv B. destruct v as ((q & h) & x). inversion B; subst. eapply (IH ch); eauto.
    + binv B. destruct v as ((q & h) & x). inversion B; subst. eapply (IH ch); eauto.
    + binv B. destruct v as ((a & c) & p). binv B. destruct v as ((q & h) & x). binv B. inversion B; subst. destruct lb; try discriminate. inversion B0; subst.
      eapply (IH ch); [exact Ic|exact G| |exact B1|exact Id]. exact F.
    + destruct F as (s & v & z & u & -> & V & Su & Gu & F). subst nb0. cbn [fst snd] in F.
      destruct (frame2 false nb s one two keep v z G Hb (nameable_raw _ (proj1 El1)) (nameable_raw _ (proj2 El1)) V) as (t & St & Gt & Fr).
      assert (t = u) by (apply fm_ext; auto; intros k; rewrite Gt, Gu; reflexivity). subst t.
      binv B. destruct v0 as ((q & h) & x). inversion B; subst.
      apply (proj1 (Fr _ (fun f => learn false n ch f lb d1 0))) in B0. destruct B0 as (g' & B0).
      eapply FS; [exact Ic| |reflexivity|exact Su|exact F|exact B0|exact Id]. apply simple_feats; auto; congruence.
    + binv B. destruct v as ((q & h) & x). inversion B; subst. eapply (IH ch); eauto.
Qed.

Lemma learn_all_rest : forall nb n i, nb < 32 -> i < 2 ^ nb -> forall h (r r' : red O n) tss, einv nb n r ->
  Forall2 (shows r) h tss -> learn_all false r h = Ok r' -> idle (bottom n r) (concat tss) i ->
  einv nb n r' /\ shape n r r' /\ at_rest i (bottom n r) (bottom n r').
Proof.
  intros nb n i Hb Hi. induction h as [|(f & lb) h IH]; intros r r' tss I F E Id; cbn [learn_all] in E.
  - inversion E; subst. split; auto. split; [apply shape_refl|reflexivity].
  - inversion F as [|? ts ? tss' (Bf & M) F']; subst. cbn [fst snd] in *. binv E. unfold ws_learn in B. binv B. destruct v0 as ((r1 & g) & d). inversion B; subst.
    cbn [fst] in E. destruct (einv_step FO _ _ _ _ _ _ _ _ _ I B0) as (I' & Sh).
    assert (A : at_rest i (bottom n r) (bottom n r1)).
    { eapply (learn_rest nb n i Hb Hi); [exact I|apply built_gf; exact Bf|exact M|exact B0|]. intros t Ht. apply Id. cbn [concat]. apply in_or_app. now left. }
    destruct (IH r1 r' tss' I') as (I2 & Sh2 & A2); auto.
    { clear -F' Sh. induction F' as [|b ts x tss (Bf & M) F IHF]; constructor; auto. split; auto. eapply shape_meets; eauto. }
    { intros t Ht U. apply (Id t); [cbn [concat]; apply in_or_app; now right|]. eapply shape_uses; eauto. }
    split; auto. split; [eapply shape_trans; eauto|]. unfold at_rest in *. congruence.
Qed.

Context (zz : f_eqb O f0 f0 = true).

Lemma idle_dec : forall (c : coin O) ts i, idle c ts i \/ exists t, In t ts /\ uses false c t i.
Proof.
  intros c ts i. induction ts as [|t ts [Id|(x & Hx & U)]].
  - left. intros x [].
  - destruct (fe_list false t (co_pairs c) (co_triples c) (co_bits c) (co_const c)) as [l|e|p] eqn:E.
    + destruct (existsb (fun iv => fst iv =? i) l) eqn:X.
      * right. apply existsb_exists in X. destruct X as ((j & v) & Hin & Hj). apply N.eqb_eq in Hj. cbn [fst] in Hj. subst j.
        exists t. split; [now left|]. exists l, v. auto.
      * left. intros x [<- | Hx]; [|now apply Id]. intros (l' & v & E' & Hin). rewrite E in E'. inversion E'; subst l'.
        assert (K : existsb (fun iv => fst iv =? i) l = true) by (apply existsb_exists; exists (i, v); split; auto; apply N.eqb_refl). congruence.
    + left. intros x [<- | Hx]; [|now apply Id]. intros (l' & v & E' & _). congruence.
    + left. intros x [<- | Hx]; [|now apply Id]. intros (l' & v & E' & _). congruence.
  - right. exists x. split; [now right|auto].
Qed.
Lemma read_zero : forall (c : coin O) k i, dw_w (co_w c) = repeat f0 k -> forall x, In x (read (co_w c) i 0) -> x = f0.
Proof.
  intros c k i E x Hx. unfold read in Hx. rewrite E in Hx. eapply repeat_spec. rewrite <- (firstn_skipn (cell_of (co_w c) i 0) (repeat f0 k)).
  apply in_or_app. right. rewrite <- (firstn_skipn (N.to_nat (dw_ssize (co_w c)))). apply in_or_app. left. exact Hx.
Qed.

Lemma trained_entries : forall H gc (c : rcfg O) R h tss r d, ws_new H false gc c = Ok R -> gc_bits gc < 32 ->
  Forall2 (shows (projT2 R)) h tss -> learn_all false (projT2 R) h = Ok r -> 
  exists nd, nd_from_dense d (co_w (bottom _ r)) = Ok nd /\ NoDup (entries nd) /\
    forall i, In i (entries nd) -> i < 2 ^ gc_bits gc /\ exists t, In t (concat tss) /\ uses false (bottom _ (projT2 R)) t i.
Proof.
  intros H gc c R h tss r d E Hb F L.
  destruct (reach_einv FO H gc c R (projT2 R) E (reach_refl _ _) Hb) as (I & _).
  destruct (create_coin _ _ _ _ _ _ E) as (cfg & NC). destruct (coin_new_wf _ _ _ _ _ _ NC ltac:(lia)) as (W0 & _ & _ & _ & _ & _ & Z).
  assert (M1 : dw_msize (co_w (bottom _ (projT2 R))) = 1).
  { clear -NC. unfold coin_new in NC. binv NC. destruct (match cc_loss cfg with LossSquared => _ | LossLogistic _ _ => _ end) as (mn & mx). binv NC. binv NC.
    inversion NC as [K]. cbn [co_w]. unfold dw_new in B1. binv B1. binv B1. binv B1. destruct (_ <? _) in B1; [discriminate|]. binv B1. binv B1. inversion B1. reflexivity. }
  assert (A : forall i, i < 2 ^ gc_bits gc -> idle (bottom _ (projT2 R)) (concat tss) i -> at_rest i (bottom _ (projT2 R)) (bottom _ r)).
  { intros i Hi Id. now apply (learn_all_rest (gc_bits gc) _ i Hb Hi h _ _ tss I F L Id). }
  assert (IS : einv (gc_bits gc) _ r /\ shape _ (projT2 R) r).
  { clear -FO I L. revert I L. generalize (projT2 R). induction h as [|(f & lb) h IH]; intros r0 I L; cbn [learn_all] in L.
    - inversion L; subst. split; auto. apply shape_refl.
    - binv L. unfold ws_learn in B. binv B. destruct v0 as ((r1 & g) & d1). inversion B; subst. destruct (einv_step FO _ _ _ _ _ _ _ _ _ I B0) as (I' & Sh).
      destruct (IH r1 I' L) as (I2 & S2). split; auto. eapply shape_trans; eauto. }
  destruct IS as ((_ & _ & _ & C) & Sh). pose proof C as (W & Fs & _).
  assert (MS : dw_msize (co_w (bottom _ r)) = 1).
  { rewrite <- M1. clear -Sh. revert Sh. generalize (projT2 R). revert r. generalize (projT1 R). induction n as [|n IH]; intros r r0 Sh.
    - destruct Sh as (_ & (_ & K & _) & _). now symmetry.
    - destruct Sh as (_ & _ & Sh). simpl. now apply IH. }
  rewrite (export_ok d _ (cw_wf _ _ W)). eexists. split; [reflexivity|]. unfold entries. cbn [nd_map]. rewrite Fs. split.
  - assert (ND : NoDup (map fst (map (full_row (co_w (bottom _ r))) (N_range (2 ^ gc_bits gc))))).
    { rewrite map_map. unfold full_row. cbn [fst]. rewrite map_id. unfold N_range. apply FinFun.Injective_map_NoDup; [intros x y; lia|apply seq_NoDup]. }
    revert ND. generalize (map (full_row (co_w (bottom _ r))) (N_range (2 ^ gc_bits gc))). clear. induction l as [|a l IH]; intros ND; [constructor|].
    cbn [map filter] in *. inversion ND; subst. destruct (nonzero_row a); [|now apply IH]. cbn [map]. constructor; [|now apply IH].
    intros K. apply H1. apply in_map_iff in K. destruct K as (b & Q & Hb). apply filter_In in Hb. apply in_map_iff. exists b. tauto.
  - intros i Hin. apply in_map_iff in Hin. destruct Hin as (rw & Q & Hin). apply filter_In in Hin. destruct Hin as (Hin & NZ).
    apply in_map_iff in Hin. destruct Hin as (j & <- & Hj). unfold full_row in Q. cbn [fst] in Q. subst j.
    assert (Hi : i < 2 ^ gc_bits gc). { unfold N_range in Hj. apply in_map_iff in Hj. destruct Hj as (k & <- & Hk). apply in_seq in Hk. lia. }
    split; auto. destruct (idle_dec (bottom _ (projT2 R)) (concat tss) i) as [Id|K]; auto. exfalso.
    specialize (A i Hi Id). unfold nonzero_row, full_row in NZ. cbn [snd] in NZ. rewrite MS in NZ. change (N_range 1) with [0] in NZ. cbn [map existsb] in NZ. rewrite A, orb_false_r in NZ.
    apply existsb_exists in NZ. destruct NZ as (x & Hx & Nx). rewrite (read_zero _ _ i Z x Hx), zz in Nx. discriminate.
Qed.
End Main.

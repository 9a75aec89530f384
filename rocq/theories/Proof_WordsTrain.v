(** Training from files with the words in another order (C98). *)
From Coq Require Import List NArith ZArith PeanoNat Bool Lia Permutation Reals Lra.
From Verif Require Import Base FloatOps FloatR Model_Hash Model_Features Model_Weights Model_Loss Model_Interactions
  Model_Types Model_Explore Model_Coin Model_Stack Model_Factory Model_Text Model_Metrics Model_Train Model_Json Model_JsonTrain Model_Save Model_Command
  Spec_Foreach Spec_Features Spec_Stack Spec_Reductions Spec_Text Spec_Json Spec_JsonLabel Spec_Command Spec_Formats Proof_Train Spec_Order Spec_Inter Spec_Empty Spec_Delegate Spec_Shuffle Spec_Merge Spec_Words
  Proof_Features Proof_Foreach Proof_Weights Proof_Coin Proof_StackRestore Proof_StackShape Proof_StackProps Proof_StackCong Proof_StackRel Proof_Loose Proof_Order Proof_Inter Proof_Empty Proof_EmptyProps Proof_Context
  Proof_TextFeats Proof_Json Proof_Pieces Proof_Command Proof_CommandEx Proof_Formats Proof_Shuffle Proof_Merge Proof_Words.
Import ListNotations.
Open Scope N_scope.

(** *** predict_then_learn of stacks *)
Section Ptl.
Context {O : FOps} (Z : sfeats O -> sfeats O -> Prop) (Pc : coin O -> Prop).
Context (ZP : forall c a b p, Pc c -> Z a b -> coin_predict false c a = Ok p -> coin_predict false c b = Ok p).
Context (ZL : forall c a b v w c', Pc c -> Z a b -> coin_learn false c a v w = Ok c' -> coin_learn false c b v w = Ok c').
Context (PL : forall dbg c (x : sfeats O) v w c', Pc c -> coin_learn dbg c x v w = Ok c' -> Pc c').
Context (ZH : forall a a' b b', Z a b -> esim a a' -> esim b b' -> Z a' b').
Implicit Types (a b : sfeats O) (f g : features O).

Lemma append_back : forall a a' s s' x', esim a a' -> esim s s' -> sf_append a' s' = Ok x' -> exists x, sf_append a s = Ok x /\ esim x x'.
Proof.
  intros a a' s s' x' A B E. pose proof (append_e a a' s s' A B) as Q. rewrite E in Q. inversion Q as [u v K| |]; subst. eauto.
Qed.
Lemma zf_hold : forall f g f' g', zf Z f g -> hold f f' -> hold g g' -> zf Z f' g'.
Proof.
  intros [a|s x] [b|t y] [a'|s' x'] [b'|t' y'] Q A B; simpl in Q, A, B; try tauto; try (destruct s; tauto); try (destruct t; tauto); [now subst|].
  destruct s as [s|], s' as [s'|]; try tauto; destruct t as [t|], t' as [t'|]; try tauto; simpl zsh in Q; try tauto; [|now subst].
  destruct Q as ((Qs & Qt) & Q), A as (As & A), B as (Bt & B). split; [split; eapply esim_r; eauto|].
  revert x' y' A B. induction Q as [|a b x y Qab Q IH]; intros x' y' A B; inversion A as [|? a' ? x1 Aa Ax]; inversion B as [|? b' ? y1 Ba By]; subst; constructor; auto.
  destruct Qab as (_ & _ & _ & _ & J1 & J2). repeat (split; [eapply esim_r; eauto|]). split; intros u v U V.
  - destruct (append_back a a' s s' u Aa As U) as (u0 & U0 & Eu). destruct (append_back b b' t t' v Ba Bt V) as (v0 & V0 & Ev). eapply ZH; eauto.
  - destruct (append_back s s' a a' u As Aa U) as (u0 & U0 & Eu). destruct (append_back t t' b b' v Bt Ba V) as (v0 & V0 & Ev). eapply ZH; eauto.
Qed.
Ltac rsplit :=
  let p := fresh "p" in let f' := fresh "f'" in let d' := fresh "d'" in
  let q := fresh "q" in let g' := fresh "g'" in let e' := fresh "e'" in
  let E1 := fresh "E" in let E2 := fresh "E" in let E3 := fresh "E" in let E4 := fresh "E" in
  intros ((p & f') & d') ((q & g') & e') (E1 & E2 & E3 & E4); cbn [fst snd] in E1, E2, E3, E4; subst.
Ltac rdone := apply imp_ret; repeat (split; auto).
Lemma default_ptl_z : forall X (p : features O -> N -> out (pres O (prediction O))) (l : features O -> N -> out (pres O X)) f g d,
  (forall f g d, zf Z f g -> imp (res f g) (p f d) (p g d)) -> (forall f g d, zf Z f g -> imp (res f g) (l f d) (l g d)) -> zf Z f g ->
  imp (res f g) (default_ptl p l f d) (default_ptl p l g d).
Proof.
  intros X p l f g d HP HL H. unfold default_ptl. eapply imp_bind; [apply HP; exact H|rsplit].
  eapply imp_bind; [apply HL; eapply zf_hold; [exact H| |]; eassumption|rsplit].
  destruct (_ =? d)%N; [|intros z E4; discriminate]. apply imp_ret. split; auto. cbn [fst snd]. split; [eapply hold_trans; eauto|]. split; [eapply hold_trans; eauto|auto].
Qed.
Lemma ptl_z : forall n (r : red O n) f g lb d mo, elem_free n r -> Pc (bottom n r) -> zf Z f g ->
  imp (res f g) (predict_then_learn false n r f lb d mo) (predict_then_learn false n r g lb d mo).
Proof.
  induction n as [|n IH]; intros r f g lb d mo K Q H.
  - destruct r as (w & c). cbn [predict_then_learn]. apply wrap_z. intros d0. eapply imp_bind; [apply default_ptl_z; [| |exact H]|].
    + intros f0 g0 d1 H0. unfold coin_predict_body.
      destruct f0 as [a|s x], g0 as [b|t y]; simpl in H0; try tauto; simpl as_simple; cbn [bind]; [|intros z E; discriminate].
      intros z E. binv E. inversion E; subst. rewrite (ZP c a b v Q H0 B). cbn [bind]. eexists. split; [reflexivity|]. repeat (split; auto).
    + intros f0 g0 d1 H0. unfold coin_learn_body.
      destruct f0 as [a|s x], g0 as [b|t y]; simpl in H0; try tauto; simpl as_simple; cbn [bind]; [|intros z E; discriminate].
      apply imp_eq. intros l z E. binv E. inversion E; subst. rewrite (ZL c a b _ _ v Q H0 B). cbn [bind].
      eexists. split; [reflexivity|]. repeat (split; auto).
    + rsplit. destruct q. rdone.
  - destruct r as ((w & k) & ch). cbn [predict_then_learn elem_free fst snd bottom] in *. destruct K as (K1 & K2). apply wrap_z. intros d0.
    assert (DP : forall f g d, zf Z f g -> imp (res f g) (kind_predict false k (predict false n ch) f d mo) (kind_predict false k (predict false n ch) g d mo)).
    { intros. apply (kind_predict_z Z); auto. intros. now apply (predict_z Z Pc ZP). }
    assert (DL : forall f g d, zf Z f g -> imp (res f g) (kind_learn false k (learn false n) ch f lb d mo) (kind_learn false k (learn false n) ch g lb d mo)).
    { intros f0 g0 dd HZ. apply (kind_learn_z Z _ (fun r => elem_free n r /\ Pc (bottom n r))); auto.
      - intros c f1 g1 lb1 d1 mo1 (A & B) C. now apply (learn_z Z Pc ZL PL).
      - intros c f1 lb1 d1 mo1 c' f' d' (A & B) E. split; [eapply free_shape; [eapply learn_shape; exact E|exact A]|]. eapply (learn_inv Pc PL); eauto. }
    eapply (imp_bind _ _ _ _ (res f g)); [|rsplit; destruct q as (p & (k' & ch')); rdone].
    destruct k; cbn [kind_ptl]; try (now apply default_ptl_z).
    + apply imp_eq. intros b. eapply imp_bind; [apply IH; [exact K2|exact Q|exact H]|rsplit]. destruct q as (p & ch').
      apply imp_eq. intros sc. rdone.
    + exfalso. eapply K1. reflexivity.
    + eapply imp_bind; [apply IH; [exact K2|exact Q|exact H]|rsplit]. destruct q. rdone.
Qed.
End Ptl.

(** *** one example *)
Lemma all_perm : forall x y : sfeats RF, fwf x -> fwf y -> quiet x -> quiet y -> (forall k, Permutation (feats_of k x) (feats_of k y)) ->
  Permutation (sf_all x) (sf_all y).
Proof.
  intros x y Wx Wy Qx Qy P.
  assert (D : forall u v : namespace, {u = v} + {u <> v}).
  { intros u v. destruct (ns_eqb u v) eqn:Q; [left; now apply ns_eqb_eq|right]. intros ->. now rewrite ns_eqb_refl in Q. }
  set (K := nodup D (map fst x ++ map fst y)).
  eapply Permutation_trans; [apply (sf_all_perm x K); [apply Wx|apply NoDup_nodup|]|].
  { intros k Hk. apply nodup_In. apply in_app_iff. auto. }
  eapply Permutation_trans; [|apply Permutation_sym, (sf_all_perm y K); [apply Wy|apply NoDup_nodup|]].
  2:{ intros k Hk. apply nodup_In. apply in_app_iff. auto. }
  apply perm_flat; auto. intros k _. rewrite !quiet_at by auto. auto.
Qed.
Lemma count_pair : forall f g : features RF, ftsE (@Permutation _) f g -> feature_count f = feature_count g.
Proof.
  assert (A : forall a b : sfeats RF, pairE (@Permutation _) a b -> length (sf_all a) = length (sf_all b)).
  { intros a b ((Wa & Qa & _) & (Wb & Qb & _) & P). apply Permutation_length. now apply all_perm. }
  intros [a|s x] [b|t y] Q; simpl in *; try tauto; [now rewrite (A a b)|]. destruct Q as (Q & P). f_equal.
  - destruct s, t; try tauto. now rewrite (A s s0).
  - generalize 0. induction P as [|a b x y Pab P IH]; intros n; simpl; auto. rewrite (A a b) by auto. apply IH.
Qed.
Lemma count_hold : forall f g : features RF, hold f g -> feature_count f = feature_count g.
Proof.
  intros [a|[s|] x] [b|[t|] y] Q; simpl in *; try tauto; [now subst| |now subst]. destruct Q as (Q & P). rewrite (esim_all s t Q). f_equal.
  generalize 0. induction P as [|a b x y Pab P IH]; intros n; simpl; auto. rewrite (esim_all a b) by auto. apply IH.
Qed.
Lemma ftsE_wf : forall E (f g : features RF), ftsE E f g -> ftwf f /\ ftwf g.
Proof.
  intros E [a|s x] [b|t y] Q; simpl in *; try tauto; [split; apply Q|]. destruct Q as (Q & P).
  assert (K : Forall fwf x /\ Forall fwf y) by (induction P as [|a b x y (A & B & _) P (I & J)]; split; constructor; auto; [apply A|apply B]).
  destruct K. destruct s, t; try tauto; split; split; auto; apply Q.
Qed.
Lemma hold_wf : forall f g : features RF, ftwf f -> hold f g -> ftwf g.
Proof.
  intros [a|[s|] x] [b|[t|] y] W Q; simpl in *; try tauto; [now subst| |now subst]. destruct Q as (Q & P). split; [apply Q|].
  clear - P. induction P; constructor; auto. apply H.
Qed.

Section Run.
Context (H : hasher) (gc : gconfig) (NR : no_repeat H gc).
Lemma zl_esim : forall a a' b b' : sfeats RF, zl H gc a b -> esim a a' -> esim b b' -> zl H gc a' b'.
Proof.
  assert (K : forall a a' : sfeats RF, quiet a -> esim a a' -> quiet a' /\ forall k, feats_of k a' = feats_of k a).
  { intros a a' Qa E. pose proof E as (Wa & Wa' & _ & Oa' & _).
    assert (Q' : quiet a').
    { intros k s F A. destruct (Nat.eq_dec (sfn_size s) 0) as [Z|Z]; [|pose proof (Oa' k s F Z); congruence].
      unfold sfn_iter. unfold sfn_size in Z. now destruct (sfn_idx s). }
    split; auto. intros k. rewrite <- !quiet_item by auto. destruct E as (_ & _ & _ & _ & E). destruct (E k) as (E1 & E2). unfold sfn_iter. now rewrite E1, E2. }
  intros a a' b b' ((A & B & C & D & P) & N) Ea Eb. destruct (K a a' C Ea) as (Qa & Fa), (K b b' D Eb) as (Qb & Fb).
  pose proof Ea as (_ & Wa & _). pose proof Eb as (_ & Wb & _).
  split; [repeat (split; [assumption|]); intros k; rewrite Fa, Fb; apply P|].
  apply (clash_zp H gc NR a a'); auto. repeat (split; [assumption|]). intros k. now rewrite Fa.
Qed.
Definition ready {n} (r : red RF n) : Prop := elem_free n r /\ good H gc (bottom n r).
Lemma process_z : forall md n (st : tstate RF n) f g lb, ready (t_red st) -> ftsE (@Permutation _) f g -> no_clash_fts H gc f ->
  imp (fun u v => fst u = fst v /\ ready (t_red (fst u)) /\ ftwf (snd u) /\ ftwf (snd v)) (process_example false md st f lb) (process_example false md st g lb).
Proof.
  intros md n st f g lb (K & G) Q C. pose proof (ftsE_zl H gc NR f g Q C) as Zf. destruct (ftsE_wf _ _ _ Q) as (Wf & Wg).
  unfold process_example. apply imp_eq. intros l. destruct (negb (tm_quiet md) || tm_preds md).
  - intros z E. binv E. destruct v as ((p & r') & f'). unfold ws_ptl in B. binv B. destruct v as (((p1 & r1) & f1) & d1). injection B as -> -> ->.
    assert (R' : ready r').
    { split; [eapply free_shape; [eapply ptl_shape; exact B0|exact K]|eapply (ptl_inv (good H gc) (good_learn H gc)); eauto]. }
    destruct (ptl_z (zl H gc) (good H gc) (fun c a b p Gc Zab => zp_predict H gc NR c a b p Gc (proj1 Zab)) (zl_learn H gc NR) (good_learn H gc) zl_esim
      _ _ f g l 0 0 K G Zf _ B0) as ((((q & r2) & g') & e1) & E2 & E1 & H1 & H2 & _).
    cbn [fst snd] in E1, H1, H2. injection E1 as <- <-. unfold ws_ptl. rewrite E2. cbn [bind].
    assert (FC : feature_count f' = feature_count g') by (rewrite <- (count_hold _ _ H1), <- (count_hold _ _ H2); now apply count_pair).
    assert (MA : forall m : metric RF, metric_add m f' l p = metric_add m g' l p) by (intros [x y|x y|x|x]; cbn [metric_add]; auto; now rewrite FC).
    rewrite <- (mapm_ext _ _ _ _ (t_metrics st) MA). binv E. rewrite B. cbn [bind]. binv E. rewrite B1. cbn [bind]. binv E. rewrite B2. cbn [bind].
    inversion E; subst. eexists. split; [reflexivity|]. cbn [fst snd t_red]. split; auto. split; auto. split; [exact (hold_wf _ _ Wf H1)|exact (hold_wf _ _ Wg H2)].
  - intros z E. binv E. destruct v as (r' & f'). unfold ws_learn in B. binv B. destruct v as ((r1 & f1) & d1). injection B as -> ->.
    assert (R' : ready r').
    { split; [eapply free_shape; [eapply learn_shape; exact B0|exact K]|eapply (learn_inv (good H gc) (good_learn H gc)); eauto]. }
    destruct (learn_z (zl H gc) (good H gc) (zl_learn H gc NR) (good_learn H gc) _ _ f g l 0 0 K G Zf _ B0) as (((r2 & g') & e1) & E2 & E1 & H1 & H2 & _).
    cbn [fst snd] in E1, H1, H2. subst r2. unfold ws_learn. rewrite E2. cbn [bind]. inversion E; subst. eexists. split; [reflexivity|]. cbn [fst snd t_red].
    split; auto. split; auto. split; [exact (hold_wf _ _ Wf H1)|exact (hold_wf _ _ Wg H2)].
Qed.

(** *** files *)
Context (pf : str -> option RF) (rd : str -> option (json RF)).
Lemma fsim_clean : forall a b : sfeats RF, fsim a b -> clean b -> clean a /\ forall k, feats_of k a = feats_of k b.
Proof.
  intros a b (Wa & Wb & V) (_ & _ & (_ & _ & Ob & _)).
  assert (Oa : open a).
  { intros k s E Z. specialize (V k). unfold vget in V. rewrite E in V. unfold svis in V at 1. destruct (sfn_active s) eqn:A; auto. cbn [orb] in V.
    apply Nat.eqb_neq in Z. rewrite Z in V. cbn [negb] in V. destruct (fm_get k b) as [t|] eqn:Eb; [|discriminate].
    destruct (svis t); [|discriminate]. injection V as ->. apply Nat.eqb_neq in Z. pose proof (Ob k t Eb Z). congruence. }
  assert (Qa : quiet a).
  { intros k s F A. destruct (Nat.eq_dec (sfn_size s) 0) as [Z|Z]; [|pose proof (Oa k s F Z); congruence].
    unfold sfn_iter. unfold sfn_size in Z. now destruct (sfn_idx s). }
  split; [split; [|split]; auto; now apply esim_refl|]. intros k. unfold feats_of, sf_get. specialize (V k). unfold vget in V.
  destruct (fm_get k a) as [s|], (fm_get k b) as [t|]; auto; unfold svis in V.
  - destruct (sfn_active s) eqn:As, (sfn_active t) eqn:At; cbn [orb] in V; auto; try (injection V as ->; auto; congruence);
      destruct (negb (Nat.eqb _ 0)); try discriminate; injection V as ->; congruence.
  - destruct (sfn_active s) eqn:As; auto. discriminate.
  - destruct (sfn_active t) eqn:At; auto. discriminate.
Qed.

Lemma pairE_sim : forall E a b a0 b0, pairE E a0 b0 -> fsim a a0 -> fsim b b0 -> pairE E a b.
Proof.
  intros E a b a0 b0 (A & B & P) Sa Sb. destruct (fsim_clean a a0 Sa A) as (Ca & Fa), (fsim_clean b b0 Sb B) as (Cb & Fb).
  split; auto. split; auto. intros k. rewrite Fa, Fb. apply P.
Qed.
Lemma ftsE_sim : forall E f g f0 g0, ftsE E f0 g0 -> ftsim f f0 -> ftsim g g0 -> ftsE E f g.
Proof.
  intros E [a|s x] [b|t y] [a0|s0 x0] [b0|t0 y0] Q A B; simpl in *; try tauto; [eapply pairE_sim; eauto|].
  destruct Q as (Q & P), A as (A & A'), B as (B & B'). split.
  - destruct s, t, s0, t0; simpl in *; try tauto. eapply pairE_sim; eauto.
  - revert x y A' B'. induction P as [|a b x0 y0 Pab P IH]; intros x y A' B'; inversion A'; inversion B'; subst; constructor; eauto using pairE_sim.
Qed.
Lemma clash_ftsE : forall f g : features RF, ftsE (@Permutation _) f g -> no_clash_fts H gc f -> no_clash_fts H gc g.
Proof.
  intros [a|s x] [b|t y] Q C; simpl in *; try tauto; [exact (clash_zp H gc NR a b (pair_zE _ _ _ Q) C)|]. destruct Q as (Q & P).
  intros b v I V. assert (K : exists a, In a x /\ pairE (@Permutation _) a b).
  { clear - P I. induction P as [|a b' x y Pab P IH]; [destruct I|]. destruct I as [->|I]; [exists a; split; [now left|auto]|].
    destruct (IH I) as (a' & J & K). exists a'. split; [now right|auto]. }
  destruct K as (a & J & Pab). destruct s as [s|], t as [t|]; try tauto.
  - pose proof Q as ((_ & _ & A) & _). pose proof Pab as ((_ & _ & B) & _). destruct (esim_append a s B A) as (u & U).
    apply (clash_zp H gc NR u v); [exact (append_zE _ (@Permutation_app _) a b s t u v Pab Q U V)|]. eapply C; eauto.
  - injection V as ->. apply (clash_zp H gc NR a v); [now apply pair_zE|]. eapply C; [exact J|reflexivity].
Qed.
Lemma ftsE_self : forall (E : list ent -> list ent -> Prop) f g, ftsE E f g -> ftsE (@Permutation _) f f.
Proof.
  assert (K : forall (E : list ent -> list ent -> Prop) a b, pairE E a b -> pairE (@Permutation _) a a) by (intros E a b (A & _); split; auto).
  intros E [a|s x] [b|t y] Q; simpl in *; try tauto; [eauto|]. destruct Q as (Q & P). split; [destruct s, t; try tauto; eauto|].
  clear Q. induction P; constructor; eauto.
Qed.

Definition keeps {n} (u v : tstate RF n * list (sfeats RF)) : Prop := loopsim u v /\ ready (t_red (fst u)).
Lemma words_loop : forall al1 al2 fmt1 fmt2 n (r : red RF n) ps1 ps2 need1 need2 md es1 es2 cs1 cs2 (u v : tstate RF n * list (sfeats RF)),
  get_parser H pf rd al1 false fmt1 gc r = Ok (ps1, need1) -> get_parser H pf rd al2 false fmt2 gc r = Ok (ps2, need2) ->
  gc_bits gc < 32 -> Forall2 (writes pf rd fmt1) cs1 es1 -> Forall2 (writes pf rd fmt2) cs2 es2 ->
  Forall (fun e => exam_types e = types_of r /\ exam_fits H false (gc_seed gc) e) es1 ->
  Forall (fun e => exam_types e = types_of r /\ exam_fits H false (gc_seed gc) e) es2 ->
  Forall2 (fun e e' => exam_with same_words e e' /\ exam_label e = exam_label e') es1 es2 ->
  Forall (clash_free H pf rd al1 fmt1 gc r) cs1 -> keeps u v ->
  imp keeps (train_loop false md ps1 need1 cs1 u) (train_loop false md ps2 need2 cs2 v).
Proof.
  intros al1 al2 fmt1 fmt2 n r ps1 ps2 need1 need2 md es1 es2 cs1 cs2 u v G1 G2 Hb W1 W2 F1 F2 SW. revert cs1 cs2 W1 W2 u v F1 F2. unfold train_loop.
  induction SW as [|e e' es1 es2 (Se & Le) SW IH]; intros cs1 cs2 W1 W2 u v F1 F2 CF S.
  { inversion W1; inversion W2; subst. cbn [foldm]. now apply imp_ret. }
  inversion W1 as [|c1 ? cs1' ? X1 Y1]; inversion W2 as [|c2 ? cs2' ? X2 Y2]; subst. inversion F1 as [|? ? (T1 & FT1) F1']; inversion F2 as [|? ? (T2 & FT2) F2']; inversion CF as [|? ? C1 CF']; subst.
  cbn [foldm]. eapply imp_bind; [|intros a b Sab; apply IH; [exact Y1|exact Y2|exact F1'|exact F2'|exact CF'|exact Sab]].
  destruct u as (st & ds1), v as (st' & ds2), S as ((E & P1 & P2) & RD). cbn [fst snd] in E, P1, P2, RD. subst st'. unfold train_chunk. cbn [fst snd].
  assert (K : forall al fmt ps need ds c e, get_parser H pf rd al false fmt gc r = Ok (ps, need) -> Forall looks_new ds -> writes pf rd fmt c e ->
    exam_types e = types_of r -> exam_fits H false (gc_seed gc) e ->
    exists f f0, ps ds c = Ok (f, exam_label e) /\ ps [] c = Ok (f0, exam_label e) /\ ftsim f f0 /\ holds_exam H (gc_seed gc) (gc_bits gc) e f0).
  { intros al fmt ps need ds c e0 G P W T FT. destruct (written_parsed H pf rd false al fmt gc n r ps need [] c e0 G Hb (Forall_nil _) W T FT) as (f0 & E & Hf).
    destruct (get_parser_ok H pf rd al false _ _ _ _ _ _ G) as (OK & _). pose proof (OK ds [] c P (Forall_nil _)) as Q. rewrite E in Q.
    inversion Q as [u v ((S & L) & _) Eu Ev| |]; subst. destruct u as (f & lb). cbn [fst snd] in *. subst lb. exists f, f0. auto. }
  destruct (K al1 fmt1 ps1 need1 ds1 c1 e G1 P1 X1 T1 FT1) as (f & f0 & Ef & Ef0 & Sf & Hf).
  destruct (K al2 fmt2 ps2 need2 ds2 c2 e' G2 P2 X2 T2 FT2) as (g & g0 & Eg & Eg0 & Sg & Hg).
  assert (Z0 : ftsE (@Permutation _) f0 g0) by (eapply (holds_ftsE H gc _ same_words); eauto; intros k a b; apply content_perm).
  assert (Z : ftsE (@Permutation _) f g) by exact (ftsE_sim _ _ _ _ _ Z0 Sf Sg).
  assert (C : no_clash_fts H gc f).
  { apply (clash_ftsE f0 f); [|exact (C1 _ _ _ _ G1 Ef0)]. pose proof (ftsE_self _ _ _ Z0) as Q.
    eapply ftsE_sim; [exact Q| |exact Sf]. apply ftsim_refl. exact (proj1 (ftsE_wf _ _ _ Z0)). }
  rewrite Ef, Eg. cbn [unwrap_res bind fst snd]. rewrite <- Le. eapply imp_bind; [apply process_z; eauto|].
  intros (s1 & h1) (s2 & h2) (Es & R1 & V1 & V2). cbn [fst snd] in *. subst s2. apply imp_ret. split; [|exact R1]. split; auto. cbn [fst snd].
  split; apply give_back_new; auto using skipn_new.
Qed.

Lemma words_training : forall al1 al2 o1 o2 (c : rcfg RF) R0 t1 t2 cs1 cs2 es1 es2 rep,
  ws_new H false gc c = Ok R0 -> elem_free (projT1 R0) (projT2 R0) ->
  op_mode o1 = op_mode o2 -> op_metrics o1 = op_metrics o2 -> op_period o1 = op_period o2 ->
  gc_bits gc < 32 -> es1 <> [] ->
  pieces (op_format o1) (is_multiline (fst (types_of (projT2 R0))) (snd (types_of (projT2 R0)))) t1 cs1 ->
  pieces (op_format o2) (is_multiline (fst (types_of (projT2 R0))) (snd (types_of (projT2 R0)))) t2 cs2 ->
  Forall2 (writes pf rd (op_format o1)) cs1 es1 -> Forall2 (writes pf rd (op_format o2)) cs2 es2 ->
  Forall (fun e => exam_types e = types_of (projT2 R0) /\ exam_fits H false (gc_seed gc) e) es1 ->
  Forall (fun e => exam_types e = types_of (projT2 R0) /\ exam_fits H false (gc_seed gc) e) es2 ->
  Forall2 (fun e e' => exam_with same_words e e' /\ exam_label e = exam_label e') es1 es2 ->
  Forall (clash_free H pf rd al1 (op_format o1) gc (projT2 R0)) cs1 ->
  train_command H pf rd al1 false o1 (FromConfig gc c) t1 = Ok rep -> train_command H pf rd al2 false o2 (FromConfig gc c) t2 = Ok rep.
Proof.
  intros al1 al2 o1 o2 c R0 t1 t2 cs1 cs2 es1 es2 rep EW EF M1 M2 M3 Hb NE P1 P2 W1 W2 F1 F2 SW CF. unfold train_command. cbn [open_source]. rewrite EW. cbn [bind fst snd].
  assert (RD : ready (projT2 R0)) by (split; [exact EF|exact (new_good H gc c R0 _ EW (reach_refl _ _))]).
  destruct R0 as (n & r). cbn [projT2 projT1] in *. unfold train_from.
  destruct (pieces_one RF n r (op_format o1) t1) as (d1 & E1 & _ & U1). specialize (U1 _ P1). subst d1.
  destruct (pieces_one RF n r (op_format o2) t2) as (d2 & E2 & _ & U2). specialize (U2 _ P2). subst d2.
  rewrite E1, E2, M1, M2, M3.
  assert (K : (exists ps need, get_parser H pf rd al1 false (op_format o1) gc r = Ok (ps, need)) /\ (exists ps need, get_parser H pf rd al2 false (op_format o2) gc r = Ok (ps, need))).
  { destruct SW as [|e e' es1 es2 _ SW]; [congruence|]. inversion W1; inversion W2; inversion F1 as [|? ? (T1 & _)]; inversion F2 as [|? ? (T2 & _)]; subst. split; eapply parser_made; eauto. }
  destruct K as ((ps1 & need1 & G1) & (ps2 & need2 & G2)). rewrite G1, G2. cbn [bind fst snd opt_or].
  destruct (train_start (op_metrics o2) (op_period o2) r) as [st| |] eqn:TS; cbn [bind]; try (intros X; discriminate).
  assert (Rst : t_red st = r) by (unfold train_start in TS; binv TS; inversion TS; reflexivity).
  intros X. binv X. destruct (words_loop al1 al2 (op_format o1) (op_format o2) n r ps1 ps2 need1 need2 (op_mode o2) es1 es2 cs1 cs2 (st, []) (st, [])
    G1 G2 Hb W1 W2 F1 F2 SW CF) with (x := v) as ((st2 & ds2) & L2 & ((E & _) & _)); auto.
  { split; [split; [reflexivity|split; constructor]|]. cbn [fst]. now rewrite Rst. }
  rewrite L2. cbn [bind fst] in *. rewrite <- E. exact X.
Qed.
End Run.

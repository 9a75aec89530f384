(** C21: created stacks are type correct. *)
From Coq Require Import List NArith ZArith Bool Lia.
From Verif Require Import Base FloatOps FloatB32 Model_Hash Model_Features Model_Weights Model_Loss Model_Interactions
  Model_Types Model_Explore Model_Coin Model_Stack Model_Factory Proof_Features Spec_Features Spec_Stack Spec_Types
  Proof_StackRestore Proof_StackShape Proof_StackProps.
Import ListNotations.

(** no type panic, and [Q] of the value *)
Definition nt {A} (Q : A -> Prop) (x : out A) : Prop :=
  match x with Ok a => Q a | Er _ => True | Pn p => p <> PType end.

Lemma nt_bind : forall A B (P : A -> Prop) (Q : B -> Prop) x f,
  nt P x -> (forall a, P a -> nt Q (f a)) -> nt Q (bind x f).
Proof. intros A B P Q [a|e|p] f H K; simpl in *; auto. Qed.
Lemma nt_mono : forall A (P Q : A -> Prop) x, nt P x -> (forall a, P a -> Q a) -> nt Q x.
Proof. intros A P Q [a|e|p] H K; simpl in *; auto. Qed.
Lemma nt_foldm : forall A B (f : B -> A -> out B) l b, (forall a b, nt (fun _ => True) (f b a)) -> nt (fun _ => True) (foldm f l b).
Proof. induction l as [|a l IH]; simpl; intros b H; auto. eapply nt_bind; [apply H|]. intros; now apply IH. Qed.
Lemma nt_mapm : forall A B (f : A -> out B) l, (forall a, nt (fun _ => True) (f a)) -> nt (fun _ => True) (mapm f l).
Proof.
  induction l as [|a l IH]; simpl; intros H; auto. eapply nt_bind; [apply H|]. intros b _.
  eapply nt_bind; [now apply IH|]. intros; exact I.
Qed.
Lemma nt_opt_or : forall A p (x : option A), p <> PType -> nt (fun _ => True) (opt_or p x).
Proof. intros A p [a|] H; simpl; auto. Qed.
Lemma nt_unwrap : forall A (x : out A), nt (fun _ => True) x -> nt (fun _ => True) (unwrap_res x).
Proof. intros A [a|e|p] H; simpl in *; auto. discriminate. Qed.

Ltac nts :=
  lazymatch goal with
  | |- nt _ (bind _ _) => eapply nt_bind with (P := fun _ => True); [nts|intros ? _; nts]
  | |- nt _ (foldm _ _ _) => apply nt_foldm; intros; nts
  | |- nt _ (mapm _ _) => apply nt_mapm; intros; nts
  | |- nt _ (opt_or _ _) => apply nt_opt_or; discriminate
  | |- nt _ (unwrap_res _) => apply nt_unwrap; nts
  | |- nt _ (if ?b then _ else _) => destruct b; nts
  | |- nt _ (let '(_, _) := ?x in _) => destruct x; nts
  | |- nt _ (match ?x with _ => _ end) => destruct x; nts
  | |- nt _ (Ok _) => exact I
  | |- nt _ (Er _) => exact I
  | |- nt _ (Pn _) => discriminate
  | _ => auto with nt
  end.

Create HintDb nt.

Section T.
Context {O : FOps}.
Local Notation T := (fun _ => True).

Lemma nt_mask : forall dbg nb, nt T (mask_from_bits dbg nb).
Proof. intros; unfold mask_from_bits. nts. Qed.
Hint Resolve nt_mask : nt.
Lemma nt_shl32 : forall dbg nb, nt T (constant_feature_index dbg nb).
Proof. intros; unfold constant_feature_index, bits_to_max_feature_index. nts. Qed.
Hint Resolve nt_shl32 : nt.
Lemma nt_fe : forall dbg (m : sfeats O) a b c d, nt T (fe_list dbg m a b c d).
Proof. intros; unfold fe_list. nts. Qed.
Hint Resolve nt_fe : nt.
Lemma nt_index : forall dbg (w : dweights O) a b, nt T (dw_index dbg w a b).
Proof. intros; unfold dw_index. nts. Qed.
Hint Resolve nt_index : nt.
Lemma nt_slice : forall a b (l : list O), nt T (slice a b l).
Proof. intros; unfold slice. nts. Qed.
Hint Resolve nt_slice : nt.
Lemma nt_weight : forall dbg (w : dweights O) a b, nt T (dw_weight_at dbg w a b).
Proof. intros; unfold dw_weight_at. nts. Qed.
Lemma nt_state : forall dbg (w : dweights O) a b, nt T (dw_state_at dbg w a b).
Proof. intros; unfold dw_state_at. nts. Qed.
Hint Resolve nt_weight nt_state : nt.
Lemma nt_clamp : forall x lo hi : O, nt T (f_clamp x lo hi).
Proof. intros; unfold f_clamp. nts. Qed.
Hint Resolve nt_clamp : nt.
Lemma nt_coin_predict : forall dbg (c : coin O) f, nt (fun p => pred_type_of p = PTScalar) (coin_predict dbg c f).
Proof.
  intros. unfold coin_predict, coin_feats, coin_dot. eapply nt_bind with (P := T); [nts|]. intros l _.
  eapply nt_bind with (P := T); [nts|]. intros p _. eapply nt_bind with (P := T); [nts|]. intros q _. reflexivity.
Qed.
Lemma nt_coin_learn : forall dbg (c : coin O) f v w, nt T (coin_learn dbg c f v w).
Proof.
  intros. unfold coin_learn, coin_betting_predict, coin_update, coin_feats, dw_state_upd, inner_predict, inner_update. nts.
Qed.
Hint Resolve nt_coin_learn : nt.

Lemma nt_sort : forall l : list (N * O), nt T (sort_desc l).
Proof. intros; unfold sort_desc. nts. Qed.
Lemma nt_rho : forall dbg c s (m : O) l i r rho, nt T (rho_loop dbg c s m l i r rho).
Proof.
  induction l as [|[a p] l IH]; intros; cbn [rho_loop]; [exact I|]. unfold usub. nts.
Qed.
Hint Resolve nt_sort nt_rho : nt.
Lemma nt_emp : forall dbg (e : O) c l, nt T (enforce_min_prob dbg e c l).
Proof. intros; unfold enforce_min_prob. nts. Qed.
Hint Resolve nt_emp : nt.
Lemma nt_min : forall gt (l : list (N * (N * O))) b, (forall a b, nt T (gt a b)) -> nt T (min_by_from gt b l).
Proof. induction l as [|y l IH]; intros b H; cbn [min_by_from]; [exact I|]. eapply nt_bind; [apply H|]. intros; now apply IH. Qed.
Lemma nt_minby : forall gt (l : list (N * O)), (forall a b, nt T (gt a b)) -> nt T (min_by gt l).
Proof. intros; unfold min_by. destruct (enum_from 0 l); [discriminate|]. now apply nt_min. Qed.
Lemma nt_gtp : forall a b : O, nt T (gt_partial a b).
Proof. intros; unfold gt_partial. nts. Qed.
Lemma nt_gtt : forall a b : O, nt T (gt_total a b).
Proof. intros; exact I. Qed.
Hint Resolve nt_gtp nt_gtt nt_minby : nt.
Lemma nt_greedy : forall e (l : list (N * O)), nt T (greedy_probs e l).
Proof. intros; unfold greedy_probs. nts. Qed.
Lemma nt_softmax : forall dbg u e (l : list (N * O)), nt T (softmax_probs dbg u e l).
Proof. intros; unfold softmax_probs. nts. Qed.
Lemma nt_square : forall dbg u e (l : list (N * O)), nt T (squarecb_probs dbg u e l).
Proof. intros; unfold squarecb_probs. nts. Qed.
Hint Resolve nt_greedy nt_softmax nt_square : nt.

Lemma nt_merge : forall dbg b1 b2 cb (l1 l2 : list (N * O)) d, nt T (elem_merge dbg b1 b2 cb l1 l2 d).
Proof.
  induction l1 as [|[i1 v1] l1 IH]; intros l2; [destruct l2; intros; exact I|].
  induction l2 as [|[i2 v2] l2 IH2]; intros d; [exact I|]. cbn [elem_merge]. unfold sub32, add32. nts.
Qed.
Hint Resolve nt_merge : nt.
Lemma nt_mult : forall dbg nb (f : sfeats O) a b, nt T (elem_multiply dbg nb f a b).
Proof. intros; unfold elem_multiply. nts. Qed.
Lemma nt_append : forall a s : sfeats O, nt T (sf_append a s).
Proof. intros; unfold sf_append, sf_updm_ns, sfn_adds. nts. Qed.
Lemma nt_remove : forall dbg (a s : sfeats O), nt T (sf_remove dbg a s).
Proof. intros; unfold sf_remove, sf_updm_ns, sfn_truncate_by. nts. Qed.
Hint Resolve nt_mult nt_append nt_remove : nt.
Lemma nt_append_opt : forall (a : sfeats O) s, nt T (append_opt a s).
Proof. intros a [s|]; simpl; nts. Qed.
Lemma nt_remove_opt : forall dbg (a : sfeats O) s, nt T (remove_opt dbg a s).
Proof. intros dbg a [s|]; simpl; nts. Qed.
Hint Resolve nt_append_opt nt_remove_opt : nt.
Lemma nt_ips : forall dbg a (c p : O) i, nt (fun l => label_type_of l = LTSimple) (ips_label dbg a c p i).
Proof. intros; unfold ips_label. destruct (i =? a)%N; [destruct (dbg && _)|]; simpl; auto. discriminate. Qed.
Lemma nt_inc : forall dbg d a b, nt T (depth_inc dbg d a b).
Proof. intros; unfold depth_inc, u8_mul, u8_add. nts. Qed.
Lemma nt_dec : forall dbg d a b, nt T (depth_dec dbg d a b).
Proof. intros; unfold depth_dec, u8_mul, u8_sub. nts. Qed.
Hint Resolve nt_inc nt_dec : nt.
Lemma nt_add64 : forall dbg a b, nt T (add64 dbg a b).
Proof. intros; unfold add64. nts. Qed.
Hint Resolve nt_add64 : nt.

(** ** typed stacks *)
Definition kind_td (k : kind O) (t : tdesc) : tdesc :=
  match k with
  | KBinary => mkTd LTBinary (Some LTSimple) (td_in_feats t) (Some (td_in_feats t)) (Some PTScalar) PTBinary
  | KCbAdf _ _ _ => td_cb_adf
  | KGreedy _ | KSoftmax _ _ _ | KSquareCb _ _ _ _ => td_explore
  | KElem _ _ _ _ => mkTd (td_in_label t) (Some (td_in_label t)) FTSimple (Some FTSimple) (Some (td_out_pred t)) (td_out_pred t)
  | KDebug => mkTd (td_in_label t) (Some (td_in_label t)) (td_in_feats t) (Some (td_in_feats t)) (Some (td_out_pred t)) (td_out_pred t)
  end.
Fixpoint typed (n : nat) : red O n -> Prop :=
  match n with
  | 0%nat => fun r => red_types (n := 0) r = mkTd LTSimple None FTSimple None None PTScalar
  | S m => fun r => let '(w, k, ch) := r in
      typed m ch /\ w_types w = kind_td k (red_types ch) /\ td_bad (w_types w) (red_types ch) = false
  end.

Lemma pt_eqb : forall a b, pred_type_eqb a b = true -> a = b.
Proof. destruct a, b; simpl; congruence. Qed.
Lemma lt_eqb : forall a b, label_type_eqb a b = true -> a = b.
Proof. destruct a, b; simpl; congruence. Qed.
Lemma ft_eqb : forall a b, feat_type_eqb a b = true -> a = b.
Proof. destruct a, b; simpl; congruence. Qed.
Lemma td_good : forall t b, td_bad t b = false ->
  td_out_label t = Some (td_in_label b) /\ td_out_feats t = Some (td_in_feats b) /\ td_in_pred t = Some (td_out_pred b).
Proof.
  intros t b H. unfold td_bad in H. apply orb_false_elim in H. destruct H as (H & H3).
  apply orb_false_elim in H. destruct H as (H1 & H2).
  apply negb_false_iff in H1, H2, H3. unfold opt_is in *.
  destruct (td_out_label t), (td_out_feats t), (td_in_pred t); try discriminate.
  apply lt_eqb in H1. apply ft_eqb in H2. apply pt_eqb in H3. now subst.
Qed.
Lemma td_good' : forall t b, td_out_label t = Some (td_in_label b) -> td_out_feats t = Some (td_in_feats b) ->
  td_in_pred t = Some (td_out_pred b) -> td_bad t b = false.
Proof.
  intros t b H1 H2 H3. unfold td_bad. rewrite H1, H2, H3. simpl.
  destruct (td_in_label b), (td_in_feats b), (td_out_pred b); reflexivity.
Qed.

Lemma create_typed : forall H dbg gc nma (c : rcfg O) R, create H dbg gc nma c = Ok R -> typed (projT1 R) (projT2 R).
Proof.
  induction c; intros R E; cbn [create] in E; try discriminate;
    try (binv E; apply add_level_ok in E; destruct E as (-> & B'); cbn [projT1 projT2];
         split; [apply IHc; exact B|split; [reflexivity|exact B']]; fail).
  - binv E. inversion E; subst. reflexivity.
  - assert (E' : (let* ch := create H dbg gc nma c in add_level nma td_explore (KSquareCb ueps gscale gexp 0) ch) = Ok R).
    { destruct c; auto. destruct ty; auto. discriminate. }
    clear E. rename E' into E. binv E. apply add_level_ok in E. destruct E as (-> & B').
    cbn [projT1 projT2]. split; [apply IHc; exact B|split; [reflexivity|exact B']].
Qed.

(** ** calls *)
Definition Qp (t : pred_type) (ft : feat_type) (x : prediction O * features O * N) : Prop :=
  pred_type_of (fst (fst x)) = t /\ feat_type_of (snd (fst x)) = ft.
Definition Ql {X} (P : X -> Prop) (ft : feat_type) (x : X * features O * N) : Prop :=
  P (fst (fst x)) /\ feat_type_of (snd (fst x)) = ft.

Lemma nt_wrap : forall X dbg nmb mo (f : features O) d (body : features O -> N -> out (X * features O * N)) (P : X -> Prop) ft,
  feat_type_of f = ft ->
  (forall d', nt (Ql P ft) (body f d')) -> nt (Ql P ft) (wrap dbg nmb mo f d body).
Proof.
  intros. unfold wrap. eapply nt_bind with (P := T); [nts|]. intros d1 _.
  eapply nt_bind; [apply H0|]. intros ((x & f') & d2) (Q1 & Q2). simpl in *.
  eapply nt_bind with (P := T); [nts|]. intros d3 _. destruct (dbg && _); [discriminate|]. split; auto.
Qed.

Lemma as_simple_nt : forall f : features O, feat_type_of f = FTSimple -> nt (fun s => f = FtsSimple s) (as_simple f).
Proof. intros [s|s x]; simpl; congruence. Qed.
Lemma as_cb_nt : forall f : features O, feat_type_of f = FTCb -> nt (fun s => f = FtsCb (fst s) (snd s)) (as_cb f).
Proof. intros [s|s x]; simpl; congruence. Qed.
Lemma as_scalar_nt : forall p : prediction O, pred_type_of p = PTScalar -> nt T (as_scalar p).
Proof. intros [a b|b|l|l]; simpl; congruence || auto. Qed.
Lemma as_scores_nt : forall p : prediction O, pred_type_of p = PTScores -> nt T (as_scores p).
Proof. intros [a b|b|l|l]; simpl; congruence || auto. Qed.
Lemma as_simple_label_nt : forall l : label O, label_type_of l = LTSimple -> nt T (as_simple_label l).
Proof. intros [a b|b|a c p]; simpl; congruence || auto. Qed.
Lemma as_binary_label_nt : forall l : label O, label_type_of l = LTBinary -> nt T (as_binary_label l).
Proof. intros [a b|b|a c p]; simpl; congruence || auto. Qed.
Lemma as_cb_label_nt : forall l : label O, label_type_of l = LTCb -> nt T (as_cb_label l).
Proof. intros [a b|b|a c p]; simpl; congruence || auto. Qed.

Lemma nt_elem_frame : forall X dbg one two keep nb (call : features O -> out (X * features O * N)) f (P : X -> Prop),
  feat_type_of f = FTSimple ->
  (forall f, feat_type_of f = FTSimple -> nt (Ql P FTSimple) (call f)) ->
  nt (Ql P FTSimple) (elem_frame dbg one two keep nb call f).
Proof.
  intros X dbg one two keep nb call f P Hf Hc. unfold elem_frame.
  eapply nt_bind; [now apply as_simple_nt|]. intros s ->.
  eapply nt_bind with (P := T); [nts|]. intros dest _. destruct keep.
  - eapply nt_bind; [now apply Hc|]. intros ((x & f') & d') (Q1 & Q2). split; auto.
  - simpl. eapply nt_bind with (P := T); [nts|]. intros n1 _. eapply nt_bind with (P := T); [nts|]. intros n2 _.
    eapply nt_bind; [now apply Hc|]. intros ((x & f') & d') (Q1 & Q2). split; auto.
Qed.

Lemma nt_cb_predict_loop : forall dbg child shared acts i d,
  (forall f d, feat_type_of f = FTSimple -> nt (Qp PTScalar FTSimple) (child f d 0%N)) ->
  nt T (@cb_predict_loop O dbg child shared acts i d).
Proof.
  induction acts as [|a acts IH]; intros i d H; cbn [cb_predict_loop]; [exact I|].
  eapply nt_bind with (P := T); [nts|]. intros a1 _. eapply nt_bind; [now apply H|].
  intros ((p & f') & d') (Q1 & Q2). eapply nt_bind; [now apply as_scalar_nt|]. intros sc _. simpl in *.
  eapply nt_bind with (P := T); [nts|]. intros a2 _. eapply nt_bind; [now apply IH|]. intros ((? & ?) & ?) _. exact I.
Qed.

Lemma nt_cb_ips_loop : forall X dbg (learn : X -> features O -> label O -> N -> N -> out (X * features O * N)) (P : X -> Prop)
    action cost prob shared acts i ch d,
  (forall ch f lb d, P ch -> feat_type_of f = FTSimple -> label_type_of lb = LTSimple -> nt (Ql P FTSimple) (learn ch f lb d 0%N)) ->
  P ch -> nt (fun x => P (fst (fst x))) (cb_ips_loop dbg learn action cost prob shared acts i ch d).
Proof.
  induction acts as [|a acts IH]; intros i ch d H Hc; cbn [cb_ips_loop]; [exact Hc|].
  eapply nt_bind with (P := T); [nts|]. intros a1 _. eapply nt_bind; [apply nt_ips|]. intros lb Hl.
  eapply nt_bind; [now apply H|]. intros ((ch' & f') & d') (Q1 & Q2). simpl in *.
  eapply nt_bind with (P := T); [nts|]. intros a2 _. eapply nt_bind; [now apply IH|]. intros ((? & ?) & ?) Q. exact Q.
Qed.

Ltac ktd := cbn [kind_td td_in_feats td_out_pred td_out_label td_out_feats td_in_pred td_cb_adf td_explore td_in_label] in *.

(** the reductions without the wrapper *)
Lemma kind_predict_nt : forall dbg n w k (ch : red O n) child f d mo, typed (S n) (w, k, ch) ->
  (forall f d, feat_type_of f = td_in_feats (red_types ch) ->
      nt (Qp (td_out_pred (red_types ch)) (td_in_feats (red_types ch))) (child f d 0%N)) ->
  feat_type_of f = td_in_feats (w_types w) ->
  nt (Qp (td_out_pred (w_types w)) (td_in_feats (w_types w))) (kind_predict dbg k child f d mo).
Proof.
  intros dbg n w k ch child f d mo (Hc & Hw & Hb) IH' Hf. pose proof (td_good _ _ Hb) as (B1 & B2 & B3).
  rewrite Hw in *. destruct k; ktd; cbn [kind_predict]; inversion B1 as [B1']; inversion B2 as [B2']; inversion B3 as [B3'];
      try rewrite <- B2' in *; try rewrite <- B3' in *.
    + eapply nt_bind; [apply IH'; exact Hf|]. intros ((p & f') & e) (Q1 & Q2). simpl in *.
      eapply nt_bind; [now apply as_scalar_nt|]. intros sc _. split; auto.
    + eapply nt_bind; [now apply as_cb_nt|]. intros sa _. eapply nt_bind; [apply nt_cb_predict_loop; exact IH'|].
      intros ((? & ?) & ?) _. split; auto.
    + eapply nt_bind; [apply IH'; exact Hf|]. intros ((p & f') & e) (Q1 & Q2). simpl in *.
      eapply nt_bind; [now apply as_scores_nt|]. intros sc _. eapply nt_bind with (P := T); [nts|]. intros; split; auto.
    + eapply nt_bind; [apply IH'; exact Hf|]. intros ((p & f') & e) (Q1 & Q2). simpl in *.
      eapply nt_bind; [now apply as_scores_nt|]. intros sc _. eapply nt_bind with (P := T); [nts|]. intros; split; auto.
    + eapply nt_bind; [apply IH'; exact Hf|]. intros ((p & f') & e) (Q1 & Q2). simpl in *.
      eapply nt_bind; [now apply as_scores_nt|]. intros sc _. eapply nt_bind with (P := T); [nts|]. intros; split; auto.
    + apply (nt_elem_frame _ _ _ _ _ _ _ _ (fun p => pred_type_of p = td_out_pred (red_types ch))); [exact Hf|].
      intros f0 H0. apply IH'. exact H0.
    + apply IH'. exact Hf.
Qed.

Lemma coin_body_nt : forall dbg c (f : features O) d, feat_type_of f = FTSimple ->
  nt (Qp PTScalar FTSimple) (coin_predict_body dbg c f d).
Proof.
  intros dbg c f d Hf. unfold coin_predict_body.
  eapply nt_bind; [now apply as_simple_nt|]. intros s ->. eapply nt_bind; [apply nt_coin_predict|].
  intros p Hp. split; auto.
Qed.

Lemma predict_nt : forall dbg n (r : red O n) f d mo, typed n r -> feat_type_of f = td_in_feats (red_types r) ->
  nt (Qp (td_out_pred (red_types r)) (td_in_feats (red_types r))) (predict dbg n r f d mo).
Proof.
  induction n as [|n IH]; intros r f d mo Ht Hf.
  - cbn [predict]. simpl in Ht. rewrite Ht in *.
    apply (nt_wrap _ _ _ _ _ _ _ (fun p => pred_type_of p = PTScalar) FTSimple); [exact Hf|]. intros d'.
    now apply coin_body_nt.
  - destruct r as ((w & k) & ch). 
    cbn [predict]. change (red_types (n := S n) (w, k, ch)) with (w_types w) in *.
    apply (nt_wrap _ _ _ _ _ _ _ (fun p => pred_type_of p = td_out_pred (w_types w)) _ Hf). intros d'.
    apply (kind_predict_nt _ _ _ _ _ _ _ _ _ Ht); [|exact Hf]. intros; apply IH; auto. apply Ht.
Qed.

Definition Pch {n} (ch r' : red O n) : Prop := typed n r' /\ red_types r' = red_types ch.
Definition Pk {n} (k : kind O) (ch : red O n) (x : kind O * red O n) : Prop :=
  Pch ch (snd x) /\ kind_td (fst x) (red_types ch) = kind_td k (red_types ch).

Lemma Pk_typed : forall n w k k' (ch ch' : red O n), typed (S n) (w, k, ch) -> Pk k ch (k', ch') ->
  Pch (n := S n) (w, k, ch) (w, k', ch').
Proof.
  intros n w k k' ch ch' (Hc & Hw & Hb) ((P1 & P2) & P3). cbn [fst snd] in *. split; [|reflexivity].
  split; [exact P1|]. rewrite P2. split; [now rewrite P3|exact Hb].
Qed.

Lemma kind_learn_nt : forall dbg n w k (ch : red O n) learn f lb d mo, typed (S n) (w, k, ch) ->
  (forall r f lb d, Pch ch r -> feat_type_of f = td_in_feats (red_types ch) -> label_type_of lb = td_in_label (red_types ch) ->
      nt (Ql (Pch ch) (td_in_feats (red_types ch))) (learn r f lb d 0%N)) ->
  feat_type_of f = td_in_feats (w_types w) -> label_type_of lb = td_in_label (w_types w) ->
  nt (Ql (Pk k ch) (td_in_feats (w_types w))) (kind_learn dbg k learn ch f lb d mo).
Proof.
  intros dbg n w k ch learn f lb d mo (Hc & Hw & Hb) IH' Hf Hl. pose proof (td_good _ _ Hb) as (B1 & B2 & B3).
  assert (PC : Pch ch ch) by (split; auto).
  rewrite Hw in *. destruct k; ktd; cbn [kind_learn]; inversion B1 as [B1']; inversion B2 as [B2']; inversion B3 as [B3'];
      try rewrite <- B1' in *; try rewrite <- B2' in *; try rewrite <- B3' in *.
    + eapply nt_bind; [now apply as_binary_label_nt|]. intros b _. eapply nt_bind; [apply IH'; auto|].
      intros ((ch' & f') & e) (Q1 & Q2). split; [split; [exact Q1|reflexivity]|exact Q2].
    + eapply nt_bind; [now apply as_cb_nt|]. intros (sh & acts) ->. simpl in Hf.
      eapply nt_bind; [now apply as_cb_label_nt|]. intros ((action & cost) & prob) _. destruct ty.
      * eapply nt_bind; [eapply (nt_cb_ips_loop _ dbg _ (Pch ch)); [exact IH'|exact PC]|].
        intros ((ch' & acts') & e) Q1. split; [split; [exact Q1|reflexivity]|reflexivity].
      * eapply nt_bind with (P := T); [nts|]. intros asum _. eapply nt_bind with (P := T); [nts|]. intros esum _.
        destruct sh as [sh|]; [|discriminate]. eapply nt_bind with (P := T); [nts|]. intros a _.
        eapply nt_bind with (P := T); [nts|]. intros s1 _.
        eapply nt_bind; [apply IH'; auto|]. intros ((ch' & f') & e) (Q1 & Q2).
        eapply nt_bind with (P := T); [nts|]. intros s2 _. split; [split; [exact Q1|reflexivity]|reflexivity].
    + eapply nt_bind; [apply IH'; auto|]. intros ((ch' & f') & e) (Q1 & Q2). split; [split; [exact Q1|reflexivity]|exact Q2].
    + eapply nt_bind; [apply IH'; auto|]. intros ((ch' & f') & e) (Q1 & Q2). split; [split; [exact Q1|reflexivity]|exact Q2].
    + eapply nt_bind; [now apply as_cb_label_nt|]. intros ((action & cost) & prob) _.
      eapply nt_bind; [apply IH'; auto|]. intros ((ch' & f') & e) (Q1 & Q2).
      eapply nt_bind with (P := T); [nts|]. intros cn _. split; [split; [exact Q1|reflexivity]|exact Q2].
    + eapply nt_bind; [apply (nt_elem_frame _ _ _ _ _ _ _ _ (Pch ch)); [exact Hf|]; intros; apply IH'; auto|].
      intros ((ch' & f') & e) (Q1 & Q2). split; [split; [exact Q1|reflexivity]|exact Q2].
    + eapply nt_bind; [apply IH'; auto|]. intros ((ch' & f') & e) (Q1 & Q2). split; [split; [exact Q1|reflexivity]|exact Q2].
Qed.

Lemma coin_learn_body_nt : forall dbg c (f : features O) lb d, feat_type_of f = FTSimple -> label_type_of lb = LTSimple ->
  nt (Ql T FTSimple) (coin_learn_body dbg c f lb d).
Proof.
  intros dbg c f lb d Hf Hl. unfold coin_learn_body.
  eapply nt_bind; [now apply as_simple_nt|]. intros s ->. eapply nt_bind; [now apply as_simple_label_nt|].
  intros l _. eapply nt_bind with (P := T); [nts|]. intros c' _. split; auto.
Qed.

(** an inductive step that works for a changed child *)
Lemma Pch_step : forall n (ch r : red O n) X (x : out (X * features O * N)) (P : red O n -> X -> Prop),
  Pch ch r -> (forall a b c, Pch b c -> P c a -> P b a) ->
  nt (Ql (P r) (td_in_feats (red_types r))) x -> nt (Ql (P ch) (td_in_feats (red_types ch))) x.
Proof.
  intros n ch r X x P H K N. pose proof H as (H1 & H2). rewrite <- H2. eapply nt_mono; [exact N|].
  intros a (A1 & A2). split; auto. eapply K; eauto.
Qed.
Lemma Pch_trans : forall n (a b c : red O n), Pch a b -> Pch b c -> Pch a c.
Proof. intros n a b c (H1 & H2) (H3 & H4). split; auto. congruence. Qed.

Lemma learn_nt : forall dbg n (r : red O n) f lb d mo, typed n r -> feat_type_of f = td_in_feats (red_types r) ->
  label_type_of lb = td_in_label (red_types r) ->
  nt (Ql (Pch r) (td_in_feats (red_types r))) (learn dbg n r f lb d mo).
Proof.
  induction n as [|n IH]; intros r f lb d mo Ht Hf Hl.
  - destruct r as (w & c). cbn [learn]. pose proof Ht as Ht'. simpl in Ht. rewrite Ht in *.
    apply nt_wrap; [exact Hf|]. intros d'. eapply nt_bind; [now apply coin_learn_body_nt|].
    intros ((c' & f') & d2) (_ & Hx). split; [split; [exact Ht|reflexivity]|exact Hx].
  - destruct r as ((w & k) & ch). cbn [learn]. change (red_types (n := S n) (w, k, ch)) with (w_types w) in *.
    apply nt_wrap; [exact Hf|]. intros d'.
    eapply nt_bind; [apply (kind_learn_nt _ _ w k ch); auto|].
    + intros r1 f1 lb1 d1 P1 H1 H2. pose proof P1 as (P2 & P3). rewrite <- P3 in H1, H2.
      apply (Pch_step n ch r1 _ _ (fun a => Pch a) P1); [intros a b c; apply Pch_trans|]. now apply IH.
    + intros (((k' & ch') & f') & e) (P1 & P2). split; [|exact P2]. now apply Pk_typed with (k := k) (ch := ch).
Qed.

Definition Pp {n} (r : red O n) (x : prediction O * red O n) : Prop :=
  pred_type_of (fst x) = td_out_pred (red_types r) /\ Pch r (snd x).

Lemma default_ptl_nt : forall X (p : features O -> N -> out (prediction O * features O * N))
    (l : features O -> N -> out (X * features O * N)) f d pt (P : X -> Prop) ft,
  feat_type_of f = ft -> (forall f d, feat_type_of f = ft -> nt (Qp pt ft) (p f d)) ->
  (forall f d, feat_type_of f = ft -> nt (Ql P ft) (l f d)) ->
  nt (Ql (fun x => pred_type_of (fst x) = pt /\ P (snd x)) ft) (default_ptl p l f d).
Proof.
  intros X p l f d pt P ft Hf Hp Hl. unfold default_ptl.
  eapply nt_bind; [now apply Hp|]. intros ((pr & f1) & d1) (Q1 & Q2).
  eapply nt_bind; [now apply Hl|]. intros ((x & f2) & d2) (Q3 & Q4). destruct (d2 =? d)%N; [|discriminate].
  split; auto.
Qed.

Lemma ptl_nt : forall dbg n (r : red O n) f lb d mo, typed n r -> feat_type_of f = td_in_feats (red_types r) ->
  label_type_of lb = td_in_label (red_types r) ->
  nt (Ql (Pp r) (td_in_feats (red_types r))) (predict_then_learn dbg n r f lb d mo).
Proof.
  induction n as [|n IH]; intros r f lb d mo Ht Hf Hl.
  - destruct r as (w & c). cbn [predict_then_learn]. pose proof Ht as Ht'. simpl in Ht. unfold Pp. rewrite Ht in *.
    apply nt_wrap; [exact Hf|]. intros d'. eapply nt_bind.
    { apply (default_ptl_nt _ _ _ f d' PTScalar T FTSimple); [exact Hf| |]; intros; [now apply coin_body_nt|now apply coin_learn_body_nt]. }
    intros (((p & c') & f') & d2) ((Hp & _) & Hx). split; [split; [exact Hp|split; [exact Ht|reflexivity]]|exact Hx].
  - destruct r as ((w & k) & ch). cbn [predict_then_learn]. unfold Pp. change (red_types (n := S n) (w, k, ch)) with (w_types w) in *.
    apply nt_wrap; [exact Hf|]. intros d'.
    eapply nt_bind with (P := Ql (fun x => pred_type_of (fst x) = td_out_pred (w_types w) /\ Pk k ch (snd x)) (td_in_feats (w_types w))).
    2:{ intros (((p & (k' & ch')) & f') & e) ((P0 & P1) & P2). split; [|exact P2]. split; [exact P0|].
        now apply Pk_typed with (k := k) (ch := ch). }
    assert (LN : forall r f lb d, Pch ch r -> feat_type_of f = td_in_feats (red_types ch) ->
       label_type_of lb = td_in_label (red_types ch) -> nt (Ql (Pch ch) (td_in_feats (red_types ch))) (learn dbg n r f lb d 0%N)).
    { intros r1 f1 lb1 d1 P1 H1 H2. pose proof P1 as (P2 & P3). rewrite <- P3 in H1, H2.
      apply (Pch_step n ch r1 _ _ (fun a => Pch a) P1); [intros a b c; apply Pch_trans|]. now apply learn_nt. }
    assert (PN : forall f d, feat_type_of f = td_in_feats (red_types ch) ->
      nt (Qp (td_out_pred (red_types ch)) (td_in_feats (red_types ch))) (predict dbg n ch f d 0%N)).
    { intros; apply predict_nt; auto. apply Ht. }
    assert (DF : nt (Ql (fun x => pred_type_of (fst x) = td_out_pred (w_types w) /\ Pk k ch (snd x)) (td_in_feats (w_types w)))
      (default_ptl (fun f d => kind_predict dbg k (predict dbg n ch) f d mo)
                   (fun f d => kind_learn dbg k (learn dbg n) ch f lb d mo) f d')).
    { apply default_ptl_nt; [exact Hf| |]; intros.
      - apply (kind_predict_nt _ _ w k ch); auto.
      - apply (kind_learn_nt _ _ w k ch); auto. }
    assert (Tc : typed n ch) by apply Ht.
    destruct k; cbn [kind_ptl]; try exact DF; clear DF;
      destruct Ht as (Hc & Hw & Hb); pose proof (td_good _ _ Hb) as (B1 & B2 & B3); rewrite Hw in *; ktd;
      inversion B1 as [B1']; inversion B2 as [B2']; inversion B3 as [B3'].
    + eapply nt_bind; [now apply as_binary_label_nt|]. intros b _.
      eapply nt_bind; [apply IH; [exact Tc|exact Hf|rewrite <- B1'; reflexivity]|].
      intros (((p & ch') & f') & e) ((Q1 & Q2) & Q3). cbn [fst snd] in *.
      eapply nt_bind; [apply as_scalar_nt; congruence|]. intros sc _.
      split; [split; [reflexivity|split; [exact Q2|reflexivity]]|exact Q3].
    + eapply nt_bind; [apply (nt_elem_frame _ _ _ _ _ _ _ _ (Pp ch)); [exact Hf|]; intros g Hg|].
      * rewrite B2'. apply IH; auto; congruence.
      * intros (((p & ch') & f') & e) ((Q1 & Q2) & Q3). cbn [fst snd] in *.
        split; [split; [exact Q1|split; [exact Q2|reflexivity]]|exact Q3].
    + eapply nt_bind; [apply IH; auto|]. intros (((p & ch') & f') & e) ((Q1 & Q2) & Q3). cbn [fst snd] in *.
      split; [split; [exact Q1|split; [exact Q2|reflexivity]]|exact Q3].
Qed.

(** ** C21 *)
Lemma reach_typed : forall H dbg gc (c : rcfg O) R r,
  ws_new H dbg gc c = Ok R -> reach dbg (projT2 R) r -> typed (projT1 R) r /\ red_types r = any_types R.
Proof.
  intros H dbg gc c R r E Q. pose proof (reach_shape _ _ _ _ Q) as S. pose proof (create_typed _ _ _ _ _ _ E) as Ty.
  assert (G : forall n (a b : red O n), shape n a b -> typed n a -> typed n b /\ red_types b = red_types a).
  { induction n; intros a b Sh Ta.
    - destruct Sh as (E1 & _). simpl in *. unfold red_types, red_w in *. rewrite <- E1. auto.
    - destruct a as ((w & k) & ch), b as ((w' & k') & ch'). destruct Sh as (E1 & E2 & E3). cbn [fst snd] in *. subst w'.
      destruct Ta as (T1 & T2 & T3). destruct (IHn _ _ E3 T1) as (T4 & T5). split; [|reflexivity].
      split; [exact T4|]. rewrite T5. split; [|exact T3]. rewrite T2. destruct k, k'; simpl in E2; try tauto; reflexivity. }
  destruct (G _ _ _ S Ty). auto.
Qed.

Lemma nt_spec : forall A (P : A -> Prop) x, nt P x <-> x <> Pn PType /\ forall v, x = Ok v -> P v.
Proof.
  intros A P [a|e|p]; simpl; split.
  - intros H; split; [discriminate|]. intros v E; inversion E; subst; auto.
  - intros (_ & H); auto.
  - intros; split; [discriminate|]; discriminate.
  - auto.
  - intros H; split; [congruence|discriminate].
  - intros (H & _) E. apply H. now rewrite E.
Qed.

Lemma type_correct : forall H dbg gc (c : rcfg O) R r f,
  ws_new H dbg gc c = Ok R -> reach dbg (projT2 R) r ->
  feat_type_of f = td_in_feats (any_types R) ->
  (ws_predict dbg r f <> Pn PType /\
   forall p f', ws_predict dbg r f = Ok (p, f') -> pred_type_of p = td_out_pred (any_types R)) /\
  (forall lb, label_type_of lb = td_in_label (any_types R) ->
   ws_learn dbg r f lb <> Pn PType /\
   ws_ptl dbg r f lb <> Pn PType /\
   forall p r' f', ws_ptl dbg r f lb = Ok (p, r', f') -> pred_type_of p = td_out_pred (any_types R)).
Proof.
  intros H dbg gc c R r f E Q Hf. destruct (reach_typed _ _ _ _ _ _ E Q) as (Ty & Et). rewrite <- Et in *.
  split.
  - pose proof (predict_nt dbg _ r f 0%N 0%N Ty Hf) as X. apply nt_spec in X. destruct X as (X1 & X2). unfold ws_predict. split.
    + intros K. destruct (predict dbg _ r f 0 0) as [((? & ?) & ?)|e|e]; simpl in K; try discriminate. inversion K; subst. now apply X1.
    + intros p f' K. destruct (predict dbg _ r f 0 0) as [((p1 & f1) & d1)|e|e]; simpl in K; try discriminate.
      inversion K; subst. exact (proj1 (X2 _ eq_refl)).
  - intros lb Hl. split; [|split].
    + pose proof (learn_nt dbg _ r f lb 0%N 0%N Ty Hf Hl) as X. apply nt_spec in X. destruct X as (X1 & X2). unfold ws_learn.
      intros K. destruct (learn dbg _ r f lb 0 0) as [((? & ?) & ?)|e|e]; simpl in K; try discriminate. inversion K; subst. now apply X1.
    + pose proof (ptl_nt dbg _ r f lb 0%N 0%N Ty Hf Hl) as X. apply nt_spec in X. destruct X as (X1 & X2). unfold ws_ptl.
      intros K. destruct (predict_then_learn dbg _ r f lb 0 0) as [(((? & ?) & ?) & ?)|e|e]; simpl in K; try discriminate. inversion K; subst. now apply X1.
    + pose proof (ptl_nt dbg _ r f lb 0%N 0%N Ty Hf Hl) as X. apply nt_spec in X. destruct X as (X1 & X2). unfold ws_ptl.
      intros p r' f' K. destruct (predict_then_learn dbg _ r f lb 0 0) as [(((? & ?) & ?) & ?)|e|e]; simpl in K; try discriminate.
      inversion K; subst. exact (proj1 (proj1 (X2 _ eq_refl))).
Qed.

(** ** which configurations are accepted *)
Lemma add_level_intro : forall nma td (k : kind O) ch (P : tdesc -> Prop), td_bad td (any_types ch) = false -> P td ->
  exists R, add_level nma td k ch = Ok R /\ P (any_types R).
Proof. intros nma td k ch P B Q. unfold add_level. rewrite B. eexists. split; [reflexivity|exact Q]. Qed.

Lemma wt_create : forall H dbg gc nma (c : rcfg O) l f p cfg co, wt c l f p -> base_cfg c = Some cfg ->
  coin_new H dbg cfg gc nma = Ok co ->
  exists R, create H dbg gc nma c = Ok R /\
    (fun t => td_in_label t = l /\ td_in_feats t = f /\ td_out_pred t = p) (any_types R).
Proof.
  intros H dbg gc nma c l f p cfg co W. revert cfg co.
  induction W; intros cf co Hb Hn; cbn [base_cfg] in Hb; try (destruct (IHW _ _ Hb Hn) as (R & E & E1 & E2 & E3)); cbn [create].
  - inversion Hb; subst. rewrite Hn. eexists. split; [reflexivity|]. repeat split.
  - rewrite E. cbn [bind]. apply (add_level_intro _ _ _ _ (fun t => td_in_label t = _ /\ td_in_feats t = _ /\ td_out_pred t = _)); [apply td_good'; simpl; congruence|repeat split; simpl; congruence].
  - rewrite E. cbn [bind]. apply (add_level_intro _ _ _ _ (fun t => td_in_label t = _ /\ td_in_feats t = _ /\ td_out_pred t = _)); [apply td_good'; simpl; congruence|repeat split; simpl; congruence].
  - rewrite E. cbn [bind]. apply (add_level_intro _ _ _ _ (fun t => td_in_label t = _ /\ td_in_feats t = _ /\ td_out_pred t = _)); [apply td_good'; simpl; congruence|repeat split; simpl; congruence].
  - rewrite E. cbn [bind]. apply (add_level_intro _ _ _ _ (fun t => td_in_label t = _ /\ td_in_feats t = _ /\ td_out_pred t = _)); [apply td_good'; simpl; congruence|repeat split; simpl; congruence].
  - assert (Q : match c with CCbAdf Ips _ => Er EInvalidArgument
                | _ => let* ch := create H dbg gc nma c in add_level nma td_explore (KSquareCb u g x 0) ch end
                = add_level nma td_explore (KSquareCb u g x 0) R).
    { rewrite E. destruct c; auto. destruct ty; auto. simpl in H0. tauto. }
    rewrite Q. apply (add_level_intro _ _ _ _ (fun t => td_in_label t = _ /\ td_in_feats t = _ /\ td_out_pred t = _)); [apply td_good'; simpl; congruence|repeat split; simpl; congruence].
  - rewrite E. cbn [bind]. apply (add_level_intro _ _ _ _ (fun t => td_in_label t = _ /\ td_in_feats t = _ /\ td_out_pred t = _)); [apply td_good'; simpl; congruence|repeat split; simpl; congruence].
  - rewrite E. cbn [bind]. apply (add_level_intro _ _ _ _ (fun t => td_in_label t = _ /\ td_in_feats t = _ /\ td_out_pred t = _)); [apply td_good'; simpl; congruence|repeat split; simpl; congruence].
Qed.

Lemma create_wt : forall H dbg gc nma (c : rcfg O) R, create H dbg gc nma c = Ok R ->
  wt c (td_in_label (any_types R)) (td_in_feats (any_types R)) (td_out_pred (any_types R)) /\
  exists cfg co, base_cfg c = Some cfg /\ coin_new H dbg cfg gc nma = Ok co.
Proof.
  induction c; intros R E; cbn [create] in E; try discriminate;
    try (binv E; apply add_level_ok in E; destruct E as (-> & B');
      destruct (IHc _ B) as (W & C); split; [|exact C]; pose proof (td_good _ _ B') as (B1 & B2 & B3);
      simpl in B1, B2, B3; inversion B1 as [B1']; inversion B2 as [B2']; inversion B3 as [B3'];
      rewrite <- ?B1', <- ?B2', <- ?B3' in W; constructor; try exact W; congruence).
  - binv E. inversion E; subst. split; [constructor|]. exists cfg, v. split; [reflexivity|exact B].
  - assert (E' : (let* ch := create H dbg gc nma c in add_level nma td_explore (KSquareCb ueps gscale gexp 0) ch) = Ok R /\ not_ips c).
    { destruct c; simpl; auto. destruct ty; auto. discriminate. }
    clear E. destruct E' as (E & Ni). binv E. apply add_level_ok in E. destruct E as (-> & B').
    destruct (IHc _ B) as (W & C). split; [|exact C]. pose proof (td_good _ _ B') as (B1 & B2 & B3).
    simpl in B1, B2, B3. inversion B1 as [B1']. inversion B2 as [B2']. inversion B3 as [B3'].
    rewrite <- B1', <- B2', <- B3' in W. now constructor.
Qed.

End T.

Lemma accepted_iff : forall (O : FOps) H dbg gc (c : rcfg O),
  (exists R, ws_new H dbg gc c = Ok R) <->
  (exists l f p, wt c l f p) /\ exists cfg co, base_cfg c = Some cfg /\ coin_new H dbg cfg gc 1 = Ok co.
Proof.
  intros O H dbg gc c. split.
  - intros (R & E). destruct (create_wt _ _ _ _ _ _ E) as (W & C). eauto.
  - intros ((l & f & p & W) & cfg & co & E1 & E2). destruct (wt_create _ _ _ _ _ _ _ _ _ _ W E1 E2) as (R & E & _). eauto.
Qed.

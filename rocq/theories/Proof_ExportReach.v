(** Models as JSON: every state of a workspace is exported and imported as specified. *)
From Coq Require Import String List NArith ZArith Bool Lia PeanoNat Permutation Floats.SpecFloat.
From Verif Require Import Base FloatOps FloatB32 Model_Hash Model_Features Model_Weights Model_Loss Model_Interactions
  Model_Types Model_Explore Model_Coin Model_Stack Model_Factory Model_Text Model_Json Model_Config Model_Save Model_Export
  Spec_Features Spec_Stack Spec_Weights Spec_Reductions Spec_Save Spec_Export Proof_Hash Proof_Weights Proof_WeightsProps Proof_StackRestore Proof_StackShape
  Proof_StackProps Proof_StackRel Proof_FloatZero Proof_Coin Proof_Total Proof_Save Proof_Types Proof_Inter Proof_Export.
Import ListNotations.
Open Scope N_scope.

Section Reach.
Context {O : FOps}.

(** *** the numbers fit their types *)
Lemma add64_fits : forall dbg a b v, add64 dbg a b = Ok v -> v < usz.
Proof.
  intros dbg a b v E. unfold add64 in E. destruct (a + b <? u64_mod) eqn:L.
  - apply N.ltb_lt in L. inversion E; subst. exact L.
  - destruct dbg; inversion E; subst. apply N.mod_lt. discriminate.
Qed.
Lemma kind_learn_fits : forall X dbg (k : kind O) le (ch : X) f lb d mo k' ch' f' d',
  kind_learn dbg k le ch f lb d mo = Ok ((k', ch'), f', d') -> kind_fits k -> kind_fits k'.
Proof.
  intros X dbg k le ch f lb d mo k' ch' f' d' H F. destruct k; cbn [kind_learn] in H.
  - binv H. binv H. destruct v0 as ((c' & g) & e). inversion H; subst. exact F.
  - binv H. binv H. destruct v0 as ((act & cost) & prob). destruct v as (s & x). destruct ty.
    + binv H. destruct v as ((c' & acts) & e). inversion H; subst. exact F.
    + binv H. binv H. destruct s as [sh|]; [|discriminate]. binv H. binv H. binv H.
      destruct v3 as ((c' & g) & e). binv H. inversion H; subst. split; eapply add64_fits; eauto.
  - binv H. destruct v as ((c' & g) & e). inversion H; subst. exact F.
  - binv H. destruct v as ((c' & g) & e). inversion H; subst. exact F.
  - binv H. destruct v as ((act & cost) & prob). binv H. destruct v as ((c' & g) & e). binv H.
    inversion H; subst. cbn [kind_fits]. eapply add64_fits; eauto.
  - binv H. destruct v as ((c' & g) & e). inversion H; subst. exact F.
  - binv H. destruct v as ((c' & g) & e). inversion H; subst. exact F.
Qed.
Lemma coin_learn_fits : forall dbg (c : coin O) f v w c', coin_learn dbg c f v w = Ok c' -> coin_fits c -> coin_fits c'.
Proof.
  intros dbg c f v w c' H F. apply coin_learn_shape in H. destruct H as (_ & _ & _ & _ & E1 & E2 & E3 & _).
  unfold coin_fits in *. now rewrite <- E1, <- E2, <- E3.
Qed.
Lemma learn_fits : forall dbg n (r : red O n) f lb d mo r' f' d',
  learn dbg n r f lb d mo = Ok (r', f', d') -> fits n r -> fits n r'.
Proof.
  induction n as [|n IH]; intros r f lb d mo r' f' d' H.
  - destruct r as (w & c). cbn [learn] in H. apply wrap_ok in H. destruct H as (d1 & d2 & H).
    binv H. destruct v as ((c' & g) & e). inversion H; subst. unfold coin_learn_body in B. binv B. binv B. binv B.
    inversion B; subst. cbn [fits fst snd]. intros (F1 & F2). split; auto. eapply coin_learn_fits; eauto.
  - destruct r as ((w & k) & ch). cbn [learn] in H. apply wrap_ok in H. destruct H as (d1 & d2 & H).
    binv H. destruct v as (((k' & ch') & g) & e). inversion H; subst. clear H. cbn [fits fst snd]. intros (F1 & F2 & F3).
    split; auto. split; [eapply kind_learn_fits; eauto|].
    refine (proj2 (kind_learn_shape _ (fun a b : red O n => fits n a -> fits n b)
      _ _ _ _ _ _ _ _ _ _ _ _ _ _ _ B) F3); eauto.
Qed.
Lemma ptl_fits : forall dbg n (r : red O n) f lb d mo p r' f' d',
  predict_then_learn dbg n r f lb d mo = Ok ((p, r'), f', d') -> fits n r -> fits n r'.
Proof.
  induction n as [|n IH]; intros r f lb d mo p r' f' d' H.
  - destruct r as (w & c). cbn [predict_then_learn] in H. apply wrap_ok in H. destruct H as (d1 & d2 & H).
    binv H. destruct v as (((p' & c') & g) & e). inversion H; subst. apply default_ptl_inv in B. destruct B as (g & e & B).
    unfold coin_learn_body in B. binv B. binv B. binv B.
    inversion B; subst. cbn [fits fst snd]. intros (F1 & F2). split; auto. eapply coin_learn_fits; eauto.
  - destruct r as ((w & k) & ch). cbn [predict_then_learn] in H. apply wrap_ok in H. destruct H as (d1 & d2 & H).
    binv H. destruct v as (((p' & (k' & ch')) & g) & e). inversion H; subst. clear H. cbn [fits fst snd]. intros (F1 & F2 & F3).
    split; auto.
    assert (DF : forall l, default_ptl (fun f d => kind_predict dbg k (predict dbg n ch) f d mo) l f d1 = Ok (p, (k', ch'), f', d2) ->
       l = (fun f d => kind_learn dbg k (learn dbg n) ch f lb d mo) -> kind_fits k' /\ fits n ch').
    { intros l E ->. apply default_ptl_inv in E. destruct E as (g & e & E). split; [eapply kind_learn_fits; eauto|].
      refine (proj2 (kind_learn_shape _ (fun a b : red O n => fits n a -> fits n b)
        _ _ _ _ _ _ _ _ _ _ _ _ _ _ _ E) F3); eauto using learn_fits. }
    destruct k; cbn [kind_ptl] in B; try (eapply DF; [exact B|reflexivity]).
    + binv B. binv B. destruct v0 as (((p0 & c0) & g) & e). binv B. inversion B; subst. split; [exact F2|eapply IH; eauto].
    + binv B. destruct v as (((p0 & c0) & g) & e). inversion B; subst. apply elem_frame_inv in B0.
      destruct B0 as (g0 & g1 & B0). split; [exact F2|eapply IH; eauto].
    + binv B. destruct v as (((p0 & c0) & g) & e). inversion B; subst. split; [exact F2|eapply IH; eauto].
Qed.
Lemma reach_fits : forall dbg n (r0 r : red O n), reach dbg r0 r -> fits n r0 -> fits n r.
Proof.
  intros dbg n r0 r Q F. induction Q; auto.
  - unfold ws_learn in H. binv H. destruct v as ((r1 & g) & e). inversion H; subst. eapply learn_fits; eauto.
  - unfold ws_ptl in H. binv H. destruct v as (((p1 & r1) & g) & e). inversion H; subst. eapply ptl_fits; eauto.
Qed.
Lemma nsdef_fits : forall H seed d, ns_fits (nsdef_namespace H seed d).
Proof. intros H seed []; cbn; auto. apply N.mod_lt. discriminate. Qed.
Lemma mapm_in : forall A B (f : A -> out B) l l', mapm f l = Ok l' -> forall y, In y l' -> exists x, In x l /\ f x = Ok y.
Proof.
  induction l as [|a l IH]; intros l' E y I; cbn [mapm] in E.
  - inversion E; subst. destruct I.
  - binv E. binv E. inversion E; subst. destruct I as [<-|I]; [exists a; cbn; auto|].
    destruct (IH _ B1 y I) as (x & I' & E'). exists x. cbn. auto.
Qed.
Lemma coin_new_fits : forall H dbg cfg gc nma (c : coin O), gc_bits gc < 256 -> coin_new H dbg cfg gc nma = Ok c -> coin_fits c.
Proof.
  intros H dbg cfg gc nma c B E. unfold coin_new in E. binv E. destruct v as (ps & ts).
  destruct (match cc_loss cfg with LossSquared => _ | _ => _ end) as [mn mx]. binv E. binv E. inversion E; subst. clear E B1 B2.
  unfold coin_fits; cbn [co_bits co_pairs co_triples fst snd]. split; [exact B|].
  unfold compile_interactions in B0. binv B0. binv B0. destruct (Nat.eqb _ _); [|discriminate]. inversion B0; subst. clear B0. split.
  - intros p I. destruct (mapm_in _ _ _ _ _ B1 _ I) as (i & _ & E). unfold hash_interaction in E.
    destruct (_ || _); [discriminate|]. cbn [bind] in E. destruct i as [|a [|b [|]]]; try discriminate. inversion E; subst.
    split; apply nsdef_fits.
  - intros p I. destruct (mapm_in _ _ _ _ _ B2 _ I) as (i & _ & E). unfold hash_interaction in E.
    destruct (_ || _); [discriminate|]. cbn [bind] in E. destruct i as [|a [|b [|c [|]]]]; try discriminate. inversion E; subst.
    split; [|split]; apply nsdef_fits.
Qed.
Lemma create_fits : forall H dbg gc (c : rcfg O) R, gc_bits gc < 256 -> create H dbg gc 1 c = Ok R -> fits _ (projT2 R).
Proof.
  intros H dbg gc c. induction c; intros R B E; cbn [create] in E; try discriminate;
    try (binv E; apply add_level_ok in E; destruct E as (-> & _); cbn [projT1 projT2 fits fst snd w_below];
         split; [lia|]; split; [|apply IHc; auto]; cbn [kind_fits]; unfold usz; auto using nsdef_fits; lia).
  - binv E. inversion E; subst. cbn [projT1 projT2 fits fst snd w_below]. split; [lia|]. eapply coin_new_fits; eauto.
  - assert (E' : (let* ch := create H dbg gc 1 c in add_level 1 td_explore (KSquareCb ueps gscale gexp 0) ch) = Ok R).
    { destruct c; auto. destruct ty; auto. discriminate. }
    clear E. rename E' into E. binv E. apply add_level_ok in E. destruct E as (-> & _).
    cbn [projT1 projT2 fits fst snd w_below kind_fits]. split; [lia|]. split; [unfold usz; lia|]. apply IHc; auto.
Qed.

(** *** the weight table *)
Definition tabw (w : dweights O) : Prop := dw_wf w /\ dw_msize w = 1 /\ exists b, dw_fsize w = 2 ^ b.
Definition tab (c : coin O) : Prop := tabw (co_w c).
Lemma tab_learn : forall dbg c f v w c', tab c -> coin_learn dbg c f v w = Ok c' -> tab c'.
Proof.
  intros dbg c f v w c' T E. unfold tab. unfold coin_learn in E. binv E. unfold coin_betting_predict in B. binv B. binv B. binv B. binv B.
  inversion B; subst; clear B. cbn [fst snd] in E. unfold coin_update in E. binv E. binv E. inversion E; subst.
  cbn [co_w] in *. revert B4. apply (foldm_inv _ _ tabw); [exact T|].
  intros a b w1 _ (Hb & Hm & Hf) Hu. split; [|split].
  - eapply upd_wf; [exact Hb| |exact Hu]. intros; eapply inner_update_len; eauto.
  - apply dw_state_upd_shape in Hu. destruct Hu as (_ & <- & _). exact Hm.
  - apply dw_state_upd_shape in Hu. destruct Hu as (<- & _). exact Hf.
Qed.
Lemma tab_new : forall H dbg cfg gc (c : coin O), coin_new H dbg cfg gc 1 = Ok c -> tab c.
Proof.
  intros H dbg cfg gc c E. split; [|split].
  - destruct (coin_new_wf _ _ _ _ _ _ E) as (W & _); [lia|]. apply W.
  - destruct (coin_new_table _ _ _ _ _ _ E) as (fs & E'). unfold dw_new in E'. binv E'. binv E'. binv E'.
    destruct (64 <? _); [discriminate|]. binv E'. binv E'. inversion E' as [Q]. reflexivity.
  - destruct (coin_new_wf _ _ _ _ _ _ E) as (_ & B & _); [lia|]. unfold bits_to_max_feature_index in B.
    destruct (gc_bits gc <? 32); [inversion B; eauto|]. destruct dbg; inversion B; eauto.
Qed.
Lemma size_pow : forall b, N.size (2 ^ b - 1) = b.
Proof.
  intros [|b]; [reflexivity|]. rewrite N.size_log2.
  - rewrite <- N.pred_sub, N.log2_pred_pow2 by lia. lia.
  - pose proof (N.pow_gt_lin_r 2 (N.pos b)). lia.
Qed.
Definition last2 (k : nat) (x : O) : Prop := (6 <= k)%nat -> x = f0.
Lemma tab_pad : forall w : dweights O, tabw w -> tinv last2 w -> pad_zero w.
Proof.
  intros w (W & M & b & Fs) (S1 & S2 & _ & I) j J.
  destruct (Nat.lt_ge_cases j (length (dw_w w))) as [L|L]; [|now apply nth_overflow].
  apply I. destruct (Nat.lt_ge_cases (j mod 8) 6) as [K|K]; [exfalso|exact K].
  destruct W as (_ & _ & _ & _ & _ & _ & G & _ & Ln). rewrite M in G. cbn in G. rewrite G, S1, Fs, size_pow in Ln.
  pose proof (Nat.div_mod j 8 ltac:(lia)) as DM.
  assert (C : cell_of w (N.of_nat (j / 8)) 0 = (8 * (j / 8))%nat).
  { unfold cell_of. rewrite G, S1, cell_eq. change (2 ^ 0) with 1. change (2 ^ 3) with 8. lia. }
  apply (J (N.of_nat (j / 8)) 0).
  - rewrite Fs. change (2 ^ 0) with 1 in Ln. change (2 ^ 3) with 8 in Ln. lia.
  - lia.
  - rewrite C, S2. change (N.to_nat 6) with 6%nat. lia.
Qed.
Lemma reach_table : forall H dbg gc (c : rcfg O) R r, ws_new H dbg gc c = Ok R -> reach dbg (projT2 R) r ->
  let w := co_w (bottom (projT1 R) r) in dw_wf w /\ pad_zero w /\ 4 * N.of_nat (length (dw_w w)) < 9223372036854775808.
Proof.
  intros H dbg gc c R r E Q w.
  assert (T : tab (bottom (projT1 R) r)).
  { refine (reach_coin tab tab_learn dbg _ _ _ Q _). destruct (create_coin _ _ _ _ _ _ E) as (cfg & N0). eapply tab_new; eauto. }
  assert (V : tinv last2 w).
  { eapply reach_tinv; eauto; [intros k _; reflexivity|]. intros cfg avg u x st st' _ _ k K K'. lia. }
  split; [apply T|]. split; [now apply tab_pad|apply V].
Qed.

(** *** exporting and importing *)
Context (zf : forall x : O, f_eqb O x f0 = true -> finite x) (zz : f_eqb O f0 f0 = true).
Lemma forallb_finite : forall l : list O, forallb finb l = true <-> forall x, In x l -> finite x.
Proof. intro l. rewrite forallb_forall. split; intros F x I; apply finb_iff; auto. Qed.

Lemma export_import : forall H dbg gc (c : rcfg O) R r ex ord ord' d1 d2,
  ws_new H dbg gc c = Ok R -> reach dbg (projT2 R) r -> gc_bits gc < 256 -> gc_seed gc < 2 ^ 32 ->
  plain ex -> any_order ord -> any_order ord' ->
  (~ finite_weights r -> ws_export d1 ord ex gc (existT _ _ r) = Pn PErr) /\
  (finite_weights r -> exists v, ws_export d1 ord ex gc (existT _ _ r) = Ok v /\
     (~ finite_numbers r -> ws_import d2 ord' v = Er EInvalidConfiguration) /\
     (finite_numbers r -> exists r', ws_import d2 ord' v = Ok (gc, existT _ _ r') /\
        ws_load _ (ws_save _ r) = Ok r' /\ forall d, ws_export d ord ex gc (existT _ _ r') = Ok v)).
Proof.
  intros H dbg gc c R r ex ord ord' d1 d2 E Q B S P A A'.
  destruct (reach_table _ _ _ _ _ _ E Q) as (W & Pz & L).
  assert (F : fits _ r). { eapply reach_fits; eauto. eapply create_fits; eauto. }
  pose proof (fun d => export_eq zf ex P gc _ r W L d ord) as EE.
  rewrite EE. split.
  - intros N. destruct (forallb finb _) eqn:X; auto. destruct N. intros x. apply forallb_finite. exact X.
  - intros FW. assert (X : forallb finb (dw_w (co_w (bottom _ r))) = true) by (now apply forallb_finite). rewrite X.
    exists (w_workspace (fun _ => as_rows ord (co_w (bottom _ r))) ex gc (existT _ _ r)). split; [reflexivity|].
    pose proof (import_eq zf zz ex P gc _ r B S F W Pz L d2 ord ord' A A' X) as EI. rewrite EI. split.
    + intros N. destruct (forallb finb (numbers _ r)) eqn:Y; auto. destruct N. intros x. apply forallb_finite. exact Y.
    + intros FN. assert (Y : forallb finb (numbers _ r) = true) by (now apply forallb_finite). rewrite Y.
      eexists. split; [reflexivity|]. split; [now apply put_load|].
      intros d. specialize (EE d). rewrite X in EE. rewrite <- EE. unfold ws_export, w_workspace. cbn [projT1 projT2].
      now rewrite w_red_put.
Qed.
End Reach.

(** ** binary32 *)
Section B32.
Context (e l : b32 -> b32) (p : b32 -> b32 -> b32).
Local Notation O := (BF e l p).
Lemma b_zf : forall x : O, f_eqb O x f0 = true -> finite x.
Proof. intros [s|[]| |s m x] E; try discriminate E; split; reflexivity. Qed.
Lemma b_export_import : forall H dbg gc (c : rcfg O) R r ex ord ord' d1 d2,
  ws_new H dbg gc c = Ok R -> reach dbg (projT2 R) r -> gc_bits gc < 256 -> gc_seed gc < 2 ^ 32 ->
  plain ex -> any_order ord -> any_order ord' -> finite_weights r -> finite_numbers r ->
  exists v r', ws_export d1 ord ex gc (existT _ _ r) = Ok v /\ ws_import d2 ord' v = Ok (gc, existT _ _ r') /\
    (forall d cs, answers d r' cs = answers d r cs) /\ (forall d, ws_export d ord ex gc (existT _ _ r') = Ok v) /\
    ws_load _ (ws_save _ r) = Ok r'.
Proof.
  intros H dbg gc c R r ex ord ord' d1 d2 E Q B S P A A' FW FN.
  destruct (export_import b_zf eq_refl _ _ _ _ _ _ ex ord ord' d1 d2 E Q B S P A A') as (_ & X).
  destruct (X FW) as (v & V1 & _ & V2). destruct (V2 FN) as (r' & I & L & EX).
  destruct (save_load_b32 e l p _ _ _ _ _ _ E Q) as (r2 & L2 & An & _). assert (r2 = r') by congruence. subst r2.
  exists v, r'. auto.
Qed.
Lemma b_export_fails : forall H dbg gc (c : rcfg O) R r ex ord ord' d1 d2,
  ws_new H dbg gc c = Ok R -> reach dbg (projT2 R) r -> gc_bits gc < 256 -> gc_seed gc < 2 ^ 32 ->
  plain ex -> any_order ord -> any_order ord' ->
  (~ finite_weights r -> ws_export d1 ord ex gc (existT _ _ r) = Pn PErr) /\
  (finite_weights r -> ~ finite_numbers r ->
   exists v, ws_export d1 ord ex gc (existT _ _ r) = Ok v /\ ws_import d2 ord' v = Er EInvalidConfiguration).
Proof.
  intros H dbg gc c R r ex ord ord' d1 d2 E Q B S P A A'.
  destruct (export_import b_zf eq_refl _ _ _ _ _ _ ex ord ord' d1 d2 E Q B S P A A') as (X & Y).
  split; auto. intros FW FN. destruct (Y FW) as (v & V1 & V2 & _). eauto.
Qed.
End B32.

(** ** Concrete models *)
Definition xp_lb : label BF0 := LbCb 1 f1 (f_lit BF0 1 2).
Definition xp_cfg : rcfg BF0 := CSquareCb f0 (fl 10) (f_lit BF0 1 2) (CCbAdf Mtr (CCoin coin_default)).
Definition xp_child : jrc BF0 := (lit "CbAdf", Some (JObj [])).
Definition xp_extra (j : jrc BF0) : nat -> extra BF0 := fun _ => mkExtra j [] 0 false false false.
Lemma xp_plain : plain (xp_extra xp_child).
Proof.
  intros n. split; [reflexivity|]. intros v E T. injection E as <-. inversion T as [? K|? ? ? I|]; subst.
  - destruct (K "weights"%string (or_introl eq_refl)).
  - destruct I.
Qed.
Lemma any_order_id : any_order (O:=BF0) (fun l => l). Proof. intro l. reflexivity. Qed.
Lemma any_order_rev : any_order (O:=BF0) (@rev _). Proof. intro l. symmetry. apply Permutation_rev. Qed.

(** after one example, all numbers are finite and some weights are not zero *)
Lemma xp_trained : exists R r f', ws_new ex_hash false ex_gc xp_cfg = Ok R /\ ws_learn false (projT2 R) ex_fts xp_lb = Ok (r, f') /\
  finite_weights r /\ finite_numbers r /\ existsb (fun x => negb (f_eqb BF0 x f0)) (weights_of r) = true.
Proof.
  assert (C : match ws_new ex_hash false ex_gc xp_cfg with
              | Ok R => match ws_learn false (projT2 R) ex_fts xp_lb with
                        | Ok (r, _) => forallb finb (weights_of r) && forallb finb (numbers _ r) && existsb (fun x => negb (f_eqb BF0 x f0)) (weights_of r)
                        | _ => false end
              | _ => false end = true) by (vm_compute; reflexivity).
  destruct (ws_new ex_hash false ex_gc xp_cfg) as [R| |] eqn:E; try discriminate C. exists R.
  destruct (ws_learn false (projT2 R) ex_fts xp_lb) as [[r f']| |] eqn:L; try discriminate C. exists r, f'.
  apply andb_true_iff in C. destruct C as (C & C3). apply andb_true_iff in C. destruct C as (C1 & C2).
  split; [reflexivity|]. split; [reflexivity|]. split; [intros x; apply forallb_finite; exact C1|].
  split; [intros x; apply forallb_finite; exact C2|exact C3].
Qed.

(** one feature with the value 3e38 *)
Definition xp_big : features BF0 :=
  FtsSimple ((match fops_run true [FAdd 0 (NsNamed 7) 5%N (f_mul BF0 (fl 3) (f_lit BF0 (10 ^ 38) 1))] fstore0 with Ok st => st | _ => fstore0 end) 0%nat).
Definition xp_coin (alpha : BF0) : rcfg BF0 := CCoin (mkCoinCfg alpha f1 f0 f0 LossSquared LinkIdentity).
Lemma xp_panic : exists R r f', ws_new ex_hash false ex_gc (xp_coin (fl 4)) = Ok R /\
  ws_learn false (projT2 R) xp_big (LbSimple (fl 10) f1) = Ok (r, f') /\ ~ finite_weights r /\
  ws_export false (fun l => l) (xp_extra xp_child) ex_gc (existT _ _ r) = Pn PErr.
Proof.
  assert (C : match ws_new ex_hash false ex_gc (xp_coin (fl 4)) with
              | Ok R => match ws_learn false (projT2 R) xp_big (LbSimple (fl 10) f1) with
                        | Ok (r, _) => negb (forallb finb (weights_of r))
                        | _ => false end
              | _ => false end = true) by (vm_compute; reflexivity).
  destruct (ws_new ex_hash false ex_gc (xp_coin (fl 4))) as [R| |] eqn:E; try discriminate C. exists R.
  destruct (ws_learn false (projT2 R) xp_big (LbSimple (fl 10) f1)) as [[r f']| |] eqn:L; try discriminate C. exists r, f'.
  split; [reflexivity|]. split; [reflexivity|]. assert (N : ~ finite_weights r).
  { intro F. apply negb_true_iff in C. unfold finite_weights in F. apply forallb_finite in F. unfold weights_of in C. congruence. }
  split; [exact N|]. eapply (proj1 (b_export_fails _ _ _ ex_hash false ex_gc _ R r _ _ (fun l => l) false false E (reach_learn _ _ _ _ _ _ _ (reach_refl _ _) L) eq_refl eq_refl xp_plain any_order_id any_order_id)). exact N.
Qed.

(** alpha is infinite, as 1e39 read into an f32 *)
Lemma xp_lost : exists R, ws_new ex_hash false ex_gc (xp_coin (S754_infinity false)) = Ok R /\
  finite_weights (projT2 R) /\ ~ finite_numbers (projT2 R).
Proof.
  assert (C : match ws_new ex_hash false ex_gc (xp_coin (S754_infinity false)) with
              | Ok R => forallb finb (weights_of (projT2 R)) && negb (forallb finb (numbers _ (projT2 R)))
              | _ => false end = true) by (vm_compute; reflexivity).
  destruct (ws_new ex_hash false ex_gc (xp_coin (S754_infinity false))) as [R| |] eqn:E; try discriminate C. exists R.
  apply andb_true_iff in C. destruct C as (C1 & C2). split; [reflexivity|].
  split; [intros x; apply forallb_finite; exact C1|]. intro F. unfold finite_numbers in F. apply forallb_finite in F.
  rewrite F in C2. discriminate C2.
Qed.

(** A configuration with the keys of a weight table among the options of the squared loss
    (which has none, and accepts any).  Softmax keeps the description of its child. *)
Definition xp_loss : json BF0 := JObj [(lit "Squared", JObj (map (fun k => (lit k, JNull)) table_keys))].
Definition xp_inner : json BF0 :=
  JObj [(lit "regressor", JObj [(lit "typename", JStr (lit "Coin")); (lit "config", JObj [(lit "lossFunction", xp_loss)])])].
Definition xp_file : json BF0 :=
  JObj [(lit "globalConfig", JObj [(lit "numBits", juint 4)]);
        (lit "entryReduction", JObj [(lit "typename", JStr (lit "CbExploreAdfSoftmax"));
          (lit "config", JObj [(lit "cbAdf", JObj [(lit "typename", JStr (lit "CbAdf")); (lit "config", xp_inner)])])])].
Lemma xp_keys : exists g R, load ex_hash false xp_file = Ok (g, R) /\ finite_weights (projT2 R) /\ finite_numbers (projT2 R) /\
  ws_export false (fun l => l) (xp_extra (lit "CbAdf", Some xp_inner)) g R = Pn PErr.
Proof.
  assert (C : match load ex_hash false xp_file with
              | Ok (g, R) => forallb finb (weights_of (projT2 R)) && forallb finb (numbers _ (projT2 R)) &&
                  match ws_export false (fun l => l) (xp_extra (lit "CbAdf", Some xp_inner)) g R with Pn PErr => true | _ => false end
              | _ => false end = true) by (vm_compute; reflexivity).
  destruct (load ex_hash false xp_file) as [[g R]| |] eqn:E; try discriminate C. exists g, R.
  apply andb_true_iff in C. destruct C as (C & C3). apply andb_true_iff in C. destruct C as (C1 & C2).
  split; [reflexivity|]. split; [intros x; apply forallb_finite; exact C1|].
  split; [intros x; apply forallb_finite; exact C2|].
  destruct (ws_export _ _ _ _ _) as [| |[]]; try discriminate C3. reflexivity.
Qed.

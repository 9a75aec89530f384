(** Features that no training example had: debug builds, no interactions, single precision (C99). *)
From Coq Require Import List NArith ZArith PeanoNat Bool Lia Permutation Reals Lra SpecFloat.
From Verif Require Import Base FloatOps FloatR FloatB32 Model_Hash Model_Features Model_Weights Model_Loss Model_Interactions
  Model_Types Model_Explore Model_Coin Model_Stack Model_Factory Spec_Foreach Spec_Features Spec_Weights Spec_Coin Spec_Stack Spec_Reductions Spec_Total Spec_Order Spec_Inter Spec_Empty Spec_Delegate Spec_Shuffle Spec_Merge Spec_Builds Spec_Elem Spec_ElemStack Spec_Trained Spec_Unseen
  Proof_Features Proof_Foreach Proof_Weights Proof_WeightsProps Proof_FloatOrder Proof_Coin Proof_StackRestore Proof_StackShape Proof_StackProps Proof_StackCong Proof_StackRel Proof_Loose Proof_Total Proof_Order Proof_Inter Proof_Empty Proof_EmptyProps Proof_Context Proof_Elem Proof_ElemStack Proof_Trained Proof_Shuffle Proof_Builds Proof_Merge Proof_DebugToo Proof_Unseen.
Import ListNotations.
Open Scope N_scope.

Lemma unseen_debug : forall H gc (NR : no_repeat H gc) (c : rcfg RF) R0 h tss r f g p q f' g',
  ws_new H true gc c = Ok R0 -> gc_bits gc < 32 -> elem_free (projT1 R0) (projT2 R0) ->
  Forall2 (shows (projT2 R0)) h tss -> learn_all true (projT2 R0) h = Ok r ->
  sound_fts f -> sound_fts g -> all_below (2 ^ gc_bits gc) f -> all_below (2 ^ gc_bits gc) g ->
  like_fts (bottom _ (projT2 R0)) (seen (bottom _ (projT2 R0)) (concat tss)) f g ->
  ws_predict true r f = Ok (p, f') -> ws_predict true r g = Ok (q, g') -> p = q.
Proof.
  intros H gc NR c R0 h tss r f g p q f' g' E Hb EF F L Sf Sg Bf Bg Lk W V.
  pose proof (ag_wnew (O:=RF) H gc c) as A. rewrite E in A.
  pose proof (ag_wpredict _ r f) as B. rewrite W in B. pose proof (ag_wpredict _ r g) as C. rewrite V in C. cbn [agree] in A, B, C.
  destruct (unseen_predict H gc NR c R0 h tss r f g p f' A Hb EF F (rel_all _ _ _ _ L) Sf Sg Bf Bg Lk B) as (g2 & D). rewrite C in D. congruence.
Qed.

(** ** no interactions *)
Lemma like_same : forall H gc (c : coin RF) (P : N -> Prop) a b, good H gc c -> gc_inter gc = [] -> fwf a -> fwf b -> quiet a -> quiet b ->
  (forall k i, P i -> value_at i (feats_of k a) = value_at i (feats_of k b)) -> like c P a b.
Proof.
  intros H gc c P a b (_ & S & _ & Cc) GI Wa Wb Qa Qb E l k L K i Hi.
  rewrite GI in S. assert (E1 : co_pairs c = [] /\ co_triples c = []) by (inversion S; auto). destruct E1 as (E1 & E2).
  unfold fe_list in L, K. rewrite E1, E2 in L, K. cbn [flat_map app] in L, K.
  destruct (mask_from_bits false (co_bits c)) as [mk|?|?]; try discriminate. cbn [bind] in *.
  destruct (if co_const c then _ else _) as [z|?|?]; try discriminate. cbn [bind] in *. inversion L; inversion K; subst.
  rewrite !value_app. f_equal. apply all_value; auto.
Qed.
Lemma same_like : forall H gc (c : coin RF) (P : N -> Prop) f g, good H gc c -> gc_inter gc = [] -> sound_fts f -> sound_fts g ->
  same_fts_on P f g -> like_fts c P f g.
Proof.
  intros H gc c P [a|s x] [b|t y] G GI Sf Sg S; simpl in S; try tauto.
  - destruct (sound_quiet a Sf) as (Wa & Qa), (sound_quiet b Sg) as (Wb & Qb). apply (like_same H gc); auto.
    intros k i Hi. specialize (S k i Hi). now rewrite !in_ns_feats in S by auto.
  - destruct Sf as (Sx & Ss), Sg as (Sy & St), S as (S1 & S2). split; [destruct s, t; try tauto; split; discriminate|].
    induction S2 as [|a b x y Sab S2 IH]; constructor; [|apply IH; intros z Hz; [apply Sx|apply Sy]; now right].
    assert (Sa : sound a) by (apply Sx; now left). assert (Sb : sound b) by (apply Sy; now left).
    destruct (sound_quiet a Sa) as (Wa & Qa), (sound_quiet b Sb) as (Wb & Qb).
    intros u v U V. destruct s as [s|], t as [t|]; cbn [with_context] in U, V; try tauto.
    + destruct (sound_quiet s Ss) as (Ws & Qs), (sound_quiet t St) as (Wt & Qt).
      destruct (append_feats a s u Wa Ws Qa U) as (Wu & Qu & Fu). destruct (append_feats b t v Wb Wt Qb V) as (Wv & Qv & Fv).
      apply (like_same H gc); auto. intros k i Hi. rewrite Fu, Fv, !value_app.
      specialize (S1 k i Hi). specialize (Sab k i Hi). rewrite !in_ns_feats in S1, Sab by auto. now rewrite S1, Sab.
    + inversion U; inversion V; subst. apply (like_same H gc); auto. intros k i Hi. specialize (Sab k i Hi). now rewrite !in_ns_feats in Sab by auto.
Qed.
Lemma no_inter_repeat : forall H gc, gc_inter gc = [] -> no_repeat H gc.
Proof. intros H gc E. unfold no_repeat. rewrite E. constructor. Qed.
Lemma unseen_namespaces : forall H gc (c : rcfg RF) R0 h tss r f g p f',
  ws_new H false gc c = Ok R0 -> gc_bits gc < 32 -> elem_free (projT1 R0) (projT2 R0) -> gc_inter gc = [] ->
  Forall2 (shows (projT2 R0)) h tss -> learn_all false (projT2 R0) h = Ok r ->
  sound_fts f -> sound_fts g -> all_below (2 ^ gc_bits gc) f -> all_below (2 ^ gc_bits gc) g ->
  same_fts_on (seen (bottom _ (projT2 R0)) (concat tss)) f g ->
  ws_predict false r f = Ok (p, f') -> exists g', ws_predict false r g = Ok (p, g').
Proof.
  intros H gc c R0 h tss r f g p f' E Hb EF GI F L Sf Sg Bf Bg S.
  apply (unseen_predict H gc (no_inter_repeat H gc GI) c R0 h tss r f g p f' E Hb EF F L Sf Sg Bf Bg).
  exact (same_like H gc _ _ f g (new_good H gc c R0 _ E (reach_refl _ _)) GI Sf Sg S).
Qed.

(** ** single precision *)
Definition zro (x : b32) : Prop := exists s, x = S754_zero s.
Definition near (x y : b32) : Prop := x = y \/ zro x /\ zro y.
Lemma near_mul : forall v s, b_isnan v = false -> b_isinf v = false -> zro (b_mul v (S754_zero s)).
Proof. intros [t|t| |t m e] s A B; try discriminate; eexists; reflexivity. Qed.
Lemma near_drop : forall x y z, near x y -> zro z -> near (b_add x z) y.
Proof.
  intros x y z [<- | ((s & ->) & (s' & ->))] (t & ->).
  - destruct x as [u|u| |u m e]; [right|left; reflexivity|left; reflexivity|left; reflexivity]. destruct u, t; split; eexists; reflexivity.
  - right. destruct s, t; split; eexists; reflexivity.
Qed.
Lemma near_add : forall x y z, near x y -> near (b_add x z) (b_add y z).
Proof.
  intros x y z [<- | ((s & ->) & (s' & ->))]; [now left|].
  destruct z as [t|t| |t m e]; [right|left; reflexivity|left; reflexivity|left; reflexivity]. destruct s, s', t; split; eexists; reflexivity.
Qed.
Lemma eqb_self : forall x, b_isnan x = false -> SFeqb x x = true.
Proof.
  intros [s|s| |s m e] A; try discriminate; destruct s; try reflexivity; unfold SFeqb, SFcompare; rewrite Z.compare_refl;
    try (change (Pos.compare_cont Eq m m) with (Pos.compare m m)); rewrite Pos.compare_refl; reflexivity.
Qed.
Section Single.
Context (e l0 : b32 -> b32) (q0 : b32 -> b32 -> b32).
Notation O := (BF e l0 q0).
Lemma dot_near : forall (c : coin O) P (w : N -> b32) l k, leaves_out P l k ->
  (forall i, In i (map fst l) -> dw_weight_at false (co_w c) i 0 = Ok (w i) /\ (~ P i -> zro (w i))) ->
  forall x y : b32, near x y -> exists p q : b32,
    foldm (fun acc iv => let* w := dw_weight_at false (co_w c) (fst iv) 0 in Ok (f_add O acc (f_mul O (snd iv) w))) l x = Ok p /\
    foldm (fun acc iv => let* w := dw_weight_at false (co_w c) (fst iv) 0 in Ok (f_add O acc (f_mul O (snd iv) w))) k y = Ok q /\ near p q.
Proof.
  intros c P w l k D. induction D as [|(i & v) l k D IH|i v l k Ni Fn Fi D IH]; intros V x y N.
  - exists x, y. repeat split; auto.
  - cbn [foldm fst snd]. destruct (V i (or_introl eq_refl)) as (-> & _). cbn [bind]. apply IH; [intros j Hj; apply V; now right|]. now apply near_add.
  - cbn [foldm fst snd]. destruct (V i (or_introl eq_refl)) as (-> & Z). cbn [bind]. apply IH; [intros j Hj; apply V; now right|].
    apply near_drop; auto. destruct (Z Ni) as (s & ->). now apply near_mul.
Qed.
Lemma left_in : forall P (l k : list (N * O)), leaves_out P l k -> forall p, In p k -> In p l.
Proof. intros P l k D. induction D; intros p0 Hp; auto; [destruct Hp as [<-|Hp]; [now left|right; auto]|right; auto]. Qed.
Lemma unseen_single : forall H gc (cfg : coin_config O) R0 h tss r a b l k y q f',
  ws_new H false gc (CCoin cfg) = Ok R0 -> gc_bits gc < 32 ->
  Forall2 (shows (projT2 R0)) h tss -> learn_all false (projT2 R0) h = Ok r -> below (2 ^ gc_bits gc) a ->
  let c := bottom _ (projT2 R0) in
  fe_list false a (co_pairs c) (co_triples c) (co_bits c) (co_const c) = Ok l ->
  fe_list false b (co_pairs c) (co_triples c) (co_bits c) (co_const c) = Ok k ->
  leaves_out (seen c (concat tss)) l k ->
  ws_predict false r (FtsSimple a) = Ok (PrScalar y q, f') ->
  exists y' q', ws_predict false r (FtsSimple b) = Ok (PrScalar y' q', FtsSimple b) /\ f_eqb O q q' = true.
Proof.
  intros H gc cfg R0 h tss r a b l k y q f' E Hb F L Ba c La Lb D P.
  destruct (unseen_zero (BF_ford e l0 q0) H gc (CCoin cfg) R0 h tss r E Hb F L) as (W & Fs & Fe & U). fold c in U, Fe.
  pose proof (Fe a) as Fa. pose proof (Fe b) as Fb. unfold coin_feats in Fa at 2. unfold coin_feats in Fb at 2. rewrite La in Fa. rewrite Lb in Fb.
  assert (Il : forall i, In i (map fst l) -> i < 2 ^ gc_bits gc).
  { intros i Hi. apply in_map_iff in Hi. destruct Hi as ((j & v) & <- & Hi). destruct (feats_ok false _ a W ltac:(now rewrite Fs)) as (l2 & L2 & I2).
    rewrite Fa in L2. inversion L2; subst. rewrite <- Fs. exact (I2 _ _ Hi). }
  assert (V : forall i, In i (map fst l) -> dw_weight_at false (co_w (bottom _ r)) i 0 = Ok (nth 0 (read (co_w (bottom _ r)) i 0) f0) /\
    (~ seen c (concat tss) i -> zro (nth 0 (read (co_w (bottom _ r)) i 0) f0))).
  { intros i Hi. assert (X := weight_ok _ _ i W ltac:(rewrite Fs; now apply Il)). split; [exact X|]. intros Ns.
    rewrite (U i (Il i Hi) Ns) in X. exists false. exact (eq_sym (f_equal (fun o => match o with Ok z => z | _ => f0 end) X)). }
  destruct (dot_near (bottom _ r) _ (fun i => nth 0 (read (co_w (bottom _ r)) i 0) (@f0 O)) l k D V (@f0 O) (@f0 O) (or_introl eq_refl)) as (u & v & Du & Dv & Nv).
  clear V Il U D F L Fe. unfold ws_new in E. cbn [create] in E. binv E. inversion E; subst. cbn [projT1 projT2] in *. destruct r as (w & cr). cbn [bottom snd] in *.
  unfold ws_predict in *. cbn [predict fst snd] in *. unfold wrap, coin_predict_body in *. cbn [as_simple bind] in *.
  destruct (depth_inc _ _ _ _) as [d1|?|?]; cbn [bind] in *; try discriminate. unfold coin_predict in *. rewrite Fa in P. rewrite Fb. cbn [bind] in *.
  unfold coin_dot in *. rewrite Du in P. rewrite Dv. cbn [bind] in *. unfold f_clamp in *. destruct (f_leb O (co_min cr) (co_max cr)); cbn [bind] in *; try discriminate.
  destruct (depth_dec _ _ _ _) as [d3|?|?]; cbn [bind andb] in *; inversion P; subst. eexists _, _. split; [reflexivity|].
  change (f_isnan O) with b_isnan. change (f_eqb O) with SFeqb. destruct Nv as [<- | ((s & ->) & (s' & ->))].
  - destruct (b_isnan u) eqn:NU; [reflexivity|]. now apply eqb_self.
  - destruct s, s'; reflexivity.
Qed.
End Single.

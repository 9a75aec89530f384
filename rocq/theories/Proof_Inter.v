(** C35: configured interactions. *)
From Coq Require Import List NArith ZArith Bool Lia.
From Verif Require Import Base FloatOps Model_Hash Model_Features Model_Weights Model_Loss Model_Interactions Model_Types
  Model_Explore Model_Coin Model_Stack Model_Factory Spec_Inter Spec_Stack Spec_Reductions Proof_StackRestore Proof_StackShape Proof_StackProps.
Import ListNotations.
Open Scope N_scope.

Lemma hash_inter_ok : forall H seed i, (length i = 2 \/ length i = 3)%nat ->
  hash_interaction H seed i = Ok (map (nsdef_namespace H seed) i).
Proof. intros H seed i L. unfold hash_interaction. destruct L as [L|L]; rewrite L; reflexivity. Qed.

Lemma compile_sound : forall H seed is, exists ps ts,
  compile_pairs H seed is = Ok ps /\ compile_triples H seed is = Ok ts /\
  (length ps + length ts <= length is)%nat /\
  (Forall (fun i : interaction => length i = 2 \/ length i = 3)%nat is ->
     sorted_into (nsdef_namespace H seed) is ps ts /\ (length ps + length ts = length is)%nat) /\
  (Exists (fun i : interaction => length i <> 2 /\ length i <> 3)%nat is -> (length ps + length ts < length is)%nat).
Proof.
  intros H seed is. induction is as [|i is (ps & ts & E1 & E2 & L & G & B)].
  - exists [], []. unfold compile_pairs, compile_triples. cbn [filter mapm]. split; auto. split; auto. split; auto.
    split; [intros _; split; [constructor|reflexivity]|]. intros Q. inversion Q.
  - unfold compile_pairs, compile_triples in *. cbn [filter].
    destruct i as [|a [|b [|c [|d i]]]]; cbn [length Nat.eqb].
    + exists ps, ts. split; auto. split; auto. split; [simpl; lia|]. split.
      * intros Q. inversion Q as [|? ? Q1]. simpl in Q1. lia.
      * intros _. simpl. lia.
    + exists ps, ts. split; auto. split; auto. split; [simpl; lia|]. split.
      * intros Q. inversion Q as [|? ? Q1]. simpl in Q1. lia.
      * intros _. simpl. lia.
    + exists ((nsdef_namespace H seed a, nsdef_namespace H seed b) :: ps), ts. cbn [mapm]. rewrite hash_inter_ok by auto.
      cbn [bind map]. rewrite E1. split; auto. split; auto. split; [simpl; lia|]. split.
      * intros Q. inversion Q; subst. destruct G as (G1 & G2); auto. split; [now constructor|simpl; lia].
      * intros Q. inversion Q as [? ? Q1|? ? Q1]; subst; [simpl in Q1; lia|]. apply B in Q1. simpl. lia.
    + exists ps, ((nsdef_namespace H seed a, nsdef_namespace H seed b, nsdef_namespace H seed c) :: ts). cbn [mapm]. rewrite (hash_inter_ok H seed [a; b; c]) by auto.
      cbn [bind map]. rewrite E2. split; auto. split; auto. split; [simpl; lia|]. split.
      * intros Q. inversion Q; subst. destruct G as (G1 & G2); auto. split; [now constructor|simpl; lia].
      * intros Q. inversion Q as [? ? Q1|? ? Q1]; subst; [simpl in Q1; lia|]. apply B in Q1. simpl. lia.
    + exists ps, ts. split; auto. split; auto. split; [simpl; lia|]. split.
      * intros Q. inversion Q as [|? ? Q1]. simpl in Q1. lia.
      * intros _. simpl. lia.
Qed.

Lemma sorted_lengths : forall ns is ps ts, sorted_into ns is ps ts ->
  Forall (fun i : interaction => length i = 2 \/ length i = 3)%nat is.
Proof. intros ns is ps ts H. induction H; constructor; auto. Qed.
Lemma sorted_fun : forall ns is ps ts, sorted_into ns is ps ts -> forall ps' ts', sorted_into ns is ps' ts' -> ps = ps' /\ ts = ts'.
Proof.
  intros ns is ps ts H. induction H; intros ps' ts' Q; inversion Q; subst; auto; clear Q H.
  - match goal with K : sorted_into _ r _ _ |- _ => destruct (IHsorted_into _ _ K) end. now subst.
  - match goal with K : sorted_into _ r _ _ |- _ => destruct (IHsorted_into _ _ K) end. now subst.
Qed.

Lemma bad_or_good : forall is, Forall (fun i : interaction => length i = 2 \/ length i = 3)%nat is \/
  Exists (fun i : interaction => length i <> 2 /\ length i <> 3)%nat is.
Proof.
  induction is as [|i is [G|B]]; [left; constructor| |right; now constructor 2].
  destruct (Nat.eq_dec (length i) 2); [left; constructor; auto|].
  destruct (Nat.eq_dec (length i) 3); [left; constructor; auto|]. right. constructor. auto.
Qed.

Lemma compile_spec : forall H seed is,
  (forall ps ts, compile_interactions H seed is = Ok (ps, ts) <-> sorted_into (nsdef_namespace H seed) is ps ts) /\
  (compile_interactions H seed is = Pn PTodo <-> exists i, In i is /\ length i <> 2%nat /\ length i <> 3%nat) /\
  (forall e, compile_interactions H seed is <> Er e) /\
  (forall p, compile_interactions H seed is = Pn p -> p = PTodo).
Proof.
  intros H seed is. destruct (compile_sound H seed is) as (ps & ts & E1 & E2 & L & G & B).
  unfold compile_interactions. rewrite E1, E2. cbn [bind].
  destruct (bad_or_good is) as [Q|Q].
  - destruct (G Q) as (G1 & G2). rewrite G2, Nat.eqb_refl. repeat split; try discriminate.
    + intros E. inversion E; subst. auto.
    + intros S. destruct (sorted_fun _ _ _ _ G1 _ _ S). now subst.
    + intros (i & Hi & N). eapply Forall_forall in Q; eauto. lia.
  - specialize (B Q). assert (E : Nat.eqb (length ps + length ts) (length is) = false) by (apply Nat.eqb_neq; lia). rewrite E.
    repeat split; try discriminate.
    + intros S. apply sorted_lengths in S. exfalso. apply Exists_exists in Q. destruct Q as (i & Hi & N).
      eapply Forall_forall in S; eauto. lia.
    + intros _. apply Exists_exists in Q. destruct Q as (i & Hi & N). eauto.
    + intros p Q'. now inversion Q'.
Qed.

Section Used.
Context {O : FOps}.

Lemma create_inter : forall H dbg gc nma (c : rcfg O) R, create H dbg gc nma c = Ok R ->
  sorted_into (nsdef_namespace H (gc_seed gc)) (gc_inter gc)
    (co_pairs (bottom (projT1 R) (projT2 R))) (co_triples (bottom (projT1 R) (projT2 R))) /\
  co_bits (bottom (projT1 R) (projT2 R)) = gc_bits gc /\ co_const (bottom (projT1 R) (projT2 R)) = gc_const gc.
Proof.
  intros H dbg gc nma c. induction c; intros R E; cbn [create] in E; try discriminate;
    try (binv E; apply add_level_ok in E; destruct E as (-> & _); cbn [projT1 projT2 bottom snd]; apply IHc; auto; fail).
  - binv E. inversion E; subst. cbn [projT1 projT2 bottom snd]. unfold coin_new in B. binv B.
    destruct v0 as (ps & ts). destruct (compile_spec H (gc_seed gc) (gc_inter gc)) as (S & _).
    destruct (match cc_loss cfg with LossSquared => _ | _ => _ end) as (mn & mx) in B.
    binv B. binv B. inversion B; subst. simpl. split; auto. apply S; auto.
  - assert (E' : (let* ch := create H dbg gc nma c in add_level nma td_explore (KSquareCb ueps gscale gexp 0) ch) = Ok R).
    { destruct c; auto. destruct ty; auto. discriminate. }
    clear E. rename E' into E. binv E. apply add_level_ok in E. destruct E as (-> & _).
    cbn [projT1 projT2 bottom snd]. apply IHc; auto.
Qed.

Lemma shape_bottom : forall n (r r' : red O n), shape n r r' -> cshape (bottom n r) (bottom n r').
Proof. induction n as [|n IH]; intros r r' S; [apply S|]. simpl. apply IH. apply S. Qed.

Lemma interactions_used : forall H dbg gc (c : rcfg O) R r f l, ws_new H dbg gc c = Ok R -> reach dbg (projT2 R) r ->
  coin_feats dbg (bottom (projT1 R) r) f = Ok l ->
  exists ps ts mk k, sorted_into (nsdef_namespace H (gc_seed gc)) (gc_inter gc) ps ts /\
    mask_from_bits dbg (gc_bits gc) = Ok mk /\
    l = sf_all f ++ concat (map (fe_quadratic mk f) ps) ++ concat (map (fe_cubic mk f) ts) ++ k /\
    length k = (if gc_const gc then 1 else 0)%nat.
Proof.
  intros H dbg gc c R r f l E Q L. destruct (create_inter _ _ _ _ _ _ E) as (S & B & C).
  pose proof (shape_bottom _ _ _ (reach_shape _ _ _ _ Q)) as (_ & _ & _ & _ & S1 & S2 & S3 & S4).
  unfold coin_feats in L. rewrite <- S1, <- S2, <- S3, <- S4, B, C in L. unfold fe_list in L.
  binv L. binv L. inversion L; subst. rewrite !flat_map_concat_map.
  exists (co_pairs (bottom (projT1 R) (projT2 R))), (co_triples (bottom (projT1 R) (projT2 R))), v, v0.
  split; auto. split; auto. split; auto. destruct (gc_const gc); [binv B1; inversion B1|inversion B1]; reflexivity.
Qed.
End Used.

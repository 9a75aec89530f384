(** Without interactions the policy does not depend on the context (C87). *)
From Coq Require Import List NArith ZArith Bool Lia Permutation Reals Lra.
From Verif Require Import Base FloatOps FloatR Model_Hash Model_Features Model_Weights Model_Loss Model_Interactions
  Model_Types Model_Explore Model_Coin Model_Stack Model_Factory Spec_Foreach Spec_Features Spec_Stack Spec_Reductions Spec_Order Spec_Inter Spec_Empty Spec_Context
  Proof_Features Proof_Foreach Proof_StackRestore Proof_StackShape Proof_StackProps Proof_Order Proof_Inter Proof_Empty.
Import ListNotations.

Section Feats.
Context {O : FOps}.
Implicit Types (a b x : sfeats O).

Lemma sound_quiet : forall a, sound a -> fwf a /\ quiet a.
Proof.
  intros a (B & N). split; [now apply built_wf|]. intros k s E A. destruct (sfn_iter s) eqn:I; auto.
  rewrite (N k s E) in A; [discriminate|]. now rewrite I.
Qed.
Lemma in_ns_feats : forall k a, quiet a -> in_ns k a = feats_of k a.
Proof. intros k a Q. exact (quiet_at a k Q). Qed.

Lemma quad_nil : forall mk a n1 n2, feats_of n1 a = [] -> fe_quadratic mk a (n1, n2) = [].
Proof. intros mk a n1 n2 E. unfold fe_quadratic, feats_of in *. destruct (sf_get n1 a); auto. rewrite E. reflexivity. Qed.
Lemma cub_nil : forall mk a n1 n2 n3, feats_of n1 a = [] -> fe_cubic mk a (n1, n2, n3) = [].
Proof. intros mk a n1 n2 n3 E. unfold fe_cubic, feats_of in *. destruct (sf_get n1 a); auto. rewrite E. reflexivity. Qed.

Definition side2 a b (p : namespace * namespace) : Prop :=
  (feats_of (fst p) a = [] /\ feats_of (snd p) a = []) \/ (feats_of (fst p) b = [] /\ feats_of (snd p) b = []).
Definition side3 a b (p : namespace * namespace * namespace) : Prop :=
  let '(n1, n2, n3) := p in
  (feats_of n1 a = [] /\ feats_of n2 a = [] /\ feats_of n3 a = []) \/ (feats_of n1 b = [] /\ feats_of n2 b = [] /\ feats_of n3 b = []).

Lemma perm_split : forall X Y (f g h : X -> list Y) l, (forall z, In z l -> Permutation (f z) (g z ++ h z)) ->
  Permutation (flat_map f l) (flat_map g l ++ flat_map h l).
Proof.
  intros X Y f g h. induction l as [|z l IH]; intros HP; cbn [flat_map]; [constructor|].
  eapply Permutation_trans; [apply Permutation_app; [apply HP; now left|apply IH; intros; apply HP; now right]|].
  rewrite <- !app_assoc. apply Permutation_app_head. rewrite !app_assoc. apply Permutation_app_tail. apply Permutation_app_comm.
Qed.

(** what the regressor sees of an action with its context *)
Lemma split_feats : forall dbg a b x ps ts nb const l, fwf a -> fwf b -> quiet a -> quiet b -> sf_append a b = Ok x ->
  Forall (side2 a b) ps -> Forall (side3 a b) ts -> fe_list dbg x ps ts nb const = Ok l ->
  exists la lb k, fe_list dbg a ps ts nb const = Ok (la ++ k) /\ fe_list dbg b ps ts nb const = Ok (lb ++ k) /\ Permutation l (la ++ lb ++ k) /\
    fe_list dbg (@sf_new O) [] [] nb const = Ok k.
Proof.
  intros dbg a b x ps ts nb const l Wa Wb Qa Qb Hx Sp St E. destruct (append_feats a b x Wa Wb Qa Hx) as (Wx & Qx & Fx).
  unfold fe_list in *. destruct (mask_from_bits dbg nb) as [mk|?|?]; try discriminate. cbn [bind] in *.
  destruct (if const then _ else _) as [c|?|?]; try discriminate. cbn [bind] in *. inversion E; subst. clear E.
  exists (sf_all a ++ flat_map (fe_quadratic mk a) ps ++ flat_map (fe_cubic mk a) ts), (sf_all b ++ flat_map (fe_quadratic mk b) ps ++ flat_map (fe_cubic mk b) ts), c.
  split; [now rewrite <- !app_assoc|]. split; [now rewrite <- !app_assoc|]. split; [|reflexivity].
  assert (P1 : Permutation (sf_all x) (sf_all a ++ sf_all b)).
  { assert (D : forall u v : namespace, {u = v} + {u <> v}).
    { intros u v. destruct (ns_eqb u v) eqn:Q; [left; now apply ns_eqb_eq|right]. intros ->. now rewrite ns_eqb_refl in Q. }
    set (K := nodup D (map fst x ++ map fst a ++ map fst b)).
    eapply Permutation_trans; [apply (sf_all_perm x K); [apply Wx|apply NoDup_nodup|]|].
    { intros k Hk. apply nodup_In. apply in_app_iff. auto. }
    eapply Permutation_trans; [apply (perm_split _ _ (at_key x) (at_key a) (at_key b))|].
    { intros k _. rewrite !quiet_at by auto. rewrite Fx. apply Permutation_refl. }
    apply Permutation_app; apply Permutation_sym, sf_all_perm; try apply NoDup_nodup; try apply Wa; try apply Wb;
      intros k Hk; apply nodup_In; rewrite !in_app_iff; auto. }
  assert (P2 : Permutation (flat_map (fe_quadratic mk x) ps) (flat_map (fe_quadratic mk a) ps ++ flat_map (fe_quadratic mk b) ps)).
  { apply perm_split. intros (n1 & n2) Hp. eapply Forall_forall in Sp; eauto. destruct Sp as [(Z1 & Z2)|(Z1 & Z2)]; cbn [fst snd] in *.
    - rewrite (quad_nil mk a) by auto. rewrite (quad_ext mk x b); [apply Permutation_refl| |]; rewrite Fx, ?Z1, ?Z2; reflexivity.
    - rewrite (quad_nil mk b) by auto. rewrite (quad_ext mk x a); [rewrite app_nil_r; apply Permutation_refl| |]; rewrite Fx, ?Z1, ?Z2, app_nil_r; reflexivity. }
  assert (P3 : Permutation (flat_map (fe_cubic mk x) ts) (flat_map (fe_cubic mk a) ts ++ flat_map (fe_cubic mk b) ts)).
  { apply perm_split. intros ((n1 & n2) & n3) Hp. eapply Forall_forall in St; eauto. destruct St as [(Z1 & Z2 & Z3)|(Z1 & Z2 & Z3)].
    - rewrite (cub_nil mk a) by auto. rewrite (cubic_ext mk x b); [apply Permutation_refl| | |]; rewrite Fx, ?Z1, ?Z2, ?Z3; reflexivity.
    - rewrite (cub_nil mk b) by auto. rewrite (cubic_ext mk x a); [rewrite app_nil_r; apply Permutation_refl| | |]; rewrite Fx, ?Z1, ?Z2, ?Z3, app_nil_r; reflexivity. }
  rewrite !app_assoc. apply Permutation_app_tail. rewrite <- !app_assoc.
  eapply Permutation_trans; [apply Permutation_app; [exact P1|apply Permutation_app; [exact P2|exact P3]]|].
  rewrite <- !app_assoc. apply Permutation_app_head.
  (* B, Qa, Qb, Ca, Cb  ->  Qa, Ca, B, Qb, Cb *)
  set (B := sf_all b). set (A1 := flat_map (fe_quadratic mk a) ps). set (B1 := flat_map (fe_quadratic mk b) ps).
  set (A2 := flat_map (fe_cubic mk a) ts). set (B2 := flat_map (fe_cubic mk b) ts).
  eapply Permutation_trans; [apply Permutation_app_comm|]. rewrite <- !app_assoc. apply Permutation_app_head.
  eapply Permutation_trans; [apply Permutation_app_comm|]. rewrite <- !app_assoc. apply Permutation_app_head.
  rewrite (app_assoc B B1 B2). apply Permutation_app_comm.
Qed.
End Feats.

Open Scope R_scope.
(** ** raw predictions are sums *)
Definition wt dbg (c : coin RF) (i : N) : R := match dw_weight_at dbg (co_w c) i 0 with Ok w => w | _ => 0 end.
Definition dsum dbg (c : coin RF) (l : list (N * RF)) : R := fold_right (fun iv a => snd iv * wt dbg c (fst iv) + a) 0 l.
Lemma dsum_app : forall dbg c a b, dsum dbg c (a ++ b) = dsum dbg c a + dsum dbg c b.
Proof. intros dbg c a b. unfold dsum. induction a as [|x a IH]; cbn [app fold_right]; [ring|]. rewrite IH. ring. Qed.
Lemma dsum_perm : forall dbg c a b, Permutation a b -> dsum dbg c a = dsum dbg c b.
Proof. intros dbg c a b P. unfold dsum. induction P; cbn [fold_right]; lra. Qed.
Lemma dot_dsum : forall dbg (c : coin RF) l v, coin_dot dbg c l = Ok v -> (v : R) = dsum dbg c l.
Proof.
  intros dbg c l v. unfold coin_dot.
  assert (A : forall l (a v : RF), foldm (fun acc iv => let* w := dw_weight_at dbg (co_w c) (fst iv) 0 in Ok (f_add RF acc (f_mul RF (snd iv) w))) l a = Ok v ->
    (v : R) = a + dsum dbg c l).
  { clear l v. induction l as [|(i & x) l IH]; intros a v E; cbn [foldm] in E.
    - inversion E; subst. unfold dsum. cbn [fold_right]. symmetry. apply Rplus_0_r.
    - binv E. binv B. inversion B; subst. apply IH in E. rewrite E. unfold dsum at 2. cbn [fold_right fst snd]. fold (dsum dbg c l).
      cbn [fst] in B0. unfold wt. rewrite B0. cbn [f_add f_mul RF snd]. apply Rplus_assoc. }
  intros E. apply A in E. rewrite E. rewrite RF_f0. apply Rplus_0_l.
Qed.

Lemma wrap_body : forall X dbg nmb mo f d (body : features RF -> N -> out (pres RF X)) x f' d',
  wrap dbg nmb mo f d body = Ok (x, f', d') -> exists d1 f1 d2, body f d1 = Ok (x, f1, d2).
Proof.
  intros X dbg nmb mo f d body x f' d' E. unfold wrap in E. binv E. binv E. destruct v0 as ((y & g) & e). binv E.
  destruct (dbg && _); inversion E; subst. eauto.
Qed.

(** a scalar prediction comes from the regressor *)
Lemma scalar_raw : forall dbg n (r : red RF n) x d mo p f' d' v, elem_free n r ->
  predict dbg n r (FtsSimple x) d mo = Ok (p, f', d') -> as_scalar p = Ok v ->
  exists l, coin_feats dbg (bottom n r) x = Ok l /\ (snd v : R) = dsum dbg (bottom n r) l.
Proof.
  intros dbg. induction n as [|n IH]; intros r x d mo p f' d' v EF E S.
  - cbn [predict] in E. apply wrap_body in E. destruct E as (d1 & f1 & d2 & E). unfold coin_predict_body in E. binv E. cbn in B. inversion B; subst v0.
    binv E. inversion E; subst. unfold coin_predict in B0. binv B0. binv B0. binv B0. inversion B0; subst. cbn in S. inversion S; subst.
    cbn [snd bottom]. exists v0. split; auto. apply dot_dsum in B2. exact B2.
  - destruct r as ((w & k) & ch). destruct EF as (NE & EF). cbn [fst snd] in *. cbn [predict] in E. apply wrap_body in E. destruct E as (d1 & f1 & d2 & E).
    destruct k; cbn [kind_predict] in E; try (exfalso; eapply NE; reflexivity; fail).
    + binv E. destruct v0 as ((q & g) & e). binv E. inversion E; subst. discriminate.
    + discriminate.
    + binv E. destruct v0 as ((q & g) & e). binv E. binv E. inversion E; subst. discriminate.
    + binv E. destruct v0 as ((q & g) & e). binv E. binv E. inversion E; subst. discriminate.
    + binv E. destruct v0 as ((q & g) & e). binv E. binv E. inversion E; subst. discriminate.
    + eapply IH; eauto.
Qed.

Definition shifted (t : R) (sc : list (N * RF)) : list (N * RF) := map (fun p => (fst p, ((snd p : R) + t : R) : RF)) sc.

Lemma shift_eq : forall x y a u u' : R, x = a + u -> y = a + u' -> y = x + (u' - u).
Proof. intros. lra. Qed.

Lemma loop_shift : forall dbg child (A : sfeats RF -> R) (u u' : R) (s s' : option (sfeats RF)) acts,
  (forall a a1 d p f' d' v, In a acts -> append_opt a s = Ok a1 -> child (FtsSimple a1) d 0%N = Ok (p, f', d') -> as_scalar p = Ok v -> (snd v : R) = A a + u) ->
  (forall a a1 d p f' d' v, In a acts -> append_opt a s' = Ok a1 -> child (FtsSimple a1) d 0%N = Ok (p, f', d') -> as_scalar p = Ok v -> (snd v : R) = A a + u') ->
  forall i d d' r r', cb_predict_loop dbg child s acts i d = Ok r -> cb_predict_loop dbg child s' acts i d' = Ok r' ->
  fst (fst r') = shifted (u' - u) (fst (fst r)).
Proof.
  intros dbg child A u u' s s'. induction acts as [|a acts IH]; intros H1 H2 i d d' r r' E E'; cbn [cb_predict_loop] in E, E'.
  - inversion E; inversion E'; subst. reflexivity.
  - binv E. binv E. destruct v0 as ((p & f1) & e). binv E. binv E. binv E. destruct v2 as ((sc & ac) & e2). inversion E; subst. clear E.
    binv E'. binv E'. destruct v3 as ((p' & f1') & e'). binv E'. binv E'. binv E'. destruct v5 as ((sc' & ac') & e2'). inversion E'; subst. clear E'.
    cbn [fst]. unfold shifted. cbn [map fst snd]. apply f_equal2.
    + apply f_equal. pose proof (H1 a _ _ _ _ _ _ (or_introl eq_refl) B B0 B1) as X1. pose proof (H2 a _ _ _ _ _ _ (or_introl eq_refl) B4 B5 B6) as X2.
      exact (shift_eq _ _ _ _ _ X1 X2).
    + exact (IH (fun b b1 d0 p0 f0 d1 v0 Z => H1 b b1 d0 p0 f0 d1 v0 (or_intror Z)) (fun b b1 d0 p0 f0 d1 v0 Z => H2 b b1 d0 p0 f0 d1 v0 (or_intror Z)) _ _ _ _ _ B3 B8).
Qed.

(** ** the scores *)
Section Stack.
Context (dbg : bool) (s s' : option (sfeats RF)) (acts : list (sfeats RF)).
Definition splits (c : coin RF) (t : option (sfeats RF)) : Prop :=
  exists (u : R), forall a a1 l, In a acts -> append_opt a t = Ok a1 -> coin_feats dbg c a1 = Ok l ->
    exists la, coin_feats dbg c a = Ok la /\ dsum dbg c l = dsum dbg c la + u.

Lemma scores_shift : forall n (r : red RF n) d d' mo mo' sc sc' g g' e e', elem_free n r -> splits (bottom n r) s -> splits (bottom n r) s' ->
  predict dbg n r (FtsCb s acts) d mo = Ok (PrScores sc, g, e) -> predict dbg n r (FtsCb s' acts) d' mo' = Ok (PrScores sc', g', e') ->
  exists t, sc' = shifted t sc.
Proof.
  induction n as [|n IH]; intros r d d' mo mo' sc sc' g g' e e' EF S1 S2 E E'.
  - cbn [predict] in E. apply wrap_body in E. destruct E as (d1 & f1 & d2 & E). unfold coin_predict_body in E. binv E. discriminate.
  - destruct r as ((w & k) & ch). destruct EF as (NE & EF). cbn [fst snd bottom] in *. cbn [predict] in E, E'. apply wrap_body in E. apply wrap_body in E'.
    destruct E as (d1 & f1 & d2 & E), E' as (d1' & f1' & d2' & E').
    destruct k; cbn [kind_predict] in E, E'; try (exfalso; eapply NE; reflexivity; fail).
    + binv E. destruct v as ((q & h) & z). binv E. inversion E.
    + binv E. cbn in B. inversion B; subst v. cbn [fst snd] in E. binv E. destruct v as ((sc0 & ac0) & z). inversion E; subst.
      binv E'. cbn in B1. inversion B1; subst v. cbn [fst snd] in E'. binv E'. destruct v as ((sc0' & ac0') & z'). inversion E'; subst.
      destruct S1 as (u & S1), S2 as (u' & S2). exists (u' - u).
      pose proof (loop_shift dbg (predict dbg n ch) (fun a => match coin_feats dbg (bottom n ch) a with Ok la => dsum dbg (bottom n ch) la | _ => 0 end) u u' s s' acts) as L.
      refine (L _ _ _ _ _ _ _ B0 B2); clear L.
      * intros a a1 d0 p f' d'0 v Ha Ap Pr Sc. destruct (scalar_raw _ _ _ _ _ _ _ _ _ _ EF Pr Sc) as (l & Fl & ->).
        destruct (S1 a a1 l Ha Ap Fl) as (la & -> & ->). reflexivity.
      * intros a a1 d0 p f' d'0 v Ha Ap Pr Sc. destruct (scalar_raw _ _ _ _ _ _ _ _ _ _ EF Pr Sc) as (l & Fl & ->).
        destruct (S2 a a1 l Ha Ap Fl) as (la & -> & ->). reflexivity.
    + binv E. destruct v as ((q & h) & z). binv E. binv E. inversion E.
    + binv E. destruct v as ((q & h) & z). binv E. binv E. inversion E.
    + binv E. destruct v as ((q & h) & z). binv E. binv E. inversion E.
    + eapply IH; eauto.
Qed.

Lemma loop_numbered : forall child (t : option (sfeats RF)) l i d r, cb_predict_loop dbg child t l i d = Ok r ->
  Forall (fun p => (i <= fst p)%N) (fst (fst r)) /\ NoDup (map fst (fst (fst r))).
Proof.
  intros child t. induction l as [|a l IH]; intros i d r E; cbn [cb_predict_loop] in E.
  - inversion E; subst. split; constructor.
  - binv E. binv E. destruct v0 as ((p & f1) & e). binv E. binv E. binv E. destruct v2 as ((sc & ac) & e2). inversion E; subst. clear E.
    apply IH in B3. cbn [fst snd] in *. destruct B3 as (B3 & B4). split.
    + constructor; [cbn [fst]; lia|]. eapply Forall_impl; [|exact B3]. cbn. intros; lia.
    + cbn [map fst]. constructor; auto. intros X. apply in_map_iff in X. destruct X as (q & Q1 & Q2). eapply Forall_forall in B3; eauto. lia.
Qed.
Lemma scores_numbered : forall n (r : red RF n) f d mo sc g e, elem_free n r -> predict dbg n r f d mo = Ok (PrScores sc, g, e) -> NoDup (map fst sc).
Proof.
  induction n as [|n IH]; intros r f d mo sc g e EF E.
  - cbn [predict] in E. apply wrap_body in E. destruct E as (d1 & f1 & d2 & E). unfold coin_predict_body in E. binv E. binv E. unfold coin_predict in B0.
    binv B0. binv B0. binv B0. inversion B0; subst. inversion E.
  - destruct r as ((w & k) & ch). destruct EF as (NE & EF). cbn [fst snd bottom] in *. cbn [predict] in E. apply wrap_body in E.
    destruct E as (d1 & f1 & d2 & E). destruct k; cbn [kind_predict] in E; try (exfalso; eapply NE; reflexivity; fail).
    + binv E. destruct v as ((q & h) & z). binv E. inversion E.
    + binv E. binv E. destruct v0 as ((sc0 & ac0) & z). inversion E; subst. apply loop_numbered in B0. apply B0.
    + binv E. destruct v as ((q & h) & z). binv E. binv E. inversion E.
    + binv E. destruct v as ((q & h) & z). binv E. binv E. inversion E.
    + binv E. destruct v as ((q & h) & z). binv E. binv E. inversion E.
    + eapply IH; eauto.
Qed.
End Stack.

(** ** policies do not see a shift of the scores *)
Definition eshift (t : R) (x : N * (N * RF)) : N * (N * RF) := (fst x, (fst (snd x), ((snd (snd x) : R) + t : R) : RF)).
Lemma enum_shift : forall t l k, enum_from k (shifted t l) = map (eshift t) (enum_from k l).
Proof. intros t. induction l as [|(i & x) l IH]; intros k; cbn [shifted map enum_from]; auto. unfold shifted in IH. now rewrite IH. Qed.
Lemma minfrom_shift : forall gt t, (forall x y : R, gt ((x + t : R) : RF) ((y + t : R) : RF) = gt (x : RF) (y : RF)) -> forall l best,
  min_by_from (O:=RF) gt (eshift t best) (map (eshift t) l) = (let* b := min_by_from (O:=RF) gt best l in Ok (eshift t b)).
Proof.
  intros gt t G. induction l as [|y l IH]; intros best; cbn [map min_by_from bind]; auto.
  cbn [eshift snd]. rewrite G. destruct (gt (snd (snd best)) (snd (snd y))) as [g| |]; cbn [bind]; auto. destruct g; apply IH.
Qed.
Lemma min_shift : forall gt t l, (forall x y : R, gt ((x + t : R) : RF) ((y + t : R) : RF) = gt (x : RF) (y : RF)) ->
  min_by (O:=RF) gt (shifted t l) = (let* b := min_by (O:=RF) gt l in Ok (eshift t b)).
Proof.
  intros gt t l G. unfold min_by. rewrite enum_shift. destruct (enum_from 0 l) as [|x r]; cbn [map]; auto. now apply minfrom_shift.
Qed.
Lemma minfrom_in : forall gt l best b, min_by_from (O:=RF) gt best l = Ok b -> b = best \/ In b l.
Proof.
  intros gt. induction l as [|y l IH]; intros best b E; cbn [min_by_from] in E; [inversion E; auto|].
  binv E. apply IH in E. destruct v; destruct E as [->|E]; cbn; auto.
Qed.
Lemma min_in : forall gt l b, min_by (O:=RF) gt l = Ok b -> nth_error l (N.to_nat (fst b)) = Some (snd b).
Proof.
  intros gt l b E. unfold min_by in E. destruct (enum_from 0 l) as [|x r] eqn:En; [discriminate|].
  apply minfrom_in in E. assert (In b (enum_from 0 l)) by (rewrite En; cbn; destruct E as [->|E]; auto).
  apply In_nth_error in H. destruct H as (k & Hk). rewrite enum_from_nth in Hk. destruct (nth_error l k) eqn:Ek; [|discriminate].
  inversion Hk; subst. cbn [fst snd]. rewrite <- Ek. f_equal. lia.
Qed.
Lemma shifted_length : forall t l, length (shifted t l) = length l.
Proof. intros. apply map_length. Qed.
Lemma gt_total_shift : forall t x y : R, @gt_total RF ((x + t : R) : RF) ((y + t : R) : RF) = @gt_total RF (x : RF) (y : RF).
Proof. intros t x y. unfold gt_total, f_gtb. cbn [f_ltb RF]. f_equal. destruct (Rltb_spec (y + t) (x + t)), (Rltb_spec y x); auto; lra. Qed.
Lemma gt_partial_shift : forall t x y : R, @gt_partial RF ((x + t : R) : RF) ((y + t : R) : RF) = @gt_partial RF (x : RF) (y : RF).
Proof.
  intros t x y. unfold gt_partial, f_pcmp, f_gtb. cbn [f_ltb f_eqb f_isnan RF orb].
  repeat match goal with |- context [Rltb ?a ?b] => destruct (Rltb_spec a b) | |- context [Reqb ?a ?b] => destruct (Reqb_spec a b) end; auto; lra.
Qed.

Lemma greedy_shift : forall eps t sc, greedy_probs (O:=RF) eps (shifted t sc) = greedy_probs (O:=RF) eps sc.
Proof.
  intros eps t sc. unfold greedy_probs. rewrite (min_shift _ t sc (gt_total_shift t)). destruct (min_by (O:=RF) _ sc) as [b| |]; cbn [bind]; auto.
  rewrite shifted_length. unfold shifted. rewrite map_map. reflexivity.
Qed.
Lemma diff_shift : forall a b t : R, (a + t) - (b + t) = a - b.
Proof. intros. ring. Qed.
Lemma softmax_shift : forall dbg ueps lambda t sc, softmax_probs (O:=RF) dbg ueps lambda (shifted t sc) = softmax_probs (O:=RF) dbg ueps lambda sc.
Proof.
  intros dbg ueps lambda t sc. unfold softmax_probs. rewrite (min_shift _ t sc (gt_partial_shift t)). destruct (min_by (O:=RF) _ sc) as [b| |]; cbn [bind]; auto.
  assert (E : map (fun s => (fst s, f_exp RF (f_mul RF (f_neg RF lambda) (f_sub RF (snd s) (snd (snd (eshift t b))))))) (shifted t sc) =
    map (fun s => (fst s, f_exp RF (f_mul RF (f_neg RF lambda) (f_sub RF (snd s) (snd (snd b)))))) sc).
  { unfold shifted. rewrite map_map. apply map_ext. intros (i & x). cbn [fst snd eshift f_sub RF]. now rewrite diff_shift. }
  rewrite E. reflexivity.
Qed.
Definition agree (b : N) (x y : N * RF) : Prop := fst x = fst y /\ (fst x <> b -> snd x = snd y).
Lemma total_agree : forall b l l' (a : RF), Forall2 (agree b) l l' ->
  fold_left (fun acc s => if N.eqb (fst s) b then acc else f_add RF acc (snd s)) l a = fold_left (fun acc s => if N.eqb (fst s) b then acc else f_add RF acc (snd s)) l' a.
Proof.
  intros b l l' a F. revert a. induction F as [|x y l l' (E1 & E2) F IH]; intros a; cbn [fold_left]; auto. rewrite <- E1.
  destruct (N.eqb (fst x) b) eqn:Q; [apply IH|]. rewrite E2; [apply IH|]. now apply N.eqb_neq.
Qed.
Lemma others_agree : forall b l l', Forall2 (agree b) l l' -> ~ In b (map fst l) -> l = l'.
Proof.
  intros b l l' F. induction F as [|x y l l' (E1 & E2) F IH]; cbn [map In]; intros NI; auto.
  f_equal; [|apply IH; tauto]. destruct x, y. cbn [fst snd] in *. subst. f_equal. apply E2. tauto.
Qed.
Lemma upd_agree : forall b e l l' i x, Forall2 (agree b) l l' -> NoDup (map fst l) -> nth_error l i = Some x -> fst x = b -> upd i e l = upd i e l'.
Proof.
  intros b e l l' i x F. revert i. induction F as [|y z l l' A F IH]; intros i ND Hx Hb; [destruct i; discriminate|].
  cbn [map] in ND. inversion ND; subst. destruct i as [|i]; cbn [nth_error upd] in *.
  - inversion Hx; subst. f_equal. eapply others_agree; eauto.
  - rewrite (IH i); auto. f_equal. destruct A as (A1 & A2). destruct y, z. cbn [fst snd] in *. subst. f_equal. apply A2. intros ->.
    apply H1. apply nth_error_In in Hx. apply in_map_iff. exists x. auto.
Qed.
Lemma squarecb_shift : forall dbg ueps gamma t sc, NoDup (map fst sc) ->
  squarecb_probs (O:=RF) dbg ueps gamma (shifted t sc) = squarecb_probs (O:=RF) dbg ueps gamma sc.
Proof.
  intros dbg ueps gamma t sc ND. unfold squarecb_probs. rewrite (min_shift _ t sc (gt_partial_shift t)). destruct (min_by (O:=RF) _ sc) as [b| |] eqn:Eb; cbn [bind]; auto.
  apply min_in in Eb. destruct b as (bi & (ba & bs)). cbn [fst snd eshift] in *. rewrite shifted_length.
  match goal with |- (match nth_error ?l1 _ with Some _ => _ | None => _ end) = (match nth_error ?l2 _ with Some _ => _ | None => _ end) =>
    assert (F : Forall2 (agree ba) l1 l2); [|remember l1 as L1 eqn:D1; remember l2 as L2 eqn:D2] end.
  { clear ND Eb. unfold shifted. rewrite map_map. generalize (@f_of_nat RF (length sc)). intros nn. induction sc as [|(i & x) sc IH]; cbn [map]; [constructor|].
    constructor; [|exact IH]. split; [reflexivity|].
    cbn [fst snd f_sub RF]. intros NE. apply N.eqb_neq in NE. rewrite NE. now rewrite diff_shift. }
  assert (N2 : nth_error L2 (N.to_nat bi) <> None).
  { subst L2. rewrite nth_error_map, Eb. discriminate. }
  assert (M1 : map fst L1 = map fst sc) by (subst L1; unfold shifted; rewrite !map_map; reflexivity).
  assert (M2 : map fst L2 = map fst sc) by (subst L2; rewrite map_map; reflexivity).
  assert (X : forall L, map fst L = map fst sc -> exists x : RF, nth_error L (N.to_nat bi) = Some (ba, x)).
  { intros L M. assert (Y : nth_error (map fst L) (N.to_nat bi) = Some ba) by (rewrite M, nth_error_map, Eb; reflexivity).
    rewrite nth_error_map in Y. destruct (nth_error L (N.to_nat bi)) as [(i & x)|]; [|discriminate]. cbn in Y. inversion Y; subst. eauto. }
  destruct (X L1 M1) as (x1 & E1). destruct (X L2 M2) as (x2 & E2). rewrite E1, E2. cbn [fst].
  rewrite (total_agree ba L1 L2 f0 F). do 2 f_equal. eapply upd_agree; eauto. now rewrite M1.
Qed.

(** ** the probabilities *)
Lemma probs_same : forall dbg s s' acts n (r : red RF n) d d' mo mo' q q' g g' e e', elem_free n r -> splits dbg acts (bottom n r) s -> splits dbg acts (bottom n r) s' ->
  predict dbg n r (FtsCb s acts) d mo = Ok (PrProbs q, g, e) -> predict dbg n r (FtsCb s' acts) d' mo' = Ok (PrProbs q', g', e') -> q = q'.
Proof.
  intros dbg s s' acts. induction n as [|n IH]; intros r d d' mo mo' q q' g g' e e' EF S1 S2 E E'.
  - cbn [predict] in E. apply wrap_body in E. destruct E as (d1 & f1 & d2 & E). unfold coin_predict_body in E. binv E. discriminate.
  - destruct r as ((w & k) & ch). destruct EF as (NE & EF). cbn [fst snd bottom] in *. cbn [predict] in E, E'. apply wrap_body in E. apply wrap_body in E'.
    destruct E as (d1 & f1 & d2 & E), E' as (d1' & f1' & d2' & E').
    assert (SC : forall p p' h h' z z' sc sc', predict dbg n ch (FtsCb s acts) d1 0 = Ok (p, h, z) -> predict dbg n ch (FtsCb s' acts) d1' 0 = Ok (p', h', z') ->
      as_scores p = Ok sc -> as_scores p' = Ok sc' -> NoDup (map fst sc) /\ exists t, sc' = shifted t sc).
    { intros p p' h h' z z' sc sc' P P' A A'. destruct p; try discriminate. destruct p'; try discriminate. cbn in A, A'. inversion A; inversion A'; subst.
      split; [eapply scores_numbered; eauto|]. eapply scores_shift; [exact EF|exact S1|exact S2|exact P|exact P']. }
    destruct k; cbn [kind_predict] in E, E'; try (exfalso; eapply NE; reflexivity; fail).
    + binv E. destruct v as ((q0 & h) & z). binv E. inversion E.
    + binv E. binv E. destruct v0 as ((sc0 & ac0) & z). inversion E.
    + binv E. destruct v as ((p & h) & z). binv E. binv E. inversion E; subst. binv E'. destruct v0 as ((p' & h') & z'). binv E'. binv E'. inversion E'; subst.
      destruct (SC _ _ _ _ _ _ _ _ B B2 B0 B3) as (_ & t & ->). rewrite greedy_shift in B4. congruence.
    + binv E. destruct v as ((p & h) & z). binv E. binv E. inversion E; subst. binv E'. destruct v0 as ((p' & h') & z'). binv E'. binv E'. inversion E'; subst.
      destruct (SC _ _ _ _ _ _ _ _ B B2 B0 B3) as (_ & t & ->). rewrite softmax_shift in B4. congruence.
    + binv E. destruct v as ((p & h) & z). binv E. binv E. inversion E; subst. binv E'. destruct v0 as ((p' & h') & z'). binv E'. binv E'. inversion E'; subst.
      destruct (SC _ _ _ _ _ _ _ _ B B2 B0 B3) as (ND & t & ->). rewrite squarecb_shift in B4 by auto. congruence.
    + eapply IH; eauto.
Qed.

(** ** in a workspace *)
Lemma sides : forall H gc (s : sfeats RF) acts a ps ts, sorted_into (nsdef_namespace H (gc_seed gc)) (gc_inter gc) ps ts ->
  uncoupled H gc (Some s) acts -> In a acts -> quiet a -> quiet s -> Forall (side2 a s) ps /\ Forall (side3 a s) ts.
Proof.
  intros H gc s acts a ps ts S U Ha Qa Qs. unfold uncoupled in U. induction S as [|x y l ps ts S IH|x y z l ps ts S IH]; inversion U as [|? ? U1 U2]; subst.
  - split; constructor.
  - destruct (IH U2) as (I1 & I2). split; auto. constructor; auto. unfold side2. cbn [fst snd]. destruct U1 as [U1|U1]; [right|left].
    + split; rewrite <- in_ns_feats by auto; apply U1; cbn; auto.
    + split; rewrite <- in_ns_feats by auto; apply U1; cbn; auto.
  - destruct (IH U2) as (I1 & I2). split; auto. constructor; auto. unfold side3. destruct U1 as [U1|U1]; [right|left].
    + repeat split; rewrite <- in_ns_feats by auto; apply U1; cbn; auto.
    + repeat split; rewrite <- in_ns_feats by auto; apply U1; cbn; auto.
Qed.

Lemma uncoupled_splits : forall H dbg gc (c : rcfg RF) R r s acts, ws_new H dbg gc c = Ok R -> reach dbg (projT2 R) r ->
  sound_fts (FtsCb s acts) -> uncoupled H gc s acts -> splits dbg acts (bottom (projT1 R) r) s.
Proof.
  intros H dbg gc c R r s acts E Q (SA & SS) U. destruct s as [s|].
  2:{ exists 0. intros a a1 l Ha Ap F. cbn in Ap. inversion Ap; subst. exists l. split; auto. ring. }
  destruct (sound_quiet s SS) as (Ws & Qs).
  destruct (create_inter _ _ _ _ _ _ E) as (S & _ & _).
  pose proof (shape_bottom _ _ _ (reach_shape _ _ _ _ Q)) as (_ & _ & _ & _ & S1 & S2 & _ & _).
  set (co := bottom (projT1 R) r) in *.
  exists (match fe_list dbg s (co_pairs co) (co_triples co) (co_bits co) (co_const co), fe_list dbg (@sf_new RF) [] [] (co_bits co) (co_const co) with
          | Ok lb, Ok k => dsum dbg co lb - dsum dbg co k | _, _ => 0 end).
  intros a a1 l Ha Ap F. cbn [append_opt] in Ap. destruct (sound_quiet a (SA a Ha)) as (Wa & Qa).
  rewrite S1, S2 in S. destruct (sides _ _ _ _ _ _ _ S U Ha Qa Qs) as (P1 & P2).
  destruct (split_feats dbg a s a1 _ _ _ _ l Wa Ws Qa Qs Ap P1 P2 F) as (la & lb & k & Ea & Eb & P & Ek).
  exists (la ++ k). split; [exact Ea|]. rewrite Eb, Ek, (dsum_perm _ _ _ _ P), !dsum_app. ring.
Qed.

Lemma ws_predict_body : forall dbg n (r : red RF n) f p f', ws_predict dbg r f = Ok (p, f') -> exists d, predict dbg n r f 0 0 = Ok (p, f', d).
Proof. intros dbg n r f p f' E. unfold ws_predict in E. binv E. destruct v as ((q & g) & d). inversion E; subst. eauto. Qed.

Lemma context_scores : forall H dbg gc (c : rcfg RF) R0 r s s' acts sc sc' g g', ws_new H dbg gc c = Ok R0 -> reach dbg (projT2 R0) r -> elem_free (projT1 R0) (projT2 R0) ->
  sound_fts (FtsCb s acts) -> sound_fts (FtsCb s' acts) -> uncoupled H gc s acts -> uncoupled H gc s' acts ->
  ws_predict dbg r (FtsCb s acts) = Ok (PrScores sc, g) -> ws_predict dbg r (FtsCb s' acts) = Ok (PrScores sc', g') ->
  exists t : R, sc' = map (fun p => (fst p, ((snd p : R) + t : R) : RF)) sc.
Proof.
  intros H dbg gc c R0 r s s' acts sc sc' g g' E Q EF SF SF' U U' P P'. apply (free_shape _ _ _ (reach_shape _ _ _ _ Q)) in EF. apply ws_predict_body in P. apply ws_predict_body in P'. destruct P as (d & P), P' as (d' & P').
  eapply (scores_shift dbg s s' acts); [exact EF|eapply uncoupled_splits; eauto|eapply uncoupled_splits; eauto|exact P|exact P'].
Qed.
Lemma context_probs : forall H dbg gc (c : rcfg RF) R0 r s s' acts q q' g g', ws_new H dbg gc c = Ok R0 -> reach dbg (projT2 R0) r -> elem_free (projT1 R0) (projT2 R0) ->
  sound_fts (FtsCb s acts) -> sound_fts (FtsCb s' acts) -> uncoupled H gc s acts -> uncoupled H gc s' acts ->
  ws_predict dbg r (FtsCb s acts) = Ok (PrProbs q, g) -> ws_predict dbg r (FtsCb s' acts) = Ok (PrProbs q', g') -> q = q'.
Proof.
  intros H dbg gc c R0 r s s' acts q q' g g' E Q EF SF SF' U U' P P'. apply (free_shape _ _ _ (reach_shape _ _ _ _ Q)) in EF. apply ws_predict_body in P. apply ws_predict_body in P'. destruct P as (d & P), P' as (d' & P').
  eapply (probs_same dbg s s' acts); [exact EF|eapply uncoupled_splits; eauto|eapply uncoupled_splits; eauto|exact P|exact P'].
Qed.

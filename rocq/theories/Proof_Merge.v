(** Features that occur several times (C96). *)
From Coq Require Import List NArith ZArith PeanoNat Bool Lia Permutation Reals Lra.
From Verif Require Import Base FloatOps FloatR Model_Hash Model_Features Model_Weights Model_Loss Model_Interactions
  Model_Types Model_Explore Model_Coin Model_Stack Model_Factory Spec_Foreach Spec_Features Spec_Stack Spec_Reductions Spec_Order Spec_Inter Spec_Empty Spec_Delegate Spec_Shuffle Spec_Merge Spec_Builds
  Proof_Features Proof_Foreach Proof_Weights Proof_Coin Proof_StackRestore Proof_StackShape Proof_StackProps Proof_StackCong Proof_StackRel Proof_Loose Proof_Order Proof_Inter Proof_Empty Proof_EmptyProps Proof_Context Proof_Shuffle Proof_Builds.
Import ListNotations.

Notation ent := (N * RF)%type.
(** the sum of the values times a number given for each index *)
Fixpoint lin (phi : N -> R) (l : list ent) : R := match l with [] => 0%R | (i, v) :: l => ((v : R) * phi i + lin phi l)%R end.
Definition ind (l : list ent) : list N := map fst l.
Lemma lin_app : forall phi l k, lin phi (l ++ k) = (lin phi l + lin phi k)%R.
Proof. intros phi l k. induction l as [|[i v] l IH]; cbn [app lin]; [lra|]. rewrite IH. lra. Qed.
Lemma lin_ext : forall phi psi l, (forall i, phi i = psi i) -> lin phi l = lin psi l.
Proof. intros phi psi l E. induction l as [|[i v] l IH]; cbn [lin]; [reflexivity|]. now rewrite IH, E. Qed.
Lemma lin_scale : forall c phi l, lin (fun i => (c * phi i)%R) l = (c * lin phi l)%R.
Proof. intros c phi l. induction l as [|[i v] l IH]; cbn [lin]; [lra|]. rewrite IH. lra. Qed.
Lemma lin_perm : forall phi l k, Permutation l k -> lin phi l = lin phi k.
Proof. intros phi l k P. induction P as [|[i v] l k P IH|[i v] [j w] l|l k m P IH P' IH']; cbn [lin]; lra. Qed.
(** *** by index *)
Lemma val_other : forall phi j (v : RF) l K, ~ In j K -> fold_right (fun i r => (phi i * value_at i l + r)%R) 0%R K =
  fold_right (fun i r => (phi i * value_at i ((j, v) :: l) + r)%R) 0%R K.
Proof.
  intros phi j v l K. induction K as [|a K IK]; intros N; cbn [fold_right]; [reflexivity|]. rewrite IK by (intros Q; apply N; now right).
  change (value_at a ((j, v) :: l)) with (if N.eqb j a then (v + value_at a l)%R else value_at a l).
  destruct (N.eqb_spec j a) as [->|]; [exfalso; apply N; now left|reflexivity].
Qed.
Lemma lin_keys : forall phi K l, NoDup K -> incl (ind l) K -> lin phi l = fold_right (fun i r => (phi i * value_at i l + r)%R) 0%R K.
Proof.
  intros phi K l ND. induction l as [|[i v] l IH]; intros I.
  - cbn. clear. induction K as [|j K IK]; cbn; [reflexivity|]. rewrite <- IK. lra.
  - cbn [lin]. rewrite IH by (intros j J; apply I; now right).
    assert (Ii : In i K) by (apply I; left; reflexivity). clear I IH.
    induction K as [|j K IK]; [destruct Ii|]. inversion ND as [|? ? N1 N2]; subst. cbn [fold_right].
    change (value_at j ((i, v) :: l)) with (if N.eqb i j then (v + value_at j l)%R else value_at j l).
    destruct (N.eqb_spec i j) as [->|D].
    + rewrite <- (val_other phi j v l K N1). cbn [f_mul RF]. lra.
    + destruct Ii as [->|Ii]; [congruence|]. specialize (IK N2 Ii). rewrite <- IK. lra.
Qed.
Definition eqv (l k : list ent) : Prop := (forall i, In i (ind l) <-> In i (ind k)) /\ forall phi, lin phi l = lin phi k.
Lemma eqv_values : forall l k, (forall i, (In i (map fst l) <-> In i (map fst k)) /\ value_at i l = value_at i k) -> eqv l k.
Proof.
  intros l k E. split; [intros i; apply E|]. intros phi.
  rewrite (lin_keys phi (nodup N.eq_dec (ind l ++ ind k)) l), (lin_keys phi (nodup N.eq_dec (ind l ++ ind k)) k).
  - induction (nodup N.eq_dec (ind l ++ ind k)) as [|i K IK]; cbn [fold_right]; [reflexivity|]. now rewrite IK, (proj2 (E i)).
  - apply NoDup_nodup.
  - intros i Hi. apply nodup_In, in_app_iff. now right.
  - apply NoDup_nodup.
  - intros i Hi. apply nodup_In, in_app_iff. now left.
Qed.
Lemma eqv_refl : forall l, eqv l l. Proof. intros l. split; [tauto|reflexivity]. Qed.
Lemma eqv_perm : forall l k, Permutation l k -> eqv l k.
Proof. intros l k P. split; [|intros; now apply lin_perm]. intros i. split; apply Permutation_in; [|apply Permutation_sym]; now apply Permutation_map. Qed.
Lemma eqv_trans : forall l k m, eqv l k -> eqv k m -> eqv l m.
Proof. intros l k m (A & B) (C & D). split; [intros i; rewrite A; apply C|intros phi; now rewrite B]. Qed.
Lemma eqv_sym : forall l k, eqv l k -> eqv k l.
Proof. intros l k (A & B). split; [intros i; symmetry; apply A|intros phi; symmetry; apply B]. Qed.
Lemma eqv_app : forall l k l' k', eqv l l' -> eqv k k' -> eqv (l ++ k) (l' ++ k').
Proof.
  intros l k l' k' (A & B) (C & D). split; [|intros phi; now rewrite !lin_app, B, D].
  intros i. unfold ind. rewrite !map_app, !in_app_iff. unfold ind in *. rewrite A, C. tauto.
Qed.
Lemma eqv_flat : forall A (f g : A -> list ent) l, (forall a, In a l -> eqv (f a) (g a)) -> eqv (flat_map f l) (flat_map g l).
Proof. intros A f g l E. induction l as [|a l IH]; cbn [flat_map]; [apply eqv_refl|]. apply eqv_app; [apply E; now left|]. apply IH. intros; apply E; now right. Qed.

(** *** products *)
Definition prods (h : N -> N -> N) (l k : list ent) : list ent :=
  flat_map (fun p : ent => map (fun q : ent => (h (fst p) (fst q), f_mul RF (snd p) (snd q))) k) l.
Lemma lin_row : forall phi (h : N -> N -> N) i (v : RF) k, lin phi (map (fun q : ent => (h i (fst q), f_mul RF v (snd q))) k) = ((v : R) * lin (fun j => phi (h i j)) k)%R.
Proof. intros phi h i v k. induction k as [|[j w] k IH]; cbn [map lin fst snd]; [lra|]. rewrite IH. cbn [f_mul RF]. lra. Qed.
Lemma lin_prods : forall phi h l k, lin phi (prods h l k) = lin (fun i => lin (fun j => phi (h i j)) k) l.
Proof. intros phi h l k. unfold prods. induction l as [|[i v] l IH]; cbn [flat_map lin fst snd]; [reflexivity|]. rewrite lin_app, IH, lin_row. reflexivity. Qed.
Lemma ind_prods : forall h l k n, In n (ind (prods h l k)) <-> exists i j, In i (ind l) /\ In j (ind k) /\ n = h i j.
Proof.
  intros h l k n. unfold ind, prods. rewrite in_map_iff. split.
  - intros (p & <- & Hp). apply in_flat_map in Hp. destruct Hp as (a & Ha & Hp). apply in_map_iff in Hp. destruct Hp as (b & <- & Hb).
    exists (fst a), (fst b). repeat split; now apply in_map.
  - intros (i & j & Hi & Hj & ->). apply in_map_iff in Hi. destruct Hi as (a & <- & Ha). apply in_map_iff in Hj. destruct Hj as (b & <- & Hb).
    eexists. split; [|apply in_flat_map; exists a; split; [exact Ha|apply in_map_iff; exists b; split; [reflexivity|exact Hb]]]. reflexivity.
Qed.
Lemma eqv_prods : forall h l l' k k', eqv l l' -> eqv k k' -> eqv (prods h l k) (prods h l' k').
Proof.
  intros h l l' k k' (A & B) (C & D). split.
  - intros n. rewrite !ind_prods. split; intros (i & j & Hi & Hj & E); exists i, j; (split; [now apply A|]); (split; [now apply C|exact E]).
  - intros phi. rewrite !lin_prods. rewrite B. apply lin_ext. intros i. apply D.
Qed.
Lemma eqv_map : forall (h : N -> N) l k, eqv l k -> eqv (map (fun p : ent => (h (fst p), snd p)) l) (map (fun p : ent => (h (fst p), snd p)) k).
Proof.
  assert (L : forall h phi l, lin phi (map (fun p : ent => (h (fst p), snd p)) l) = lin (fun i => phi (h i)) l).
  { intros h phi l. induction l as [|[i v] l IH]; cbn [map lin fst snd]; [reflexivity|]. now rewrite IH. }
  intros h l k (A & B). split; [|intros phi; rewrite !L; apply B].
  intros n. unfold ind in *. rewrite !map_map. cbn [fst]. rewrite !in_map_iff. split; intros ([i v] & <- & Hi); cbn [fst].
  - assert (Q : In i (map fst k)) by (apply A; apply in_map_iff; exists (i, v); auto). apply in_map_iff in Q. destruct Q as ([j w] & <- & Hj). exists (j, w). auto.
  - assert (Q : In i (map fst l)) by (apply A; apply in_map_iff; exists (i, v); auto). apply in_map_iff in Q. destruct Q as ([j w] & <- & Hj). exists (j, w). auto.
Qed.
Lemma triple_prods : forall mk (a b c : list ent),
  flat_map (fun p => flat_map (fun q => map (fun r =>
     (mask mk (cubic_feature_hash (fst p) (fst q) (fst r)), f_mul RF (f_mul RF (snd p) (snd q)) (snd r))) c) b) a =
  prods (fun x z => mask mk (N.lxor (fnv_mul x) z)) (prods (fun i j => N.lxor (fnv_mul i) j) a b) c.
Proof.
  intros mk a b c. unfold prods. rewrite flat_map_flat. apply flat_ext. intros p _.
  rewrite (flat_map_concat_map _ (map _ _)), map_map, <- flat_map_concat_map. reflexivity.
Qed.

(** *** what the regressor reads *)
Lemma feats_eqv : forall dbg (x y : sfeats RF) ps ts nb c l, fwf x -> fwf y -> quiet x -> quiet y ->
  (forall k, eqv (feats_of k x) (feats_of k y)) ->
  (forall p, In p ps -> fst p <> snd p) -> (forall n1 n2 n3, In (n1, n2, n3) ts -> n1 <> n2 /\ n2 <> n3) ->
  fe_list dbg x ps ts nb c = Ok l -> exists l', fe_list dbg y ps ts nb c = Ok l' /\ eqv l l'.
Proof.
  intros dbg x y pairs triples nb const l Wx Wy Qx Qy P Sp St H.
  unfold fe_list in *. destruct (mask_from_bits dbg nb) as [mk|?|?]; try discriminate. cbn [bind] in *.
  destruct (if const then _ else _) as [c|?|?]; try discriminate. cbn [bind] in *. inversion H; subst. clear H.
  eexists. split; [reflexivity|]. apply eqv_app; [|apply eqv_app; [|apply eqv_app; [|apply eqv_refl]]].
  - assert (D : forall u v : namespace, {u = v} + {u <> v}).
    { intros u v. destruct (ns_eqb u v) eqn:Q; [left; now apply ns_eqb_eq|right]. intros ->. now rewrite ns_eqb_refl in Q. }
    set (K := nodup D (map fst x ++ map fst y)).
    eapply eqv_trans; [apply eqv_perm, (sf_all_perm x K); [apply Wx|apply NoDup_nodup|]|].
    { intros k Hk. apply nodup_In. apply in_app_iff. auto. }
    eapply eqv_trans; [|apply eqv_perm, Permutation_sym, (sf_all_perm y K); [apply Wy|apply NoDup_nodup|]].
    2:{ intros k Hk. apply nodup_In. apply in_app_iff. auto. }
    apply eqv_flat. intros k _. rewrite !quiet_at by auto. auto.
  - apply eqv_flat. intros (n1 & n2) Hp. rewrite !quad_distinct by exact (Sp _ Hp).
    apply (eqv_prods (fun i j => mask mk (quadratic_feature_hash i j))); auto.
  - apply eqv_flat. intros ((n1 & n2) & n3) Hp. destruct (St _ _ _ Hp) as (A & B). rewrite !cubic_distinct by assumption.
    rewrite !triple_prods. apply eqv_prods; [apply eqv_prods|]; auto.
Qed.

(** *** the sum *)
Lemma dot_lin : forall (c : coin RF) l (a r : RF), foldm (fun acc iv => let* w := dw_weight_at false (co_w c) (fst iv) 0 in Ok (f_add RF acc (f_mul RF (snd iv) w))) l a = Ok r ->
  (forall i, In i (ind l) -> exists w, dw_weight_at false (co_w c) i 0 = Ok w) /\
  forall phi, (forall i w, dw_weight_at false (co_w c) i 0 = Ok w -> phi i = w) -> (r : R) = ((a : R) + lin phi l)%R.
Proof.
  intros c l. induction l as [|[i v] l IH]; intros a r E; cbn [foldm fst snd] in E.
  - inversion E; subst. split; [intros i []|]. intros phi _. cbn. lra.
  - destruct (dw_weight_at false (co_w c) i 0) as [w|?|?] eqn:W; cbn [bind] in E; try discriminate.
    destruct (IH _ _ E) as (A & B). split.
    + intros j [<-|J]; [exists w; exact W|now apply A].
    + intros phi F. rewrite (B phi F). cbn [lin f_add f_mul RF]. rewrite (F i w W). lra.
Qed.
Lemma dot_back : forall (c : coin RF) l (a : RF), (forall i, In i (ind l) -> exists w, dw_weight_at false (co_w c) i 0 = Ok w) ->
  exists r, foldm (fun acc iv => let* w := dw_weight_at false (co_w c) (fst iv) 0 in Ok (f_add RF acc (f_mul RF (snd iv) w))) l a = Ok r.
Proof.
  intros c l. induction l as [|[i v] l IH]; intros a A; cbn [foldm fst snd]; [exists a; reflexivity|].
  destruct (A i (or_introl eq_refl)) as (w & ->). cbn [bind]. apply IH. intros j J. apply A. now right.
Qed.
Definition phi_of (c : coin RF) (i : N) : R := match dw_weight_at false (co_w c) i 0 with Ok w => w | _ => 0%R end.
Lemma dot_eqv : forall (c : coin RF) l k r, eqv l k -> coin_dot false c l = Ok r -> coin_dot false c k = Ok r.
Proof.
  intros c l k r (A & B) E. unfold coin_dot in *. destruct (dot_lin c l _ _ E) as (G & V).
  destruct (dot_back c k f0) as (r' & E'); [intros i I; apply G, A, I|]. destruct (dot_lin c k _ _ E') as (_ & V').
  assert (F : forall i w, dw_weight_at false (co_w c) i 0 = Ok w -> phi_of c i = w) by (intros i w W; unfold phi_of; now rewrite W).
  assert (Q : r' = r) by (rewrite (V _ F), (V' _ F), B; reflexivity). rewrite <- Q. exact E'.
Qed.

Section Coin.
Context (H : hasher) (gc : gconfig) (NR : no_repeat H gc).
Definition zm (x y : sfeats RF) : Prop := fwf x /\ fwf y /\ quiet x /\ quiet y /\ forall k, eqv (feats_of k x) (feats_of k y).
Lemma zm_predict : forall c a b p, good H gc c -> zm a b -> coin_predict false c a = Ok p -> coin_predict false c b = Ok p.
Proof.
  intros c a b p (_ & S & _) (A & B & C & D & E) L. destruct (sorted_distinct H gc NR _ _ S) as (P1 & P2). unfold coin_predict in *. binv L. rename B0 into F.
  destruct (feats_eqv false a b _ _ _ _ v A B C D E P1 P2 F) as (l' & L' & Q). unfold coin_feats at 1. rewrite L'. cbn [bind].
  binv L. rename B0 into G. rewrite (dot_eqv c v l' _ Q G). exact L.
Qed.
Lemma append_zm : forall a b s t x y : sfeats RF, sound a -> sound b -> sound s -> sound t -> merged a b -> merged s t ->
  sf_append a s = Ok x -> sf_append b t = Ok y -> zm x y.
Proof.
  intros a b s t x y Sa Sb Ss St P Q X Y.
  destruct (sound_quiet a Sa) as (Wa & Qa), (sound_quiet b Sb) as (Wb & Qb), (sound_quiet s Ss) as (Ws & Qs), (sound_quiet t St) as (Wt & Qt).
  destruct (append_feats a s x Wa Ws Qa X) as (Wx & Qx & Fx). destruct (append_feats b t y Wb Wt Qb Y) as (Wy & Qy & Fy).
  repeat (split; [assumption|]). intros k. rewrite Fx, Fy.
  apply eqv_app; [specialize (P k); rewrite !in_ns_feats in P by auto; now apply eqv_values|
                  specialize (Q k); rewrite !in_ns_feats in Q by auto; now apply eqv_values].
Qed.
Lemma simple_zm : forall a b : sfeats RF, sound a -> sound b -> merged a b -> zm a b.
Proof.
  intros a b Sa Sb P. destruct (sound_quiet a Sa) as (Wa & Qa), (sound_quiet b Sb) as (Wb & Qb). repeat (split; [assumption|]).
  intros k. specialize (P k). rewrite !in_ns_feats in P by auto. now apply eqv_values.
Qed.
Lemma fts_zm : forall f g : features RF, sound_fts f -> sound_fts g -> merged_fts f g -> zf zm f g.
Proof.
  intros [a|s x] [b|t y] Sf Sg Q; simpl in *; try tauto; [now apply simple_zm|].
  destruct Sf as (Sx & Ss), Sg as (Sy & St), Q as (Q & P). split.
  { destruct s, t; simpl; try tauto. split; now apply sound_esim. }
  induction P as [|a b x y Pab P IH]; constructor.
  - destruct s as [s|], t as [t|]; simpl; try tauto.
    + repeat (split; [apply sound_esim; solve [auto | apply Sx; now left | apply Sy; now left]|]). split.
      * intros u v U V. eapply (append_zm a b s t); eauto; [apply Sx; now left|apply Sy; now left].
      * intros u v U V. eapply (append_zm s t a b); eauto; [apply Sx; now left|apply Sy; now left].
    + apply simple_zm; auto; [apply Sx; now left|apply Sy; now left].
  - apply IH; intros z Hz; [apply Sx; now right|apply Sy; now right].
Qed.
Lemma merged_predict : forall (c : rcfg RF) R0 r f g p f', ws_new H false gc c = Ok R0 -> reach false (projT2 R0) r ->
  elem_free (projT1 R0) (projT2 R0) -> sound_fts f -> sound_fts g -> merged_fts f g ->
  ws_predict false r f = Ok (p, f') -> exists g', ws_predict false r g = Ok (p, g').
Proof.
  intros c R0 r f g p f' E Q EF Sf Sg P W. unfold ws_predict in *. binv W. destruct v as ((p1 & f1) & d1). inversion W; subst.
  destruct (predict_z zm (good H gc) zm_predict _ r f g 0%N 0%N (free_shape _ _ _ (reach_shape _ _ _ _ Q) EF) (new_good H gc c R0 r E Q) (fts_zm f g Sf Sg P) _ B) as (((q & g1) & e1) & E2 & E1 & _ & _ & _).
  cbn [fst snd] in E1. subst. rewrite E2. cbn [bind]. eauto.
Qed.
End Coin.

(** *** debug builds *)
Section Debug.
Context {O : FOps}.
Lemma debug_reach : forall n (r0 r : red O n), reach true r0 r -> reach false r0 r.
Proof.
  intros n r0 r Q. induction Q as [|r f lb r' f' Q IH L|r f lb p r' f' Q IH L]; [apply reach_refl|..].
  - eapply reach_learn; [exact IH|]. pose proof (ag_wlearn _ r f lb) as A. rewrite L in A. exact A.
  - eapply reach_ptl; [exact IH|]. pose proof (ag_wptl _ r f lb) as A. rewrite L in A. exact A.
Qed.
End Debug.
Lemma merged_debug : forall H gc (NR : no_repeat H gc) (c : rcfg RF) R0 r f g p q f' g', ws_new H true gc c = Ok R0 -> reach true (projT2 R0) r ->
  elem_free (projT1 R0) (projT2 R0) -> sound_fts f -> sound_fts g -> merged_fts f g ->
  ws_predict true r f = Ok (p, f') -> ws_predict true r g = Ok (q, g') -> p = q.
Proof.
  intros H gc NR c R0 r f g p q f' g' E Q EF Sf Sg P W V.
  pose proof (ag_wnew (O:=RF) H gc c) as A. rewrite E in A.
  pose proof (ag_wpredict _ r f) as B. rewrite W in B. pose proof (ag_wpredict _ r g) as C. rewrite V in C. cbn [agree] in A, B, C.
  destruct (merged_predict H gc NR c R0 r f g p f' A (debug_reach _ _ _ Q) EF Sf Sg P B) as (g2 & D). rewrite C in D. congruence.
Qed.

(** *** mixtures *)
Lemma lin_mix : forall al be (a b x : list ent), (forall i, value_at i x = (al * value_at i a + be * value_at i b)%R) ->
  forall phi, lin phi x = (al * lin phi a + be * lin phi b)%R.
Proof.
  intros al be a b x E phi. set (K := nodup N.eq_dec (ind a ++ ind b ++ ind x)).
  assert (I : forall l, incl (ind l) (ind a ++ ind b ++ ind x) -> lin phi l = fold_right (fun i r => (phi i * value_at i l + r)%R) 0%R K).
  { intros l Hl. apply lin_keys; [apply NoDup_nodup|]. intros i Hi. apply nodup_In, Hl, Hi. }
  rewrite (I a) by (intros i Hi; rewrite !in_app_iff; tauto). rewrite (I b) by (intros i Hi; rewrite !in_app_iff; tauto).
  rewrite (I x) by (intros i Hi; rewrite !in_app_iff; tauto). clear I.
  induction K as [|i K IK]; cbn [fold_right]; [lra|]. rewrite IK, E. lra.
Qed.
Lemma all_mix : forall al be (a b x : sfeats RF), fwf a -> fwf b -> fwf x -> quiet a -> quiet b -> quiet x ->
  (forall k i, value_at i (feats_of k x) = (al * value_at i (feats_of k a) + be * value_at i (feats_of k b))%R) ->
  forall phi, lin phi (sf_all x) = (al * lin phi (sf_all a) + be * lin phi (sf_all b))%R.
Proof.
  intros al be a b x Wa Wb Wx Qa Qb Qx E phi.
  assert (D : forall u v : namespace, {u = v} + {u <> v}).
  { intros u v. destruct (ns_eqb u v) eqn:Q; [left; now apply ns_eqb_eq|right]. intros ->. now rewrite ns_eqb_refl in Q. }
  set (K := nodup D (map fst a ++ map fst b ++ map fst x)).
  rewrite (lin_perm phi _ _ (sf_all_perm a K (proj1 Wa) (NoDup_nodup _ _) ltac:(intros ? ?; apply nodup_In; rewrite !in_app_iff; auto))).
  rewrite (lin_perm phi _ _ (sf_all_perm b K (proj1 Wb) (NoDup_nodup _ _) ltac:(intros ? ?; apply nodup_In; rewrite !in_app_iff; auto))).
  rewrite (lin_perm phi _ _ (sf_all_perm x K (proj1 Wx) (NoDup_nodup _ _) ltac:(intros ? ?; apply nodup_In; rewrite !in_app_iff; auto))).
  clearbody K. induction K as [|k K IK]; cbn [flat_map lin]; [lra|]. rewrite !lin_app, IK, !quiet_at by assumption.
  rewrite (lin_mix al be _ _ _ (E k)). lra.
Qed.
Lemma predict_lin : forall (c : coin RF) f p, coin_predict false c f = Ok p -> exists l, coin_feats false c f = Ok l /\ raw_of p = lin (phi_of c) l.
Proof.
  intros c f p E. unfold coin_predict in E. binv E. binv E. exists v. split; [assumption|].
  binv E. inversion E; subst. cbn [raw_of f_isnan RF]. unfold coin_dot in B0. destruct (dot_lin c v _ _ B0) as (_ & V).
  rewrite (V (phi_of c)); [cbn; lra|]. intros i w W. unfold phi_of. now rewrite W.
Qed.
Lemma coin_mix : forall H gc al be (c : coin RF) a b x p q r, good H gc c -> gc_inter gc = [] -> (gc_const gc = true -> (al + be = 1)%R) ->
  sound a -> sound b -> sound x -> mixture al be a b x ->
  coin_predict false c a = Ok p -> coin_predict false c b = Ok q -> coin_predict false c x = Ok r ->
  raw_of r = (al * raw_of p + be * raw_of q)%R.
Proof.
  intros H gc al be c a b x p q r (_ & S & _ & Cc) GI GC Sa Sb Sx M P Q X.
  rewrite GI in S. assert (E1 : co_pairs c = [] /\ co_triples c = []) by (inversion S; auto). destruct E1 as (E1 & E2).
  destruct (predict_lin _ _ _ P) as (l1 & L1 & ->), (predict_lin _ _ _ Q) as (l2 & L2 & ->), (predict_lin _ _ _ X) as (l3 & L3 & ->).
  unfold coin_feats, fe_list in L1, L2, L3. rewrite E1, E2, Cc in L1, L2, L3. cbn [flat_map app] in L1, L2, L3.
  destruct (mask_from_bits false (co_bits c)) as [mk|?|?]; try discriminate. cbn [bind] in *.
  destruct (sound_quiet a Sa) as (Wa & Qa), (sound_quiet b Sb) as (Wb & Qb), (sound_quiet x Sx) as (Wx & Qx).
  pose proof (all_mix al be a b x Wa Wb Wx Qa Qb Qx ltac:(intros k i; specialize (M k i); now rewrite !in_ns_feats in M by auto) (phi_of c)) as A.
  destruct (gc_const gc).
  - destruct (constant_feature_index false (co_bits c)) as [i|?|?]; try discriminate. cbn [bind] in *. inversion L1; inversion L2; inversion L3; subst.
    rewrite !lin_app, A. cbn [lin]. specialize (GC eq_refl). rewrite <- (Rmult_1_l (_ * phi_of c i)%R) at 1. rewrite <- GC. ring.
  - cbn [bind] in *. inversion L1; inversion L2; inversion L3; subst. rewrite !app_nil_r. exact A.
Qed.
Lemma mixture_main : forall H dbg gc (cfg : coin_config RF) R0 r al be a b x p q s fa fb fx,
  ws_new H dbg gc (CCoin cfg) = Ok R0 -> reach dbg (projT2 R0) r -> gc_inter gc = [] -> (gc_const gc = true -> (al + be = 1)%R) ->
  sound a -> sound b -> sound x -> mixture al be a b x ->
  ws_predict dbg r (FtsSimple a) = Ok (p, fa) -> ws_predict dbg r (FtsSimple b) = Ok (q, fb) -> ws_predict dbg r (FtsSimple x) = Ok (s, fx) ->
  raw_of s = (al * raw_of p + be * raw_of q)%R.
Proof.
  intros H dbg gc cfg R0 r al be a b x p q s fa fb fx E Q GI GC Sa Sb Sx M P1 P2 P3.
  assert (K : forall f u, ws_predict dbg r f = Ok u -> ws_predict false r f = Ok u).
  { intros f u L. destruct dbg; [|exact L]. pose proof (ag_wpredict _ r f) as A. rewrite L in A. exact A. }
  apply K in P1, P2, P3. clear K.
  assert (E' : ws_new H false gc (CCoin cfg) = Ok R0).
  { destruct dbg; [|exact E]. pose proof (ag_wnew (O:=RF) H gc (CCoin cfg)) as A. rewrite E in A. exact A. }
  assert (Q' : reach false (projT2 R0) r) by (destruct dbg; [now apply debug_reach|exact Q]). clear E Q.
  pose proof (new_good H gc _ R0 r E' Q') as G. unfold ws_new in E'. cbn [create] in E'. binv E'. inversion E'; subst. clear E'.
  cbn [projT1 projT2] in *. destruct r as (w & c). cbn in G.
  assert (K : forall f u g, ws_predict false ((w, c) : red RF 0) (FtsSimple f) = Ok (u, g) -> coin_predict false c f = Ok u).
  { intros f u g L. unfold ws_predict in L. cbn [predict fst snd] in L. unfold wrap, coin_predict_body in L. cbn [as_simple bind] in L.
    destruct (depth_inc _ _ _ _) as [d1|?|?]; cbn [bind] in L; try discriminate. destruct (coin_predict false c f) as [u'|?|?]; cbn [bind] in L; try discriminate.
    destruct (depth_dec _ _ _ _) as [d3|?|?]; cbn [bind andb] in L; inversion L; reflexivity. }
  eapply (coin_mix H gc al be c a b x); eauto.
Qed.

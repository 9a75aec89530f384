(** Examples written with the features in another order, or given several times (C98). *)
From Coq Require Import List NArith ZArith PeanoNat Bool Lia Permutation Reals Lra.
From Verif Require Import Base FloatOps FloatR Model_Hash Model_Features Model_Weights Model_Loss Model_Interactions
  Model_Types Model_Explore Model_Coin Model_Stack Model_Factory Model_Text Model_Metrics Model_Train Model_Json Model_JsonTrain Model_Save Model_Command
  Spec_Foreach Spec_Features Spec_Stack Spec_Reductions Spec_Text Spec_Json Spec_JsonLabel Spec_Command Spec_Formats Proof_Train Spec_Order Spec_Inter Spec_Empty Spec_Delegate Spec_Shuffle Spec_Merge Spec_Words
  Proof_Features Proof_Foreach Proof_Weights Proof_Coin Proof_StackRestore Proof_StackShape Proof_StackProps Proof_StackCong Proof_StackRel Proof_Loose Proof_Order Proof_Inter Proof_Empty Proof_EmptyProps Proof_Context
  Proof_Json Proof_Formats Proof_Shuffle Proof_Merge.
Import ListNotations.
Open Scope N_scope.

(** *** what the words become *)
Section Content.
Context {O : FOps} (H : hasher) (seed nb : N).
Definition place (a : word) : N :=
  match snd a with
  | MName n => h32 H n (opt_hash H seed (fst a))
  | MText n s => h32 H s (h32 H n (opt_hash H seed (fst a)))
  | MPos i => opt_hash H seed (fst a) + i
  end mod 2 ^ nb.
Definition inside (k : namespace) (av : word * O) : bool := ns_eqb k (okey H seed (fst (fst av))).
Definition put (av : word * O) : N * O := (place (fst av), snd av).
Definition content (k : namespace) (l : list (word * O)) : list (N * O) := map put (filter (inside k) l).

Lemma content_app : forall k a b, content k (a ++ b) = content k a ++ content k b.
Proof. intros k a b. unfold content. now rewrite filter_app, map_app. Qed.
Lemma body_content : forall name b,
  masked nb (bvals H (opt_hash H seed name) b) = map put (map (fun m => ((name, fst m), snd m)) (body_marks b)).
Proof.
  intros name [l|xs]; cbn [bvals body_marks].
  - unfold masked. rewrite !map_map. apply map_ext. intros (n & [x|s|]); reflexivity.
  - unfold masked, vvals. generalize 0. induction xs as [|x xs IH]; intros z; auto. cbn [enum_from numbered map fst snd]. f_equal. apply IH.
Qed.
Lemma here : forall (name : option str) k (l : list (mark * O)), filter (inside k) (map (fun m => ((name, fst m), snd m)) l) =
  if ns_eqb k (okey H seed name) then map (fun m => ((name, fst m), snd m)) l else [].
Proof.
  intros name k l. induction l as [|m l IH]; [now destruct (ns_eqb _ _)|]. cbn [map filter]. rewrite IH. unfold inside at 1. cbn [fst snd].
  now destruct (ns_eqb k (okey H seed name)).
Qed.
Lemma part_content : forall p k, match jcontent nb (nss_of H seed p) k with Some l => l | None => [] end = content k (words p).
Proof.
  intros p k. unfold jcontent.
  set (L := filter _ (nss_of H seed p)). transitivity (masked nb (flat_map snd L)); [now destruct L|]. unfold L. clear L.
  induction p as [|(name & b) p IH]; auto. cbn [nss_of map filter fst snd words flat_map]. fold (nss_of H seed p). rewrite content_app.
  fold (words p). rewrite <- IH. unfold content at 1. rewrite here. destruct (ns_eqb k (okey H seed name)); [|reflexivity].
  cbn [flat_map snd]. rewrite masked_app. f_equal. apply body_content.
Qed.
Lemma holds_content : forall p d, holds H seed nb p d -> fwf d /\ quiet d /\ esim d d /\ forall k, feats_of k d = content k (words p).
Proof.
  intros p d ((W & _ & Od) & G). split; auto. assert (Q : quiet d).
  { intros k s E A. destruct (Nat.eq_dec (sfn_size s) 0) as [Z|Z]; [|pose proof (Od k s E Z); congruence].
    unfold sfn_iter. unfold sfn_size in Z. now destruct (sfn_idx s). }
  split; auto. split; [now apply esim_refl|]. intros k. unfold feats_of. rewrite G, as_sfn_iter. apply part_content.
Qed.
Lemma content_perm : forall k l m, Permutation l m -> Permutation (content k l) (content k m).
Proof.
  intros k l m P. unfold content. apply Permutation_map. induction P as [|a l m P IH|a b l|l m n P IH P' IH']; cbn [filter].
  - constructor.
  - destruct (inside k a); [now constructor|auto].
  - destruct (inside k a), (inside k b); first [apply perm_swap | apply Permutation_refl].
  - eapply Permutation_trans; eauto.
Qed.
End Content.

(** *** sums by word *)
Fixpoint wlin (phi : word -> R) (l : list (word * RF)) : R := match l with [] => 0%R | (a, v) :: l => ((v : R) * phi a + wlin phi l)%R end.
Lemma tot_other : forall phi b (v : RF) l K, ~ In b K -> fold_right (fun a r => (phi a * total a l + r)%R) 0%R K =
  fold_right (fun a r => (phi a * total a ((b, v) :: l) + r)%R) 0%R K.
Proof.
  intros phi b v l K. induction K as [|a K IK]; intros N; cbn [fold_right]; [reflexivity|]. rewrite IK by (intros Q; apply N; now right).
  change (total a ((b, v) :: l)) with (if word_dec b a then (v + total a l)%R else total a l).
  destruct (word_dec b a) as [->|]; [exfalso; apply N; now left|reflexivity].
Qed.
Lemma wlin_keys : forall phi K l, NoDup K -> incl (map fst l) K -> wlin phi l = fold_right (fun a r => (phi a * total a l + r)%R) 0%R K.
Proof.
  intros phi K l ND. induction l as [|[b v] l IH]; intros I.
  - cbn. clear. induction K as [|j K IK]; cbn; [reflexivity|]. rewrite <- IK. lra.
  - cbn [wlin]. rewrite IH by (intros j J; apply I; now right).
    assert (Ii : In b K) by (apply I; left; reflexivity). clear I IH.
    induction K as [|j K IK]; [destruct Ii|]. inversion ND as [|? ? N1 N2]; subst. cbn [fold_right].
    change (total j ((b, v) :: l)) with (if word_dec b j then (v + total j l)%R else total j l).
    destruct (word_dec b j) as [->|D].
    + rewrite <- (tot_other phi j v l K N1). cbn [f_mul RF]. lra.
    + destruct Ii as [->|Ii]; [congruence|]. specialize (IK N2 Ii). rewrite <- IK. lra.
Qed.
Lemma wlin_totals : forall phi l k, (forall a, (In a (map fst l) <-> In a (map fst k)) /\ total a l = total a k) -> wlin phi l = wlin phi k.
Proof.
  intros phi l k E.
  rewrite (wlin_keys phi (nodup word_dec (map fst l ++ map fst k)) l), (wlin_keys phi (nodup word_dec (map fst l ++ map fst k)) k).
  - induction (nodup word_dec (map fst l ++ map fst k)) as [|i K IK]; cbn [fold_right]; [reflexivity|]. now rewrite IK, (proj2 (E i)).
  - apply NoDup_nodup.
  - intros i Hi. apply nodup_In, in_app_iff. now right.
  - apply NoDup_nodup.
  - intros i Hi. apply nodup_In, in_app_iff. now left.
Qed.
Lemma lin_content : forall H seed nb k phi l, lin phi (content H seed nb k l) =
  wlin (fun a => if ns_eqb k (okey H seed (fst a)) then phi (place H seed nb a) else 0%R) l.
Proof.
  intros H seed nb k phi l. induction l as [|(a & v) l IH]; [reflexivity|]. unfold content in *. cbn [filter wlin]. unfold inside at 1. cbn [fst snd].
  destruct (ns_eqb k (okey H seed (fst a))); [|rewrite IH; lra]. cbn [map lin put fst snd]. now rewrite IH.
Qed.
Lemma content_eqv : forall H seed nb k p q, same_totals p q -> eqv (content H seed nb k (words p)) (content H seed nb k (words q)).
Proof.
  intros H seed nb k p q E.
  assert (A : forall (l m : list (word * RF)) i, (forall a, In a (map fst l) -> In a (map fst m)) -> In i (ind (content H seed nb k l)) -> In i (ind (content H seed nb k m))).
  { intros l m i I J. unfold ind, content in *. rewrite map_map in *. apply in_map_iff in J. destruct J as ((a & v) & <- & J). apply filter_In in J. destruct J as (J & K).
    assert (X : In a (map fst m)) by (apply I, in_map_iff; now exists (a, v)). apply in_map_iff in X. destruct X as ((a' & w) & X & Y). cbn [fst] in X. subst a'.
    apply in_map_iff. exists (a, w). split; auto. apply filter_In. auto. }
  split.
  - intros i. split; apply A; intros a; apply E.
  - intros phi. rewrite !lin_content. now apply wlin_totals.
Qed.

(** *** examples *)
Section Clean.
Context (E : list ent -> list ent -> Prop) (Eapp : forall l k l' k', E l l' -> E k k' -> E (l ++ k) (l' ++ k')).
Definition clean (a : sfeats RF) : Prop := fwf a /\ quiet a /\ esim a a.
Definition zE (x y : sfeats RF) : Prop := fwf x /\ fwf y /\ quiet x /\ quiet y /\ forall k, E (feats_of k x) (feats_of k y).
Definition pairE (a b : sfeats RF) : Prop := clean a /\ clean b /\ forall k, E (feats_of k a) (feats_of k b).
Lemma pair_zE : forall a b, pairE a b -> zE a b.
Proof. intros a b ((A & B & _) & (C & D & _) & F). repeat (split; [assumption|]). exact F. Qed.
Lemma append_zE : forall a b s t x y, pairE a b -> pairE s t -> sf_append a s = Ok x -> sf_append b t = Ok y -> zE x y.
Proof.
  intros a b s t x y ((Wa & Qa & _) & (Wb & Qb & _) & P) ((Ws & Qs & _) & (Wt & Qt & _) & Q) X Y.
  destruct (append_feats a s x Wa Ws Qa X) as (Wx & Qx & Fx). destruct (append_feats b t y Wb Wt Qb Y) as (Wy & Qy & Fy).
  repeat (split; [assumption|]). intros k. rewrite Fx, Fy. now apply Eapp.
Qed.
Definition ftsE (f g : features RF) : Prop :=
  match f, g with
  | FtsSimple a, FtsSimple b => pairE a b
  | FtsCb s x, FtsCb t y => match s, t with Some a, Some b => pairE a b | None, None => True | _, _ => False end /\ Forall2 pairE x y
  | _, _ => False
  end.
Lemma ftsE_zf : forall f g, ftsE f g -> zf zE f g.
Proof.
  intros [a|s x] [b|t y] Q; simpl in *; try tauto; [now apply pair_zE|]. destruct Q as (Q & P). split.
  { destruct s, t; simpl; try tauto. destruct Q as ((_ & _ & A) & (_ & _ & B) & _). auto. }
  induction P as [|a b x y Pab P IH]; constructor; auto.
  destruct s as [s|], t as [t|]; simpl; try tauto; [|now apply pair_zE].
  pose proof Q as ((_ & _ & A) & (_ & _ & B) & _). pose proof Pab as ((_ & _ & C) & (_ & _ & D) & _). repeat (split; [assumption|]).
  split; intros u v U V; [exact (append_zE a b s t u v Pab Q U V)|exact (append_zE s t a b u v Q Pab U V)].
Qed.
End Clean.

Section Laws.
Context (H : hasher) (gc : gconfig) (NR : no_repeat H gc).
Lemma swap_clean : forall a s x y : sfeats RF, clean a -> clean s -> sf_append a s = Ok x -> sf_append s a = Ok y -> zp x y.
Proof.
  intros a s x y (Wa & Qa & _) (Ws & Qs & _) X Y.
  destruct (append_feats a s x Wa Ws Qa X) as (Wx & Qx & Fx). destruct (append_feats s a y Ws Wa Qs Y) as (Wy & Qy & Fy).
  repeat (split; [assumption|]). intros k. rewrite Fx, Fy. apply Permutation_app_comm.
Qed.
Lemma ftsE_zl : forall f g : features RF, ftsE (@Permutation _) f g -> no_clash_fts H gc f -> zf (zl H gc) f g.
Proof.
  intros [a|s x] [b|t y] Q C; simpl in *; try tauto; [split; [now apply pair_zE|exact C]|]. destruct Q as (Q & P). split.
  { destruct s, t; simpl; try tauto. destruct Q as ((_ & _ & A) & (_ & _ & B) & _). auto. }
  induction P as [|a b x y Pab P IH]; constructor.
  - destruct s as [s|], t as [t|]; simpl; try tauto.
    + pose proof Q as (Cs & (_ & _ & B) & _). pose proof Cs as (_ & _ & A). pose proof Pab as (Ca & (_ & _ & D) & _). pose proof Ca as (_ & _ & Ea).
      repeat (split; [assumption|]). split.
      * intros u v U V. split; [exact (append_zE _ (@Permutation_app _) a b s t u v Pab Q U V)|]. eapply C; [now left|exact U].
      * intros u v U V. split; [exact (append_zE _ (@Permutation_app _) s t a b u v Q Pab U V)|]. destruct (esim_append a s Ea A) as (u' & U').
        apply (clash_zp H gc NR u' u); [exact (swap_clean a s u' u Ca Cs U' U)|]. eapply C; [now left|exact U'].
    + split; [now apply pair_zE|]. eapply C; [now left|reflexivity].
  - apply IH. intros z u Hz U. eapply C; [right; exact Hz|exact U].
Qed.
Lemma holds_ftsE : forall (E : list ent -> list ent -> Prop) (Q : part RF -> part RF -> Prop) e e' f g,
  (forall k p q, Q p q -> E (content H (gc_seed gc) (gc_bits gc) k (words p)) (content H (gc_seed gc) (gc_bits gc) k (words q))) ->
  exam_with Q e e' -> holds_exam H (gc_seed gc) (gc_bits gc) e f -> holds_exam H (gc_seed gc) (gc_bits gc) e' g -> ftsE E f g.
Proof.
  intros E Q e e' f g K W A B.
  assert (P : forall p q d d', Q p q -> holds H (gc_seed gc) (gc_bits gc) p d -> holds H (gc_seed gc) (gc_bits gc) q d' -> pairE E d d').
  { intros p q d d' X Y Z. destruct (holds_content _ _ _ _ _ Y) as (Y1 & Y2 & Y3 & Y4), (holds_content _ _ _ _ _ Z) as (Z1 & Z2 & Z3 & Z4).
    split; [split; [|split]; assumption|]. split; [split; [|split]; assumption|]. intros k. rewrite Y4, Z4. auto. }
  destruct e as [p lb|s x lb], e' as [q lb'|t y lb'], f as [a|sa xa], g as [b|sb xb]; simpl in *; try tauto; [eauto|].
  destruct W as (W1 & W2), A as (A1 & A2), B as (B1 & B2). split.
  - destruct s, t, sa, sb; try tauto. eauto.
  - clear - P W2 A2 B2. revert xa xb A2 B2. induction W2; intros xa xb A2 B2; inversion A2; inversion B2; subst; constructor; eauto.
Qed.

Context (pf : str -> option RF) (rd : str -> option (json RF)).
Lemma words_totals : forall al1 al2 fmt1 fmt2 (c : rcfg RF) R0 r ps1 ps2 need1 need2 ds1 ds2 c1 c2 e1 e2,
  ws_new H false gc c = Ok R0 -> reach false (projT2 R0) r -> elem_free (projT1 R0) (projT2 R0) ->
  get_parser H pf rd al1 false fmt1 gc r = Ok (ps1, need1) -> get_parser H pf rd al2 false fmt2 gc r = Ok (ps2, need2) ->
  gc_bits gc < 32 -> Forall pooled ds1 -> Forall pooled ds2 -> writes pf rd fmt1 c1 e1 -> writes pf rd fmt2 c2 e2 ->
  exam_types e1 = types_of r -> exam_types e2 = types_of r -> exam_fits H false (gc_seed gc) e1 -> exam_fits H false (gc_seed gc) e2 ->
  exam_with same_totals e1 e2 ->
  exists f g, ps1 ds1 c1 = Ok (f, exam_label e1) /\ ps2 ds2 c2 = Ok (g, exam_label e2) /\
    forall p f', ws_predict false r f = Ok (p, f') -> exists g', ws_predict false r g = Ok (p, g').
Proof.
  intros al1 al2 fmt1 fmt2 c R0 r ps1 ps2 need1 need2 ds1 ds2 c1 c2 e1 e2 E Q EF G1 G2 Hb P1 P2 W1 W2 T1 T2 F1 F2 ST.
  destruct (written_parsed H pf rd false al1 fmt1 gc _ r ps1 need1 ds1 c1 e1 G1 Hb P1 W1 T1 F1) as (f & X & Hf).
  destruct (written_parsed H pf rd false al2 fmt2 gc _ r ps2 need2 ds2 c2 e2 G2 Hb P2 W2 T2 F2) as (g & Y & Hg).
  exists f, g. split; auto. split; auto. intros p f' W. unfold ws_predict in *. binv W. destruct v as ((p1 & f1) & d1). inversion W; subst.
  assert (Z : zf zm f g).
  { apply (ftsE_zf eqv eqv_app). eapply (holds_ftsE eqv same_totals); eauto. intros k a b. apply content_eqv. }
  destruct (predict_z zm (good H gc) (zm_predict H gc NR) _ r f g 0%N 0%N (free_shape _ _ _ (reach_shape _ _ _ _ Q) EF) (new_good H gc c R0 r E Q) Z _ B) as (((q & g1) & e0) & E2 & E1 & _ & _ & _).
  cbn [fst snd] in E1. subst. rewrite E2. cbn [bind]. eauto.
Qed.
Lemma words_order : forall al1 al2 fmt1 fmt2 (c : rcfg RF) R0 r ps1 ps2 need1 need2 ds1 ds2 c1 c2 e1 e2,
  ws_new H false gc c = Ok R0 -> reach false (projT2 R0) r -> elem_free (projT1 R0) (projT2 R0) ->
  get_parser H pf rd al1 false fmt1 gc r = Ok (ps1, need1) -> get_parser H pf rd al2 false fmt2 gc r = Ok (ps2, need2) ->
  gc_bits gc < 32 -> Forall pooled ds1 -> Forall pooled ds2 -> writes pf rd fmt1 c1 e1 -> writes pf rd fmt2 c2 e2 ->
  exam_types e1 = types_of r -> exam_types e2 = types_of r -> exam_fits H false (gc_seed gc) e1 -> exam_fits H false (gc_seed gc) e2 ->
  exam_with same_words e1 e2 ->
  exists f g, ps1 ds1 c1 = Ok (f, exam_label e1) /\ ps2 ds2 c2 = Ok (g, exam_label e2) /\
    (forall p f', ws_predict false r f = Ok (p, f') -> exists g', ws_predict false r g = Ok (p, g')) /\
    (no_clash_fts H gc f -> forall lb r' f', ws_learn false r f lb = Ok (r', f') -> exists g', ws_learn false r g lb = Ok (r', g')).
Proof.
  intros al1 al2 fmt1 fmt2 c R0 r ps1 ps2 need1 need2 ds1 ds2 c1 c2 e1 e2 E Q EF G1 G2 Hb P1 P2 W1 W2 T1 T2 F1 F2 ST.
  destruct (written_parsed H pf rd false al1 fmt1 gc _ r ps1 need1 ds1 c1 e1 G1 Hb P1 W1 T1 F1) as (f & X & Hf).
  destruct (written_parsed H pf rd false al2 fmt2 gc _ r ps2 need2 ds2 c2 e2 G2 Hb P2 W2 T2 F2) as (g & Y & Hg).
  assert (Z : ftsE (@Permutation _) f g).
  { eapply (holds_ftsE _ same_words); eauto. intros k a b. apply content_perm. }
  exists f, g. split; auto. split; auto. split.
  - intros p f' W. unfold ws_predict in *. binv W. destruct v as ((p1 & f1) & d1). inversion W; subst.
    destruct (predict_z zp (good H gc) (zp_predict H gc NR) _ r f g 0%N 0%N (free_shape _ _ _ (reach_shape _ _ _ _ Q) EF) (new_good H gc c R0 r E Q) (ftsE_zf _ (@Permutation_app _) f g Z) _ B) as (((q & g1) & e0) & E2 & E1 & _ & _ & _).
    cbn [fst snd] in E1. subst. rewrite E2. cbn [bind]. eauto.
  - intros C lb r' f' W. unfold ws_learn in *. binv W. destruct v as ((p1 & f1) & d1). inversion W; subst.
    destruct (learn_z (zl H gc) (good H gc) (zl_learn H gc NR) (good_learn H gc) _ r f g lb 0%N 0%N (free_shape _ _ _ (reach_shape _ _ _ _ Q) EF) (new_good H gc c R0 r E Q) (ftsE_zl f g Z C) _ B) as (((q & g1) & e0) & E2 & E1 & _ & _ & _).
    cbn [fst snd] in E1. subst. rewrite E2. cbn [bind]. eauto.
Qed.
End Laws.

(** Empty namespaces make no difference in a release build (C75). *)
From Coq Require Import List NArith ZArith PeanoNat Bool Lia.
From Verif Require Import Base FloatOps Model_Hash Model_Features Model_Weights Model_Types Model_Explore
  Model_Coin Model_Stack Spec_Features Spec_Stack Spec_Empty Proof_Features Proof_StackCong Proof_StackRestore Proof_StackPtl Proof_StackShape Proof_StackProps Proof_Loose Proof_Train.
Import ListNotations.

Section E.
Context {O : FOps}.
Implicit Types (a b sh : sfeats O) (f g h : features O).

Definition esim a b : Prop := fwf a /\ fwf b /\ open a /\ open b /\
  forall k, sfn_idx (item k a) = sfn_idx (item k b) /\ sfn_val (item k a) = sfn_val (item k b).

Ltac four := split; [assumption|split; [assumption|split; [assumption|split; [assumption|]]]].
Lemma esim_refl : forall a, fwf a -> open a -> esim a a.
Proof. intros a W Q. four. auto. Qed.
Lemma esim_sym : forall a b, esim a b -> esim b a.
Proof. intros a b (A & B & C & D & E). four. intros k. destruct (E k). auto. Qed.
Lemma esim_trans : forall a b c, esim a b -> esim b c -> esim a c.
Proof.
  intros a b c (A & B & C & D & E) (A' & B' & C' & D' & E'). four. intros k. destruct (E k), (E' k). split; congruence.
Qed.
Lemma fsim_open : forall a b, fsim a b -> open a -> open b.
Proof.
  intros a b (Wa & Wb & V) Op k t E Z. specialize (V k). unfold vget in V. rewrite E in V.
  assert (SV : svis t = true) by (unfold svis; rewrite (proj2 (Nat.eqb_neq _ _) Z); apply orb_true_r). rewrite SV in V.
  destruct (fm_get k a) as [u|] eqn:Ea; [|discriminate]. destruct (svis u); inversion V; subst. eapply Op; eauto.
Qed.
Lemma fsim_esim : forall a b, fsim a b -> open a -> esim a b.
Proof.
  intros a b F Q. split; [apply F|]. split; [apply F|]. split; auto. split; [eapply fsim_open; eauto|]. intros k. now rewrite (fsim_item a b k F).
Qed.

Definition ee a b : Prop := fsim a b \/ esim a b.
Lemma ee_wf : forall a b, ee a b -> fwf a /\ fwf b.
Proof. intros a b [(A & B & _)|(A & B & _)]; auto. Qed.
Lemma ee_sym : forall a b, ee a b -> ee b a.
Proof. intros a b [E|E]; [left; now apply fsim_sym|right; now apply esim_sym]. Qed.
Lemma ee_trans : forall a b c, ee a b -> ee b c -> ee a c.
Proof.
  intros a b c [E|E] [E'|E'].
  - left. eapply fsim_trans; eauto.
  - right. apply esim_trans with b; auto. apply esim_sym. apply fsim_esim; [now apply fsim_sym|apply E'].
  - right. apply esim_trans with b; auto. apply fsim_esim; [auto|apply E].
  - right. eapply esim_trans; eauto.
Qed.

(** ** what the regressor sees *)
Definition full a : sfeats O := filter (fun kv => negb (Nat.eqb (sfn_size (snd kv)) 0)) a.
Lemma full_all : forall a, sf_all (full a) = sf_all a.
Proof.
  induction a as [|(k & s) a IH]; auto. cbn [full filter snd]. fold (full a). destruct (Nat.eqb (sfn_size s) 0) eqn:Z; cbn [negb].
  - apply Nat.eqb_eq in Z. unfold sf_all in *. cbn [flat_map fst snd]. rewrite IH. unfold sfn_iter, sfn_size in *. now destruct (sfn_idx s).
  - unfold sf_all in *. cbn [flat_map]. now rewrite IH.
Qed.
Lemma esim_full : forall a b, esim a b -> full a = full b.
Proof.
  intros a b (Wa & Wb & Oa & Ob & E). apply fm_ext; [apply fm_sorted_filter, Wa|apply fm_sorted_filter, Wb|].
  intros k. unfold full. rewrite !fm_get_filter by (apply Wa || apply Wb). cbn [snd]. specialize (E k). unfold item in E.
  destruct (fm_get k a) as [u|] eqn:Eu, (fm_get k b) as [v|] eqn:Ev; auto; destruct E as (E1 & E2).
  - unfold sfn_size. rewrite E1. destruct (Nat.eqb (length (sfn_idx v)) 0) eqn:Z; auto. cbn [negb]. f_equal. apply Nat.eqb_neq in Z.
    assert (Au : sfn_active u = true) by (apply (Oa k u Eu); unfold sfn_size; now rewrite E1).
    assert (Av : sfn_active v = true) by (apply (Ob k v Ev); exact Z).
    destruct (proj2 Wa k u Eu) as (N1 & _), (proj2 Wb k v Ev) as (N2 & _). destruct u, v; cbn in *. congruence.
  - cbn in E1. unfold sfn_size. now rewrite E1.
  - cbn in E1. unfold sfn_size. now rewrite <- E1.
Qed.
Lemma esim_all : forall a b, esim a b -> sf_all a = sf_all b.
Proof. intros a b E. rewrite <- (full_all a), <- (full_all b). now rewrite (esim_full a b E). Qed.

(** a namespace that is absent counts as an empty one *)
Definition seen_at k a : list (N * O) := match sf_get k a with Some s => sfn_iter s | None => [] end.
Lemma esim_seen : forall a b k, esim a b -> seen_at k a = seen_at k b.
Proof.
  assert (A : forall a k, fwf a -> open a -> seen_at k a = sfn_iter (item k a)).
  { intros a k W Q. unfold seen_at, sf_get, item. destruct (fm_get k a) as [s|] eqn:E; [|reflexivity].
    destruct (sfn_active s) eqn:Ac; auto. destruct (Nat.eq_dec (sfn_size s) 0) as [Z|Z].
    - unfold sfn_iter. unfold sfn_size in Z. now destruct (sfn_idx s).
    - pose proof (Q k s E Z). congruence. }
  intros a b k (Wa & Wb & Oa & Ob & E). rewrite !A by auto. unfold sfn_iter. destruct (E k) as (-> & ->). reflexivity.
Qed.
Lemma flat_map_nil : forall A B (l : list A), flat_map (fun _ => @nil B) l = [].
Proof. induction l; auto. Qed.
Lemma quad_seen : forall mk a n1 n2, fe_quadratic mk a (n1, n2) =
  flat_map (fun ix => let '(i, (idx1, v1)) := ix in
     map (fun q => (mask mk (N.lxor (fnv_mul idx1) (fst q)), f_mul O v1 (snd q)))
         (skipn (if ns_eqb n1 n2 then N.to_nat i else 0%nat) (seen_at n2 a))) (enum_from 0 (seen_at n1 a)).
Proof.
  intros mk a n1 n2. unfold fe_quadratic, seen_at. destruct (sf_get n1 a) as [s1|]; auto. destruct (sf_get n2 a) as [s2|]; auto.
  apply flat_map_ext. intros (i & (x & v)). now rewrite skipn_nil.
Qed.
Lemma esim_quad : forall mk a b p, esim a b -> fe_quadratic mk a p = fe_quadratic mk b p.
Proof. intros mk a b (n1 & n2) E. rewrite !quad_seen, !(esim_seen a b) by auto. reflexivity. Qed.
Lemma cub_seen : forall mk a n1 n2 n3, fe_cubic mk a (n1, n2, n3) =
  flat_map (fun ix => let '(i, (idx1, v1)) := ix in
     flat_map (fun q => map (fun r => (mask mk (N.lxor (fnv_mul (N.lxor (fnv_mul idx1) (fst q))) (fst r)), f_mul O (f_mul O v1 (snd q)) (snd r)))
         (skipn (if ns_eqb n2 n3 then N.to_nat i else 0%nat) (seen_at n3 a)))
       (skipn (if ns_eqb n1 n2 then N.to_nat i else 0%nat) (seen_at n2 a))) (enum_from 0 (seen_at n1 a)).
Proof.
  intros mk a n1 n2 n3. unfold fe_cubic, seen_at. destruct (sf_get n1 a) as [s1|]; auto.
  apply flat_map_ext. intros (i & (x & v)). destruct (sf_get n2 a) as [s2|]; [|now rewrite skipn_nil].
  apply flat_map_ext. intros (j & w). destruct (sf_get n3 a) as [s3|]; auto. now rewrite skipn_nil.
Qed.
Lemma esim_cub : forall mk a b p, esim a b -> fe_cubic mk a p = fe_cubic mk b p.
Proof. intros mk a b ((n1 & n2) & n3) E. rewrite !cub_seen, !(esim_seen a b) by auto. reflexivity. Qed.
Lemma fe_list_ee : forall dbg a b ps ts nb c, ee a b -> fe_list dbg a ps ts nb c = fe_list dbg b ps ts nb c.
Proof.
  intros dbg a b ps ts nb c [H|H]; [now apply fe_list_sim|]. unfold fe_list.
  destruct (mask_from_bits dbg nb) as [mk| |]; cbn [bind]; auto.
  rewrite (esim_all a b) by auto.
  rewrite (flat_map_ext (fe_quadratic mk a) (fe_quadratic mk b)) by (intros; now apply esim_quad).
  rewrite (flat_map_ext (fe_cubic mk a) (fe_cubic mk b)) by (intros; now apply esim_cub).
  reflexivity.
Qed.
Lemma coin_predict_ee : forall dbg c a b, ee a b -> coin_predict dbg c a = coin_predict dbg c b.
Proof. intros dbg c a b H. unfold coin_predict, coin_feats. now rewrite (fe_list_ee dbg a b) by auto. Qed.
Lemma coin_update_ee : forall dbg c a b p l w, ee a b -> coin_update dbg c a p l w = coin_update dbg c b p l w.
Proof. intros dbg c a b p l w H. unfold coin_update, coin_feats. now rewrite (fe_list_ee dbg a b) by auto. Qed.
Lemma coin_learn_ee : forall dbg c a b v w, ee a b -> coin_learn dbg c a v w = coin_learn dbg c b v w.
Proof.
  intros dbg c a b v w H. unfold coin_learn, coin_betting_predict, coin_feats.
  rewrite (fe_list_ee dbg a b) by auto. match goal with |- bind ?x _ = _ => destruct x end; cbn [bind]; auto.
  now apply coin_update_ee.
Qed.

(** ** shared features around a call *)
Lemma append_e : forall a b s t, esim a b -> esim s t -> orel esim (sf_append a s) (sf_append b t).
Proof.
  intros a b s t (Wa & Wb & Oa & Ob & E) (Ws & Wt & Os & Ot & E').
  destruct (append_get a s Wa Ws) as (r & -> & Wr & G). destruct (append_get b t Wb Wt) as (r' & -> & Wr' & G').
  constructor.
  assert (A : forall m o x : sfeats O, fwf m -> fwf o -> open m -> open o -> (forall k, fm_get k x = match fm_get k o with
        | Some t => if sfn_active t then Some (sfn_cat (item k m) t) else fm_get k m | None => fm_get k m end) ->
      open x /\ forall k, sfn_idx (item k x) = sfn_idx (item k m) ++ sfn_idx (item k o) /\ sfn_val (item k x) = sfn_val (item k m) ++ sfn_val (item k o)).
  { clear. intros m o x Wm Wo Om Oo G. split.
    - intros k u Eu Z. rewrite G in Eu. destruct (fm_get k o) as [v|] eqn:Ev; [|eapply Om; eauto].
      destruct (sfn_active v); [inversion Eu; reflexivity|eapply Om; eauto].
    - intros k. unfold item at 1 4. rewrite G. unfold item at 3 6. destruct (fm_get k o) as [v|] eqn:Ev; cbn [sfn_new sfn_idx sfn_val].
      + destruct (sfn_active v) eqn:Av; [split; reflexivity|].
        destruct (Nat.eq_dec (sfn_size v) 0) as [Z|Z]; [|pose proof (Oo k v Ev Z); congruence].
        destruct (size0_nil k v (proj2 Wo k v Ev) Z) as (-> & ->). rewrite !app_nil_r. split; reflexivity.
      + rewrite !app_nil_r. split; reflexivity. }
  destruct (A a s r Wa Ws Oa Os G) as (O1 & I1). destruct (A b t r' Wb Wt Ob Ot G') as (O2 & I2).
  four. intros k. destruct (I1 k) as (-> & ->), (I2 k) as (-> & ->), (E k) as (-> & ->), (E' k) as (-> & ->). split; reflexivity.
Qed.
Lemma around_e : forall dbg a s a1, esim a a -> esim s s -> sf_append a s = Ok a1 -> exists a2, sf_remove dbg a1 s = Ok a2 /\ esim a a2.
Proof.
  intros dbg a s a1 (Wa & _ & Oa & _) (Ws & _ & Os & _) E. destruct (append_remove_get dbg a s a1 Wa Ws E) as (r & R & W & G).
  exists r. split; auto. split; auto. split; auto. split; auto. split.
  - intros k u Eu Z. rewrite G in Eu. destruct (fm_get k s) as [v|] eqn:Ev; [|eapply Oa; eauto].
    destruct (sfn_active v); [|eapply Oa; eauto]. inversion Eu; subst. unfold sfn_back in *. cbn in *. unfold sfn_size in *. cbn in Z.
    now rewrite (proj2 (Nat.eqb_neq _ _) Z).
  - intros k. unfold item at 2 4. rewrite G. destruct (fm_get k s) as [v|]; [destruct (sfn_active v)|]; split; reflexivity.
Qed.
Lemma esim_l : forall a b, esim a b -> esim a a.
Proof. intros a b E. apply esim_trans with b; auto. now apply esim_sym. Qed.
Lemma esim_r : forall a b, esim a b -> esim b b.
Proof. intros a b E. apply esim_trans with a; auto. now apply esim_sym. Qed.

(** ** calls *)
Definition fte f g : Prop :=
  match f, g with
  | FtsSimple a, FtsSimple b => ee a b
  | FtsCb (Some s) x, FtsCb (Some t) y => esim s t /\ Forall2 esim x y
  | FtsCb None x, FtsCb None y => Forall2 ee x y
  | _, _ => False
  end.
(** what a call leaves *)
Definition hold f g : Prop :=
  match f, g with
  | FtsSimple a, FtsSimple b => b = a
  | FtsCb (Some s) x, FtsCb (Some t) y => esim s t /\ Forall2 esim x y
  | FtsCb None x, FtsCb None y => y = x
  | _, _ => False
  end.
Definition res {X} f g (u v : pres O X) : Prop :=
  fst (fst u) = fst (fst v) /\ hold f (snd (fst u)) /\ hold g (snd (fst v)) /\ snd u = snd v.

Lemma F2e_trans : forall x y z, Forall2 esim x y -> Forall2 esim y z -> Forall2 esim x z.
Proof. intros x y z H; revert z. induction H; intros z K; inversion K; subst; constructor; eauto using esim_trans. Qed.
Lemma F2e_sym : forall x y, Forall2 esim x y -> Forall2 esim y x.
Proof. intros x y H. induction H; constructor; auto using esim_sym. Qed.
Lemma F2ee_sym : forall x y, Forall2 ee x y -> Forall2 ee y x.
Proof. intros x y H. induction H; constructor; auto using ee_sym. Qed.
Lemma F2ee_trans : forall x y z, Forall2 ee x y -> Forall2 ee y z -> Forall2 ee x z.
Proof. intros x y z H; revert z. induction H; intros z K; inversion K; subst; constructor; eauto using ee_trans. Qed.
Lemma fte_sym : forall f g, fte f g -> fte g f.
Proof.
  intros [a|[s|] x] [b|[t|] y]; simpl; try tauto; [apply ee_sym| |apply F2ee_sym]. intros (A & B). split; [now apply esim_sym|now apply F2e_sym].
Qed.
Lemma fte_trans : forall f g h, fte f g -> fte g h -> fte f h.
Proof.
  intros [a|[s|] x] [b|[t|] y] [c|[u|] z]; simpl; try tauto; [apply ee_trans| |apply F2ee_trans].
  intros (A & B) (A' & B'). split; [eapply esim_trans; eauto|eapply F2e_trans; eauto].
Qed.
Lemma fte_l : forall f g, fte f g -> fte f f.
Proof. intros f g E. apply fte_trans with g; auto. now apply fte_sym. Qed.
Lemma hold_fte : forall f g, fte f f -> hold f g -> fte f g.
Proof. intros [a|[s|] x] [b|[t|] y]; simpl; try tauto; now intros ? ->. Qed.
Lemma hold_trans : forall f g h, hold f g -> hold g h -> hold f h.
Proof.
  intros [a|[s|] x] [b|[t|] y] [c|[u|] z]; simpl; try tauto; try (intros -> ->; reflexivity).
  intros (A & B) (A' & B'). split; [eapply esim_trans; eauto|eapply F2e_trans; eauto].
Qed.
Lemma hold_refl : forall f, fte f f -> hold f f.
Proof. intros [a|[s|] x]; simpl; auto. Qed.
Lemma fte_hold : forall f g f' g', fte f g -> hold f f' -> hold g g' -> fte f' g'.
Proof.
  intros f g f' g' E A B. apply fte_trans with f; [apply fte_sym, hold_fte; auto; eapply fte_l; eauto|].
  apply fte_trans with g; auto. apply hold_fte; auto. apply fte_l with f. now apply fte_sym.
Qed.

Lemma wrap_e : forall X nmb mo f g d (B1 B2 : features O -> N -> out (pres O X)),
  (forall d, orel (res f g) (B1 f d) (B2 g d)) -> orel (res f g) (wrap false nmb mo f d B1) (wrap false nmb mo g d B2).
Proof.
  intros X nmb mo f g d B1 B2 HB. unfold wrap. destruct (depth_inc false d nmb mo) as [d1|e|p]; cbn [bind]; try constructor.
  eapply orel_bind; [apply HB|]. intros ((x & f') & d2) ((y & g') & e2) (E1 & E2 & E3 & E4). cbn [fst snd] in *. subst y e2.
  destruct (depth_dec false d2 nmb mo) as [d3|e|p]; cbn [bind andb]; constructor. repeat (split; auto).
Qed.

Definition opt_e (s t : option (sfeats O)) a b : Prop := match s, t with Some s, Some t => esim s t /\ esim a b | None, None => ee a b | _, _ => False end.
Lemma opt_append : forall (s t : option (sfeats O)) a b, opt_e s t a b -> orel ee (append_opt a s) (append_opt b t).
Proof.
  intros [s|] [t|] a b; simpl; try tauto; [|intros; now constructor]. intros (E & E'). eapply orel_mono; [now apply append_e|]. intros; now right.
Qed.
Definition opt_hold (s : option (sfeats O)) a b : Prop := match s with Some _ => esim a b | None => b = a end.
Lemma opt_remove : forall (s t : option (sfeats O)) a b a1 b1, opt_e s t a b -> append_opt a s = Ok a1 -> append_opt b t = Ok b1 ->
  exists a2 b2, remove_opt false a1 s = Ok a2 /\ remove_opt false b1 t = Ok b2 /\ opt_hold s a a2 /\ opt_hold t b b2.
Proof.
  intros [s|] [t|] a b a1 b1; simpl; try tauto.
  - intros (E & E') A B. destruct (around_e false a s a1) as (a2 & -> & K); eauto using esim_l. destruct (around_e false b t b1) as (b2 & -> & K'); eauto using esim_r. exists a2, b2. auto.
  - intros _ A B. inversion A; inversion B; subst. exists a1, b1. auto.
Qed.

Lemma cb_predict_loop_e : forall c1 c2 (s t : option (sfeats O)) x y i d,
  (forall a b d mo, ee a b -> orel (res (FtsSimple a) (FtsSimple b)) (c1 (FtsSimple a) d mo) (c2 (FtsSimple b) d mo)) ->
  Forall2 (opt_e s t) x y ->
  orel (fun u v => fst (fst u) = fst (fst v) /\ Forall2 (opt_hold s) x (snd (fst u)) /\ Forall2 (opt_hold t) y (snd (fst v)) /\ snd u = snd v)
    (cb_predict_loop false c1 s x i d) (cb_predict_loop false c2 t y i d).
Proof.
  intros c1 c2 s t x y i d HC H. revert i d. induction H as [|a b x y Hab H IH]; intros i d; cbn [cb_predict_loop].
  - constructor. cbn. auto.
  - pose proof (opt_append s t a b Hab) as A.
    destruct (append_opt a s) as [a1| |] eqn:Ea, (append_opt b t) as [b1| |] eqn:Eb; inversion A; subst; cbn [bind]; try constructor.
    destruct (opt_remove s t a b a1 b1 Hab Ea Eb) as (a2 & b2 & R1 & R2 & K1 & K2).
    eapply orel_bind; [apply HC; eassumption|]. intros ((p & f') & d1) ((q & g') & e1) (E1 & E2 & E3 & E4). cbn [fst snd] in *. subst.
    destruct f' as [f'|]; [|now simpl in E2]. destruct g' as [g'|]; [|now simpl in E3]. cbn [hold] in E2, E3. subst f' g'. cbn [back_simple].
    destruct (as_scalar q) as [sc| |]; cbn [bind]; try constructor.
    rewrite R1, R2. cbn [bind]. eapply orel_bind; [apply IH|].
    intros ((p1 & l1) & d2) ((q1 & l2) & e2) (E5 & E6 & E7 & E8). cbn [fst snd] in *. subst. constructor. cbn. repeat (split; auto).
Qed.
Lemma cb_ips_loop_e : forall X (P : X -> Prop) le act cost prob (s t : option (sfeats O)) x y i (ch : X) d,
  (forall ch a b lb d mo, P ch -> ee a b -> orel (res (FtsSimple a) (FtsSimple b)) (le ch (FtsSimple a) lb d mo) (le ch (FtsSimple b) lb d mo)) ->
  (forall ch f lb d mo ch' f' d', P ch -> le ch f lb d mo = Ok (ch', f', d') -> P ch') ->
  P ch -> Forall2 (opt_e s t) x y ->
  orel (fun u v => fst (fst u) = fst (fst v) /\ Forall2 (opt_hold s) x (snd (fst u)) /\ Forall2 (opt_hold t) y (snd (fst v)) /\ snd u = snd v)
    (cb_ips_loop false le act cost prob s x i ch d) (cb_ips_loop false le act cost prob t y i ch d).
Proof.
  intros X P le act cost prob s t x y i ch d HC HP K H. revert i ch d K. induction H as [|a b x y Hab H IH]; intros i ch d K; cbn [cb_ips_loop].
  - constructor. cbn. auto.
  - pose proof (opt_append s t a b Hab) as A.
    destruct (append_opt a s) as [a1| |] eqn:Ea, (append_opt b t) as [b1| |] eqn:Eb; inversion A; subst; cbn [bind]; try constructor.
    destruct (opt_remove s t a b a1 b1 Hab Ea Eb) as (a2 & b2 & R1 & R2 & K1 & K2).
    destruct (ips_label false act cost prob i) as [lb| |]; cbn [bind]; try constructor.
    match goal with HE : ee a1 b1 |- _ => pose proof (HC ch a1 b1 lb d 0%N K HE) as Q end.
    destruct (le ch (FtsSimple a1) lb d 0%N) as [((c1 & f') & d1)| |] eqn:L, (le ch (FtsSimple b1) lb d 0%N) as [((c2 & g') & d2)| |]; inversion Q as [u v (E1 & E2 & E3 & E4)| |]; subst; cbn [bind]; try constructor.
    cbn [fst snd] in *. subst. pose proof (HP _ _ _ _ _ _ _ _ K L) as K'.
    destruct f' as [f'|]; [|now simpl in E2]. destruct g' as [g'|]; [|now simpl in E3]. cbn [hold] in E2, E3. subst f' g'. cbn [back_simple].
    rewrite R1, R2. cbn [bind]. eapply orel_bind; [apply IH; exact K'|].
    intros ((p1 & l1) & d3) ((q1 & l2) & e2) (E5 & E6 & E7 & E8). cbn [fst snd] in *. subst. constructor. cbn. repeat (split; auto).
Qed.

Lemma fte_opt : forall (s t : option (sfeats O)) x y, fte (FtsCb s x) (FtsCb t y) -> Forall2 (opt_e s t) x y.
Proof.
  intros [s|] [t|] x y; simpl; try tauto. intros (E & F). induction F; constructor; simpl; auto.
Qed.
Lemma opt_hold_fts : forall (s : option (sfeats O)) x y, fte (FtsCb s x) (FtsCb s x) -> Forall2 (opt_hold s) x y -> hold (FtsCb s x) (FtsCb s y).
Proof.
  intros [s|] x y; simpl; intros E F.
  - split; [apply E|]. clear E. induction F; constructor; auto.
  - clear E. induction F; auto. simpl in H. congruence.
Qed.

Ltac rsplit :=
  let p := fresh "p" in let f' := fresh "f'" in let d' := fresh "d'" in
  let q := fresh "q" in let g' := fresh "g'" in let e' := fresh "e'" in
  let E1 := fresh "E" in let E2 := fresh "E" in let E3 := fresh "E" in let E4 := fresh "E" in
  intros ((p & f') & d') ((q & g') & e') (E1 & E2 & E3 & E4); cbn [fst snd] in E1, E2, E3, E4; subst.
Ltac rdone := repeat (split; auto).

Lemma kind_predict_e : forall k c1 c2 f g d mo, (forall one two keep nb, k <> KElem one two keep nb) ->
  (forall f g d mo, fte f g -> orel (res f g) (c1 f d mo) (c2 g d mo)) -> fte f g ->
  orel (res f g) (kind_predict false k c1 f d mo) (kind_predict false k c2 g d mo).
Proof.
  intros k c1 c2 f g d mo NE HC H. destruct k; cbn [kind_predict];
    try (eapply orel_bind; [apply HC; exact H|rsplit]).
  - destruct (as_scalar q) as [sc| |]; cbn [bind]; constructor. rdone.
  - destruct f as [a|s x], g as [b|t y]; try (now destruct s); try (now destruct t); simpl as_cb; cbn [bind fst snd]; [constructor|].
    eapply orel_bind; [eapply cb_predict_loop_e; [intros; now apply HC|now apply fte_opt]|].
    rsplit. constructor. split; auto. split; [|split]; cbn [fst snd]; auto.
    + apply opt_hold_fts; auto. eapply fte_l; eauto.
    + apply opt_hold_fts; auto. eapply fte_l, fte_sym; eauto.
  - destruct (as_scores q) as [sc| |]; cbn [bind]; try constructor.
    destruct (greedy_probs eps sc) as [pr| |]; cbn [bind]; constructor. rdone.
  - destruct (as_scores q) as [sc| |]; cbn [bind]; try constructor.
    destruct (softmax_probs false ueps lambda sc) as [pr| |]; cbn [bind]; constructor. rdone.
  - destruct (as_scores q) as [sc| |]; cbn [bind]; try constructor.
    destruct (squarecb_probs false ueps (squarecb_gamma gscale gexp counter) sc) as [pr| |]; cbn [bind]; constructor. rdone.
  - now apply NE in H || (exfalso; eapply NE; reflexivity).
  - now apply HC.
Qed.

Lemma predict_e : forall n (r : red O n) f g d mo, elem_free n r -> fte f g -> orel (res f g) (predict false n r f d mo) (predict false n r g d mo).
Proof.
  induction n as [|n IH]; intros r f g d mo K H.
  - destruct r as (w & c). cbn [predict fst snd]. apply wrap_e. intros d0. unfold coin_predict_body.
    destruct f as [a|s x], g as [b|t y]; try (now destruct s); try (now destruct t); simpl as_simple; cbn [bind]; [|constructor].
    rewrite (coin_predict_ee false c a b H). destruct (coin_predict false c b); cbn [bind]; constructor. rdone.
  - destruct r as ((w & k) & ch). cbn [predict elem_free fst snd] in *. destruct K as (K1 & K2). apply wrap_e.
    intros d0. apply kind_predict_e; auto.
Qed.

Lemma free_shape : forall n (r r' : red O n), shape n r r' -> elem_free n r -> elem_free n r'.
Proof.
  induction n as [|n IH]; intros r r' Sh K; [exact Logic.I|]. destruct r as ((w & k) & ch), r' as ((w' & k') & ch').
  cbn [shape elem_free fst snd] in *. destruct Sh as (_ & S1 & S2), K as (K1 & K2). split; [|eapply IH; eauto].
  intros one two keep nb ->. destruct k; simpl in S1; try contradiction. destruct S1 as (-> & -> & -> & ->). eapply K1; reflexivity.
Qed.

Lemma kind_learn_e : forall X (P : X -> Prop) k le (ch : X) f g lb d mo, (forall one two keep nb, k <> KElem one two keep nb) ->
  (forall ch f g lb d mo, P ch -> fte f g -> orel (res f g) (le ch f lb d mo) (le ch g lb d mo)) ->
  (forall ch f lb d mo ch' f' d', P ch -> le ch f lb d mo = Ok (ch', f', d') -> P ch') ->
  P ch -> fte f g ->
  orel (res f g) (kind_learn false k le ch f lb d mo) (kind_learn false k le ch g lb d mo).
Proof.
  intros X P k le ch f g lb d mo NE HC HP K H. destruct k; cbn [kind_learn];
    try (eapply orel_bind; [apply HC; [exact K|exact H]|rsplit; constructor; rdone]).
  - destruct (as_binary_label lb) as [b| |]; cbn [bind]; try constructor.
    eapply orel_bind; [apply HC; [exact K|exact H]|rsplit; constructor; rdone].
  - destruct f as [a|s x], g as [b|t y]; try (now destruct s); try (now destruct t); simpl as_cb; cbn [bind fst snd]; [constructor|].
    destruct (as_cb_label lb) as [((act & cost) & prob)| |]; cbn [bind]; try constructor. destruct ty.
    + eapply orel_bind; [apply (cb_ips_loop_e X P); [|exact HP|exact K|now apply fte_opt]; intros; now apply HC|].
      rsplit. constructor. split; auto. split; [|split]; cbn [fst snd]; auto.
      * apply opt_hold_fts; auto. eapply fte_l; eauto.
      * apply opt_hold_fts; auto. eapply fte_l, fte_sym; eauto.
    + assert (L : length x = length y) by (destruct s, t; simpl in H; try tauto; [destruct H as (_ & H)|]; eapply F2_length; eauto).
      rewrite L.
      destruct (add64 false action_sum (N.of_nat (length y))) as [as'| |]; cbn [bind]; try constructor.
      destruct (add64 false event_sum 1) as [es'| |]; cbn [bind]; try constructor.
      destruct s as [s|], t as [t|]; simpl in H; try tauto; [|constructor]. destruct H as (H1 & H2).
      assert (Hn : match nth_error x (N.to_nat act), nth_error y (N.to_nat act) with
                   | Some a, Some b => esim a b | None, None => True | _, _ => False end).
      { clear - H2. generalize (N.to_nat act). induction H2; intros [|n]; simpl; auto. apply IHForall2. }
      destruct (nth_error x (N.to_nat act)) as [a|], (nth_error y (N.to_nat act)) as [b|]; try tauto;
        cbn [opt_or bind]; [|constructor].
      pose proof (append_e s t a b H1 Hn) as A.
      destruct (sf_append s a) as [s1| |] eqn:Ea, (sf_append t b) as [t1| |] eqn:Eb; inversion A as [? ? A1| |]; subst; cbn [bind]; try constructor.
      destruct (around_e false s a s1) as (s2 & R1 & K1); eauto using esim_l. destruct (around_e false t b t1) as (t2 & R2 & K2); eauto using esim_r.
      eapply orel_bind; [apply (HC ch (FtsSimple s1) (FtsSimple t1)); [exact K|now right]|rsplit].
      destruct f' as [f'|]; [|now simpl in E0]. destruct g' as [g'|]; [|now simpl in E1]. cbn [hold] in E0, E1. subst f' g'. cbn [back_simple].
      rewrite R1, R2. cbn [bind]. constructor. split; auto. cbn [fst snd hold].
      split; [split; auto; eapply F2e_trans; [exact H2|now apply F2e_sym]|]. split; auto. split; auto. eapply F2e_trans; [apply F2e_sym; exact H2|exact H2].
  - destruct (as_cb_label lb) as [((act & cost) & prob)| |]; cbn [bind]; try constructor.
    eapply orel_bind; [apply HC; [exact K|exact H]|rsplit].
    destruct (add64 false counter 1); cbn [bind]; constructor. rdone.
  - exfalso. eapply NE. reflexivity.
Qed.

Lemma learn_e : forall n (r : red O n) f g lb d mo, elem_free n r -> fte f g -> orel (res f g) (learn false n r f lb d mo) (learn false n r g lb d mo).
Proof.
  induction n as [|n IH]; intros r f g lb d mo K H.
  - destruct r as (w & c). cbn [learn]. apply wrap_e. intros d0. unfold coin_learn_body.
    destruct f as [a|s x], g as [b|t y]; try (now destruct s); try (now destruct t); simpl as_simple; cbn [bind]; [|constructor].
    destruct (as_simple_label lb) as [l| |]; cbn [bind]; try constructor.
    rewrite (coin_learn_ee false c a b _ _ H). destruct (coin_learn false c b (fst l) (snd l)); cbn [bind]; constructor. rdone.
  - destruct r as ((w & k) & ch). cbn [learn elem_free fst snd] in *. destruct K as (K1 & K2). apply wrap_e.
    intros d0. eapply orel_bind; [apply (kind_learn_e _ (elem_free n)); auto|].
    + intros c f0 lb0 d1 mo1 c' f' d' K E. apply learn_shape in E. eapply free_shape; eauto.
    + rsplit. destruct q. constructor; rdone.
Qed.

Lemma default_ptl_e : forall X (p : features O -> N -> out (pres O (prediction O))) (l : features O -> N -> out (pres O X)) f g d,
  (forall f g d, fte f g -> orel (res f g) (p f d) (p g d)) -> (forall f g d, fte f g -> orel (res f g) (l f d) (l g d)) -> fte f g ->
  orel (res f g) (default_ptl p l f d) (default_ptl p l g d).
Proof.
  intros X p l f g d HP HL H. unfold default_ptl. eapply orel_bind; [apply HP; exact H|rsplit].
  eapply orel_bind; [apply HL; eapply fte_hold; [exact H| |]; eassumption|rsplit].
  destruct (_ =? d)%N; constructor. split; auto. cbn [fst snd]. split; [eapply hold_trans; eauto|]. split; [eapply hold_trans; eauto|auto].
Qed.

Lemma ptl_e : forall n (r : red O n) f g lb d mo, elem_free n r -> fte f g ->
  orel (res f g) (predict_then_learn false n r f lb d mo) (predict_then_learn false n r g lb d mo).
Proof.
  induction n as [|n IH]; intros r f g lb d mo K H.
  - destruct r as (w & c). cbn [predict_then_learn]. apply wrap_e. intros d0. eapply orel_bind; [apply default_ptl_e; [| |exact H]|].
    + intros f0 g0 d1 H0. unfold coin_predict_body.
      destruct f0 as [a|s x], g0 as [b|t y]; try (now destruct s); try (now destruct t); simpl as_simple; cbn [bind]; [|constructor].
      rewrite (coin_predict_ee false c a b H0). destruct (coin_predict false c b); cbn [bind]; constructor. rdone.
    + intros f0 g0 d1 H0. unfold coin_learn_body.
      destruct f0 as [a|s x], g0 as [b|t y]; try (now destruct s); try (now destruct t); simpl as_simple; cbn [bind]; [|constructor].
      destruct (as_simple_label lb) as [l| |]; cbn [bind]; try constructor.
      rewrite (coin_learn_ee false c a b _ _ H0). destruct (coin_learn false c b (fst l) (snd l)); cbn [bind]; constructor. rdone.
    + rsplit. destruct q. constructor; rdone.
  - destruct r as ((w & k) & ch). cbn [predict_then_learn elem_free fst snd] in *. destruct K as (K1 & K2). apply wrap_e. intros d0.
    assert (DP : forall f g d, fte f g -> orel (res f g) (kind_predict false k (predict false n ch) f d mo) (kind_predict false k (predict false n ch) g d mo)).
    { intros. apply kind_predict_e; auto. intros. now apply predict_e. }
    assert (DL : forall f g d, fte f g -> orel (res f g) (kind_learn false k (learn false n) ch f lb d mo) (kind_learn false k (learn false n) ch g lb d mo)).
    { intros. apply (kind_learn_e _ (elem_free n)); auto; [intros; now apply learn_e|].
      intros c5 f5 lb5 d5 mo5 c6 f6 d6 K E. apply learn_shape in E. eapply free_shape; eauto. }
    eapply (orel_bind _ _ _ _ (res f g)); [|rsplit; destruct q as (p & (k' & ch')); constructor; rdone].
    destruct k; cbn [kind_ptl]; try (now apply default_ptl_e).
    + destruct (as_binary_label lb) as [b| |]; cbn [bind]; try constructor.
      eapply orel_bind; [apply IH; [exact K2|exact H]|rsplit]. destruct q as (p & ch').
      destruct (as_scalar p); cbn [bind]; constructor. rdone.
    + exfalso. eapply K1. reflexivity.
    + eapply orel_bind; [apply IH; [exact K2|exact H]|rsplit]. destruct q. constructor; rdone.
Qed.
End E.

(** The order of the actions does not matter (C89). *)
From Coq Require Import List NArith ZArith Bool Lia Permutation Sorted Reals Lra FinFun.
From Verif Require Import Base FloatOps FloatR Model_Hash Model_Features Model_Weights Model_Loss Model_Interactions
  Model_Types Model_Explore Model_Coin Model_Stack Model_Factory Spec_Stack Spec_Explore Spec_Delegate Spec_ActOrder
  Proof_StackRestore Proof_StackShape Proof_StackProps Proof_Explore Proof_CbExplore.
Import ListNotations.

Section Moved.
Context {A B : Type} (pi : nat -> nat).
Lemma moved_map : forall (h : A -> B) x y, moved pi x y -> moved pi (map h x) (map h y).
Proof.
  intros h x y (L & P1 & P2 & P3). unfold moved. rewrite !map_length. repeat split; auto.
  intros i Hi. rewrite !nth_error_map, P3; auto.
Qed.
Lemma moved_perm : forall x y : list A, moved pi x y -> Permutation x y.
Proof.
  intros [|d x'] y (L & P1 & P2 & P3); [destruct y; [constructor|discriminate]|]. set (x := d :: x') in *.
  apply Permutation_sym. apply (Permutation_nth y x d). rewrite L. split; [reflexivity|]. exists pi.
  split; [exact P1|]. split; [exact P2|]. intros i Hi. specialize (P3 i Hi).
  destruct (nth_error x i) as [a|] eqn:E; [|apply nth_error_None in E; lia].
  rewrite (nth_error_nth _ _ d E), (nth_error_nth _ _ d P3). reflexivity.
Qed.
Lemma moved_in : forall x y : list A, moved pi x y -> forall a, In a y -> In a x.
Proof. intros x y M a. apply Permutation_in, Permutation_sym, moved_perm, M. Qed.
Lemma moved_nth : forall (x y : list A) i a, moved pi x y -> nth_error x i = Some a -> nth_error y (pi i) = Some a.
Proof.
  intros x y i a (L & P1 & P2 & P3) E. rewrite P3; auto. apply nth_error_Some. congruence.
Qed.
Lemma moved_combine : forall (x y : list A) (u v : list B), length x = length u -> moved pi x y -> moved pi u v -> moved pi (combine x u) (combine y v).
Proof.
  assert (N : forall (x : list A) (u : list B) i, nth_error (combine x u) i = match nth_error x i, nth_error u i with Some a, Some b => Some (a, b) | _, _ => None end).
  { induction x as [|a x IH]; intros [|b u] [|i]; cbn; auto; try now destruct (nth_error x i). }
  intros x y u v E (L & P1 & P2 & P3) (K & Q1 & Q2 & Q3).
  assert (Lx : length (combine x u) = length x) by (rewrite combine_length; lia).
  assert (Ly : length (combine y v) = length x) by (rewrite combine_length; lia).
  unfold moved. rewrite Lx, Ly. repeat split; auto. intros i Hi. rewrite !N, P3, Q3; auto. lia.
Qed.
End Moved.

Lemma perm_forallb : forall A (f : A -> bool) x y, Permutation x y -> forallb f x = forallb f y.
Proof. induction 1; cbn; auto; [now rewrite IHPermutation|destruct (f x), (f y); reflexivity|congruence]. Qed.

Section Any.
Context {O : FOps} (pi : nat -> nat).
Implicit Types (f g : features O).
(** the comparison of debug builds *)
Lemma moved_check : forall eps f g f' g', moved_fts pi f g -> moved_fts pi f' g' -> fts_absdiffeq eps f' f = fts_absdiffeq eps g' g.
Proof.
  intros eps [a|s x] [b|t y] [a'|s' x'] [b'|t' y'] M M'; cbn in *; try tauto. destruct M as (<- & M), M' as (<- & M').
  rewrite (proj1 M), (proj1 M'). destruct (Nat.eqb (length x') (length x)) eqn:E; [|now rewrite !andb_false_r].
  apply Nat.eqb_eq in E. f_equal. apply perm_forallb. apply (moved_perm pi). now apply moved_combine.
Qed.
Lemma depth_inc_lt : forall dbg d nmb mo d1, depth_inc dbg d nmb mo = Ok d1 -> (d1 < 256)%N.
Proof.
  intros dbg d nmb mo d1 E. unfold depth_inc in E. binv E. unfold u8_add in E. destruct (N.ltb_spec (d + v) 256); [inversion E; subst; auto|].
  destruct dbg; [discriminate|]. inversion E; subst. apply N.mod_lt. lia.
Qed.
Lemma moved_wrap : forall X dbg nmb mo f g d (b1 b2 : features O -> N -> out (pres O X)) (Q : X -> Prop) x f' d',
  moved_fts pi f g ->
  (forall d1 f2 d2, depth_inc dbg d nmb mo = Ok d1 -> b1 f d1 = Ok (x, f2, d2) -> exists y g2, b2 g d1 = Ok (y, g2, d2) /\ Q y /\ moved_fts pi f2 g2) ->
  wrap dbg nmb mo f d b1 = Ok (x, f', d') ->
  exists y g', wrap dbg nmb mo g d b2 = Ok (y, g', d') /\ Q y /\ moved_fts pi f' g'.
Proof.
  intros X dbg nmb mo f g d b1 b2 Q x f' d' M Hb E. unfold wrap in *. binv E. rename v into d1. binv E. destruct v as ((x1 & f2) & d2). binv E.
  destruct (dbg && negb (fts_absdiffeq f32_eps f2 f)) eqn:C; [discriminate|]. inversion E; subst.
  rewrite B. cbn [bind]. destruct (Hb _ _ _ B B0) as (y & g2 & E2 & Hq & Hm). rewrite E2. cbn [bind]. rewrite B1. cbn [bind].
  rewrite <- (moved_check _ _ _ _ _ M Hm), C. eauto.
Qed.

(** what the loop over the actions does with one action *)
Definition one_action (dbg : bool) (child : features O -> N -> N -> out (pres O (prediction O))) (shared : option (sfeats O)) (d : N) (a : sfeats O) : out (O * sfeats O) :=
  let* a1 := append_opt a shared in
  let* r := child (FtsSimple a1) d 0%N in
  let '(p, f', d') := r in
  let* sc := as_scalar p in
  let* a2 := remove_opt dbg (back_simple a1 f') shared in
  Ok (snd sc, a2).
Definition the (A : Type) (d : A) (x : out A) : A := match x with Ok a => a | _ => d end.
Section Loop.
Context (dbg : bool) (child : features O -> N -> N -> out (pres O (prediction O))) (shared : option (sfeats O)) (d : N).
Context (K : forall f p f' d', child f d 0%N = Ok (p, f', d') -> d' = d).
Definition h (a : sfeats O) := the _ (f0, a) (one_action dbg child shared d a).
Lemma loop_ok : forall x i sc acts d', cb_predict_loop dbg child shared x i d = Ok (sc, acts, d') ->
  d' = d /\ (forall a, In a x -> one_action dbg child shared d a = Ok (h a)).
Proof.
  induction x as [|a x IH]; intros i sc acts d' E; cbn [cb_predict_loop] in E; [inversion E; subst; split; [auto|contradiction]|].
  binv E. rename v into a1. binv E. destruct v as ((p & f') & d1). binv E. rename v into scp. binv E. rename v into a2. binv E. destruct v as ((sc' & acts') & d2). inversion E; subst.
  pose proof (K _ _ _ _ B0). subst d1. destruct (IH _ _ _ _ B3) as (-> & I). split; [auto|].
  intros b [<-|Hb]; [|auto]. unfold h. assert (E1 : one_action dbg child shared d a = Ok (snd scp, a2)).
  { unfold one_action. rewrite B. cbn [bind]. rewrite B0. cbn [bind]. rewrite B1. cbn [bind]. rewrite B2. reflexivity. }
  now rewrite E1.
Qed.
Lemma loop_run : forall x i, (forall a, In a x -> one_action dbg child shared d a = Ok (h a)) ->
  cb_predict_loop dbg child shared x i d = Ok (enum_from i (map (fun a => fst (h a)) x), map (fun a => snd (h a)) x, d).
Proof.
  induction x as [|a x IH]; intros i Ha; cbn [cb_predict_loop map enum_from]; [reflexivity|].
  pose proof (Ha a (or_introl eq_refl)) as E. set (u := h a) in *. clearbody u. unfold one_action in E. binv E. rename v into a1. binv E. destruct v as ((p & f') & d1). binv E. rename v into scp. binv E. rename v into a2. inversion E; subst u.
  pose proof (K _ _ _ _ B0). subst d1. rewrite B. cbn [bind]. rewrite B0. cbn [bind]. rewrite B1. cbn [bind]. rewrite B2. cbn [bind].
  rewrite (IH (i + 1)%N); [|intros; apply Ha; now right]. cbn [bind fst snd]. now rewrite N.add_1_r.
Qed.
End Loop.
Lemma enum_fst : forall A (l : list A) n, map fst (enum_from (N.of_nat n) l) = map N.of_nat (seq n (length l)).
Proof. induction l as [|a l IH]; intros n; cbn; auto. f_equal. rewrite <- Nat2N.inj_succ. apply IH. Qed.

Lemma scores_moved : forall dbg n (r : red O n) s x y d mo l f' d', moved pi x y ->
  predict dbg n r (FtsCb s x) d mo = Ok (PrScores l, f', d') ->
  exists l' g', predict dbg n r (FtsCb s y) d mo = Ok (PrScores l', g', d') /\ moved_pred pi l l' /\ moved_fts pi f' g'.
Proof.
  intros dbg. induction n as [|n IH]; intros r s x y d mo l f' d' M E.
  { cbn [predict] in E. unfold wrap in E. binv E. binv E. unfold coin_predict_body in B0. cbn [as_simple bind] in B0. discriminate. }
  destruct r as ((w & k) & ch). cbn [predict] in *.
  cut (exists p g', wrap dbg (w_below w) mo (FtsCb s y) d (fun f d0 => kind_predict dbg k (predict dbg n ch) f d0 mo) = Ok (p, g', d') /\ (exists l', p = PrScores l' /\ moved_pred pi l l') /\ moved_fts pi f' g').
  { intros (p & g' & E' & (l' & -> & Hl) & Hm). eauto. }
  eapply (moved_wrap _ _ _ _ (FtsCb s x)); [split; [reflexivity|exact M]| |exact E].
  intros d1 f2 d2 Hd Eb. apply depth_inc_lt in Hd. destruct k; cbn [kind_predict] in Eb |- *.
  - binv Eb. destruct v as ((p & f1) & d3). binv Eb. discriminate.
  - cbn [as_cb bind fst snd] in Eb |- *. binv Eb. destruct v as ((sc & acts) & d3). inversion Eb; subst.
    assert (K : forall f p f' d', predict dbg n ch f d1 0 = Ok (p, f', d') -> d' = d1).
    { intros f p fa da Ep. pose proof (proj1 (offset_balanced dbg n ch f (LbBinary true) d1 Hd)) as Q. rewrite Ep in Q. inversion Q as [u v (Q1 & Q2 & Q3) U V| |]. exact Q2. }
    destruct (loop_ok _ _ _ _ K _ _ _ _ _ B) as (-> & Ha). rewrite (loop_run _ _ _ _ K x 0 Ha) in B. inversion B; subst.
    rewrite (loop_run _ _ _ _ K y 0); [|intros a Hy; apply Ha; exact (moved_in pi x y M a Hy)]. cbn [bind].
    do 2 eexists. split; [reflexivity|]. split.
    + eexists. split; [reflexivity|]. split; [rewrite !enum_from_snd; now apply moved_map|].
      rewrite enum_from_length, map_length. change 0%N with (N.of_nat 0). rewrite !enum_fst, !map_length, (proj1 M). split; reflexivity.
    + split; [reflexivity|]. now apply moved_map.
  - binv Eb. destruct v as ((p & f1) & d3). binv Eb. binv Eb. discriminate.
  - binv Eb. destruct v as ((p & f1) & d3). binv Eb. binv Eb. discriminate.
  - binv Eb. destruct v as ((p & f1) & d3). binv Eb. binv Eb. discriminate.
  - unfold elem_frame in Eb. cbn [as_simple bind] in Eb. discriminate.
  - destruct (IH ch s x y d1 0%N l f2 d2 M Eb) as (l' & g' & E' & Hl & Hm). rewrite E'. eauto 8.
Qed.

Lemma learn_moved : forall dbg n (r : red O n) s x y lb d mo r' f' d', moved pi x y -> no_ips n r ->
  learn dbg n r (FtsCb s x) lb d mo = Ok (r', f', d') ->
  exists g', learn dbg n r (FtsCb s y) (moved_label pi lb) d mo = Ok (r', g', d') /\ moved_fts pi f' g'.
Proof.
  intros dbg. induction n as [|n IH]; intros r s x y lb d mo r' f' d' M NI E.
  { destruct r as (w & c). cbn [learn] in E. unfold wrap in E. binv E. binv E. binv B0. unfold coin_learn_body in B1. cbn [as_simple bind] in B1. discriminate. }
  destruct r as ((w & k) & ch). destruct NI as (NK & NI). cbn [fst snd] in NK, NI. cbn [learn] in *.
  match goal with |- exists g', ?W = _ /\ _ => cut (exists p g', W = Ok (p, g', d') /\ p = r' /\ moved_fts pi f' g') end.
  { intros (p & g' & E' & -> & Hm). eauto. }
  eapply (moved_wrap _ _ _ _ (FtsCb s x)); [split; [reflexivity|exact M]| |exact E].
  assert (Sub : forall lb d ch' f1 d3, learn dbg n ch (FtsCb s x) lb d 0 = Ok (ch', f1, d3) -> exists g1, learn dbg n ch (FtsCb s y) (moved_label pi lb) d 0 = Ok (ch', g1, d3) /\ moved_fts pi f1 g1).
  { intros. eapply IH; eauto. }
  intros d1 f2 d2 Hd Eb. binv Eb. destruct v as (((k' & ch') & f1) & d3). inversion Eb; subst. clear Eb E. rename B into Eb.
  destruct k; cbn [kind_learn] in Eb |- *.
  - destruct lb as [|b|]; try discriminate. cbn [as_binary_label bind moved_label] in Eb |- *. binv Eb. destruct v as ((ch2 & fa) & da). inversion Eb; subst. destruct (Sub _ _ _ _ _ B) as (g1 & E1 & Hm). cbn [moved_label binary_label] in E1. unfold binary_label in *. rewrite E1. cbn [bind]. eauto 8.
  - cbn [as_cb bind] in Eb |- *. destruct lb as [| |a c p]; try discriminate. cbn [as_cb_label bind moved_label] in Eb |- *. destruct ty; [contradiction|].
    binv Eb. binv Eb. rewrite (proj1 M), B. cbn [bind]. rewrite B0. cbn [bind]. destruct s as [s|]; [|discriminate].
    binv Eb. rename v1 into act. rewrite Nat2N.id. destruct (nth_error x (N.to_nat a)) eqn:Ea; [|discriminate]. rewrite (moved_nth pi x y _ _ M Ea).
    cbn [opt_or bind] in B1 |- *. inversion B1; subst act. binv Eb. rewrite B2. cbn [bind]. binv Eb. rewrite B3. cbn [bind]. destruct v2 as ((ch2 & fa) & da). binv Eb. rewrite B4. cbn [bind]. inversion Eb; subst.
    do 2 eexists. split; [reflexivity|]. split; [reflexivity|]. split; [reflexivity|exact M].
  - binv Eb. destruct v as ((ch2 & fa) & da). inversion Eb; subst. destruct (Sub _ _ _ _ _ B) as (g1 & E1 & Hm). rewrite E1. cbn [bind]. eauto 8.
  - binv Eb. destruct v as ((ch2 & fa) & da). inversion Eb; subst. destruct (Sub _ _ _ _ _ B) as (g1 & E1 & Hm). rewrite E1. cbn [bind]. eauto 8.
  - destruct lb as [| |a c p]; try discriminate. cbn [as_cb_label bind moved_label] in Eb |- *. binv Eb. destruct v as ((ch2 & fa) & da). binv Eb. inversion Eb; subst. destruct (Sub _ _ _ _ _ B) as (g1 & E1 & Hm). cbn [moved_label] in E1. rewrite E1. cbn [bind]. rewrite B0. cbn [bind]. eauto 8.
  - unfold elem_frame in Eb. cbn [as_simple bind] in Eb. discriminate.
  - binv Eb. destruct v as ((ch2 & fa) & da). inversion Eb; subst. destruct (Sub _ _ _ _ _ B) as (g1 & E1 & Hm). rewrite E1. cbn [bind]. eauto 8.
Qed.
End Any.

Lemma noips_shape : forall (O : FOps) n (r r' : red O n), shape n r r' -> no_ips n r -> no_ips n r'.
Proof.
  induction n as [|n IH]; intros r r' Sh K; [exact Logic.I|]. destruct r as ((w & k) & ch), r' as ((w' & k') & ch').
  cbn [shape no_ips fst snd] in *. destruct Sh as (_ & S1 & S2), K as (K1 & K2). split; [|eapply IH; eauto].
  destruct k, k'; simpl in S1; try contradiction; auto. subst. exact K1.
Qed.

(** ** exact arithmetic: the policies *)
Local Open Scope R_scope.
(** entry by entry *)
Definition entries {A} (pi : nat -> nat) (l l' : list (N * A)) : Prop :=
  length l' = length l /\
  (forall i, (i < length l)%nat -> (pi i < length l)%nat) /\
  (forall i j, (i < length l)%nat -> (j < length l)%nat -> pi i = pi j -> i = j) /\
  (forall i a v, nth_error l i = Some (a, v) -> a = N.of_nat i) /\
  (forall i a v, nth_error l' i = Some (a, v) -> a = N.of_nat i) /\
  (forall i a v, nth_error l i = Some (a, v) -> nth_error l' (pi i) = Some (N.of_nat (pi i), v)).
Lemma fst_numbers : forall A (l : list (N * A)) n, map fst l = map N.of_nat (seq 0 n) <-> length l = n /\ forall i a v, nth_error l i = Some (a, v) -> a = N.of_nat i.
Proof.
  intros A l n. split.
  - intros E. assert (L : length l = n) by (rewrite <- (map_length fst l), E, map_length, seq_length; reflexivity). split; [exact L|].
    intros i a v Hi. assert (K : nth_error (map fst l) i = Some a) by (rewrite nth_error_map, Hi; reflexivity).
    rewrite E, nth_error_map in K. destruct (nth_error (seq 0 n) i) as [m|] eqn:Em; [|discriminate]. cbn in K.
    assert (i < n)%nat by (rewrite <- L; apply nth_error_Some; congruence). apply (nth_error_nth _ _ 0%nat) in Em. rewrite seq_nth in Em by auto. cbn in Em. congruence.
  - intros (<- & K). clear -K. assert (G : forall l m, (forall i a (v : A), nth_error l i = Some (a, v) -> a = N.of_nat (m + i)) -> map fst l = map N.of_nat (seq m (length l))).
    { clear. induction l as [|(a & v) l IH]; intros m K; cbn; auto. f_equal; [rewrite (K 0%nat a v eq_refl); f_equal; lia|]. apply IH. intros i b w Hi. rewrite (K (S i) b w Hi). f_equal. lia. }
    apply (G l 0%nat). exact K.
Qed.
Lemma mp_entries : forall A pi (l l' : list (N * A)), moved_pred pi l l' <-> entries pi l l'.
Proof.
  intros A pi l l'. unfold moved_pred, moved, entries. rewrite !map_length. split.
  - intros ((L & P1 & P2 & P3) & F1 & F2). apply fst_numbers in F1. apply fst_numbers in F2. destruct F1 as (_ & F1), F2 as (_ & F2).
    repeat (split; [assumption|]). intros i a v Hi. assert (Hl : (i < length l)%nat) by (apply nth_error_Some; congruence).
    specialize (P3 i Hl). rewrite !nth_error_map, Hi in P3. destruct (nth_error l' (pi i)) as [(b & w)|] eqn:E; [|discriminate]. inversion P3; subst. f_equal. f_equal. eapply F2; eauto.
  - intros (L & P1 & P2 & F1 & F2 & P3). split; [|split; apply fst_numbers; auto]. repeat (split; [assumption|]).
    intros i Hi. rewrite !nth_error_map. destruct (nth_error l i) as [(a & v)|] eqn:E; [|apply nth_error_None in E; lia]. now rewrite (P3 _ _ _ E).
Qed.
Lemma entries_perm : forall A pi (l l' : list (N * A)), entries pi l l' -> Permutation (map snd l) (map snd l').
Proof. intros A pi l l' E. apply mp_entries in E. apply (moved_perm pi). apply E. Qed.
(** replacing the values *)
Lemma entries_map : forall A B pi (F F' : N * A -> B) l l', entries pi l l' ->
  (forall i v, nth_error l i = Some (N.of_nat i, v) -> F' (N.of_nat (pi i), v) = F (N.of_nat i, v)) ->
  entries pi (map (fun s => (fst s, F s)) l) (map (fun s => (fst s, F' s)) l').
Proof.
  intros A B pi F F' l l' (L & P1 & P2 & F1 & F2 & P3) K. unfold entries. rewrite !map_length. repeat (split; [assumption|]). split; [|split].
  - intros i a v Hi. rewrite nth_error_map in Hi. destruct (nth_error l i) as [(b & w)|] eqn:E; [|discriminate]. inversion Hi; subst. eapply F1; eauto.
  - intros i a v Hi. rewrite nth_error_map in Hi. destruct (nth_error l' i) as [(b & w)|] eqn:E; [|discriminate]. inversion Hi; subst. eapply F2; eauto.
  - intros i a v Hi. rewrite nth_error_map in Hi. destruct (nth_error l i) as [(b & w)|] eqn:E; [|discriminate]. inversion Hi; subst.
    pose proof (F1 _ _ _ E). subst a. rewrite nth_error_map, (P3 _ _ _ E). cbn. now rewrite (K _ _ E).
Qed.
Lemma entries_upd : forall A pi (l l' : list (N * A)) i v, entries pi l l' -> (i < length l)%nat ->
  entries pi (upd i (N.of_nat i, v) l) (upd (pi i) (N.of_nat (pi i), v) l').
Proof.
  intros A pi l l' i v (L & P1 & P2 & F1 & F2 & P3) Hi. unfold entries. rewrite !upd_length. repeat (split; [assumption|]). split; [|split].
  - intros j a w Hj. destruct (Nat.eq_dec i j) as [<-|Ne]; [rewrite nth_error_upd_eq in Hj by auto; congruence|]. rewrite nth_error_upd_ne in Hj by auto. eapply F1; eauto.
  - intros j a w Hj. destruct (Nat.eq_dec (pi i) j) as [<-|Ne]; [rewrite nth_error_upd_eq in Hj by (rewrite L; auto); congruence|]. rewrite nth_error_upd_ne in Hj by auto. eapply F2; eauto.
  - intros j a w Hj. assert (Hjl : (j < length l)%nat) by (rewrite <- (upd_length _ i (N.of_nat i, v)); apply nth_error_Some; congruence).
    destruct (Nat.eq_dec i j) as [<-|Ne].
    + rewrite nth_error_upd_eq in Hj by auto. inversion Hj; subst. apply nth_error_upd_eq. rewrite L. auto.
    + rewrite nth_error_upd_ne in Hj by auto. rewrite nth_error_upd_ne by (intros K; apply Ne; apply P2; auto). eauto.
Qed.
Lemma total_perm : forall l l' : list (N * R), Permutation (map snd l) (map snd l') -> total l = total l'.
Proof.
  intros l l' P. assert (G : forall l : list (N * R), total l = fold_right Rplus 0 (map snd l)) by (induction l0 as [|(a & p) l0 IH]; cbn; auto; now rewrite IH).
  rewrite !G. clear -P. induction P; cbn; lra.
Qed.
Lemma others_total : forall b l, others b l = total (map (fun s : N * R => (fst s, if (fst s =? b)%N then 0 else snd s)) l).
Proof. induction l as [|(a & p) l IH]; cbn; auto. now rewrite IH. Qed.

(** the minimum *)
Definition low (i : nat) (l : list (N * R)) : Prop := exists a v, nth_error l i = Some (a, v) /\ forall j b w, nth_error l j = Some (b, w) -> j <> i -> v < w.
Lemma low_min : forall gt i (l : list (N * R)) a v, gtR gt -> low i l -> nth_error l i = Some (a, v) -> @min_by RF gt l = Ok (N.of_nat i, (a, v)).
Proof.
  intros gt i l a v G (a0 & v0 & Hi & Hm) E. rewrite Hi in E. inversion E; subst a0 v0. assert (Ne : l <> []) by (intros ->; destruct i; discriminate).
  destruct (min_by_spec gt G l Ne) as (j & b & c & Eq & Hj & Hc). rewrite Eq.
  destruct (Nat.eq_dec j i) as [->|Nj]; [rewrite Hi in Hj; inversion Hj; reflexivity|].
  specialize (Hm _ _ _ Hj Nj). destruct (Hc _ _ _ Hi) as (K & _). lra.
Qed.
Lemma low_moved : forall pi i (l l' : list (N * R)), entries pi l l' -> low i l -> low (pi i) l'.
Proof.
  intros pi i l l' (L & P1 & P2 & F1 & F2 & P3) (a & v & Hi & Hm). exists (N.of_nat (pi i)), v. split; [eauto|].
  intros j b w Hj Ne. assert (Hjl : (j < length l)%nat) by (rewrite <- L; apply nth_error_Some; congruence).
  destruct (proj1 (bInjective_bSurjective (n := length l) (f := pi) P1) P2 j Hjl) as (k & Hk & <-).
  destruct (nth_error l k) as [(c & u)|] eqn:Ek; [|apply nth_error_None in Ek; lia]. rewrite (P3 _ _ _ Ek) in Hj. inversion Hj; subst.
  apply (Hm _ _ _ Ek). intros ->. now apply Ne.
Qed.
(** the lowest score does not depend on the order *)
Lemma min_value : forall gt (l l' : list (N * R)), gtR gt -> l <> [] -> Permutation (map snd l) (map snd l') ->
  exists i a i' a' v, @min_by RF gt l = Ok (i, (a, v)) /\ @min_by RF gt l' = Ok (i', (a', v)).
Proof.
  intros gt l l' G Ne P. assert (Ne' : l' <> []).
  { intros ->. apply Permutation_sym, Permutation_nil in P. destruct l; [congruence|discriminate]. }
  destruct (min_by_spec gt G l Ne) as (i & a & v & E & Hi & Hm). destruct (min_by_spec gt G l' Ne') as (i' & a' & v' & E' & Hi' & Hm').
  assert (v = v').
  { apply Rle_antisym.
    - assert (In v' (map snd l)) as K by (apply (Permutation_in v' (Permutation_sym P)), in_map_iff; exists (a', v'); split; [reflexivity|eapply nth_error_In; eauto]).
      apply in_map_iff in K. destruct K as ((b & w) & <- & K). apply In_nth_error in K. destruct K as (j & K). apply (Hm _ _ _ K).
    - assert (In v (map snd l')) as K by (apply (Permutation_in v P), in_map_iff; exists (a, v); split; [reflexivity|eapply nth_error_In; eauto]).
      apply in_map_iff in K. destruct K as ((b & w) & <- & K). apply In_nth_error in K. destruct K as (j & K). apply (Hm' _ _ _ K). }
  subst v'. eauto 10.
Qed.

(** enforcing the minimum *)
Lemma sorted_same : forall x y : list R, StronglySorted Rge x -> StronglySorted Rge y -> Permutation x y -> x = y.
Proof.
  induction x as [|a x IH]; intros y Sx Sy P; [apply Permutation_nil in P; now subst|].
  destruct y as [|b y]; [apply Permutation_sym, Permutation_nil in P; discriminate|].
  inversion Sx as [|? ? Sx' Fx]; inversion Sy as [|? ? Sy' Fy]; subst. rewrite Forall_forall in Fx, Fy.
  assert (a = b).
  { apply Rle_antisym.
    - assert (K : In a (b :: y)) by (apply (Permutation_in a P); now left). destruct K as [->|K]; [lra|]. apply Rge_le. now apply Fy.
    - assert (K : In b (a :: x)) by (apply (Permutation_in b (Permutation_sym P)); now left). destruct K as [->|K]; [lra|]. apply Rge_le. now apply Fx. }
  subst b. f_equal. apply IH; auto. eapply Permutation_cons_inv; eauto.
Qed.
Lemma rho_values : forall dbg consider support m (l l' : list (N * RF)) idx running rho, map snd l = map snd l' ->
  rho_loop dbg consider support m l idx running rho = rho_loop dbg consider support m l' idx running rho.
Proof.
  induction l as [|(a & p) l IH]; intros [|(b & q) l'] idx running rho E; cbn [map snd] in E; try discriminate; auto. inversion E; subst. cbn [rho_loop].
  destruct (negb consider && f_eqb RF q f0); auto. destruct (usub dbg support idx); cbn [bind]; auto. destruct (usub dbg a0 1); cbn [bind]; auto.
Qed.
Lemma filter_perm_length : forall (l l' : list (N * RF)), Permutation (map snd l) (map snd l') ->
  length (filter (fun e => f_eqb RF (snd e) f0) l) = length (filter (fun e => f_eqb RF (snd e) f0) l').
Proof.
  assert (G : forall l : list (N * RF), length (filter (fun e => f_eqb RF (snd e) f0) l) = length (filter (fun p => f_eqb RF p f0) (map snd l))).
  { induction l as [|(a & p) l IH]; cbn [filter map snd]; auto. destruct (f_eqb RF p f0); cbn [length]; now rewrite IH. }
  intros l l' P. rewrite !G. apply Permutation_length. now apply filter_perm.
Qed.
Lemma enforce_moved : forall pi dbg (eps : RF) consider (l l' q : list (N * RF)), entries pi l l' ->
  enforce_min_prob dbg eps consider l = Ok q -> exists q', enforce_min_prob dbg eps consider l' = Ok q' /\ entries pi q q'.
Proof.
  intros pi dbg eps consider l l' q M E. pose proof (entries_perm _ _ _ _ M) as P.
  assert (Sup : support_size consider l' = support_size consider l).
  { unfold support_size. rewrite (proj1 M). destruct consider; auto. now rewrite (filter_perm_length _ _ P). }
  unfold enforce_min_prob in *. destruct l as [|e l0]; [discriminate|]. destruct l' as [|e' l0']; [destruct M as (K & _); discriminate|].
  set (l := e :: l0) in *. set (l' := e' :: l0') in *. clearbody l l'.
  destruct (f_eqb RF eps f0); [inversion E; subst; eauto|]. destruct (f_ltb RF eps f0 || f_gtb eps f1); [discriminate|]. cbv zeta in *. rewrite Sup.
  clear Sup. set (su := support_size consider l) in *. clearbody su.
  destruct (f_gtb eps (lit_0999 RF)).
  { inversion E; subst. eexists. split; [reflexivity|].
    assert (G : forall k : list (N * RF), map (fun e => if counts consider (snd e) then (fst e, f_div RF f1 (f_of_N su)) else e) k = map (fun e => (fst e, if counts consider (snd e) then f_div RF f1 (f_of_N su) else snd e)) k).
    { intros k. apply map_ext. intros (a & p). cbn [fst snd]. now destruct (counts consider p). }
    rewrite !G. apply (entries_map _ _ pi (fun e : N * RF => if counts consider (snd e) then f_div RF f1 (f_of_N su) else snd e) (fun e : N * RF => if counts consider (snd e) then f_div RF f1 (f_of_N su) else snd e)); auto. }
  assert (Srt : map snd (sort_by (fun x y : N * R => Rltb (snd x) (snd y)) l) = map snd (sort_by (fun x y : N * R => Rltb (snd x) (snd y)) l')).
  { apply sorted_same; try apply sorted_vals. eapply perm_trans; [apply Permutation_map, sort_by_perm|]. eapply perm_trans; [exact P|].
    apply Permutation_map, Permutation_sym, sort_by_perm. }
  rewrite sort_desc_RF in *. cbn [bind] in *.
  set (s := sort_by (fun x y : N * R => Rltb (snd x) (snd y)) l) in *. set (s' := sort_by (fun x y : N * R => Rltb (snd x) (snd y)) l') in *. clearbody s s'.
  destruct s as [|(fa & fv) s]; [discriminate|]. destruct s' as [|(fb & fw) s']; [discriminate|]. cbn [hd_error opt_or bind snd] in *. inversion Srt as [[Sf Ss]]. subst fw.
  pose proof (rho_values dbg consider su (f_div RF eps (f_of_N su)) ((fa, fv) :: s) ((fb, fv) :: s') 0%N f0 (0%N, fv) Srt) as RV.
  match type of E with context [bind ?u _] => change (u = rho_loop dbg consider su (f_div RF eps (f_of_N su)) ((fb, fv) :: s') 0%N f0 (0%N, fv)) in RV; destruct u as [rho| |]; cbn [bind] in E; try discriminate end.
  match goal with |- context [bind ?u _] => change (Ok rho = u) in RV; rewrite <- RV; cbn [bind] end. clear RV.
  set (tau := f_div RF _ _) in *. set (minp := f_div RF eps _) in *. clearbody tau minp. inversion E; subst. eexists. split; [reflexivity|].
  assert (G : forall k : list (N * RF), map (fun e => if counts consider (snd e) then (fst e, f_max (f_sub RF (snd e) tau) minp) else e) k = map (fun e => (fst e, if counts consider (snd e) then f_max (f_sub RF (snd e) tau) minp else snd e)) k).
  { intros k. apply map_ext. intros (a & p). cbn [fst snd]. now destruct (counts consider p). }
  rewrite !G. apply (entries_map _ _ pi (fun e : N * RF => if counts consider (snd e) then f_max (f_sub RF (snd e) tau) minp else snd e) (fun e : N * RF => if counts consider (snd e) then f_max (f_sub RF (snd e) tau) minp else snd e)); auto.
Qed.
Lemma min_some : forall gt (l : list (N * RF)) b, min_by gt l = Ok b -> l <> [].
Proof. intros gt [|] b E; [discriminate|congruence]. Qed.

Lemma softmax_moved : forall pi dbg (ueps la : R) (l l' q : list (N * R)), entries pi l l' ->
  @softmax_probs RF dbg ueps la l = Ok q -> exists q', @softmax_probs RF dbg ueps la l' = Ok q' /\ entries pi q q'.
Proof.
  intros pi dbg ueps la l l' q M E. pose proof (entries_perm _ _ _ _ M) as P. rewrite softmax_eq in E. rewrite softmax_eq.
  assert (Ne : l <> []) by (intros ->; discriminate). destruct (min_value _ l l' gtR_partial Ne P) as (i & a & i' & a' & v & E1 & E2).
  rewrite E1 in E. rewrite E2. cbn [bind fst snd] in *. cbv zeta in *.
  assert (Ml : entries pi (map (fun s : N * R => (fst s, exp (- la * (snd s - v)))) l) (map (fun s : N * R => (fst s, exp (- la * (snd s - v)))) l')).
  { apply (entries_map _ _ pi (fun s : N * R => exp (- la * (snd s - v))) (fun s : N * R => exp (- la * (snd s - v)))); auto. }
  clear P. set (x := map _ l) in *. set (x' := map _ l') in *. clearbody x x'.
  assert (T : forall (k : list (N * R)) acc, fold_left (fun acc s => acc + snd s) k acc = acc + total k).
  { induction k as [|(b & p) k IH]; intros acc; cbn; [lra|]. rewrite IH. lra. }
  rewrite T in E. rewrite T. rewrite (total_perm x x' (entries_perm _ _ _ _ Ml)) in E.
  destruct (@enforce_min_prob RF dbg ueps false (map (fun s : N * R => (fst s, snd s / (0 + total x'))) x)) as [q0| |] eqn:Ee; cbn [unwrap_res] in E; try discriminate. inversion E; subst q0.
  destruct (enforce_moved pi dbg ueps false _ (map (fun s : N * R => (fst s, snd s / (0 + total x'))) x') _ (entries_map _ _ pi (fun s : N * R => snd s / (0 + total x')) (fun s : N * R => snd s / (0 + total x')) _ _ Ml (fun _ _ _ => eq_refl)) Ee) as (q' & Eq & Mq).
  rewrite Eq. cbn [unwrap_res]. eauto.
Qed.
Lemma at_moved : forall A pi (l l' : list (N * A)) i a v, entries pi l l' -> nth_error l i = Some (a, v) ->
  a = N.of_nat i /\ (i < length l)%nat /\ nth_error l' (pi i) = Some (N.of_nat (pi i), v).
Proof.
  intros A pi l l' i a v (L & P1 & P2 & F1 & F2 & P3) E. split; [eauto|]. split; [apply nth_error_Some; congruence|eauto].
Qed.
Lemma greedy_moved : forall pi (eps : R) (l l' q : list (N * R)), entries pi l l' -> unique_min l ->
  @greedy_probs RF eps l = Ok q -> exists q', @greedy_probs RF eps l' = Ok q' /\ entries pi q q'.
Proof.
  intros pi eps l l' q M (i & a & v & Hi & Hm) E. assert (Lo : low i l) by (exists a, v; auto).
  destruct (at_moved _ _ _ _ _ _ _ M Hi) as (-> & Hl & Hi'). rewrite greedy_eq in E. rewrite greedy_eq.
  rewrite (low_min _ i l _ _ gtR_total Lo Hi) in E. rewrite (low_min _ (pi i) l' _ _ gtR_total (low_moved pi i l l' M Lo) Hi'). cbn [bind fst snd] in *. cbv zeta in *.
  rewrite Nat2N.id in *. rewrite nth_error_map, Hi in E. rewrite nth_error_map, Hi'. cbn [option_map fst snd] in *. inversion E; subst. eexists. split; [reflexivity|].
  rewrite (proj1 M). apply entries_upd; [|now rewrite map_length]. apply (entries_map _ _ pi (fun _ : N * R => eps / INR (length l)) (fun _ : N * R => eps / INR (length l))); auto.
Qed.
Lemma eqb_moved : forall A pi (l l' : list (N * A)) i j, entries pi l l' -> (i < length l)%nat -> (j < length l)%nat ->
  (N.of_nat (pi i) =? N.of_nat (pi j))%N = (N.of_nat i =? N.of_nat j)%N.
Proof.
  intros A pi l l' i j (L & P1 & P2 & _) Hi Hj. destruct (N.eqb_spec (N.of_nat i) (N.of_nat j)) as [E|E].
  - apply Nat2N.inj in E. subst. apply N.eqb_refl.
  - apply N.eqb_neq. intros K. apply Nat2N.inj in K. apply E. f_equal. now apply P2.
Qed.
Lemma squarecb_moved : forall pi dbg (ueps gamma : R) (l l' q : list (N * R)), entries pi l l' -> unique_min l ->
  @squarecb_probs RF dbg ueps gamma l = Ok q -> exists q', @squarecb_probs RF dbg ueps gamma l' = Ok q' /\ entries pi q q'.
Proof.
  intros pi dbg ueps gamma l l' q M (i & a & v & Hi & Hm) E. assert (Lo : low i l) by (exists a, v; auto).
  destruct (at_moved _ _ _ _ _ _ _ M Hi) as (-> & Hl & Hi'). rewrite squarecb_eq in E. rewrite squarecb_eq.
  rewrite (low_min _ i l _ _ gtR_partial Lo Hi) in E. rewrite (low_min _ (pi i) l' _ _ gtR_partial (low_moved pi i l l' M Lo) Hi'). cbn [bind fst snd] in *. cbv zeta in *.
  rewrite (proj1 M), Nat2N.id in *. set (n := INR (length l)) in *.
  set (F := fun (b : N) (s : N * R) => if (fst s =? b)%N then snd s else 1 / (n + gamma * (snd s - v))).
  change (fun s : N * R => (fst s, if (fst s =? N.of_nat i)%N then snd s else 1 / (n + gamma * (snd s - v)))) with (fun s : N * R => (fst s, F (N.of_nat i) s)) in E.
  change (fun s : N * R => (fst s, if (fst s =? N.of_nat (pi i))%N then snd s else 1 / (n + gamma * (snd s - v)))) with (fun s : N * R => (fst s, F (N.of_nat (pi i)) s)).
  assert (Ml : entries pi (map (fun s => (fst s, F (N.of_nat i) s)) l) (map (fun s => (fst s, F (N.of_nat (pi i)) s)) l')).
  { apply entries_map; auto. intros j w Hj. unfold F. cbn [fst snd]. rewrite (eqb_moved _ pi l l' j i M); auto. apply nth_error_Some. congruence. }
  assert (Lx : length (map (fun s : N * R => (fst s, F (N.of_nat i) s)) l) = length l) by apply map_length.
  assert (Ex : nth_error (map (fun s : N * R => (fst s, F (N.of_nat i) s)) l) i = Some (N.of_nat i, F (N.of_nat i) (N.of_nat i, v))) by (rewrite nth_error_map, Hi; reflexivity).
  set (x := map _ l) in *. set (x' := map _ l') in *. clearbody x x'.
  rewrite !fold_others in *. rewrite Ex in E. destruct (at_moved _ _ _ _ _ _ _ Ml Ex) as (_ & _ & Ex'). rewrite Ex'. cbn [fst snd] in *.
  assert (To : others (N.of_nat i) x = others (N.of_nat (pi i)) x').
  { rewrite !others_total. apply total_perm. apply (entries_perm _ pi). apply entries_map; auto. intros j w Hj. cbn [fst snd].
    rewrite (eqb_moved _ pi x x' j i Ml); auto; [apply nth_error_Some; congruence|rewrite Lx; auto]. }
  rewrite <- To.
  destruct (@enforce_min_prob RF dbg ueps false (upd i (N.of_nat i, 1 - (0 + others (N.of_nat i) x)) x)) as [q0| |] eqn:Ee; cbn [unwrap_res] in E; try discriminate. inversion E; subst q0.
  destruct (enforce_moved pi dbg ueps false _ _ _ (entries_upd _ pi x x' i (1 - (0 + others (N.of_nat i) x)) Ml ltac:(rewrite Lx; exact Hl)) Ee) as (q' & Eq & Mq).
  rewrite Eq. cbn [unwrap_res]. eauto.
Qed.

(** ** workspaces *)
Lemma ws_scores_moved : forall (O : FOps) dbg n (r : red O n) pi f g l f', moved_fts pi f g -> ws_predict dbg r f = Ok (PrScores l, f') ->
  exists l' g', ws_predict dbg r g = Ok (PrScores l', g') /\ moved_pred pi l l' /\ moved_fts pi f' g'.
Proof.
  intros O dbg n r pi [a|s x] [b|t y] l f' M E; cbn in M; try tauto. destruct M as (<- & M). unfold ws_predict in *. binv E. destruct v as ((p & f1) & d). inversion E; subst.
  destruct (scores_moved pi dbg n r s x y 0%N 0%N l f' d M B) as (l' & g' & E' & Hl & Hm). rewrite E'. cbn [bind]. eauto.
Qed.
Lemma ws_learn_moved : forall (O : FOps) dbg n (r : red O n) pi f g lb r' f', moved_fts pi f g -> no_ips n r -> ws_learn dbg r f lb = Ok (r', f') ->
  exists g', ws_learn dbg r g (moved_label pi lb) = Ok (r', g') /\ moved_fts pi f' g'.
Proof.
  intros O dbg n r pi [a|s x] [b|t y] lb r' f' M NI E; cbn in M; try tauto. destruct M as (<- & M). unfold ws_learn in *. binv E. destruct v as ((p & f1) & d). inversion E; subst.
  destruct (learn_moved pi dbg n r s x y lb 0%N 0%N r' f' d M NI B) as (g' & E' & Hm). rewrite E'. cbn [bind]. eauto.
Qed.
Lemma ws_training_moved : forall (O : FOps) dbg n (r0 : red O n) exs exs' r, no_ips n r0 ->
  Forall2 (fun x y => exists pi, moved_fts pi (fst x) (fst y) /\ snd y = moved_label pi (snd x)) exs exs' ->
  learn_all dbg r0 exs = Ok r -> learn_all dbg r0 exs' = Ok r.
Proof.
  intros O dbg n r0 exs exs' r NI F. revert r0 NI. induction F as [|(f & lb) (g & lb') exs exs' (pi & M & El) F IH]; intros r0 NI L; cbn [learn_all] in *; auto.
  cbn [fst snd] in *. subst lb'. binv L. destruct v as (r1 & f1). cbn [fst snd] in *.
  destruct (ws_learn_moved O dbg n r0 pi f g lb r1 f1 M NI B) as (g' & -> & _). cbn [bind]. cbn [fst snd]. apply IH; auto.
  unfold ws_learn in B. binv B. destruct v as ((r2 & f2) & d). inversion B; subst. apply (noips_shape O n r0); auto. eapply learn_shape; eauto.
Qed.
Lemma ws_probs_moved : forall dbg n w k (ch : red RF n) pi f g (q : list (N * R)) f', moved_fts pi f g -> is_explorer k ->
  (is_softmax k \/ forall sc h, ws_predict dbg ch f = Ok (PrScores (sc : list (N * RF)), h) -> unique_min sc) ->
  ws_predict dbg ((w, k, ch) : red RF (S n)) f = Ok (PrProbs (q : list (N * RF)), f') ->
  exists (q' : list (N * R)) g', ws_predict dbg ((w, k, ch) : red RF (S n)) g = Ok (PrProbs (q' : list (N * RF)), g') /\ moved_pred pi q q' /\ moved_fts pi f' g'.
Proof.
  intros dbg n w k ch pi [a|s x] [b|t y] q f' M EK HK E; cbn in M; try tauto. destruct M as (<- & M).
  unfold ws_predict in E |- *. binv E. destruct v as ((p & f1) & dz). inversion E; subst. clear E. rename B into E. cbn [predict] in E |- *.
  cut (exists p g', wrap dbg (w_below w) 0 (FtsCb s y) 0 (fun f d0 => kind_predict dbg k (predict dbg n ch) f d0 0) = Ok (p, g', dz) /\ (exists q' : list (N * R), p = PrProbs (q' : list (N * RF)) /\ moved_pred pi q q') /\ moved_fts pi f' g').
  { intros (p & g' & E' & (q' & -> & Hl) & Hm). rewrite E'. cbn [bind]. eauto. }
  eapply (moved_wrap pi _ _ _ _ (FtsCb s x)); [split; [reflexivity|exact M]| |exact E].
  intros d1 f2 d2 D Eb. assert (d1 = 0%N). { unfold depth_inc, u8_mul in D. rewrite N.mul_0_r in D. cbn in D. inversion D; reflexivity. } subst d1. clear D E.
  assert (Sub : forall p fa da (sc : list (N * RF)), predict dbg n ch (FtsCb s x) 0 0 = Ok (p, fa, da) -> as_scores p = Ok sc ->
    (is_softmax k \/ unique_min sc) /\ exists sc' ga, predict dbg n ch (FtsCb s y) 0 0 = Ok (PrScores sc', ga, da) /\ entries pi sc sc' /\ moved_fts pi fa ga).
  { intros p fa da sc Ep Es. destruct p; try discriminate. cbn in Es. inversion Es; subst. split.
    - destruct HK as [HK|HK]; [now left|right]. apply (HK sc fa). unfold ws_predict. rewrite Ep. reflexivity.
    - destruct (scores_moved pi dbg n ch s x y 0%N 0%N sc fa da M Ep) as (sc' & ga & E' & Hl & Hm). exists sc', ga. split; [exact E'|]. split; [now apply mp_entries|exact Hm]. }
  destruct k as [| |eps|ueps la cnt|ueps gs ge cnt| |]; try contradiction; cbn [kind_predict] in Eb |- *.
  - binv Eb. destruct v as ((p & fa) & da). binv Eb. rename v into sc. binv Eb. rename v into pr. inversion Eb; subst.
    destruct (Sub _ _ _ _ B B0) as ([HS|HS] & sc' & ga & E' & Hl & Hm); [contradiction|]. rewrite E'. cbn [bind as_scores].
    destruct (greedy_moved pi eps sc sc' q Hl HS B1) as (q' & Eq & Mq). rewrite Eq. cbn [bind]. do 2 eexists. split; [reflexivity|]. split; [|exact Hm]. exists q'. split; [reflexivity|now apply mp_entries].
  - binv Eb. destruct v as ((p & fa) & da). binv Eb. rename v into sc. binv Eb. rename v into pr. inversion Eb; subst.
    destruct (Sub _ _ _ _ B B0) as (_ & sc' & ga & E' & Hl & Hm). rewrite E'. cbn [bind as_scores].
    destruct (softmax_moved pi dbg ueps la sc sc' q Hl B1) as (q' & Eq & Mq). rewrite Eq. cbn [bind]. do 2 eexists. split; [reflexivity|]. split; [|exact Hm]. exists q'. split; [reflexivity|now apply mp_entries].
  - binv Eb. destruct v as ((p & fa) & da). binv Eb. rename v into sc. binv Eb. rename v into pr. inversion Eb; subst.
    destruct (Sub _ _ _ _ B B0) as ([HS|HS] & sc' & ga & E' & Hl & Hm); [contradiction|]. rewrite E'. cbn [bind as_scores].
    destruct (squarecb_moved pi dbg ueps _ sc sc' q Hl HS B1) as (q' & Eq & Mq). rewrite Eq. cbn [bind]. do 2 eexists. split; [reflexivity|]. split; [|exact Hm]. exists q'. split; [reflexivity|now apply mp_entries].
Qed.

(** predict_then_learn against predict and learn in a release build, for contextual
    bandit features whose empty namespaces predict does not give back. *)
From Coq Require Import List NArith ZArith Bool Lia.
From Verif Require Import Base FloatOps Model_Hash Model_Features Model_Weights Model_Types Model_Explore
  Model_Coin Model_Stack Proof_Features Proof_StackCong Proof_StackRestore Proof_StackPtl.
Import ListNotations.

Section L.
Context {O : FOps}.
Implicit Types (a b sh : sfeats O) (f g : features O).

Definition isactive k sh : Prop := exists t, fm_get k sh = Some t /\ sfn_active t = true.

(** equal up to empty namespaces of the shared features *)
Definition csim sh a b : Prop :=
  fwf a /\ fwf b /\
  forall k, vget k a = vget k b \/
            (isactive k sh /\ sfn_size (item k a) = 0%nat /\ sfn_size (item k b) = 0%nat /\
             sfn_active (item k b) = false).
Definition cosim (s : option (sfeats O)) a b : Prop :=
  match s with Some sh => csim sh a b | None => fsim a b end.
Definition lsimf f g : Prop :=
  match f, g with
  | FtsCb s x, FtsCb t y => s = t /\ (match s with Some sh => fwf sh | None => True end) /\ Forall2 (cosim s) x y
  | _, _ => False
  end.

Lemma size0_nil : forall k (s : sfn O), sfn_wf k s -> sfn_size s = 0%nat -> sfn_idx s = [] /\ sfn_val s = [].
Proof.
  intros k s (_ & L) Z. unfold sfn_size in Z. rewrite Z in L. destruct (sfn_idx s), (sfn_val s); simpl in *; auto; discriminate.
Qed.

Lemma cat_empty_l : forall k (s1 s2 t : sfn O), sfn_wf k s1 -> sfn_wf k s2 ->
  sfn_size s1 = 0%nat -> sfn_size s2 = 0%nat -> sfn_cat s1 t = sfn_cat s2 t.
Proof.
  intros k s1 s2 t W1 W2 Z1 Z2. destruct (size0_nil k s1 W1 Z1) as (I1 & V1).
  destruct (size0_nil k s2 W2 Z2) as (I2 & V2). unfold sfn_cat. rewrite I1, I2, V1, V2.
  now rewrite (proj1 W1), (proj1 W2).
Qed.

Lemma cat_empty_r : forall k (s t : sfn O), sfn_wf k t -> sfn_size t = 0%nat -> sfn_active s = true -> sfn_cat s t = s.
Proof.
  intros k s t W Z A. destruct (size0_nil k t W Z) as (I1 & V1). unfold sfn_cat. rewrite I1, V1, !app_nil_r.
  destruct s; simpl in *. now rewrite A.
Qed.

(** action followed by shared *)
Lemma append_csim_l : forall sh a b r r', fwf sh -> csim sh a b -> sf_append a sh = Ok r -> sf_append b sh = Ok r' -> fsim r r'.
Proof.
  intros sh a b r r' Ws (Wa & Wb & C) E1 E2.
  destruct (append_get a sh Wa Ws) as (r0 & F1 & W1 & G1). rewrite E1 in F1; inversion F1; subst r0; clear F1.
  destruct (append_get b sh Wb Ws) as (r0 & F1 & W2 & G2). rewrite E2 in F1; inversion F1; subst r0; clear F1.
  split; auto. split; auto. intros k. specialize (C k).
  assert (Q : forall k, ~ isactive k sh -> vget k r = vget k a /\ vget k r' = vget k b).
  { intros j N. unfold vget. rewrite G1, G2. destruct (fm_get j sh) as [t|] eqn:E; auto.
    destruct (sfn_active t) eqn:A; auto. exfalso. apply N. exists t; auto. }
  destruct (fm_get k sh) as [t|] eqn:E.
  2:{ destruct (Q k) as (-> & ->). { intros (t & E' & _). congruence. }
      destruct C as [C|((t & E' & _) & _)]; auto. congruence. }
  destruct (sfn_active t) eqn:A.
  2:{ destruct (Q k) as (-> & ->). { intros (t' & E' & A'). congruence. }
      destruct C as [C|((t' & E' & A') & _)]; auto. congruence. }
  unfold vget. rewrite G1, G2, E, A.
  assert (X : sfn_cat (item k a) t = sfn_cat (item k b) t).
  { destruct C as [C|(_ & Z1 & Z2 & _)].
    - now rewrite !item_vget, C by auto.
    - apply (cat_empty_l k); auto using item_wf. }
  now rewrite X.
Qed.

(** shared followed by action *)
Lemma append_csim_r : forall sh a b r r', fwf sh -> csim sh a b -> sf_append sh a = Ok r -> sf_append sh b = Ok r' -> fsim r r'.
Proof.
  intros sh a b r r' Ws (Wa & Wb & C) E1 E2.
  destruct (append_get sh a Ws Wa) as (r0 & F1 & W1 & G1). rewrite E1 in F1; inversion F1; subst r0; clear F1.
  destruct (append_get sh b Ws Wb) as (r0 & F1 & W2 & G2). rewrite E2 in F1; inversion F1; subst r0; clear F1.
  split; auto. split; auto. intros k. specialize (C k).
  assert (Q : forall c r, fwf c ->
      (forall k, fm_get k r = match fm_get k c with
                           | Some t => if sfn_active t then Some (sfn_cat (item k sh) t) else fm_get k sh
                           | None => fm_get k sh end) ->
      vget k r = match vget k c with
                 | Some t => if sfn_active t then Some (sfn_cat (item k sh) t) else vget k sh
                 | None => vget k sh end).
  { intros c r0 Wc G. unfold vget. rewrite G. destruct (fm_get k c) as [t|]; auto.
    destruct (sfn_active t) eqn:A.
    - assert (V : svis t = true) by (unfold svis; now rewrite A). rewrite V, A. reflexivity.
    - destruct (svis t); [rewrite A|]; reflexivity. }
  rewrite (Q a r Wa G1), (Q b r' Wb G2). destruct C as [->|((t & E & A) & Z1 & Z2 & _)]; auto.
  assert (R : forall c, fwf c -> sfn_size (item k c) = 0%nat ->
     match vget k c with
     | Some t => if sfn_active t then Some (sfn_cat (item k sh) t) else vget k sh
     | None => vget k sh end = Some t).
  { intros c Wc Z. assert (V : vget k sh = Some t) by (unfold vget, svis; now rewrite E, A).
    rewrite V. rewrite item_vget in Z by auto. destruct (vget k c) as [u|] eqn:U; auto.
    destruct (sfn_active u) eqn:Au; auto. unfold item. rewrite E. f_equal.
    eapply (cat_empty_r k); eauto. unfold vget in U. destruct (fm_get k c) as [u'|] eqn:F; [|discriminate].
    destruct (svis u'); inversion U; subst. now apply Wc. }
  now rewrite !R.
Qed.

Lemma append_cosim : forall (s : option (sfeats O)) a b,
  (match s with Some sh => fwf sh | None => True end) -> cosim s a b -> orel fsim (append_opt a s) (append_opt b s).
Proof.
  intros [sh|] a b W C; simpl in *; [|now constructor].
  destruct (append_get a sh) as (r & E & _); [apply C|auto|].
  destruct (append_get b sh) as (r' & E' & _); [apply C|auto|].
  rewrite E, E'. constructor. eapply (append_csim_l sh a b); eauto.
Qed.

(** results that agree on everything but the features *)
Definition msim {X} (u v : pres O X) : Prop := fst (fst u) = fst (fst v) /\ snd u = snd v.
Lemma psim_msim : forall X (u v : pres O X), psim u v -> msim u v.
Proof. intros X u v (E1 & _ & E3). split; auto. Qed.

Lemma wrap_msim : forall X nmb mo f g d (B1 B2 : features O -> N -> out (pres O X)),
  (forall d, orel msim (B1 f d) (B2 g d)) ->
  orel msim (wrap false nmb mo f d B1) (wrap false nmb mo g d B2).
Proof.
  intros X nmb mo f g d B1 B2 HB. unfold wrap.
  destruct (depth_inc false d nmb mo) as [d1|e|p]; cbn [bind]; try constructor.
  eapply orel_bind; [apply HB|]. intros ((x & f') & d2) ((y & g') & e2) (E1 & E3).
  simpl in *. subst y e2. destruct (depth_dec false d2 nmb mo) as [d3|e|p]; cbn [bind]; constructor. split; auto.
Qed.

(** removing never fails when what is removed has just been appended *)
Lemma around_ok : forall dbg a b a1 a', fwf a -> fwf b -> noraw a -> noraw b ->
  sf_append a b = Ok a1 -> rr a1 a' ->
  exists r' a2, sf_remove dbg a' b = Ok a2 /\ fsim r' a2 /\
    forall k, fm_get k r' = match fm_get k b with
                            | Some t => if sfn_active t then Some (sfn_back (item k a)) else fm_get k a
                            | None => fm_get k a end.
Proof.
  intros dbg a b a1 a' Wa Wb Na Nb H1 H2.
  destruct (append_remove_get dbg a b a1 Wa Wb H1) as (r' & E2 & W2 & G).
  assert (W1 : fwf a1) by (eapply (append_wf a b); eauto).
  assert (S : fsim a1 a') by (apply rr_fsim; auto; apply (append_noraw a b); auto).
  pose proof (fsim_remove2 dbg a1 a' b b S (fsim_refl b Wb)) as Q. rewrite E2 in Q.
  inversion Q as [x y Hxy Ex Ey| |]; subst. exists r', y. auto.
Qed.

Definition open a : Prop := forall k s, fm_get k a = Some s -> sfn_size s <> 0%nat -> sfn_active s = true.

Lemma back_open : forall k a, fwf a -> open a ->
  (if svis (sfn_back (item k a)) then Some (sfn_back (item k a)) else None) = vget k a \/
  sfn_size (item k a) = 0%nat.
Proof.
  intros k a W Op. unfold item, vget. destruct (fm_get k a) as [s|] eqn:E; [|now right].
  destruct (Nat.eq_dec (sfn_size s) 0) as [Z|Z]; [now right|left].
  pose proof (Op k s E Z) as A. assert (R : sfn_back s = s).
  { unfold sfn_back. rewrite (proj2 (Nat.eqb_neq _ _) Z). destruct s; simpl in *. now rewrite A. }
  rewrite R. reflexivity.
Qed.

Lemma around_loose : forall dbg a b a1 a' a2, fwf a -> fwf b -> noraw a -> noraw b -> open a ->
  sf_append a b = Ok a1 -> rr a1 a' -> sf_remove dbg a' b = Ok a2 -> csim b a a2.
Proof.
  intros dbg a b a1 a' a2 Wa Wb Na Nb Op H1 H2 H3.
  destruct (around_ok dbg a b a1 a' Wa Wb Na Nb H1 H2) as (r' & a3 & E & S & G).
  rewrite H3 in E; inversion E; subst a3. split; auto. split; [apply S|]. intros k.
  assert (Ei : item k a2 = item k r') by (symmetry; now apply fsim_item).
  destruct S as (W1 & W2 & S). rewrite <- S. unfold vget at 2. rewrite G.
  destruct (fm_get k b) as [t|] eqn:Eb; auto. destruct (sfn_active t) eqn:At; auto.
  destruct (back_open k a Wa Op) as [Q|Z]; [left; symmetry; exact Q|]. right.
  split; [exists t; auto|]. split; auto. rewrite Ei.
  replace (item k r') with (sfn_back (item k a)) by (unfold item at 2; now rewrite G, Eb, At).
  split; [exact Z|]. unfold sfn_back. now rewrite Z.
Qed.

(** ** congruence for calls on contextual bandit features *)
Definition cbwf (s : option (sfeats O)) (x : list (sfeats O)) : Prop :=
  Forall (fun a => fwf a /\ noraw a) x /\
  match s with None => True | Some sh => fwf sh /\ noraw sh end.

Lemma F2_len_cos : forall s x y, Forall2 (cosim s) x y -> length x = length y.
Proof. intros s x y H; induction H; simpl; auto. Qed.

Lemma cosim_noraw : forall s a b, (match s with None => True | Some sh => noraw sh end) ->
  cosim s a b -> noraw a -> noraw b.
Proof.
  intros [sh|] a b N C Na k K; simpl in C.
  - destruct C as (_ & _ & C). destruct (C k) as [E|((t & E & A) & _)]; [rewrite <- E; now apply Na|].
    specialize (N k K). unfold vget, svis in N. rewrite E, A in N. discriminate.
  - destruct C as (_ & _ & C). rewrite <- C. now apply Na.
Qed.

(** what the calls on the joined features give back *)
Definition gives_back {X} (c : features O -> N -> N -> out (pres O X)) : Prop :=
  forall s d mo x f' d', fwf s -> c (FtsSimple s) d mo = Ok (x, f', d') -> fr (FtsSimple s) f'.

Lemma remove_opt_ok : forall dbg (s : option (sfeats O)) a a1 f', fwf a -> noraw a ->
  (match s with None => True | Some sh => fwf sh /\ noraw sh end) ->
  append_opt a s = Ok a1 -> fr (FtsSimple a1) f' -> exists a2, remove_opt dbg (back_simple a1 f') s = Ok a2.
Proof.
  intros dbg [sh|] a a1 f' Wa Na Ws E R; simpl in *; [|eauto].
  destruct f' as [f'|]; [|tauto]. destruct Ws as (Ws & Ns).
  destruct (around_ok dbg a sh a1 f' Wa Ws Na Ns E R) as (r' & a2 & E2 & _). eauto.
Qed.

Lemma append_opt_wf : forall (s : option (sfeats O)) a a1, fwf a ->
  (match s with None => True | Some sh => fwf sh /\ noraw sh end) -> append_opt a s = Ok a1 -> fwf a1.
Proof.
  intros [sh|] a a1 W Ws E; simpl in E; [|inversion E; now subst]. eapply (append_wf a sh); eauto. apply Ws.
Qed.

Lemma cb_ips_loop_loose : forall X le act cost prob (s : option (sfeats O)) x y i (ch : X) d (P : X -> Prop),
  (forall ch f g lb d mo, ftsim f g -> orel psim (le ch f lb d mo) (le ch g lb d mo)) ->
  (forall ch s lb d mo c' f' d', P ch -> fwf s -> le ch (FtsSimple s) lb d mo = Ok (c', f', d') ->
     P c' /\ fr (FtsSimple s) f') ->
  P ch -> cbwf s x -> Forall2 (cosim s) x y ->
  orel (fun u v => fst (fst u) = fst (fst v) /\ snd u = snd v)
    (cb_ips_loop false le act cost prob s x i ch d) (cb_ips_loop false le act cost prob s y i ch d).
Proof.
  intros X le act cost prob s x y i ch d P HC HR HP G F. revert i ch d HP G.
  induction F as [|a b x y Hab F IH]; intros i ch d HP (G1 & G2); simpl.
  - constructor. auto.
  - inversion G1 as [|? ? (Wa & Na) G1']; subst.
    assert (Ws : match s with Some sh => fwf sh | None => True end) by (destruct s; tauto).
    assert (Wb : fwf b) by (destruct s; apply Hab).
    assert (Nb : noraw b). { eapply cosim_noraw; [|exact Hab|auto]. destruct s; tauto. }
    pose proof (append_cosim s a b Ws Hab) as A.
    destruct (append_opt a s) as [a1| |] eqn:Ea, (append_opt b s) as [b1| |] eqn:Eb; inversion A; subst; cbn [bind]; try constructor.
    destruct (ips_label false act cost prob i) as [lb| |]; cbn [bind]; try constructor.
    pose proof (HC ch (FtsSimple a1) (FtsSimple b1) lb d 0%N H1) as Q.
    destruct (le ch (FtsSimple a1) lb d 0%N) as [((c1 & f1) & d1)| |] eqn:E1,
             (le ch (FtsSimple b1) lb d 0%N) as [((c2 & f2) & d2)| |] eqn:E2; inversion Q; subst; cbn [bind]; try constructor.
    destruct H2 as (Q1 & Q2 & Q3). simpl in Q1, Q2, Q3. subst c2 d2.
    pose proof (append_opt_wf s a a1 Wa G2 Ea) as Wa1.
    pose proof (append_opt_wf s b b1 Wb G2 Eb) as Wb1.
    destruct (HR _ _ _ _ _ _ _ _ HP Wa1 E1) as (HP1 & R1).
    destruct (HR _ _ _ _ _ _ _ _ HP Wb1 E2) as (_ & R2).
    destruct (remove_opt_ok false s a a1 f1 Wa Na G2 Ea R1) as (a2 & ->).
    destruct (remove_opt_ok false s b b1 f2 Wb Nb G2 Eb R2) as (b2 & ->). cbn [bind].
    eapply orel_bind; [apply IH; [exact HP1|split; auto]|].
    intros ((u & l1) & e1) ((v & l2) & e2) (U1 & U2). simpl in U1, U2. subst. constructor. auto.
Qed.

Lemma cb_predict_loop_loose_ok : forall dbg child (s : option (sfeats O)) x i d sc acts d',
  gives_back child -> cbwf s x -> (s <> None -> Forall open x) ->
  cb_predict_loop dbg child s x i d = Ok (sc, acts, d') -> Forall2 (cosim s) x acts.
Proof.
  intros dbg child s x i d sc acts d' HC. revert i d sc acts d'.
  induction x as [|a x IH]; intros i d sc acts d' G Op H; simpl in H.
  - inversion H; subst. constructor.
  - binv H. rename v into a1. binv H. destruct v as ((p & f') & d1). binv H. binv H. rename v0 into a2.
    binv H. destruct v0 as ((scs & acs) & d2). inversion H; subst. clear H.
    destruct G as (F & GS). inversion F as [|? ? (Wa & Na) F']; subst.
    constructor.
    + pose proof (append_opt_wf s a a1 Wa GS B) as W1.
      apply HC in B0; auto. destruct f' as [f'|]; [|now simpl in B0]. simpl in B0, B2.
      destruct s as [sh|]; simpl in B, B2.
      * destruct GS as (Wsh & Nsh). simpl.
        assert (Oa : open a) by (assert (Some sh <> None) as N0 by discriminate; specialize (Op N0); now inversion Op).
        apply (around_loose dbg a sh a1 f' a2); auto.
      * inversion B; subst a1. inversion B2; subst. now apply rr_fsim.
    + eapply IH; [split; auto| |exact B3]. intros N0; specialize (Op N0); now inversion Op.
Qed.

Ltac msplit := intros ((? & ?) & ?) ((? & ?) & ?) (E1 & E3); simpl in E1, E3; subst.

Lemma kind_learn_loose : forall X (P : X -> Prop) k le (ch : X) s x y lb d mo,
  (forall ch f g lb d mo, ftsim f g -> orel psim (le ch f lb d mo) (le ch g lb d mo)) ->
  (forall ch s lb d mo c' f' d', P ch -> fwf s -> le ch (FtsSimple s) lb d mo = Ok (c', f', d') ->
     P c' /\ fr (FtsSimple s) f') ->
  (forall lb d mo, orel msim (le ch (FtsCb s x) lb d mo) (le ch (FtsCb s y) lb d mo)) ->
  P ch -> cbwf s x -> Forall2 (cosim s) x y ->
  orel msim (kind_learn false k le ch (FtsCb s x) lb d mo) (kind_learn false k le ch (FtsCb s y) lb d mo).
Proof.
  intros X P k le ch s x y lb d mo HC HR HM HP G F. destruct k; cbn [kind_learn];
    try (eapply orel_bind; [apply HM|msplit; constructor; split; auto]; fail).
  - destruct (as_binary_label lb) as [b| |]; cbn [bind]; try constructor.
    eapply orel_bind; [apply HM|msplit; constructor; split; auto].
  - simpl as_cb; cbn [bind fst snd].
    destruct (as_cb_label lb) as [((act & cost) & prob)| |]; cbn [bind]; try constructor.
    destruct ty.
    + eapply orel_bind; [eapply cb_ips_loop_loose; eauto|]. msplit. constructor. split; auto.
    + rewrite (F2_len_cos _ _ _ F).
      destruct (add64 false action_sum (N.of_nat (length y))) as [as'| |]; cbn [bind]; try constructor.
      destruct (add64 false event_sum 1) as [es'| |]; cbn [bind]; try constructor.
      destruct s as [sh|]; [|constructor]. destruct G as (G1 & Wsh & Nsh).
      assert (Hn : match nth_error x (N.to_nat act), nth_error y (N.to_nat act) with
                   | Some a, Some b => csim sh a b /\ fwf a /\ noraw a /\ fwf b /\ noraw b | None, None => True | _, _ => False end).
      { clear - F G1 Nsh. generalize (N.to_nat act). induction F; intros [|n]; simpl; auto.
        - inversion G1 as [|? ? (Wa & Na) G1']; subst. split; [exact H|]. split; auto. split; auto.
          split; [apply H|]. eapply (cosim_noraw (Some sh)); eauto.
        - inversion G1; subst. now apply IHF. }
      destruct (nth_error x (N.to_nat act)) as [a|], (nth_error y (N.to_nat act)) as [b|]; try tauto;
        cbn [opt_or bind]; [|constructor].
      destruct Hn as (C & Wa & Na & Wb & Nb).
      destruct (append_get sh a Wsh Wa) as (s1 & E1 & W1 & _). destruct (append_get sh b Wsh Wb) as (t1 & E2 & W2 & _).
      rewrite E1, E2. cbn [bind].
      pose proof (append_csim_r sh a b s1 t1 Wsh C E1 E2) as S1.
      match goal with |- orel _ (bind ?A _) (bind ?B _) =>
        assert (Q : orel psim A B) by (apply HC; exact S1); destruct A as [((c1 & f1) & d1)| |] eqn:L1, B as [((c2 & f2) & d2)| |] eqn:L2 end;
        inversion Q; subst; cbn [bind]; try constructor.
      destruct H1 as (Q1 & Q2 & Q3). simpl in Q1, Q2, Q3. subst c2 d2.
      destruct (HR _ _ _ _ _ _ _ _ HP W1 L1) as (_ & R1).
      destruct (HR _ _ _ _ _ _ _ _ HP W2 L2) as (_ & R2).
      destruct f1 as [f1|]; [|now simpl in R1]. destruct f2 as [f2|]; [|now simpl in R2]. simpl in R1, R2 |- *.
      destruct (around_ok false sh a s1 f1 Wsh Wa Nsh Na E1 R1) as (? & s2 & -> & _).
      destruct (around_ok false sh b t1 f2 Wsh Wb Nsh Nb E2 R2) as (? & t2 & -> & _).
      cbn [bind]. constructor. split; auto.
  - destruct (as_cb_label lb) as [((act & cost) & prob)| |]; cbn [bind]; try constructor.
    eapply orel_bind; [apply HM|msplit].
    destruct (add64 false counter 1); cbn [bind]; constructor. split; auto.
  - unfold elem_frame. simpl as_simple. cbn [bind]. constructor.
Qed.

Lemma learn_loose : forall n (r : red O n) s x y lb d mo, elems_ok n r -> cbwf s x -> Forall2 (cosim s) x y ->
  orel msim (learn false n r (FtsCb s x) lb d mo) (learn false n r (FtsCb s y) lb d mo).
Proof.
  induction n as [|n IH]; intros r s x y lb d mo K G F.
  - destruct r as (w & c). cbn [learn]. apply wrap_msim. intros d1. unfold coin_learn_body. simpl as_simple. cbn [bind]. constructor.
  - destruct r as ((w & k) & ch). destruct K as (K1 & K2). cbn [fst snd] in K1, K2. cbn [learn]. apply wrap_msim. intros d1.
    eapply orel_bind; [eapply (kind_learn_loose _ (elems_ok n)); eauto|].
    + intros; now apply learn_sim.
    + intros c0 s0 lb0 d0 mo0 c' f' d' P0 W0 E0. eapply (learn_restore false n c0 (FtsSimple s0)); eauto.
    + intros ((u & ?) & ?) ((v & ?) & ?) (E1 & E3). simpl in E1, E3. subst. destruct v. constructor. split; auto.
Qed.

(** predict gives contextual bandit features back up to empty namespaces *)
Lemma predict_loose : forall dbg n (r : red O n) s x d mo p f' d', elems_ok n r -> cbwf s x ->
  (s <> None -> Forall open x) ->
  predict dbg n r (FtsCb s x) d mo = Ok (p, f', d') -> exists y, f' = FtsCb s y /\ Forall2 (cosim s) x y.
Proof.
  induction n as [|n IH]; intros r s x d mo p f' d' K G Op H.
  - destruct r as (w & c). cbn [predict fst snd] in H. apply wrap_ok in H. destruct H as (d1 & d2 & H). discriminate.
  - destruct r as ((w & k) & ch). cbn [predict] in H. apply wrap_ok in H. destruct H as (d1 & d2 & H).
    destruct K as (K1 & K2). cbn [fst snd] in K1, K2.
    destruct k; cbn [kind_predict] in H.
    + binv H. destruct v as ((q & g) & e). binv H. inversion H; subst. eapply IH; eauto.
    + simpl as_cb in H; cbn [bind fst snd] in H.
      binv H. destruct v as ((sc & acts) & e). inversion H; subst. exists acts. split; auto.
      eapply cb_predict_loop_loose_ok; [|exact G|exact Op|exact B].
      intros s0 d0 mo0 x0 g0 e0 W0 E0. eapply (predict_restore dbg n ch (FtsSimple s0)); eauto.
    + binv H. destruct v as ((q & g) & e). binv H. binv H. inversion H; subst. eapply IH; eauto.
    + binv H. destruct v as ((q & g) & e). binv H. binv H. inversion H; subst. eapply IH; eauto.
    + binv H. destruct v as ((q & g) & e). binv H. binv H. inversion H; subst. eapply IH; eauto.
    + discriminate.
    + eapply IH; eauto.
Qed.

(** ** what a debug build checks *)
Definition wl a b : Prop :=
  fwf a /\ fwf b /\
  forall k, vget k a = vget k b \/
            (sfn_size (item k a) = 0%nat /\ sfn_size (item k b) = 0%nat /\ sfn_active (item k b) = false).

Lemma wl_refl : forall a, fwf a -> wl a a.
Proof. intros a W. split; auto. Qed.
Lemma fsim_wl : forall a b, fsim a b -> wl a b.
Proof. intros a b (W & W' & E). split; auto. Qed.
Lemma csim_wl : forall sh a b, csim sh a b -> wl a b.
Proof. intros sh a b (W & W' & E). split; auto. split; auto. intros k. destruct (E k); tauto. Qed.
Lemma cosim_wl : forall s a b, cosim s a b -> wl a b.
Proof. intros [sh|] a b H; simpl in H; eauto using csim_wl, fsim_wl. Qed.

Lemma inactive_empty_none : forall k a, fwf a -> sfn_size (item k a) = 0%nat -> sfn_active (item k a) = false -> vget k a = None.
Proof.
  intros k a W Z A. unfold item, vget, svis in *. destruct (fm_get k a) as [s|]; auto. now rewrite Z, A.
Qed.
Lemma isactive_vget : forall k a, isactive k a <-> exists s, vget k a = Some s /\ sfn_active s = true.
Proof.
  intros k a. unfold isactive, vget, svis. split.
  - intros (s & E & A). exists s. rewrite E, A. auto.
  - intros (s & E & A). destruct (fm_get k a) as [t|] eqn:F; [|discriminate].
    destruct (sfn_active t || _) eqn:V; inversion E; subst. eauto.
Qed.
Lemma empty_none : forall k a, fwf a -> sfn_size (item k a) = 0%nat -> ~ isactive k a -> vget k a = None.
Proof.
  intros k a W Z N. unfold item, vget, svis in *. destruct (fm_get k a) as [s|] eqn:E; auto. rewrite Z.
  destruct (sfn_active s) eqn:A; auto. exfalso. apply N. exists s; auto.
Qed.
Lemma keys_active : forall a b, fwf a -> fwf b -> sf_active_keys a = sf_active_keys b -> forall k, isactive k a <-> isactive k b.
Proof.
  intros a b Wa Wb E k. unfold isactive. rewrite <- !in_active_keys by (apply Wa || apply Wb). now rewrite E.
Qed.

Lemma wl_keys : forall a b, wl a b -> sf_active_keys b = sf_active_keys a -> fsim a b.
Proof.
  intros a b (Wa & Wb & C) E. pose proof (keys_active b a Wb Wa E) as K. split; auto. split; auto. intros k.
  destruct (C k) as [Q|(Z1 & Z2 & Z3)]; auto. rewrite (inactive_empty_none k b) by auto.
  apply empty_none; auto. intros A. apply K in A. apply isactive_vget in A. destruct A as (s & A & _).
  rewrite (inactive_empty_none k b) in A by auto. discriminate.
Qed.
Lemma wl_keys2 : forall a b c, wl a b -> wl b c -> sf_active_keys c = sf_active_keys a -> fsim a b /\ fsim b c.
Proof.
  intros a b c (Wa & Wb & C1) (_ & Wc & C2) E. pose proof (keys_active c a Wc Wa E) as K.
  assert (Q : forall k, vget k a = vget k b).
  { intros k. destruct (C1 k) as [Q|(Z1 & Z2 & Z3)]; auto. rewrite (inactive_empty_none k b) by auto.
    apply empty_none; auto. intros A. apply K in A. apply isactive_vget in A. destruct A as (s & A & A').
    destruct (C2 k) as [Q|(Y1 & Y2 & Y3)].
    - rewrite (inactive_empty_none k b) in Q by auto. congruence.
    - rewrite (inactive_empty_none k c) in A by auto. discriminate. }
  split; [split; auto; split; auto|]. split; auto. split; auto. intros k.
  destruct (C2 k) as [P|(Y1 & Y2 & Y3)]; auto. rewrite (inactive_empty_none k c) by auto.
  apply empty_none; auto. intros A. apply isactive_vget in A. rewrite <- Q in A. apply isactive_vget in A. apply K in A.
  apply isactive_vget in A. destruct A as (s & A & _). rewrite (inactive_empty_none k c) in A by auto. discriminate.
Qed.

Lemma list_eqb_eq : forall A (eqb : A -> A -> bool) (Heq : forall x y, eqb x y = true -> x = y) l l',
  list_eqb eqb l l' = true -> l = l'.
Proof.
  intros A eqb Heq. induction l as [|x l IH]; intros [|y l'] E; simpl in E; try discriminate; auto.
  apply andb_true_iff in E. destruct E as (E1 & E2). f_equal; auto.
Qed.
Lemma absdiffeq_keys : forall eps a b, sf_absdiffeq eps a b = true -> sf_active_keys a = sf_active_keys b.
Proof.
  intros eps a b H. unfold sf_absdiffeq in H. apply andb_true_iff in H. destruct H as (H & _).
  eapply list_eqb_eq; [|exact H]. intros x y. apply ns_eqb_eq.
Qed.

Definition owl (s t : option (sfeats O)) : Prop :=
  match s, t with Some a, Some b => wl a b | None, None => True | _, _ => False end.
Definition ftwl f g : Prop :=
  match f, g with FtsCb s x, FtsCb t y => owl s t /\ Forall2 wl x y | _, _ => False end.

Lemma ftwl_keys : forall eps f g, ftwl f g -> fts_absdiffeq eps g f = true -> ftsim f g.
Proof.
  intros eps [a|s x] [b|t y]; simpl; try tauto. intros (S & F) H.
  apply andb_true_iff in H. destruct H as (H & H3). apply andb_true_iff in H. destruct H as (H1 & H2). split.
  - destruct s, t; simpl in *; try tauto. apply wl_keys; auto. eapply absdiffeq_keys; eauto.
  - clear - F H3. induction F; simpl in *; constructor.
    + apply wl_keys; auto. apply andb_true_iff in H3. eapply absdiffeq_keys, H3.
    + apply IHF. apply andb_true_iff in H3. apply H3.
Qed.
Lemma ftwl_keys2 : forall eps f g h, ftwl f g -> ftwl g h -> fts_absdiffeq eps h f = true -> ftsim f g /\ ftsim g h.
Proof.
  intros eps [a|s x] [b|t y] [c|u z]; simpl; try tauto. intros (S1 & F1) (S2 & F2) H.
  apply andb_true_iff in H. destruct H as (H & H3). apply andb_true_iff in H. destruct H as (H1 & H2).
  assert (A : oeq s t /\ oeq t u).
  { destruct s, t, u; simpl in *; try tauto. apply wl_keys2; auto. eapply absdiffeq_keys; eauto. }
  assert (B : Forall2 fsim x y /\ Forall2 fsim y z).
  { clear - F1 F2 H3. revert z F2 H3. induction F1 as [|a b x y Hab F IH]; intros z F2 H3.
    - inversion F2; subst. split; constructor.
    - inversion F2 as [|? c ? z' Hbc F2']; subst. simpl in H3. apply andb_true_iff in H3. destruct H3 as (K1 & K2).
      destruct (IH _ F2' K2) as (I1 & I2). destruct (wl_keys2 a b c Hab Hbc) as (J1 & J2); [eapply absdiffeq_keys; eauto|].
      split; constructor; auto. }
  tauto.
Qed.

Lemma F2_cosim_wl : forall s x y, Forall2 (cosim s) x y -> Forall2 wl x y.
Proof. intros s x y F; induction F; constructor; eauto using cosim_wl. Qed.
Lemma F_wl_refl : forall x, Forall (fun a => fwf a /\ noraw a) x -> Forall2 wl x x.
Proof. intros x F; induction F; constructor; auto. now apply wl_refl. Qed.

Lemma cosim_open : forall s a b, cosim s a b -> open a -> open b.
Proof.
  intros s a b C Op k t E Z. apply cosim_wl in C. destruct C as (Wa & Wb & C).
  destruct (C k) as [Q|(_ & Z2 & _)].
  - unfold vget in Q at 2. rewrite E in Q. unfold svis in Q. rewrite (proj2 (Nat.eqb_neq _ _) Z), orb_true_r in Q.
    unfold vget in Q. destruct (fm_get k a) as [u|] eqn:Ea; [|discriminate].
    destruct (svis u); inversion Q; subst. eapply Op; eauto.
  - exfalso. apply Z. unfold item in Z2. now rewrite E in Z2.
Qed.

Definition loosef (s : option (sfeats O)) (x : list (sfeats O)) : Prop :=
  cbwf s x /\ match s with None => True | Some sh => open sh /\ Forall open x end.

Lemma loosef_cosim : forall s x y, loosef s x -> Forall2 (cosim s) x y -> loosef s y.
Proof.
  intros s x y ((F1 & F2) & F3) F. split; [split; auto|].
  - clear F3. induction F as [|a b x y Hab F IH]; constructor.
    + inversion F1 as [|? ? (Wa & Na) F1']; subst. split; [destruct s; apply Hab|].
      eapply cosim_noraw; [|exact Hab|auto]. destruct s; tauto.
    + apply IH. now inversion F1.
  - destruct s as [sh|]; auto. destruct F3 as (O1 & O2). split; auto. clear F1.
    induction F as [|a b x y Hab F IH]; constructor; inversion O2; subst; auto.
    eapply (cosim_open (Some sh)); eauto.
Qed.

Lemma cb_ips_loop_wl : forall X dbg le act cost prob (s : option (sfeats O)) x i (ch : X) d ch' acts d' (P : X -> Prop),
  (forall ch s lb d mo c' f' d', P ch -> fwf s -> le ch (FtsSimple s) lb d mo = Ok (c', f', d') ->
     P c' /\ fr (FtsSimple s) f') ->
  P ch -> cbwf s x -> (s <> None -> Forall open x) ->
  cb_ips_loop dbg le act cost prob s x i ch d = Ok (ch', acts, d') -> Forall2 (cosim s) x acts.
Proof.
  intros X dbg le act cost prob s x i ch d ch' acts d' P HC. revert i ch d ch' acts d'.
  induction x as [|a x IH]; intros i ch d ch' acts d' HP G Op H; simpl in H.
  - inversion H; subst. constructor.
  - binv H. rename v into a1. binv H. binv H. destruct v0 as ((p & f') & d1). binv H. rename v0 into a2.
    binv H. destruct v0 as ((scs & acs) & d2). inversion H; subst. clear H.
    destruct G as (F & GS). inversion F as [|? ? (Wa & Na) F']; subst.
    pose proof (append_opt_wf s a a1 Wa GS B) as W1.
    apply HC in B1; auto. destruct B1 as (HP' & B1). destruct f' as [f'|]; [|now simpl in B1].
    simpl in B1, B2. constructor.
    + destruct s as [sh|]; simpl in B, B2.
      * destruct GS as (Wsh & Nsh). simpl.
        assert (Oa : open a) by (assert (Some sh <> None) as N0 by discriminate; specialize (Op N0); now inversion Op).
        apply (around_loose dbg a sh a1 f' a2); auto.
      * inversion B; subst a1. inversion B2; subst. now apply rr_fsim.
    + eapply IH; [exact HP'|split; auto| |exact B3]. intros N0; specialize (Op N0); now inversion Op.
Qed.

Lemma kind_learn_wl : forall X (P : X -> Prop) dbg k le (ch : X) s x lb d mo k' ch' f' d',
  (forall ch s lb d mo c' f' d', P ch -> fwf s -> le ch (FtsSimple s) lb d mo = Ok (c', f', d') ->
     P c' /\ fr (FtsSimple s) f') ->
  (forall lb d mo c' f' d', le ch (FtsCb s x) lb d mo = Ok (c', f', d') -> ftwl (FtsCb s x) f') ->
  P ch -> loosef s x ->
  kind_learn dbg k le ch (FtsCb s x) lb d mo = Ok ((k', ch'), f', d') -> ftwl (FtsCb s x) f'.
Proof.
  intros X P dbg k le ch s x lb d mo k' ch' f' d' HR HM HP (G & Op) H.
  destruct k; cbn [kind_learn] in H.
  + binv H. binv H. destruct v0 as ((c' & g) & e). inversion H; subst. eapply HM; eauto.
  + simpl as_cb in H; cbn [bind fst snd] in H.
    binv H. destruct v as ((act & cost) & prob). destruct ty.
    * binv H. destruct v as ((c' & acts) & e). inversion H; subst. split.
      -- destruct s as [sh|]; simpl; auto. apply wl_refl, G.
      -- apply F2_cosim_wl with (s := s). eapply cb_ips_loop_wl; eauto. destruct s; [tauto|congruence].
    * binv H. binv H. destruct s as [sh|]; [|discriminate]. binv H. binv H. binv H.
      destruct v3 as ((c' & g) & e). binv H. inversion H; subst. clear H.
      destruct G as (F & Wsh & Nsh). destruct Op as (Osh & _).
      assert (Wv : fwf v1 /\ noraw v1).
      { unfold opt_or in B2. destruct (nth_error x (N.to_nat act)) eqn:E; [|discriminate].
        inversion B2; subst. eapply Forall_forall in F; [exact F|]. eapply nth_error_In; eauto. }
      destruct Wv as (Wv & Nv).
      assert (W1 : fwf v2) by (eapply (append_wf sh v1); eauto).
      apply HR in B4; auto. destruct B4 as (Q1 & Q2). destruct g as [g|]; [|now simpl in Q2]. simpl in Q2, B5.
      split; [|now apply F_wl_refl]. simpl. eapply csim_wl. apply (around_loose dbg sh v1 v2 g v3); auto.
  + binv H. destruct v as ((c' & g) & e). inversion H; subst. eapply HM; eauto.
  + binv H. destruct v as ((c' & g) & e). inversion H; subst. eapply HM; eauto.
  + binv H. destruct v as ((act & cost) & prob). binv H. destruct v as ((c' & g) & e). binv H.
    inversion H; subst. eapply HM; eauto.
  + discriminate.
  + binv H. destruct v as ((c' & g) & e). inversion H; subst. eapply HM; eauto.
Qed.

Lemma learn_wl : forall dbg n (r : red O n) s x lb d mo r' f' d', elems_ok n r -> loosef s x ->
  learn dbg n r (FtsCb s x) lb d mo = Ok (r', f', d') -> ftwl (FtsCb s x) f'.
Proof.
  induction n as [|n IH]; intros r s x lb d mo r' f' d' K G H.
  - destruct r as (w & c). cbn [learn] in H. apply wrap_ok in H. destruct H as (d1 & d2 & H). discriminate.
  - destruct r as ((w & k) & ch). cbn [learn] in H. apply wrap_ok in H. destruct H as (d1 & d2 & H).
    destruct K as (K1 & K2). cbn [fst snd] in K1, K2.
    binv H. destruct v as (((k' & ch') & g) & e). inversion H; subst. clear H.
    eapply (kind_learn_wl _ (elems_ok n)); [| |exact K2|exact G|exact B].
    + intros c0 s0 lb0 d0 mo0 c' f0 e0 P0 W0 E0. eapply (learn_restore dbg n c0 (FtsSimple s0)); eauto.
    + intros; eapply IH; eauto.
Qed.

Lemma kind_predict_loose : forall dbg n k (ch : red O n) s x d mo p f' d', elems_ok n ch -> loosef s x ->
  kind_predict dbg k (predict dbg n ch) (FtsCb s x) d mo = Ok (p, f', d') ->
  exists y, f' = FtsCb s y /\ Forall2 (cosim s) x y.
Proof.
  intros dbg n k ch s x d mo p f' d' K2 (G & Op) H.
  assert (Op' : s <> None -> Forall open x) by (destruct s; [tauto|congruence]).
  destruct k; cbn [kind_predict] in H.
  + binv H. destruct v as ((q & g) & e). binv H. inversion H; subst. eapply predict_loose; eauto.
  + simpl as_cb in H; cbn [bind fst snd] in H.
    binv H. destruct v as ((sc & acts) & e). inversion H; subst. exists acts. split; auto.
    eapply cb_predict_loop_loose_ok; [|exact G|exact Op'|exact B].
    intros s0 d0 mo0 x0 g0 e0 W0 E0. eapply (predict_restore dbg n ch (FtsSimple s0)); eauto.
  + binv H. destruct v as ((q & g) & e). binv H. binv H. inversion H; subst. eapply predict_loose; eauto.
  + binv H. destruct v as ((q & g) & e). binv H. binv H. inversion H; subst. eapply predict_loose; eauto.
  + binv H. destruct v as ((q & g) & e). binv H. binv H. inversion H; subst. eapply predict_loose; eauto.
  + discriminate.
  + eapply predict_loose; eauto.
Qed.

Lemma cbwf_ftwf : forall s x, cbwf s x -> ftwf (FtsCb s x).
Proof.
  intros s x (F & S). split; [destruct s; tauto|]. eapply Forall_impl; [|exact F]. simpl; tauto.
Qed.
Lemma cosim_ftwl : forall s x y, cbwf s x -> Forall2 (cosim s) x y -> ftwl (FtsCb s x) (FtsCb s y).
Proof.
  intros s x y (_ & S) F. split; [|now apply F2_cosim_wl with (s := s)].
  destruct s; simpl; auto. apply wl_refl, S.
Qed.

(** ** predict_then_learn *)
Definition ptl_agrees dbg n (r : red O n) f lb d : Prop :=
  (forall p r' f' d', predict_then_learn dbg n r f lb d 0 = Ok ((p, r'), f', d') ->
     exists f1 f2, predict dbg n r f d 0 = Ok (p, f1, d) /\ learn dbg n r f lb d 0 = Ok (r', f2, d)) /\
  (forall p f1 d1 r' f2 d2, predict dbg n r f d 0 = Ok (p, f1, d1) -> learn dbg n r f lb d 0 = Ok (r', f2, d2) ->
     exists f', predict_then_learn dbg n r f lb d 0 = Ok ((p, r'), f', d)).

Lemma ptl_loose : forall dbg n (r : red O n) s x lb d, elems_ok n r -> loosef s x -> (d < 256)%N ->
  ptl_agrees dbg n r (FtsCb s x) lb d.
Proof.
  induction n as [|n IH]; intros r s x lb d K G Hd; unfold ptl_agrees.
  - destruct r as (w & c). cbn [predict learn predict_then_learn fst snd]. split.
    + intros p r' f' d' H. apply wrap_ok in H. destruct H as (d1 & d2 & H). discriminate.
    + intros p f1 d1 r' f2 d2 H. apply wrap_ok in H. destruct H as (e1 & e2 & H). discriminate.
  - destruct r as ((w & k) & ch). cbn [predict learn predict_then_learn].
    destruct K as (K1 & K2). cbn [fst snd] in K1, K2. set (f := FtsCb s x) in *.
    assert (DP : forall p f1 d1, kind_predict dbg k (predict dbg n ch) f d 0%N = Ok (p, f1, d1) -> d1 = d).
    { intros p f1 d1 E. pose proof (kind_predict_dsim dbg k (predict dbg n ch) (predict dbg n ch) f d d 0 0
        (fun f => predict_dsim dbg n ch f d d Hd Hd)) as Q. rewrite E in Q. inversion Q; subst. apply H1. }
    assert (DL : forall g p f1 d1, kind_learn dbg k (learn dbg n) ch g lb d 0%N = Ok (p, f1, d1) -> d1 = d).
    { intros g p f1 d1 E. pose proof (kind_learn_dsim _ dbg k (learn dbg n) (learn dbg n) ch g lb d d 0 0
        (fun ch f lb => learn_dsim dbg n ch f lb d d Hd Hd)) as Q. rewrite E in Q. inversion Q; subst. apply H1. }
    (* learning from what predict leaves *)
    assert (LL : forall y, Forall2 (cosim s) x y -> dbg = false ->
       orel msim (kind_learn dbg k (learn dbg n) ch f lb d 0%N) (kind_learn dbg k (learn dbg n) ch (FtsCb s y) lb d 0%N)).
    { intros y F ->. apply (kind_learn_loose _ (elems_ok n)); auto; [| | |apply G].
      - intros; now apply learn_sim.
      - intros c0 s0 lb0 d0 mo0 c' f0 d' P0 W0 E0. eapply (learn_restore false n c0 (FtsSimple s0)); eauto.
      - intros lb0 d0 mo0. apply learn_loose; auto. apply G. }
    destruct (default_or k) as [D|Cases].
    + assert (DFT : kind_ptl dbg k (predict dbg n) (learn dbg n) (predict_then_learn dbg n) ch f lb d 0 =
          default_ptl (fun f d => kind_predict dbg k (predict dbg n ch) f d 0%N)
            (fun f d => kind_learn dbg k (learn dbg n) ch f lb d 0%N) f d)
        by (destruct k; simpl in D; tauto || reflexivity).
      split.
      * intros p r' f' d' H. apply wrap0_ok in H; auto. destruct H as (H & C). rewrite DFT in H.
        binv H. destruct v as (((p0 & (k' & ch')) & g) & e). inversion H; subst. clear H DFT.
        unfold default_ptl in B. binv B. destruct v as ((p0 & f1) & d1). binv B. destruct v as ((x0 & f2) & d2).
        destruct (d2 =? d)%N; inversion B; subst. clear B.
        pose proof (DP _ _ _ B0). subst d1.
        destruct (kind_predict_loose _ _ _ _ _ _ _ _ _ _ _ K2 G B0) as (y & -> & F).
        pose proof (DL _ _ _ _ B1). subst d'.
        destruct dbg.
        -- cbn [andb] in C. apply negb_false_iff in C.
           assert (W2 : ftwl (FtsCb s y) f').
           { eapply (kind_learn_wl _ (elems_ok n)); [| |exact K2|eapply loosef_cosim; eauto|exact B1].
             - intros c0 s0 lb0 d0 mo0 c' f0 d' P0 W0 E0. eapply (learn_restore true n c0 (FtsSimple s0)); eauto.
             - intros; eapply learn_wl; eauto. eapply loosef_cosim; eauto. }
           destruct (ftwl_keys2 f32_eps f (FtsCb s y) f' (cosim_ftwl s x y (proj1 G) F) W2 C) as (S1 & S2).
           assert (Q : orel psim (kind_learn true k (learn true n) ch f lb d 0) (kind_learn true k (learn true n) ch (FtsCb s y) lb d 0)).
           { apply kind_learn_sim; auto. intros; now apply learn_sim. }
           rewrite B1 in Q. inversion Q as [u v (E1 & E2 & E3) F1 F2| |]; subst.
           destruct u as (((k1 & c1) & g1) & e1). simpl in E1, E2, E3. inversion E1; subst.
           exists (FtsCb s y), g1. split.
           ++ apply wrap0_ok; auto. split; [exact B0|]. cbn [andb].
              rewrite (ftsim_absdiffeq f32_eps (FtsCb s y) f' f f) by (auto; apply ftsim_refl, cbwf_ftwf, G). now rewrite C.
           ++ apply wrap0_ok; auto. split; [now rewrite <- F1|]. cbn [andb].
              rewrite (ftsim_absdiffeq f32_eps g1 f' f f) by (auto; apply ftsim_refl, cbwf_ftwf, G). now rewrite C.
        -- pose proof (LL y F eq_refl) as Q. rewrite B1 in Q.
           inversion Q as [u v (E1 & E3) F1 F2| |]; subst.
           destruct u as (((k1 & c1) & g1) & e1). simpl in E1, E3. inversion E1; subst.
           exists (FtsCb s y), g1. split; apply wrap0_ok; auto. split; [now rewrite <- F1|reflexivity].
      * intros p f1 d1 r' f2 d2 H1 H2. apply wrap0_ok in H1; auto. apply wrap0_ok in H2; auto.
        destruct H1 as (H1 & C1), H2 as (H2 & C2). binv H2. destruct v as (((k' & ch') & g) & e).
        inversion H2; subst. clear H2.
        pose proof (DP _ _ _ H1). pose proof (DL _ _ _ _ B). subst d1 d2.
        destruct (kind_predict_loose _ _ _ _ _ _ _ _ _ _ _ K2 G H1) as (y & -> & F).
        assert (Q : exists f', kind_learn dbg k (learn dbg n) ch (FtsCb s y) lb d 0%N = Ok ((k', ch'), f', d) /\
                      dbg && negb (fts_absdiffeq f32_eps f' f) = false).
        { destruct dbg.
          - cbn [andb] in C1, C2 |- *. apply negb_false_iff in C1.
            assert (S1 : ftsim f (FtsCb s y)) by (eapply ftwl_keys; [exact (cosim_ftwl s x y (proj1 G) F)|exact C1]).
            assert (Q : orel psim (kind_learn true k (learn true n) ch f lb d 0) (kind_learn true k (learn true n) ch (FtsCb s y) lb d 0)).
            { apply kind_learn_sim; auto. intros; now apply learn_sim. }
            rewrite B in Q. inversion Q as [u v (E1 & E2 & E3) F1 F2| |]; subst.
            destruct v as (((k1 & c1) & g1) & e1). simpl in E1, E2, E3. inversion E1; subst.
            exists g1. split; auto.
            rewrite <- (ftsim_absdiffeq f32_eps f2 g1 f f) by (auto; apply ftsim_refl, cbwf_ftwf, G). exact C2.
          - pose proof (LL y F eq_refl) as Q. rewrite B in Q.
            inversion Q as [u v (E1 & E3) F1 F2| |]; subst.
            destruct v as (((k1 & c1) & g1) & e1). simpl in E1, E3. inversion E1; subst. exists g1. auto. }
        destruct Q as (f' & Q & C). exists f'. apply wrap0_ok; auto. split; auto.
        rewrite DFT. unfold default_ptl. rewrite H1. cbn [bind]. rewrite Q. cbn [bind]. rewrite N.eqb_refl. reflexivity.
    + destruct Cases as [->|[->|(one & two & keep & nb & ->)]].
      * (* binary *)
        cbn [kind_predict kind_learn kind_ptl]. split.
        -- intros p r' f' d' H. apply wrap0_ok in H; auto. destruct H as (H & C).
           destruct (as_binary_label lb) as [b| |]; cbn [bind] in H |- *; try discriminate.
           binv H. destruct v as (((p0 & (k0 & c0)) & g) & e). inversion H; subst. clear H.
           binv B. destruct v as (((p1 & c1) & g1) & e1). binv B. inversion B; subst. clear B.
           destruct (proj1 (IH ch s x (binary_label b) d K2 G Hd) _ _ _ _ B0) as (f1 & f2 & E1 & E2).
           exists f1, f2. split; apply wrap0_ok; auto.
           ++ split; [fold f in E1; rewrite E1; cbn [bind]; rewrite B1; reflexivity|].
              destruct n; [destruct ch; cbn [predict fst snd] in E1; apply wrap_ok in E1; destruct E1 as (? & ? & E1); discriminate|].
              destruct ch as ((w1 & k1) & ch1). cbn [predict] in E1. apply wrap0_ok in E1; auto. apply E1.
           ++ split; [fold f in E2; rewrite E2; reflexivity|].
              destruct n; [destruct ch; cbn [learn fst snd] in E2; apply wrap_ok in E2; destruct E2 as (? & ? & E2); discriminate|].
              destruct ch as ((w1 & k1) & ch1). cbn [learn] in E2. apply wrap0_ok in E2; auto. apply E2.
        -- intros p f1 d1 r' f2 d2 H1 H2. apply wrap0_ok in H1; auto. apply wrap0_ok in H2; auto.
           destruct H1 as (H1 & C1), H2 as (H2 & C2).
           destruct (as_binary_label lb) as [b| |]; cbn [bind] in H2 |- *; try discriminate.
           binv H2. destruct v as (((k0 & c0) & g) & e). inversion H2; subst. clear H2.
           binv B. destruct v as ((c1 & g1) & e1). inversion B; subst. clear B.
           binv H1. destruct v as ((p1 & h1) & e2). binv H1. inversion H1; subst. clear H1.
           destruct (proj2 (IH ch s x (binary_label b) d K2 G Hd) _ _ _ _ _ _ B B0) as (f' & E). exists f'.
           apply wrap0_ok; auto. split; [fold f in E; rewrite E; cbn [bind]; rewrite B1; reflexivity|].
           destruct n; [destruct ch; cbn [predict_then_learn] in E; apply wrap_ok in E; destruct E as (? & ? & E); discriminate|].
           destruct ch as ((w1 & k1) & ch1). cbn [predict_then_learn] in E. apply wrap0_ok in E; auto. apply E.
      * (* debug *)
        cbn [kind_predict kind_learn kind_ptl]. split.
        -- intros p r' f' d' H. apply wrap0_ok in H; auto. destruct H as (H & C).
           binv H. destruct v as (((p0 & (k0 & c0)) & g) & e). inversion H; subst. clear H.
           binv B. destruct v as (((p1 & c1) & g1) & e1). inversion B; subst. clear B.
           destruct (proj1 (IH ch s x lb d K2 G Hd) _ _ _ _ B0) as (f1 & f2 & E1 & E2).
           exists f1, f2. split; apply wrap0_ok; auto.
           ++ split; [exact E1|].
              destruct n; [destruct ch; cbn [predict fst snd] in E1; apply wrap_ok in E1; destruct E1 as (? & ? & E1); discriminate|].
              destruct ch as ((w1 & k1) & ch1). cbn [predict] in E1. apply wrap0_ok in E1; auto. apply E1.
           ++ split; [fold f in E2; rewrite E2; reflexivity|].
              destruct n; [destruct ch; cbn [learn fst snd] in E2; apply wrap_ok in E2; destruct E2 as (? & ? & E2); discriminate|].
              destruct ch as ((w1 & k1) & ch1). cbn [learn] in E2. apply wrap0_ok in E2; auto. apply E2.
        -- intros p f1 d1 r' f2 d2 H1 H2. apply wrap0_ok in H1; auto. apply wrap0_ok in H2; auto.
           destruct H1 as (H1 & C1), H2 as (H2 & C2).
           binv H2. destruct v as (((k0 & c0) & g) & e). inversion H2; subst. clear H2.
           binv B. destruct v as ((c1 & g1) & e1). inversion B; subst. clear B.
           destruct (proj2 (IH ch s x lb d K2 G Hd) _ _ _ _ _ _ H1 B0) as (f' & E). exists f'.
           apply wrap0_ok; auto. split; [fold f in E; rewrite E; reflexivity|].
           destruct n; [destruct ch; cbn [predict_then_learn] in E; apply wrap_ok in E; destruct E as (? & ? & E); discriminate|].
           destruct ch as ((w1 & k1) & ch1). cbn [predict_then_learn] in E. apply wrap0_ok in E; auto. apply E.
      * (* element-wise *)
        cbn [kind_predict kind_learn kind_ptl]. split.
        -- intros p r' f' d' H. apply wrap_ok in H. destruct H as (e1 & e2 & H). discriminate.
        -- intros p f1 d1 r' f2 d2 H. apply wrap_ok in H. destruct H as (e1 & e2 & H). discriminate.
Qed.

End L.

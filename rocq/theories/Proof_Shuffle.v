(** The order of features (C88). *)
From Coq Require Import List NArith ZArith PeanoNat Bool Lia Permutation Reals Lra.
From Verif Require Import Base FloatOps FloatR Model_Hash Model_Features Model_Weights Model_Loss Model_Interactions
  Model_Types Model_Explore Model_Coin Model_Stack Model_Factory Spec_Foreach Spec_Features Spec_Stack Spec_Reductions Spec_Order Spec_Inter Spec_Empty Spec_Delegate Spec_Shuffle
  Proof_Features Proof_Foreach Proof_Weights Proof_Coin Proof_StackRestore Proof_StackShape Proof_StackProps Proof_StackCong Proof_StackRel Proof_Loose Proof_Order Proof_Inter Proof_Empty Proof_EmptyProps Proof_Context.
Import ListNotations.

(** if the first returns, so does the second, with a related result *)
Definition imp {A B} (R : A -> B -> Prop) (u : out A) (v : out B) : Prop := forall x, u = Ok x -> exists y, v = Ok y /\ R x y.
Lemma imp_bind : forall A B A' B' (Q : A -> B -> Prop) (R : A' -> B' -> Prop) u v k l,
  imp Q u v -> (forall x y, Q x y -> imp R (k x) (l y)) -> imp R (bind u k) (bind v l).
Proof.
  intros A B A' B' Q R u v k l H K z E. destruct u as [x| |]; try discriminate. destruct (H x eq_refl) as (y & -> & q). now apply (K x y q).
Qed.
Lemma imp_eq : forall A B B' (R : B -> B' -> Prop) (u : out A) k l, (forall x, imp R (k x) (l x)) -> imp R (bind u k) (bind u l).
Proof. intros A B B' R u k l K. destruct u as [x| |]; [apply K|intros z E; discriminate|intros z E; discriminate]. Qed.
Lemma imp_ret : forall A B (R : A -> B -> Prop) x y, R x y -> imp R (Ok x) (Ok y).
Proof. intros A B R x y r z E. inversion E; subst. eauto. Qed.

(** ** stacks, whatever the regressor tolerates *)
Section Stack.
Context {O : FOps} (Z : sfeats O -> sfeats O -> Prop) (Pc : coin O -> Prop).
Context (ZP : forall c a b p, Pc c -> Z a b -> coin_predict false c a = Ok p -> coin_predict false c b = Ok p).
Implicit Types (a b sh : sfeats O) (f g h : features O).

Definition zopt (s t : option (sfeats O)) a b : Prop :=
  match s, t with
  | Some s, Some t => esim s s /\ esim t t /\ esim a a /\ esim b b /\
      (forall x y, sf_append a s = Ok x -> sf_append b t = Ok y -> Z x y) /\
      (forall x y, sf_append s a = Ok x -> sf_append t b = Ok y -> Z x y)
  | None, None => Z a b
  | _, _ => False
  end.
Definition zsh (s t : option (sfeats O)) : Prop :=
  match s, t with Some s, Some t => esim s s /\ esim t t | None, None => True | _, _ => False end.
Definition zf f g : Prop :=
  match f, g with
  | FtsSimple a, FtsSimple b => Z a b
  | FtsCb s x, FtsCb t y => zsh s t /\ Forall2 (zopt s t) x y
  | _, _ => False
  end.
Lemma esim_append : forall a s, esim a a -> esim s s -> exists x, sf_append a s = Ok x.
Proof. intros a s (A & _) (S & _). destruct (append_get a s A S) as (r & E & _). eauto. Qed.
Lemma zopt_append : forall s t a b, zopt s t a b -> imp Z (append_opt a s) (append_opt b t).
Proof.
  intros [s|] [t|] a b; simpl; try tauto; [|intros; now apply imp_ret]. intros (A & B & C & D & E & _) x X.
  destruct (esim_append b t D B) as (y & Y). exists y. eauto.
Qed.
Lemma zopt_remove : forall s t a b a1 b1, zopt s t a b -> append_opt a s = Ok a1 -> append_opt b t = Ok b1 ->
  exists a2 b2, remove_opt false a1 s = Ok a2 /\ remove_opt false b1 t = Ok b2 /\ opt_hold s a a2 /\ opt_hold t b b2.
Proof.
  intros [s|] [t|] a b a1 b1; simpl; try tauto.
  - intros (A & B & C & D & _) E F. destruct (around_e false a s a1 C A E) as (a2 & -> & K). destruct (around_e false b t b1 D B F) as (b2 & -> & K'). exists a2, b2. auto.
  - intros _ A B. inversion A; inversion B; subst. exists a1, b1. auto.
Qed.
Lemma wrap_z : forall X nmb mo f g d (B1 B2 : features O -> N -> out (pres O X)),
  (forall d, imp (res f g) (B1 f d) (B2 g d)) -> imp (res f g) (wrap false nmb mo f d B1) (wrap false nmb mo g d B2).
Proof.
  intros X nmb mo f g d B1 B2 HB. unfold wrap. apply imp_eq. intros d1.
  eapply imp_bind; [apply HB|]. intros ((x & f') & d2) ((y & g') & e2) (E1 & E2 & E3 & E4). cbn [fst snd] in *. subst y e2.
  apply imp_eq. intros d3. cbn [andb]. apply imp_ret. repeat (split; auto).
Qed.
Lemma cb_predict_loop_z : forall c1 c2 (s t : option (sfeats O)) x y i d,
  (forall a b d mo, Z a b -> imp (res (FtsSimple a) (FtsSimple b)) (c1 (FtsSimple a) d mo) (c2 (FtsSimple b) d mo)) ->
  Forall2 (zopt s t) x y ->
  imp (fun u v => fst (fst u) = fst (fst v) /\ Forall2 (opt_hold s) x (snd (fst u)) /\ Forall2 (opt_hold t) y (snd (fst v)) /\ snd u = snd v)
    (cb_predict_loop false c1 s x i d) (cb_predict_loop false c2 t y i d).
Proof.
  intros c1 c2 s t x y i d HC H. revert i d. induction H as [|a b x y Hab H IH]; intros i d; cbn [cb_predict_loop].
  - apply imp_ret. cbn. auto.
  - pose proof (zopt_append s t a b Hab) as A. destruct (append_opt a s) as [a1| |] eqn:Ea; try (intros z E; discriminate).
    destruct (A a1 eq_refl) as (b1 & Eb & Zab). rewrite Eb. cbn [bind].
    destruct (zopt_remove s t a b a1 b1 Hab Ea Eb) as (a2 & b2 & R1 & R2 & K1 & K2).
    eapply imp_bind; [apply HC; eassumption|]. intros ((p & f') & d1) ((q & g') & e1) (E1 & E2 & E3 & E4). cbn [fst snd] in *. subst.
    destruct f' as [f'|]; [|now simpl in E2]. destruct g' as [g'|]; [|now simpl in E3]. cbn [hold] in E2, E3. subst f' g'. cbn [back_simple].
    apply imp_eq. intros sc. rewrite R1, R2. cbn [bind]. eapply imp_bind; [apply IH|].
    intros ((p1 & l1) & d2) ((q1 & l2) & e2) (E5 & E6 & E7 & E8). cbn [fst snd] in *. subst. apply imp_ret. cbn. repeat (split; auto).
Qed.
Lemma cb_ips_loop_z : forall X (P : X -> Prop) le act cost prob (s t : option (sfeats O)) x y i (ch : X) d,
  (forall ch a b lb d mo, P ch -> Z a b -> imp (res (FtsSimple a) (FtsSimple b)) (le ch (FtsSimple a) lb d mo) (le ch (FtsSimple b) lb d mo)) ->
  (forall ch f lb d mo ch' f' d', P ch -> le ch f lb d mo = Ok (ch', f', d') -> P ch') ->
  P ch -> Forall2 (zopt s t) x y ->
  imp (fun u v => fst (fst u) = fst (fst v) /\ Forall2 (opt_hold s) x (snd (fst u)) /\ Forall2 (opt_hold t) y (snd (fst v)) /\ snd u = snd v)
    (cb_ips_loop false le act cost prob s x i ch d) (cb_ips_loop false le act cost prob t y i ch d).
Proof.
  intros X P le act cost prob s t x y i ch d HC HP K H. revert i ch d K. induction H as [|a b x y Hab H IH]; intros i ch d K; cbn [cb_ips_loop].
  - apply imp_ret. cbn. auto.
  - pose proof (zopt_append s t a b Hab) as A. destruct (append_opt a s) as [a1| |] eqn:Ea; try (intros z E; discriminate).
    destruct (A a1 eq_refl) as (b1 & Eb & Zab). rewrite Eb. cbn [bind].
    destruct (zopt_remove s t a b a1 b1 Hab Ea Eb) as (a2 & b2 & R1 & R2 & K1 & K2).
    apply imp_eq. intros lb. pose proof (HC ch a1 b1 lb d 0%N K Zab) as Q.
    destruct (le ch (FtsSimple a1) lb d 0%N) as [((c1 & f') & d1)| |] eqn:L; try (intros z E; discriminate).
    destruct (Q _ eq_refl) as (((c2 & g') & d2) & -> & E1 & E2 & E3 & E4). cbn [bind fst snd] in *. subst.
    pose proof (HP _ _ _ _ _ _ _ _ K L) as K'.
    destruct f' as [f'|]; [|now simpl in E2]. destruct g' as [g'|]; [|now simpl in E3]. cbn [hold] in E2, E3. subst f' g'. cbn [back_simple].
    rewrite R1, R2. cbn [bind]. eapply imp_bind; [apply IH; exact K'|].
    intros ((p1 & l1) & d3) ((q1 & l2) & e2) (E5 & E6 & E7 & E8). cbn [fst snd] in *. subst. apply imp_ret. cbn. repeat (split; auto).
Qed.
Lemma hold_cb : forall (s : option (sfeats O)) x y, match s with Some s => esim s s | None => True end ->
  Forall2 (opt_hold s) x y -> hold (FtsCb s x) (FtsCb s y).
Proof.
  intros [s|] x y; simpl; intros E F.
  - split; [apply E|]. clear E. induction F; constructor; auto.
  - clear E. induction F; auto. simpl in H. congruence.
Qed.
Lemma zsh_l : forall s t, zsh s t -> match s with Some s => esim s s | None => True end.
Proof. intros [s|] [t|]; simpl; tauto. Qed.
Lemma zsh_r : forall s t, zsh s t -> match t with Some s => esim s s | None => True end.
Proof. intros [s|] [t|]; simpl; tauto. Qed.

Ltac rsplit :=
  let p := fresh "p" in let f' := fresh "f'" in let d' := fresh "d'" in
  let q := fresh "q" in let g' := fresh "g'" in let e' := fresh "e'" in
  let E1 := fresh "E" in let E2 := fresh "E" in let E3 := fresh "E" in let E4 := fresh "E" in
  intros ((p & f') & d') ((q & g') & e') (E1 & E2 & E3 & E4); cbn [fst snd] in E1, E2, E3, E4; subst.
Ltac rdone := apply imp_ret; repeat (split; auto).

Lemma kind_predict_z : forall k c1 c2 f g d mo, (forall one two keep nb, k <> KElem one two keep nb) ->
  (forall f g d mo, zf f g -> imp (res f g) (c1 f d mo) (c2 g d mo)) -> zf f g ->
  imp (res f g) (kind_predict false k c1 f d mo) (kind_predict false k c2 g d mo).
Proof.
  intros k c1 c2 f g d mo NE HC H. destruct k; cbn [kind_predict];
    try (eapply imp_bind; [apply HC; exact H|rsplit]).
  - apply imp_eq. intros sc. rdone.
  - destruct f as [a|s x], g as [b|t y]; simpl in H; try tauto; simpl as_cb; cbn [bind fst snd]; [intros z E; discriminate|].
    destruct H as (Hs & Hx).
    eapply imp_bind; [eapply cb_predict_loop_z; [intros; now apply HC|exact Hx]|].
    rsplit. apply imp_ret. split; auto. split; [|split]; cbn [fst snd]; auto.
    + apply hold_cb; auto. eapply zsh_l; eauto.
    + apply hold_cb; auto. eapply zsh_r; eauto.
  - do 2 (apply imp_eq; intros ?). rdone.
  - do 2 (apply imp_eq; intros ?). rdone.
  - do 2 (apply imp_eq; intros ?). rdone.
  - exfalso. eapply NE. reflexivity.
  - now apply HC.
Qed.
Lemma predict_z : forall n (r : red O n) f g d mo, elem_free n r -> Pc (bottom n r) -> zf f g ->
  imp (res f g) (predict false n r f d mo) (predict false n r g d mo).
Proof.
  induction n as [|n IH]; intros r f g d mo K Q H.
  - destruct r as (w & c). cbn [predict fst snd]. apply wrap_z. intros d0. unfold coin_predict_body.
    destruct f as [a|s x], g as [b|t y]; simpl in H; try tauto; simpl as_simple; cbn [bind]; [|intros z E; discriminate].
    intros z E. binv E. inversion E; subst. rewrite (ZP c a b v Q H B). cbn [bind]. eexists. split; [reflexivity|]. repeat (split; auto).
  - destruct r as ((w & k) & ch). cbn [predict elem_free fst snd bottom] in *. destruct K as (K1 & K2). apply wrap_z.
    intros d0. apply kind_predict_z; auto.
Qed.

Context (ZL : forall c a b v w c', Pc c -> Z a b -> coin_learn false c a v w = Ok c' -> coin_learn false c b v w = Ok c').
Context (PL : forall dbg c (x : sfeats O) v w c', Pc c -> coin_learn dbg c x v w = Ok c' -> Pc c').
Lemma kind_learn_z : forall X (P : X -> Prop) k le (ch : X) f g lb d mo, (forall one two keep nb, k <> KElem one two keep nb) ->
  (forall ch f g lb d mo, P ch -> zf f g -> imp (res f g) (le ch f lb d mo) (le ch g lb d mo)) ->
  (forall ch f lb d mo ch' f' d', P ch -> le ch f lb d mo = Ok (ch', f', d') -> P ch') ->
  P ch -> zf f g ->
  imp (res f g) (kind_learn false k le ch f lb d mo) (kind_learn false k le ch g lb d mo).
Proof.
  intros X P k le ch f g lb d mo NE HC HP K H. destruct k; cbn [kind_learn];
    try (eapply imp_bind; [apply HC; [exact K|exact H]|rsplit; rdone]).
  - apply imp_eq. intros b. eapply imp_bind; [apply HC; [exact K|exact H]|rsplit; rdone].
  - destruct f as [a|s x], g as [b|t y]; simpl in H; try tauto; simpl as_cb; cbn [bind fst snd]; [intros z E; discriminate|].
    destruct H as (Hs & Hx). apply imp_eq. intros ((act & cost) & prob). destruct ty.
    + eapply imp_bind; [apply (cb_ips_loop_z X P); [|exact HP|exact K|exact Hx]; intros; now apply HC|].
      rsplit. apply imp_ret. split; auto. split; [|split]; cbn [fst snd]; auto.
      * apply hold_cb; auto. eapply zsh_l; eauto.
      * apply hold_cb; auto. eapply zsh_r; eauto.
    + rewrite (F2_length _ _ _ _ _ Hx). do 2 (apply imp_eq; intros ?).
      destruct s as [s|], t as [t|]; simpl in Hs; try tauto; [|intros z E; discriminate]. destruct Hs as (S1 & S2).
      assert (Hn : match nth_error x (N.to_nat act), nth_error y (N.to_nat act) with
                   | Some a, Some b => zopt (Some s) (Some t) a b | None, None => True | _, _ => False end).
      { clear - Hx. generalize (N.to_nat act). induction Hx; intros [|n]; simpl; auto. apply IHHx. }
      assert (Hx1 : Forall2 esim x x) by (clear - Hx; induction Hx; constructor; auto; apply H).
      assert (Hx2 : Forall2 esim y y) by (clear - Hx; induction Hx; constructor; auto; apply H).
      destruct (nth_error x (N.to_nat act)) as [a|], (nth_error y (N.to_nat act)) as [b|]; try tauto;
        cbn [opt_or bind]; [|intros z E; discriminate].
      destruct Hn as (_ & _ & A & B & _ & J).
      destruct (esim_append s a S1 A) as (s1 & Ea). destruct (esim_append t b S2 B) as (t1 & Eb). rewrite Ea, Eb. cbn [bind].
      destruct (around_e false s a s1 S1 A Ea) as (s2 & R1 & K1). destruct (around_e false t b t1 S2 B Eb) as (t2 & R2 & K2).
      eapply imp_bind; [apply (HC ch (FtsSimple s1) (FtsSimple t1)); [exact K|now apply J]|rsplit].
      destruct f' as [f'|]; [|now simpl in E0]. destruct g' as [g'|]; [|now simpl in E1]. cbn [hold] in E0, E1. subst f' g'. cbn [back_simple].
      rewrite R1, R2. cbn [bind]. apply imp_ret. repeat (split; auto).
  - apply imp_eq. intros ((act & cost) & prob). eapply imp_bind; [apply HC; [exact K|exact H]|rsplit].
    apply imp_eq. intros ?. rdone.
  - exfalso. eapply NE. reflexivity.
Qed.
Lemma learn_z : forall n (r : red O n) f g lb d mo, elem_free n r -> Pc (bottom n r) -> zf f g ->
  imp (res f g) (learn false n r f lb d mo) (learn false n r g lb d mo).
Proof.
  induction n as [|n IH]; intros r f g lb d mo K Q H.
  - destruct r as (w & c). cbn [learn]. apply wrap_z. intros d0. unfold coin_learn_body.
    destruct f as [a|s x], g as [b|t y]; simpl in H; try tauto; simpl as_simple; cbn [bind]; [|intros z E; discriminate].
    eapply (imp_bind _ _ _ _ (res (FtsSimple a) (FtsSimple b))).
    + apply imp_eq. intros l z E. binv E. inversion E; subst. rewrite (ZL c a b _ _ v Q H B). cbn [bind].
      eexists. split; [reflexivity|]. repeat (split; auto).
    + rsplit. rdone.
  - destruct r as ((w & k) & ch). cbn [learn elem_free fst snd bottom] in *. destruct K as (K1 & K2). apply wrap_z.
    intros d0. eapply imp_bind; [apply (kind_learn_z _ (fun r => elem_free n r /\ Pc (bottom n r))); auto|].
    + intros c f1 g1 lb1 d1 mo1 (A & B) C. now apply IH.
    + intros c f1 lb1 d1 mo1 c' f' d' (A & B) E. split; [eapply free_shape; [eapply learn_shape; exact E|exact A]|].
      eapply (learn_inv Pc PL); eauto.
    + rsplit. destruct q. rdone.
Qed.
End Stack.

(** ** loops in another order *)
Section Swap.
Context {A B : Type} (J : B -> Prop) (K : A -> A -> Prop) (f : B -> A -> out B).
Context (KS : forall x y, K x y -> K y x).
Context (JP : forall b x b', J b -> f b x = Ok b' -> J b').
Context (SW : forall b x y b1 b2, J b -> K x y -> f b x = Ok b1 -> f b1 y = Ok b2 -> exists b1', f b y = Ok b1' /\ f b1' x = Ok b2).
Lemma pairs_perm : forall l l', Permutation l l' -> ForallOrdPairs K l -> ForallOrdPairs K l'.
Proof.
  intros l l' P. induction P; intros F; auto.
  - inversion F; subst. constructor; auto. eapply Permutation_Forall; eauto.
  - inversion F as [|? ? F1 F2]; subst. inversion F1; subst. inversion F2; subst. constructor; [constructor; auto|constructor; auto].
Qed.
Lemma foldm_perm : forall l l' b r, Permutation l l' -> ForallOrdPairs K l -> J b -> foldm f l b = Ok r -> foldm f l' b = Ok r.
Proof.
  intros l l' b r P. revert b r. induction P; intros b r F I0 E; auto.
  - cbn [foldm] in *. inversion F; subst. binv E. rewrite B0. cbn [bind]. apply IHP; eauto.
  - inversion F as [|? ? F1 F2]; subst. inversion F1; subst. cbn [foldm] in *. binv E. binv E.
    destruct (SW _ _ _ _ _ I0 H1 B0 B1) as (b1 & -> & X). cbn [bind]. rewrite X. exact E.
  - apply IHP2; auto. eapply pairs_perm; eauto.
Qed.
End Swap.
Lemma nodup_pairs : forall A B (k : A -> B) l, NoDup (map k l) -> ForallOrdPairs (fun x y => k x <> k y) l.
Proof.
  intros A B k l. induction l as [|x l IH]; intros N; constructor.
  - inversion N; subst. apply Forall_forall. intros y Hy E. apply H1. rewrite E. now apply in_map.
  - apply IH. now inversion N.
Qed.
Lemma true_pairs : forall A (l : list A), ForallOrdPairs (fun _ _ => True) l.
Proof. intros A l. induction l; constructor; auto. apply Forall_forall. auto. Qed.

Section Writes.
Context {O : FOps}.
Lemma write_comm : forall i j st st' (l : list O), (i + length st <= length l)%nat -> (j + length st' <= length l)%nat ->
  (i + length st <= j \/ j + length st' <= i)%nat -> write_slice j st' (write_slice i st l) = write_slice i st (write_slice j st' l).
Proof.
  intros i j st st' l A B D.
  assert (La : length (write_slice i st l) = length l) by now apply write_slice_length.
  assert (Lb : length (write_slice j st' l) = length l) by now apply write_slice_length.
  apply (nth_ext _ _ f0 f0); [rewrite !write_slice_length; lia|]. intros n _.
  rewrite !write_slice_nth by lia.
  destruct (Nat.leb i n && Nat.ltb n (i + length st)) eqn:X, (Nat.leb j n && Nat.ltb n (j + length st')) eqn:Y; auto.
  apply andb_true_iff in X. apply andb_true_iff in Y. destruct X as (X1 & X2), Y as (Y1 & Y2).
  apply Nat.leb_le in X1, Y1. apply Nat.ltb_lt in X2, Y2. lia.
Qed.
(** the shape of the table, as far as it decides where things are *)
Definition tshape (w : dweights O) : Prop := (dw_ssize w <= 2 ^ dw_sshift w)%N.
Definition dims (w : dweights O) : N * N * N * N * N := (dw_fsize w, dw_msize w, dw_ssize w, dw_mshift w, dw_sshift w).
Lemma upd_facts : forall (w : dweights O) i g w', dw_state_upd false w i 0 g = Ok w' -> exists st,
  let p := N.to_nat (cell (dw_mshift w) (dw_sshift w) i 0) in
  (p + N.to_nat (dw_ssize w) <= length (dw_w w))%nat /\ g (firstn (N.to_nat (dw_ssize w)) (skipn p (dw_w w))) = Ok st /\
  w' = mkDw (write_slice p st (dw_w w)) (dw_fsize w) (dw_msize w) (dw_ssize w) (dw_mshift w) (dw_sshift w).
Proof.
  intros w i g w' E. unfold dw_state_upd, dw_index in E. cbn [andb bind] in E. binv E. binv E. inversion E; subst.
  unfold slice in B. match type of B with (if ?b then _ else _) = _ => destruct b eqn:L end; [|discriminate]. apply Nat.leb_le in L. inversion B; subst.
  exists v0. cbn zeta. split; [exact L|]. split; [exact B0|]. reflexivity.
Qed.
Lemma upd_run : forall (w : dweights O) i g st, let p := N.to_nat (cell (dw_mshift w) (dw_sshift w) i 0) in
  (p + N.to_nat (dw_ssize w) <= length (dw_w w))%nat -> g (firstn (N.to_nat (dw_ssize w)) (skipn p (dw_w w))) = Ok st ->
  dw_state_upd false w i 0 g = Ok (mkDw (write_slice p st (dw_w w)) (dw_fsize w) (dw_msize w) (dw_ssize w) (dw_mshift w) (dw_sshift w)).
Proof.
  intros w i g st p L G. unfold dw_state_upd, dw_index. cbn [andb bind]. unfold slice. fold (cell (dw_mshift w) (dw_sshift w) i 0). fold p.
  rewrite (proj2 (Nat.leb_le _ _) L). cbn [bind]. rewrite G. reflexivity.
Qed.
End Writes.

Section Learn.
Context {O : FOps}.
Lemma inner_length : forall cfg avg u x (st st' : list O), inner_update cfg avg u x st = Ok st' -> length st' = length st.
Proof.
  intros cfg avg u x st st' E. unfold inner_update in E. destruct (Nat.eqb (length st) 6) eqn:L; [|discriminate].
  apply Nat.eqb_eq in L. inversion E; subst. cbn [length]. now rewrite L.
Qed.
Lemma upd_swap : forall cfg avg u (w : dweights O) x y w1 w2, tshape w -> fst x <> fst y ->
  dw_state_upd false w (fst x) 0 (inner_update cfg avg u (snd x)) = Ok w1 ->
  dw_state_upd false w1 (fst y) 0 (inner_update cfg avg u (snd y)) = Ok w2 ->
  exists w1', dw_state_upd false w (fst y) 0 (inner_update cfg avg u (snd y)) = Ok w1' /\
    dw_state_upd false w1' (fst x) 0 (inner_update cfg avg u (snd x)) = Ok w2.
Proof.
  intros cfg avg u w (i & x) (j & y) w1 w2 T N E1 E2. cbn [fst snd] in *.
  apply upd_facts in E1. destruct E1 as (st & L1 & G1 & ->). apply upd_facts in E2. destruct E2 as (st' & L2 & G2 & ->).
  cbn [dw_w dw_fsize dw_msize dw_ssize dw_mshift dw_sshift] in *.
  set (p := N.to_nat (cell (dw_mshift w) (dw_sshift w) i 0)) in *. set (q := N.to_nat (cell (dw_mshift w) (dw_sshift w) j 0)) in *.
  set (n := N.to_nat (dw_ssize w)) in *.
  assert (S1 : length st = n) by (rewrite (inner_length _ _ _ _ _ _ G1), firstn_length, skipn_length; lia).
  rewrite write_slice_length in L2 by lia.
  assert (S2 : length st' = n) by (rewrite (inner_length _ _ _ _ _ _ G2), firstn_length, skipn_length, write_slice_length; lia).
  assert (D : (p + n <= q \/ q + n <= p)%nat).
  { destruct (cell_disjoint (dw_mshift w) (dw_sshift w) i 0 j 0 (dw_ssize w)) as [D|D]; auto.
    - apply N.neq_0_lt_0, N.pow_nonzero. discriminate.
    - apply N.neq_0_lt_0, N.pow_nonzero. discriminate.
    - intros X. apply N. now inversion X.
    - left. unfold p, q, n. lia.
    - right. unfold p, q, n. lia. }
  assert (G2' : inner_update cfg avg u y (firstn n (skipn q (dw_w w))) = Ok st').
  { rewrite <- G2. f_equal. pose proof (slice_write_other p st (dw_w w) q n) as W. unfold slice in W. rewrite write_slice_length in W by lia.
    rewrite (proj2 (Nat.leb_le _ _) L2) in W. rewrite S1 in W. specialize (W ltac:(lia) ltac:(lia)). now inversion W. }
  eexists. split; [apply (upd_run w j _ st'); assumption|].
  rewrite (write_comm p q st st') by lia.
  match goal with |- dw_state_upd false ?W i 0 _ = _ => refine (upd_run W i _ st _ _) end;
    cbn [dw_w dw_fsize dw_msize dw_ssize dw_mshift dw_sshift]; fold p; fold n; [rewrite write_slice_length; lia|].
  rewrite <- G1. f_equal. pose proof (slice_write_other q st' (dw_w w) p n) as W. unfold slice in W. rewrite write_slice_length in W by lia.
  rewrite (proj2 (Nat.leb_le _ _) L1) in W. rewrite S2 in W. specialize (W ltac:(lia) ltac:(lia)). now inversion W.
Qed.
Lemma upd_tshape : forall (w : dweights O) i g w', tshape w -> dw_state_upd false w i 0 g = Ok w' -> tshape w'.
Proof. intros w i g w' T E. apply upd_facts in E. destruct E as (st & _ & _ & ->). exact T. Qed.
Lemma updates_perm : forall cfg avg u l l' (w r : dweights O), Permutation l l' -> NoDup (map fst l) -> tshape w ->
  foldm (fun w iv => dw_state_upd false w (fst iv) 0 (inner_update cfg avg u (snd iv))) l w = Ok r ->
  foldm (fun w iv => dw_state_upd false w (fst iv) 0 (inner_update cfg avg u (snd iv))) l' w = Ok r.
Proof.
  intros cfg avg u l l' w r P N T E.
  refine (foldm_perm tshape (fun x y => fst x <> fst y) _ _ _ _ l l' w r P (nodup_pairs _ _ _ _ N) T E).
  - congruence.
  - intros b x b' Tb X. eapply upd_tshape; eauto.
  - intros b x y b1 b2 Tb Kxy X Y. eapply upd_swap; eauto.
Qed.
End Learn.

Open Scope R_scope.
Lemma Rswap : forall a b c : R, a + b + c = a + c + b.
Proof. intros; ring. Qed.
Lemma inner_form : forall (cfg : coin_config RF) x (st : list RF), exists u v : R, forall a : RF * RF,
  inner_predict cfg a x st = if Nat.eqb (length st) 6 then Ok ((fst a : R) + u, (snd a : R) + v) else Pn PAssert.
Proof.
  intros cfg x st. unfold inner_predict.
  destruct (f_gtb (f_max (sg st W_MX) (f_abs RF x)) f0).
  - do 2 eexists. intros a. destruct (Nat.eqb (length st) 6); reflexivity.
  - eexists. exists 0. intros a. destruct (Nat.eqb (length st) 6); [|reflexivity]. f_equal. apply f_equal2; [reflexivity|]. symmetry. apply Rplus_0_r.
Qed.
Lemma inner_swap : forall cfg (st st' : list RF) x y (a b r : RF * RF),
  inner_predict cfg a x st = Ok b -> inner_predict cfg b y st' = Ok r ->
  exists b', inner_predict cfg a y st' = Ok b' /\ inner_predict cfg b' x st = Ok r.
Proof.
  intros cfg st st' x y a b r. destruct (inner_form cfg x st) as (u & v & X). destruct (inner_form cfg y st') as (u' & v' & Y).
  rewrite !X, !Y. destruct (Nat.eqb (length st) 6), (Nat.eqb (length st') 6); try discriminate.
  intros E1 E2. eexists. split; [reflexivity|]. rewrite X. inversion E1; subst. inversion E2; subst. cbn [fst snd].
  apply (f_equal (@Ok (RF * RF))). apply f_equal2; apply Rswap.
Qed.
Lemma reads_perm : forall cfg (w : dweights RF) l l' a r, Permutation l l' ->
  foldm (fun acc iv => let* st := dw_state_at false w (fst iv) 0 in inner_predict cfg acc (snd iv) st) l a = Ok r ->
  foldm (fun acc iv => let* st := dw_state_at false w (fst iv) 0 in inner_predict cfg acc (snd iv) st) l' a = Ok r.
Proof.
  intros cfg w l l' a r P E. refine (foldm_perm (fun _ => True) (fun _ _ => True) _ _ _ _ l l' a r P (true_pairs _ _) Logic.I E); auto.
  intros b x y b1 b2 _ _ X Y. binv X. binv Y. destruct (inner_swap _ _ _ _ _ _ _ _ X Y) as (b' & X' & Y').
  exists b'. rewrite B, B0. cbn [bind]. auto.
Qed.

Section Orders.
Context {O : FOps}.
Lemma feats_perm : forall dbg (x y : sfeats O) ps ts nb c l, fwf x -> fwf y -> quiet x -> quiet y ->
  (forall k, Permutation (feats_of k x) (feats_of k y)) ->
  (forall p, In p ps -> fst p <> snd p) -> (forall n1 n2 n3, In (n1, n2, n3) ts -> n1 <> n2 /\ n2 <> n3) ->
  fe_list dbg x ps ts nb c = Ok l -> exists l', fe_list dbg y ps ts nb c = Ok l' /\ Permutation l l'.
Proof.
  intros dbg x y pairs triples nb const l Wx Wy Qx Qy P Sp St H.
  unfold fe_list in *. destruct (mask_from_bits dbg nb) as [mk|?|?]; try discriminate. cbn [bind] in *.
  destruct (if const then _ else _) as [c|?|?]; try discriminate. cbn [bind] in *. inversion H; subst. clear H.
  eexists. split; [reflexivity|]. apply Permutation_app; [|apply Permutation_app; [|apply Permutation_app_tail]].
  - assert (D : forall u v : namespace, {u = v} + {u <> v}).
    { intros u v. destruct (ns_eqb u v) eqn:Q; [left; now apply ns_eqb_eq|right]. intros ->. now rewrite ns_eqb_refl in Q. }
    set (K := nodup D (map fst x ++ map fst y)).
    eapply Permutation_trans; [apply (sf_all_perm x K); [apply Wx|apply NoDup_nodup|]|].
    { intros k Hk. apply nodup_In. apply in_app_iff. auto. }
    eapply Permutation_trans; [|apply Permutation_sym, (sf_all_perm y K); [apply Wy|apply NoDup_nodup|]].
    2:{ intros k Hk. apply nodup_In. apply in_app_iff. auto. }
    apply perm_flat; auto. intros k _. rewrite !quiet_at by auto. auto.
  - apply perm_flat; auto. intros (n1 & n2) Hp. apply quad_perm; auto. intros E. exfalso. exact (Sp _ Hp E).
  - apply perm_flat; auto. intros ((n1 & n2) & n3) Hp. destruct (St _ _ _ Hp) as (A & B). apply cubic_perm; auto; intros E; exfalso; auto.
Qed.
End Orders.

(** ** the regressor *)
Section Coin.
Context (H : hasher) (gc : gconfig).
Definition good (c : coin RF) : Prop := tshape (co_w c) /\
  sorted_into (nsdef_namespace H (gc_seed gc)) (gc_inter gc) (co_pairs c) (co_triples c) /\ co_bits c = gc_bits gc /\ co_const c = gc_const gc.
Definition zp (x y : sfeats RF) : Prop := fwf x /\ fwf y /\ quiet x /\ quiet y /\ forall k, Permutation (feats_of k x) (feats_of k y).
Definition zl (x y : sfeats RF) : Prop := zp x y /\ no_clash H gc x.
Context (NR : no_repeat H gc).
Lemma sorted_distinct : forall ps ts, sorted_into (nsdef_namespace H (gc_seed gc)) (gc_inter gc) ps ts ->
  (forall p, In p ps -> fst p <> snd p) /\ (forall n1 n2 n3, In (n1, n2, n3) ts -> n1 <> n2 /\ n2 <> n3).
Proof.
  intros ps ts S. unfold no_repeat in NR. induction S as [|a b r ps ts S IH|a b c r ps ts S IH].
  - split; [intros p []|intros n1 n2 n3 []].
  - inversion NR as [|? ? N1 N2]; subst. destruct (IH N2) as (A & B). split; auto. intros p [<-|P]; auto. exact (N1 [] a b [] eq_refl).
  - inversion NR as [|? ? N1 N2]; subst. destruct (IH N2) as (A & B). split; auto. intros n1 n2 n3 [E|P]; [|now apply B]. inversion E; subst.
    split; [exact (N1 [] a b [c] eq_refl)|exact (N1 [a] b c [] eq_refl)].
Qed.
Lemma zp_feats : forall c x y l, good c -> zp x y -> coin_feats false c x = Ok l -> exists l', coin_feats false c y = Ok l' /\ Permutation l l'.
Proof.
  intros c x y l (_ & S & _) (A & B & C & D & E) L. destruct (sorted_distinct _ _ S) as (P1 & P2). unfold coin_feats in *.
  exact (feats_perm false x y _ _ _ _ l A B C D E P1 P2 L).
Qed.
Lemma zp_predict : forall c a b p, good c -> zp a b -> coin_predict false c a = Ok p -> coin_predict false c b = Ok p.
Proof.
  intros c a b p G Q E. unfold coin_predict in *. binv E. rename B into L. destruct (zp_feats c a b v G Q L) as (l' & L' & P). rewrite L'. cbn [bind].
  binv E. rename B into D.
  assert (D' : coin_dot false c l' = Ok v0) by exact (dot_perm (fun iv => dw_weight_at false (co_w c) (fst iv) 0) v l' _ _ P D).
  rewrite D'. exact E.
Qed.
Lemma zp_betting : forall c a b w p, good c -> zp a b -> coin_betting_predict false c a w = Ok p -> coin_betting_predict false c b w = Ok p.
Proof.
  intros c a b w p G Q E. unfold coin_betting_predict in *. binv E. rename B into L. destruct (zp_feats c a b v G Q L) as (l' & L' & P). rewrite L'. cbn [bind].
  binv E. rename B into F. rewrite (reads_perm _ _ v l' _ _ P F). exact E.
Qed.
Lemma zl_update : forall c a b p v w c', good c -> zl a b -> coin_update false c a p v w = Ok c' -> coin_update false c b p v w = Ok c'.
Proof.
  intros c a b p y w c' G (Q & NC) E. unfold coin_update in *. binv E. rename B into L. destruct (zp_feats c a b v G Q L) as (l' & L' & P). rewrite L'. cbn [bind].
  destruct G as (T & S & G3 & G4). binv E. rename B into U.
  assert (ND : NoDup (map fst v)).
  { unfold coin_feats in L. rewrite G3, G4 in L. exact (NC _ _ _ S L). }
  rewrite (updates_perm _ _ _ v l' _ _ P ND T U). exact E.
Qed.
Lemma betting_good : forall c a w p c', good c -> coin_betting_predict false c a w = Ok (p, c') -> good c'.
Proof.
  intros c a w p c' G E. unfold coin_betting_predict in E. binv E. binv E. binv E. binv E. inversion E; subst. exact G.
Qed.
Lemma zl_learn : forall c a b v w c', good c -> zl a b -> coin_learn false c a v w = Ok c' -> coin_learn false c b v w = Ok c'.
Proof.
  intros c a b y w c' G Q E. unfold coin_learn in *. binv E. destruct v as (p & c1).
  assert (G' : good (coin_range c y)) by exact G.
  rewrite (zp_betting _ a b _ _ G' (proj1 Q) B). cbn [bind fst snd] in *. eapply zl_update; [|exact Q|exact E]. exact (betting_good _ _ _ _ _ G' B).
Qed.
Lemma good_learn : forall dbg c (x : sfeats RF) v w c', good c -> coin_learn dbg c x v w = Ok c' -> good c'.
Proof.
  intros dbg c x v w c' (T & S & A & B) E. apply coin_learn_shape in E. destruct E as (W & _ & _ & _ & E1 & E2 & E3 & E4).
  split; [|rewrite <- E1, <- E2, <- E3, <- E4; auto]. destruct W as (W1 & W2 & W3 & W4 & W5). unfold tshape in *. congruence.
Qed.
End Coin.

(** ** workspaces *)
Section Ws.
Context (H : hasher) (gc : gconfig) (NR : no_repeat H gc).
Lemma new_good : forall (c : rcfg RF) R0 r, ws_new H false gc c = Ok R0 -> reach false (projT2 R0) r -> good H gc (bottom (projT1 R0) r).
Proof.
  intros c R0 r E Q. apply (reach_coin (good H gc) (good_learn H gc) false _ _ _ Q). unfold ws_new in E.
  destruct (create_inter _ _ _ _ _ _ E) as (A & B & C). destruct (create_coin _ _ _ _ _ _ E) as (cfg & N).
  split; [|auto]. apply coin_new_wf in N; [|lia]. destruct N as (W & _). unfold tshape.
  destruct (cw_wf _ _ W) as (_ & _ & Z & _ & _ & _ & _ & S & _). rewrite S. apply (size_bound _ Z).
Qed.
Lemma sound_esim : forall a : sfeats RF, sound a -> esim a a.
Proof. intros a S. now apply sound_self. Qed.
Lemma append_zp : forall a b s t x y : sfeats RF, sound a -> sound b -> sound s -> sound t -> reordered a b -> reordered s t ->
  sf_append a s = Ok x -> sf_append b t = Ok y -> zp x y.
Proof.
  intros a b s t x y Sa Sb Ss St P Q X Y.
  destruct (sound_quiet a Sa) as (Wa & Qa), (sound_quiet b Sb) as (Wb & Qb), (sound_quiet s Ss) as (Ws & Qs), (sound_quiet t St) as (Wt & Qt).
  destruct (append_feats a s x Wa Ws Qa X) as (Wx & Qx & Fx). destruct (append_feats b t y Wb Wt Qb Y) as (Wy & Qy & Fy).
  repeat (split; [assumption|]). intros k. rewrite Fx, Fy.
  apply Permutation_app; [specialize (P k); rewrite !in_ns_feats in P by auto; exact P|specialize (Q k); rewrite !in_ns_feats in Q by auto; exact Q].
Qed.
Lemma simple_zp : forall a b : sfeats RF, sound a -> sound b -> reordered a b -> zp a b.
Proof.
  intros a b Sa Sb P. destruct (sound_quiet a Sa) as (Wa & Qa), (sound_quiet b Sb) as (Wb & Qb). repeat (split; [assumption|]).
  intros k. specialize (P k). rewrite !in_ns_feats in P by auto. exact P.
Qed.
Lemma feats_some : forall (x : sfeats RF) ps ts l y, zp x y -> sorted_into (nsdef_namespace H (gc_seed gc)) (gc_inter gc) ps ts ->
  fe_list false x ps ts (gc_bits gc) (gc_const gc) = Ok l -> exists l', fe_list false y ps ts (gc_bits gc) (gc_const gc) = Ok l' /\ Permutation l l'.
Proof.
  intros x ps ts l y (A & B & C & D & E) S L. destruct (sorted_distinct H gc NR _ _ S) as (P1 & P2). exact (feats_perm false x y _ _ _ _ l A B C D E P1 P2 L).
Qed.
Lemma clash_zp : forall x y : sfeats RF, zp x y -> no_clash H gc x -> no_clash H gc y.
Proof.
  intros x y Q N ps ts l S L. assert (Q' : zp y x).
  { destruct Q as (A & B & C & D & E). repeat (split; [assumption|]). intros k. apply Permutation_sym, E. }
  destruct (feats_some y ps ts l x Q' S L) as (l' & L' & P). eapply Permutation_NoDup; [|exact (N _ _ _ S L')].
  apply Permutation_map, Permutation_sym, P.
Qed.
Lemma swap_zp : forall a s x y : sfeats RF, sound a -> sound s -> sf_append a s = Ok x -> sf_append s a = Ok y -> zp x y.
Proof.
  intros a s x y Sa Ss X Y. destruct (sound_quiet a Sa) as (Wa & Qa), (sound_quiet s Ss) as (Ws & Qs).
  destruct (append_feats a s x Wa Ws Qa X) as (Wx & Qx & Fx). destruct (append_feats s a y Ws Wa Qs Y) as (Wy & Qy & Fy).
  repeat (split; [assumption|]). intros k. rewrite Fx, Fy. apply Permutation_app_comm.
Qed.
(** from what is said about examples to what the stack needs *)
Lemma fts_zp : forall f g : features RF, sound_fts f -> sound_fts g -> reordered_fts f g -> zf zp f g.
Proof.
  intros [a|s x] [b|t y] Sf Sg Q; simpl in *; try tauto; [now apply simple_zp|].
  destruct Sf as (Sx & Ss), Sg as (Sy & St), Q as (Q & P). split.
  { destruct s, t; simpl; try tauto. split; now apply sound_esim. }
  induction P as [|a b x y Pab P IH]; constructor.
  - destruct s as [s|], t as [t|]; simpl; try tauto.
    + repeat (split; [apply sound_esim; solve [auto | apply Sx; now left | apply Sy; now left]|]). split.
      * intros u v U V. eapply (append_zp a b s t); eauto; [apply Sx; now left|apply Sy; now left].
      * intros u v U V. eapply (append_zp s t a b); eauto; [apply Sx; now left|apply Sy; now left].
    + apply simple_zp; auto; [apply Sx; now left|apply Sy; now left].
  - apply IH; intros z Hz; [apply Sx; now right|apply Sy; now right].
Qed.
Lemma fts_zl : forall f g : features RF, sound_fts f -> sound_fts g -> reordered_fts f g -> no_clash_fts H gc f -> zf (zl H gc) f g.
Proof.
  intros [a|s x] [b|t y] Sf Sg Q C; simpl in *; try tauto; [split; [now apply simple_zp|exact C]|].
  destruct Sf as (Sx & Ss), Sg as (Sy & St), Q as (Q & P). split.
  { destruct s, t; simpl; try tauto. split; now apply sound_esim. }
  induction P as [|a b x y Pab P IH]; constructor.
  - assert (Sa : sound a) by (apply Sx; now left). assert (Sb : sound b) by (apply Sy; now left).
    destruct s as [s|], t as [t|]; simpl; try tauto.
    + repeat (split; [apply sound_esim; assumption|]). split.
      * intros u v U V. split; [eapply (append_zp a b s t); eauto|]. eapply C; [now left|exact U].
      * intros u v U V. split; [eapply (append_zp s t a b); eauto|]. destruct (esim_append a s) as (u' & U'); try now apply sound_esim.
        apply (clash_zp u' u); [exact (swap_zp a s u' u Sa Ss U' U)|]. eapply C; [now left|exact U'].
    + split; [now apply simple_zp|]. eapply C; [now left|reflexivity].
  - apply IH; [intros z Hz; apply Sx; now right|intros z Hz; apply Sy; now right|intros z u Hz U; eapply C; [right; exact Hz|exact U]].
Qed.
Lemma reordered_predict : forall (c : rcfg RF) R0 r f g p f', ws_new H false gc c = Ok R0 -> reach false (projT2 R0) r ->
  elem_free (projT1 R0) (projT2 R0) -> sound_fts f -> sound_fts g -> reordered_fts f g ->
  ws_predict false r f = Ok (p, f') -> exists g', ws_predict false r g = Ok (p, g').
Proof.
  intros c R0 r f g p f' E Q EF Sf Sg P W. unfold ws_predict in *. binv W. destruct v as ((p1 & f1) & d1). inversion W; subst.
  destruct (predict_z zp (good H gc) (zp_predict H gc NR) _ r f g 0%N 0%N (free_shape _ _ _ (reach_shape _ _ _ _ Q) EF) (new_good c R0 r E Q) (fts_zp f g Sf Sg P) _ B) as (((q & g1) & e1) & E2 & E1 & _ & _ & _).
  cbn [fst snd] in E1. subst. rewrite E2. cbn [bind]. eauto.
Qed.
Lemma reordered_learn : forall (c : rcfg RF) R0 r f g lb r' f', ws_new H false gc c = Ok R0 -> reach false (projT2 R0) r ->
  elem_free (projT1 R0) (projT2 R0) -> sound_fts f -> sound_fts g -> reordered_fts f g -> no_clash_fts H gc f ->
  ws_learn false r f lb = Ok (r', f') -> exists g', ws_learn false r g lb = Ok (r', g').
Proof.
  intros c R0 r f g lb r' f' E Q EF Sf Sg P C W. unfold ws_learn in *. binv W. destruct v as ((p1 & f1) & d1). inversion W; subst.
  destruct (learn_z (zl H gc) (good H gc) (zl_learn H gc NR) (good_learn H gc) _ r f g lb 0%N 0%N (free_shape _ _ _ (reach_shape _ _ _ _ Q) EF) (new_good c R0 r E Q) (fts_zl f g Sf Sg P C) _ B) as (((q & g1) & e1) & E2 & E1 & _ & _ & _).
  cbn [fst snd] in E1. subst. rewrite E2. cbn [bind]. eauto.
Qed.
Lemma reordered_training : forall (c : rcfg RF) R0 exs exs' r, ws_new H false gc c = Ok R0 -> elem_free (projT1 R0) (projT2 R0) ->
  Forall2 (reordered_example H gc) exs exs' -> learn_all false (projT2 R0) exs = Ok r -> learn_all false (projT2 R0) exs' = Ok r.
Proof.
  intros c R0 exs exs' r E EF F. assert (A : reach false (projT2 R0) (projT2 R0)) by apply reach_refl. revert A. generalize (projT2 R0) at 2 3 4.
  induction F as [|(f & lb) (g & lb') exs exs' (S1 & S2 & P & C & Q) F IH]; intros r0 A L; cbn [learn_all] in *; auto.
  cbn [fst snd] in *. subst lb'. binv L. destruct v as (r1 & f1). cbn [fst snd] in *.
  destruct (reordered_learn c R0 r0 f g lb r1 f1 E A EF S1 S2 P C B) as (g' & ->). cbn [bind]. cbn [fst snd]. apply IH; auto.
  eapply reach_learn; eauto.
Qed.
End Ws.

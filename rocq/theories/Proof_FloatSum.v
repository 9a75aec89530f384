(** Consequences of the rounding lemmas: bounded operations, small integers, sums. *)
From Coq Require Import List NArith ZArith Bool Lia Reals Lra.
From Coq Require Import Floats.SpecFloat.
From Verif Require Import Base FloatOps FloatB32 Spec_Explore Spec_FloatReal Proof_FloatRound Proof_Explore.
Import ListNotations.
Open Scope R_scope.

Lemma u_val : u = / 16777216.
Proof.
  unfold u. pose proof (p2_inv 24) as K. rewrite (p2_Z 24) in K by lia. change (2 ^ 24)%Z with 16777216%Z in K.
  change (-24)%Z with (- (24))%Z. apply Rmult_eq_reg_r with 16777216; [|lra]. rewrite K. lra.
Qed.
Lemma eta_val : 0 < eta <= u / 1073741824.
Proof.
  split; [apply p2_pos|]. unfold eta. apply Rle_trans with (p2 (-24 + -30)); [apply p2_le; lia|]. rewrite p2_add. fold u. unfold Rdiv.
  apply Rmult_le_compat_l; [left; apply p2_pos|]. pose proof (p2_inv 30) as K. rewrite (p2_Z 30) in K by lia. change (2 ^ 30)%Z with 1073741824%Z in K.
  change (-30)%Z with (- (30))%Z. right. apply Rmult_eq_reg_r with 1073741824; [|lra]. rewrite K. lra.
Qed.
Lemma big_val : 1000000000000 <= p2 127.
Proof. apply Rle_trans with (p2 60); [rewrite p2_Z by lia; apply IZR_le; vm_compute; discriminate|apply p2_le; lia]. Qed.

Lemma Rabs_le_inv : forall x y, Rabs x <= y -> - y <= x <= y.
Proof. intros x y H. split; [pose proof (Rle_abs (- x)) as K; rewrite Rabs_Ropp in K; lra|pose proof (Rle_abs x); lra]. Qed.
Lemma near_rel : forall x r, near x r -> Rabs x < p2 127 -> bnum r /\ Rabs (bval r - x) <= u * Rabs x + eta.
Proof.
  intros x r (V & [(F & E)|(s & E & L)] & _) H; [split; [split|]; auto|]. exfalso.
  assert (bsgn s * x <= Rabs x). { rewrite <- (bsgn_abs s). apply Rle_abs. } lra.
Qed.
Lemma near_le : forall x r M, near x r -> Rabs x <= M -> M <= 1000000 -> bnum r /\ Rabs (bval r - x) <= u * M + eta.
Proof.
  intros x r M H L B. pose proof big_val. destruct (near_rel x r H ltac:(lra)) as (V & E). split; auto.
  rewrite u_val in *. lra.
Qed.
Lemma near_nn : forall x r, near x r -> 0 <= x -> 0 <= bval r.
Proof. intros x r (_ & _ & H & _). auto. Qed.
Lemma near_np : forall x r, near x r -> x <= 0 -> bval r <= 0.
Proof. intros x r (_ & _ & _ & H & _). auto. Qed.
Lemma near_int : forall z r, near (IZR z) r -> (Z.abs z < 2 ^ 24)%Z -> bnum r /\ bval r = IZR z.
Proof.
  intros z r H L. destruct (near_rel _ _ H) as (V & _).
  - pose proof big_val. rewrite <- abs_IZR. apply IZR_lt in L. change (IZR (2 ^ 24)) with 16777216 in L. lra.
  - split; auto. destruct H as (_ & _ & _ & _ & H). destruct V as (_ & F). apply (H z 0%Z L ltac:(lia)); auto. change (p2 0) with 1. lra.
Qed.
Lemma of_Z_int : forall z, (Z.abs z < 2 ^ 24)%Z -> bnum (b_of_Z z) /\ bval (b_of_Z z) = IZR z.
Proof. intros z H. apply near_int; auto. apply of_Z_near. Qed.
Lemma add_int : forall a b x y, bnum a -> bnum b -> bval a = IZR x -> bval b = IZR y -> (Z.abs (x + y) < 2 ^ 24)%Z ->
  bnum (b_add a b) /\ bval (b_add a b) = IZR (x + y).
Proof. intros a b x y (A1 & A2) (B1 & B2) Ea Eb H. apply near_int; auto. rewrite plus_IZR, <- Ea, <- Eb. now apply add_near. Qed.
Lemma sub_int : forall a b x y, bnum a -> bnum b -> bval a = IZR x -> bval b = IZR y -> (Z.abs (x - y) < 2 ^ 24)%Z ->
  bnum (b_sub a b) /\ bval (b_sub a b) = IZR (x - y).
Proof. intros a b x y (A1 & A2) (B1 & B2) Ea Eb H. apply near_int; auto. rewrite minus_IZR, <- Ea, <- Eb. now apply sub_near. Qed.

Lemma nadd : forall a b, bnum a -> bnum b -> near (bval a + bval b) (b_add a b).
Proof. intros a b (A1 & A2) (B1 & B2). now apply add_near. Qed.
Lemma nsub : forall a b, bnum a -> bnum b -> near (bval a - bval b) (b_sub a b).
Proof. intros a b (A1 & A2) (B1 & B2). now apply sub_near. Qed.
Lemma nmul : forall a b, bnum a -> bnum b -> near (bval a * bval b) (b_mul a b).
Proof. intros a b (A1 & A2) (B1 & B2). now apply mul_near. Qed.
Lemma ndiv : forall a b, bnum a -> bnum b -> bval b <> 0 -> near (bval a / bval b) (b_div a b).
Proof. intros a b (A1 & A2) (B1 & B2) H. now apply div_near. Qed.
Lemma nltb : forall a b, bnum a -> bnum b -> SFltb a b = true <-> bval a < bval b.
Proof. intros a b (A1 & A2) (B1 & B2). now apply ltb_val. Qed.
Lemma nltb_f : forall a b, bnum a -> bnum b -> SFltb a b = false <-> bval b <= bval a.
Proof. intros a b A B. pose proof (nltb a b A B) as K. destruct (SFltb a b); split; intros; try discriminate; auto; [|]; destruct K as (K1 & K2); [specialize (K1 eq_refl); lra|]. destruct (Rle_or_lt (bval b) (bval a)); auto. specialize (K2 H0). discriminate. Qed.
Lemma neqb : forall a b, bnum a -> bnum b -> SFeqb a b = true <-> bval a = bval b.
Proof. intros a b (A1 & A2) (B1 & B2). now apply eqb_val. Qed.
Lemma neqb_f : forall a b, bnum a -> bnum b -> SFeqb a b = false <-> bval a <> bval b.
Proof. intros a b A B. pose proof (neqb a b A B) as K. destruct (SFeqb a b); split; intros; try discriminate; auto; [tauto|]. intros E. apply K in E. discriminate. Qed.
Lemma nnan : forall a, bnum a -> b_isnan a = false.
Proof. intros [s|s| |s m e] (_ & F); auto; discriminate. Qed.
Lemma zero_num : forall s, bnum (S754_zero s). Proof. intros. split; reflexivity. Qed.
Lemma one_num : bnum (b_of_Z 1) /\ bval (b_of_Z 1) = 1.
Proof. apply of_Z_int. reflexivity. Qed.

(** ** sums *)
Lemma fold_sum : forall (l : list b32) (acc : b32) (T : R) (j : R),
  bnum acc -> 0 <= bval acc -> 0 <= T -> 0 <= j -> Rabs (bval acc - T) <= j * (5 / 4 * u * (T + / 4)) ->
  (forall p, In p l -> bnum p /\ 0 <= bval p) -> j + INR (length l) <= 1048576 -> T + rsum (map bval l) <= 100000000 ->
  let r := fold_left b_add l acc in
  bnum r /\ 0 <= bval r /\ Rabs (bval r - (T + rsum (map bval l))) <= (j + INR (length l)) * (5 / 4 * u * (T + rsum (map bval l) + / 4)).
Proof.
  induction l as [|p l IH]; intros acc T j Ha Pa HT Hj E Hl HL HB; cbn [fold_left map rsum fold_right length] in *.
  - rewrite !Rplus_0_r. auto.
  - fold (rsum (map bval l)) in *. destruct (Hl p (or_introl eq_refl)) as (Hp & Pp).
    assert (NN : 0 <= rsum (map bval l)). { apply rsum_nonneg. intros x Hx. apply in_map_iff in Hx. destruct Hx as (q & <- & Hq). apply (Hl q). now right. }
    change (length (p :: l)) with (S (length l)) in HL. rewrite S_INR in HL |- *. pose proof (pos_INR (length l)) as PL.
    pose proof eta_val as EV. rewrite u_val in *.
    set (c := 5 / 4 * / 16777216 * (T + / 4)) in *.
    assert (J1 : j * c <= 5 / 64 * (T + / 4)). { unfold c. replace (j * (5 / 4 * / 16777216 * (T + / 4))) with ((j / 16777216) * (5 / 4 * (T + / 4))) by field. apply Rle_trans with (1 / 16 * (5 / 4 * (T + / 4))); [apply Rmult_le_compat_r; lra|lra]. }
    assert (A1 : bval acc + bval p <= T + bval p + 5 / 64 * (T + / 4)). { apply Rabs_le_inv in E. lra. }
    pose proof (nadd acc p Ha Hp) as NR. pose proof big_val as BG.
    destruct (near_rel _ _ NR) as (V & ER); [rewrite Rabs_pos_eq by lra; lra|]. rewrite (Rabs_pos_eq (bval acc + bval p)), u_val in ER by lra.
    destruct (IH (b_add acc p) (T + bval p) (j + 1)) as (R1 & R2 & R3); auto.
    + apply (near_nn _ _ NR). lra.
    + lra.
    + lra.
    + assert (X : bval (b_add acc p) - (T + bval p) = (bval (b_add acc p) - (bval acc + bval p)) + (bval acc - T)) by ring. rewrite X.
      eapply Rle_trans; [apply Rabs_triang|].
      apply Rle_trans with ((/ 16777216 * (bval acc + bval p) + eta) + j * c); [lra|].
      assert (Jp : j * c <= j * (5 / 4 * / 16777216 * (T + bval p + / 4))) by (apply Rmult_le_compat_l; unfold c; lra). lra.
    + intros q Hq. apply Hl. now right.
    + lra.
    + lra.
    + split; [exact R1|]. split; [exact R2|]. rewrite <- !Rplus_assoc in *.
      replace (j + INR (length l) + 1) with (j + 1 + INR (length l)) by ring. exact R3.
Qed.
Lemma sum_err : forall l : list b32, (forall p, In p l -> bnum p /\ 0 <= bval p) -> INR (length l) <= 1048576 -> rsum (map bval l) <= 100000000 ->
  forall z, let r := fold_left b_add l (S754_zero z) in
  bnum r /\ 0 <= bval r /\ Rabs (bval r - rsum (map bval l)) <= INR (length l) * (5 / 4 * u * (rsum (map bval l) + / 4)).
Proof.
  intros l Hl HL HB z. destruct (fold_sum l (S754_zero z) 0 0) as (A & B & C); auto; try lra.
  - apply zero_num.
  - cbn. lra.
  - cbn [bval]. rewrite Rminus_0_r, Rabs_R0. lra.
  - rewrite !Rplus_0_l in C. auto.
Qed.

(** ** sums of distributions *)
Lemma fsum_rsum : forall l, fsum l = rsum (map bval (map snd l)).
Proof. induction l as [|[a p] l IH]; auto. unfold fsum in *. cbn [map total fst snd rsum fold_right]. now rewrite IH. Qed.
Lemma fsum_const : forall (l : list (N * b32)) x, fsum (map (fun e => (fst e, x)) l) = INR (length l) * bval x.
Proof.
  intros l x. rewrite fsum_rsum. induction l as [|[a p] l IH]; [cbn; ring|]. cbn [map rsum fold_right fst snd]. fold (rsum (map bval (map snd (map (fun e : N * b32 => (fst e, x)) l)))).
  rewrite IH. change (length ((a, p) :: l)) with (S (length l)). rewrite S_INR. ring.
Qed.
Lemma fsum_cons : forall a p l, fsum ((a, p) :: l) = bval p + fsum l.
Proof. reflexivity. Qed.
Lemma fsum_upd : forall (l : list (N * b32)) i a p q, nth_error l i = Some (a, p) -> fsum (upd i (a, q) l) = fsum l - bval p + bval q.
Proof.
  induction l as [|[b x] l IH]; intros i a p q H; destruct i; simpl in H; try discriminate; cbn [upd].
  - inversion H; subst. rewrite !fsum_cons. ring.
  - rewrite !fsum_cons, (IH _ _ _ _ H). ring.
Qed.
Lemma in_upd : forall A (l : list A) i x y, In y (upd i x l) -> y = x \/ In y l.
Proof.
  induction l as [|b l IH]; intros i x y H; destruct i; cbn [upd] in H; auto; destruct H as [<-|H]; auto; [right; now right|right; now left|].
  destruct (IH _ _ _ H); auto. right. now right.
Qed.
Lemma fst_upd : forall A (l : list (N * A)) i a p q, nth_error l i = Some (a, p) -> map fst (upd i (a, q) l) = map fst l.
Proof.
  induction l as [|[b x] l IH]; intros i a p q H; destruct i; simpl in H; try discriminate; cbn [upd map].
  - inversion H; subst; auto.
  - f_equal. eauto.
Qed.

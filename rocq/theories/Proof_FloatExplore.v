(** Exploration in single precision: epsilon-greedy, SquareCB and softmax. *)
From Coq Require Import List NArith ZArith Bool Lia Reals Lra.
From Coq Require Import Floats.SpecFloat.
From Verif Require Import Base FloatOps FloatB32 Model_Explore Model_Features Model_Types Model_Coin Model_Stack
  Spec_Explore Spec_FloatReal Proof_FloatOrder Proof_FloatRound Proof_FloatSum Proof_Explore.
Import ListNotations.
Open Scope R_scope.

Section Explore.
Context (bexp bln : b32 -> b32) (bpow : b32 -> b32 -> b32).
Notation B := (BF bexp bln bpow).

Lemma f0_val : @f0 B = S754_zero false. Proof. reflexivity. Qed.
Lemma of_nat_int : forall n, INR n <= 1048576 -> bnum (@f_of_nat B n) /\ bval (@f_of_nat B n) = INR n.
Proof.
  intros n H. rewrite INR_IZR_INZ in *. apply (of_Z_int (Z.of_nat n)). apply le_IZR in H. change (2 ^ 24)%Z with 16777216%Z. lia.
Qed.
Lemma of_N_int : forall n : N, INR (N.to_nat n) <= 1048576 -> bnum (@f_of_N B n) /\ bval (@f_of_N B n) = INR (N.to_nat n).
Proof. intros n H. pose proof (of_nat_int (N.to_nat n) H) as K. unfold f_of_nat in K. now rewrite N_nat_Z in K. Qed.

(** ** the best action *)
Lemma min_from_spec : forall (gt : b32 -> b32 -> out bool) (P : b32 -> Prop),
  (forall x y, P x -> P y -> gt x y = Ok (SFltb y x)) ->
  forall (rest done : list (N * b32)) bi ba bc, (forall b d, In (b, d) (done ++ rest) -> P d) ->
  nth_error done bi = Some (ba, bc) ->
  ((forall b d, In (b, d) (done ++ rest) -> bnum d) -> forall b d, In (b, d) done -> bval bc <= bval d) ->
  exists i a c, @min_by_from B gt (N.of_nat bi, (ba, bc)) (enum_from (N.of_nat (length done)) rest) = Ok (N.of_nat i, (a, c)) /\
    nth_error (done ++ rest) i = Some (a, c) /\
    ((forall b d, In (b, d) (done ++ rest) -> bnum d) -> forall b d, In (b, d) (done ++ rest) -> bval c <= bval d).
Proof.
  intros gt P G. induction rest as [|[a0 c0] rest IH]; intros done bi ba bc HP E H.
  - exists bi, ba, bc. rewrite app_nil_r in *. auto.
  - cbn [enum_from min_by_from snd]. rewrite G; [|apply (HP ba); apply in_app_iff; left; eapply nth_error_In; eauto|apply (HP a0); apply in_app_iff; right; now left].
    cbn [bind]. replace (N.succ (N.of_nat (length done))) with (N.of_nat (length (done ++ [(a0, c0)]))) by (rewrite app_length; simpl; lia).
    assert (Eb : (bi < length done)%nat) by (apply nth_error_Some; congruence).
    assert (Inb : In (ba, bc) (done ++ (a0, c0) :: rest)) by (apply in_app_iff; left; eapply nth_error_In; eauto).
    assert (Inc : In (a0, c0) (done ++ (a0, c0) :: rest)) by (apply in_app_iff; right; now left).
    replace (done ++ (a0, c0) :: rest) with ((done ++ [(a0, c0)]) ++ rest) in * by now rewrite <- app_assoc.
    destruct (SFltb c0 bc) eqn:L; cbn [snd].
    + apply IH; auto.
      * rewrite nth_error_app2, Nat.sub_diag by lia. reflexivity.
      * intros K b d Hd. apply in_app_iff in Hd. destruct Hd as [Hd|[Hd|[]]]; [|inversion Hd; subst; lra].
        apply nltb in L; [|apply (K a0); auto|apply (K ba); auto]. specialize (H K b d Hd). lra.
    + apply IH; auto.
      * rewrite nth_error_app1 by lia. exact E.
      * intros K b d Hd. apply in_app_iff in Hd. destruct Hd as [Hd|[Hd|[]]]; [now apply (H K b d)|]. inversion Hd; subst.
        apply nltb_f in L; auto; [apply (K b); auto|apply (K ba); auto].
Qed.
Lemma min_spec : forall (gt : b32 -> b32 -> out bool) (P : b32 -> Prop),
  (forall x y, P x -> P y -> gt x y = Ok (SFltb y x)) ->
  forall s : list (N * b32), s <> [] -> (forall b d, In (b, d) s -> P d) ->
  exists i a c, @min_by B gt s = Ok (N.of_nat i, (a, c)) /\ nth_error s i = Some (a, c) /\
    (fnumbers s -> forall b d, In (b, d) s -> bval c <= bval d).
Proof.
  intros gt P G [|[a c] s] N0 HP; [congruence|]. unfold min_by. cbn [enum_from].
  apply (min_from_spec gt P G s [(a, c)] 0%nat a c); auto.
  intros K b d [Hd|[]]. inversion Hd; subst. lra.
Qed.
Lemma gt_total_ltb : forall x y : b32, True -> True -> @gt_total B x y = Ok (SFltb y x).
Proof. reflexivity. Qed.
Lemma gt_partial_ltb : forall x y : b32, b_isnan x = false -> b_isnan y = false -> @gt_partial B x y = Ok (SFltb y x).
Proof.
  intros x y Hx Hy. unfold gt_partial, f_pcmp. cbn [f_isnan f_ltb BF]. rewrite Hx, Hy. cbn [orb].
  destruct (SFltb x y) eqn:A, (SFltb y x) eqn:C; auto. exfalso. apply SFltb_lex in A. apply SFltb_lex in C. unfold lexlt in *. lia.
Qed.

(** ** epsilon-greedy *)
Lemma div_n_bounds : forall e n, 0 <= e <= 1 -> 1 <= n -> 0 <= e / n <= 1.
Proof.
  intros e n E L. assert (0 < / n) by (apply Rinv_0_lt_compat; lra). assert (/ n <= 1) by (rewrite <- Rinv_1; apply Rinv_le_contravar; lra).
  unfold Rdiv. split; [apply Rmult_le_pos; lra|]. replace 1 with (1 * 1) by ring. apply Rmult_le_compat; lra.
Qed.
Lemma greedy_float : forall (eps : b32) (scores : list (N * b32)),
  scores <> [] -> INR (length scores) <= 1048576 -> bnum eps -> 0 <= bval eps <= 1 ->
  exists r, @greedy_probs B eps scores = Ok r /\ map fst r = map fst scores /\ fdist r (p2 (-21)) /\
    (forall a p, In (a, p) r -> bval eps / INR (length scores) * (1 - p2 (-22)) - p2 (-148) <= bval p).
Proof.
  intros eps scores N0 L He E. unfold greedy_probs.
  destruct (min_spec (@gt_total B) (fun _ => True) gt_total_ltb scores N0) as (i & a & c & EM & Hn & _); auto.
  change (F B) with b32 in *. rewrite EM. cbn [bind fst]. rewrite Nat2N.id.
  set (n := length scores) in *. assert (L1 : 1 <= INR n) by (change 1 with (INR 1); apply le_INR; unfold n; destruct scores; [congruence|cbn; lia]).
  destruct (of_nat_int n L) as (Vn & En). set (nf := @f_of_nat B n) in *. set (e := bval eps) in *.
  change (f_div B eps nf) with (b_div eps nf). change (f_sub B f1 eps) with (b_sub (b_of_Z 1) eps).
  pose proof (div_n_bounds e (INR n) E L1) as Q.
  pose proof (ndiv eps nf He Vn ltac:(lra)) as NQ. rewrite En in NQ. fold e in NQ. pose proof eta_val as EV. pose proof u_val as UV.
  destruct (near_rel _ _ NQ) as (Vq & Eq); [rewrite Rabs_pos_eq by lra; pose proof big_val; lra|]. rewrite (Rabs_pos_eq (e / INR n)) in Eq by lra.
  pose proof (near_nn _ _ NQ ltac:(lra)) as Pq. set (equal := b_div eps nf) in *.
  destruct one_num as (V1 & E1). pose proof (nsub (b_of_Z 1) eps V1 He) as NW. rewrite E1 in NW. fold e in NW.
  destruct (near_le _ _ 1 NW) as (Vw & Ew); [rewrite Rabs_pos_eq; lra|lra|]. pose proof (near_nn _ _ NW ltac:(lra)) as Pw.
  destruct (near_rel _ _ NW) as (_ & Ew'); [rewrite Rabs_pos_eq by lra; pose proof big_val; lra|]. rewrite (Rabs_pos_eq (1 - e)) in Ew' by lra.
  set (w := b_sub (b_of_Z 1) eps) in *.
  assert (NB : nth_error (map (fun s : N * b32 => (fst s, equal)) scores) i = Some (a, equal)) by (rewrite nth_error_map, Hn; reflexivity).
  match goal with |- context [@nth_error ?A ?B ?C] => replace (@nth_error A B C) with (Some (a, equal)) by (symmetry; exact NB) end. cbn [fst snd].
  change (f_add B equal w) with (b_add equal w).
  pose proof (nadd equal w Vq Vw) as NA. apply Rabs_le_inv in Eq. apply Rabs_le_inv in Ew. apply Rabs_le_inv in Ew'.
  destruct (near_le _ _ (5 / 2) NA) as (Va & Ea); [rewrite Rabs_pos_eq; rewrite UV in *; lra|lra|].
  pose proof (near_nn _ _ NA ltac:(lra)) as Pa.
  destruct (near_rel _ _ NA) as (_ & Ea'); [rewrite Rabs_pos_eq by lra; pose proof big_val; rewrite UV in *; lra|]. rewrite (Rabs_pos_eq (bval equal + bval w)) in Ea' by lra.
  apply Rabs_le_inv in Ea. apply Rabs_le_inv in Ea'.
  assert (P21 : p2 (-21) = 8 * u). { change (-21)%Z with (3 + -24)%Z. rewrite p2_add. fold u. rewrite (p2_Z 3) by lia. reflexivity. }
  assert (P22 : p2 (-22) = 4 * u). { change (-22)%Z with (2 + -24)%Z. rewrite p2_add. fold u. rewrite (p2_Z 2) by lia. reflexivity. }
  assert (P148 : p2 (-148) = 4 * eta). { change (-148)%Z with (2 + -150)%Z. rewrite p2_add. fold eta. rewrite (p2_Z 2) by lia. reflexivity. }
  eexists. split; [reflexivity|]. split; [|split; [split|]].
  - rewrite (fst_upd _ _ _ _ _ _ NB), map_map. now apply map_ext.
  - intros b p H. apply in_upd in H. destruct H as [H|H]; [inversion H; subst; auto|].
    apply in_map_iff in H. destruct H as (x & H & _). inversion H; subst. auto.
  - rewrite (fsum_upd _ _ _ _ _ NB), fsum_const. fold n. rewrite P21.
    assert (NQ1 : - (u * e + u / 1024) <= INR n * bval equal - e <= u * e + u / 1024).
    { assert (X : INR n * (e / INR n) = e) by (field; lra). assert (Y : INR n * eta <= u / 1024) by (rewrite UV in *; nra).
      assert (Z1 : INR n * (bval equal - e / INR n) <= INR n * (u * (e / INR n) + eta)) by (apply Rmult_le_compat_l; lra).
      assert (Z2 : INR n * - (u * (e / INR n) + eta) <= INR n * (bval equal - e / INR n)) by (apply Rmult_le_compat_l; lra).
      replace (INR n * (u * (e / INR n) + eta)) with (u * (INR n * (e / INR n)) + INR n * eta) in Z1 by ring.
      replace (INR n * - (u * (e / INR n) + eta)) with (- (u * (INR n * (e / INR n)) + INR n * eta)) in Z2 by ring.
      rewrite X in Z1, Z2. lra. }
    apply Rabs_le. rewrite UV in *. lra.
  - intros b p H. rewrite P22, P148. apply in_upd in H. rewrite UV in *. destruct H as [H|H]; [inversion H; subst; lra|].
    apply in_map_iff in H. destruct H as (x & H & _). inversion H; subst. lra.
Qed.

(** ** numbers that may have overflowed upwards *)
Definition pinf (x : b32) : Prop := bnum x /\ 0 <= bval x \/ x = S754_infinity false.
Lemma near_pinf : forall x r, near x r -> 0 <= x -> pinf r.
Proof.
  intros x r N H. destruct N as (V & [(F & _)|(s & -> & L)] & P & _); [left; split; [split; auto|auto]|]. right.
  destruct s; auto. exfalso. unfold bsgn in L. pose proof (p2_pos 127). lra.
Qed.
Lemma pos_form : forall x, bnum x -> 0 < bval x -> exists m e, x = S754_finite false m e.
Proof.
  intros [s|s| |s m e] (V & F) H; try discriminate; cbn [bval] in H; try lra. destruct s; [|eauto]. exfalso. unfold bsgn in H.
  pose proof (p2_pos e). assert (0 < IZR (Zpos m)) by (apply IZR_lt; lia). assert (0 < IZR (Zpos m) * p2 e) by (apply Rmult_lt_0_compat; auto). lra.
Qed.
Lemma neg_form : forall x, bnum x -> bval x <= 0 -> (exists s, x = S754_zero s) \/ exists m e, x = S754_finite true m e.
Proof.
  intros [s|s| |s m e] (V & F) H; try discriminate; cbn [bval] in H; [eauto|]. destruct s; [eauto|]. exfalso. unfold bsgn in H.
  pose proof (p2_pos e). assert (0 < IZR (Zpos m)) by (apply IZR_lt; lia). assert (0 < IZR (Zpos m) * p2 e) by (apply Rmult_lt_0_compat; auto). lra.
Qed.
Lemma zero_form : forall x, bnum x -> bval x = 0 -> exists s, x = S754_zero s.
Proof.
  intros x V H. destruct (neg_form x V ltac:(lra)) as [K|(m & e & ->)]; auto. exfalso. cbn [bval bsgn] in H.
  pose proof (p2_pos e). assert (0 < IZR (Zpos m)) by (apply IZR_lt; lia). assert (0 < IZR (Zpos m) * p2 e) by (apply Rmult_lt_0_compat; auto). lra.
Qed.

(** the difference to the best score, and its product with a nonnegative factor *)
Lemma diff_pinf : forall l a s b bs, fnumbers l -> In (a, s) l -> In (b, bs) l -> bval bs <= bval s -> pinf (b_sub s bs) /\ (fclose l -> bnum (b_sub s bs)).
Proof.
  intros l a s b bs H I1 I2 L. pose proof (nsub s bs (H _ _ I1) (H _ _ I2)) as K. split; [apply (near_pinf _ _ K); lra|].
  intros C. destruct (near_rel _ _ K); auto. rewrite Rabs_pos_eq by lra. apply (C a s b bs); auto.
Qed.
Lemma scaled_pinf : forall g l a s b bs, factor g l -> fnumbers l -> In (a, s) l -> In (b, bs) l -> bval bs <= bval s -> pinf (b_mul g (b_sub s bs)).
Proof.
  intros g l a s b bs (Vg & Pg & C) H I1 I2 L. destruct (diff_pinf l a s b bs H I1 I2 L) as ([(V & P)|E] & K).
  - apply (near_pinf _ _ (nmul _ _ Vg V)). now apply Rmult_le_pos.
  - destruct C as [C|C]; [|destruct (K C) as (_ & X); rewrite E in X; discriminate]. rewrite E. destruct (pos_form g Vg C) as (m & e & ->). now right.
Qed.

(** ** SquareCB *)
Lemma square_weight : forall nf n x, bnum nf -> bval nf = n -> 1 <= n <= 1048576 -> pinf x ->
  bnum (b_div (b_of_Z 1) (b_add nf x)) /\ 0 <= bval (b_div (b_of_Z 1) (b_add nf x)) <= / n * (1 + 5 * u).
Proof.
  intros nf n x Vn En Hn Hx. destruct one_num as (V1 & E1). pose proof eta_val as EV. pose proof u_val as UV.
  assert (In : 0 < / n <= 1) by (split; [apply Rinv_0_lt_compat; lra|rewrite <- Rinv_1; apply Rinv_le_contravar; lra]).
  assert (Z0 : 0 <= 0 <= / n * (1 + 5 * u)) by (split; [lra|apply Rmult_le_pos; rewrite ?UV; lra]).
  assert (D : bnum (b_add nf x) /\ n * (1 - 2 * u) <= bval (b_add nf x) \/ b_add nf x = S754_infinity false).
  { destruct Hx as [(Vx & Px)| ->].
    - pose proof (nadd nf x Vn Vx) as K. rewrite En in K. destruct (near_pinf _ _ K ltac:(lra)) as [(V & P)|E]; [left|now right]. split; auto.
      destruct K as (_ & [(F & E)|(s & E & _)] & _); [|destruct V as (_ & V); rewrite E in V; discriminate].
      rewrite (Rabs_pos_eq (n + bval x)) in E by lra. apply Rabs_le_inv in E. rewrite UV in *. lra.
    - destruct (pos_form nf Vn ltac:(lra)) as (m & e & ->). now right. }
  destruct D as [(V & P)|E]; [|rewrite E; split; [apply zero_num|exact Z0]].
  set (d := b_add nf x) in *. assert (Pd : 0 < bval d) by (rewrite UV in P; lra).
  pose proof (ndiv (b_of_Z 1) d V1 V ltac:(lra)) as K. rewrite E1 in K.
  assert (Id : 0 < 1 / bval d) by (apply Rdiv_lt_0_compat; lra).
  assert (Iu : 1 / bval d <= / n * (1 + 3 * u)).
  { apply Rmult_le_reg_r with (bval d); auto. replace (1 / bval d * bval d) with 1 by (field; lra).
    apply Rle_trans with (/ n * (1 + 3 * u) * (n * (1 - 2 * u))); [|apply Rmult_le_compat_l; [apply Rmult_le_pos; rewrite ?UV; lra|auto]].
    replace (/ n * (1 + 3 * u) * (n * (1 - 2 * u))) with ((1 + 3 * u) * (1 - 2 * u)) by (field; lra). rewrite UV. lra. }
  destruct (near_rel _ _ K) as (Vr & Er). { rewrite Rabs_pos_eq by lra. pose proof big_val. rewrite UV in *. lra. }
  split; auto. split; [apply (near_nn _ _ K); lra|]. rewrite (Rabs_pos_eq (1 / bval d)) in Er by lra. apply Rabs_le_inv in Er.
  assert (In2 : / 1048576 <= / n) by (apply Rinv_le_contravar; lra). rewrite UV in *. lra.
Qed.

Definition not_act (b : N) (s : N * b32) : bool := negb (fst s =? b)%N.
Definition others (b : N) (l : list (N * b32)) : list b32 := map snd (filter (not_act b) l).
Lemma fold_others : forall b l acc,
  fold_left (fun acc (s : N * b32) => if (fst s =? b)%N then acc else b_add acc (snd s)) l acc = fold_left b_add (others b l) acc.
Proof. intros b. unfold others, not_act. induction l as [|[a p] l IH]; intros acc; auto. cbn [fold_left filter fst snd]. destruct (a =? b)%N; cbn [negb map fold_left snd]; apply IH. Qed.
Lemma others_none : forall b l, ~ In b (map fst l) -> filter (not_act b) l = l.
Proof.
  intros b l H. apply filter_all. intros [a p] K. unfold not_act. cbn [fst]. destruct (N.eqb_spec a b) as [->|]; auto. exfalso. apply H. apply in_map_iff. now exists (b, p).
Qed.
Lemma others_upd : forall l i b p q, NoDup (map fst l) -> nth_error l i = Some (b, p) ->
  fsum (upd i (b, q) l) = bval q + rsum (map bval (others b l)) /\ S (length (others b l)) = length l.
Proof.
  induction l as [|[a x] l IH]; intros i b p q D H; destruct i; simpl in H; try discriminate; cbn [map] in D; apply NoDup_cons_iff in D; destruct D as (D1 & D2); cbn [upd]; unfold others; cbn [filter].
  - inversion H; subst. replace (not_act b (b, p)) with false by (unfold not_act; cbn [fst]; now rewrite N.eqb_refl). rewrite others_none by auto. rewrite fsum_cons, fsum_rsum. split; [reflexivity|]. cbn [length]. now rewrite map_length.
  - assert (NE : (a =? b)%N = false). { apply N.eqb_neq. intros ->. apply D1. apply nth_error_In in H. apply in_map_iff. now exists (b, p). }
    replace (not_act b (a, x)) with true by (unfold not_act; cbn [fst]; now rewrite NE). cbn [map snd rsum fold_right length]. destruct (IH i b p q D2 H) as (E1 & E2).
    rewrite fsum_cons, E1. unfold others in *. fold (rsum (map bval (map snd (filter (not_act b) l)))). split; [ring|]. f_equal. exact E2.
Qed.
Lemma upd_same : forall (l : list (N * b32)) i b x q p, NoDup (map fst l) -> nth_error l i = Some (b, x) -> In (b, p) (upd i (b, q) l) -> p = q.
Proof.
  induction l as [|(c, y) l IH]; intros i b x q p D NB H; destruct i; simpl in NB; try discriminate; cbn [map] in D; apply NoDup_cons_iff in D; destruct D as (D1 & D2); cbn [upd] in H.
  - inversion NB; subst. destruct H as [H|H]; [now inversion H|]. exfalso. apply D1. apply in_map_iff. now exists (b, p).
  - destruct H as [H|H]; [|eauto]. inversion H; subst. exfalso. apply D1. apply nth_error_In in NB. apply in_map_iff. now exists (b, x).
Qed.
Lemma upd_in : forall A (l : list A) i x y, nth_error l i = Some x -> In y (upd i y l).
Proof. induction l as [|c l IH]; intros [|i] x y H; simpl in *; try discriminate; eauto. Qed.
Lemma rsum_le : forall l m, (forall x, In x l -> x <= m) -> rsum l <= INR (length l) * m.
Proof.
  induction l as [|x l IH]; intros m H; [cbn; lra|]. cbn [rsum fold_right length]. fold (rsum l). rewrite S_INR.
  specialize (IH m (fun y Hy => H y (or_intror Hy))). specialize (H x (or_introl eq_refl)). lra.
Qed.

Lemma square_float : forall dbg (ueps gamma : b32) (scores : list (N * b32)),
  scores <> [] -> INR (length scores) <= 1048576 -> NoDup (map fst scores) -> fnumbers scores -> factor gamma scores ->
  exists els : list (N * b32), @squarecb_probs B dbg ueps gamma scores = unwrap_res (@enforce_min_prob B dbg ueps false els) /\
    map fst els = map fst scores /\ fnumbers els /\ Rabs (fsum els - 1) <= INR (length scores) * p2 (-23) /\
    (INR (length scores) <= 3000 -> fnonneg els /\ exists a p, In (a, p) els /\ 0 < bval p).
Proof.
  intros dbg ueps gamma scores N0 L D Hs Hg. unfold squarecb_probs.
  destruct (min_spec (@gt_partial B) (fun x => b_isnan x = false) gt_partial_ltb scores N0) as (i & ba & bs & EM & Hn & Hmin).
  { intros b d H. apply nnan. apply (Hs b d H). }
  specialize (Hmin Hs). change (F B) with b32 in *. rewrite EM. cbn [bind]. rewrite Nat2N.id.
  set (n := length scores) in *. assert (L1 : 1 <= INR n) by (change 1 with (INR 1); apply le_INR; unfold n; destruct scores; [congruence|cbn; lia]).
  destruct (of_nat_int n L) as (Vn & En). set (nf := @f_of_nat B n) in *.
  pose proof (nth_error_In _ _ Hn) as Hb.
  set (l := map (fun s : N * b32 => (fst s, if (fst s =? ba)%N then snd s else b_div (b_of_Z 1) (b_add nf (b_mul gamma (b_sub (snd s) bs))))) scores).
  assert (NB : nth_error l i = Some (ba, bs)) by (unfold l; rewrite nth_error_map, Hn; cbn; now rewrite N.eqb_refl).
  match goal with |- context [@nth_error ?A ?B ?C] => replace (@nth_error A B C) with (Some (ba, bs)) by (symmetry; exact NB) end. cbn [fst].
  set (tot := fold_left b_add (others ba l) (S754_zero false)).
  match goal with |- context [@fold_left ?A1 ?A2 ?f ?k ?z] => replace (@fold_left A1 A2 f k z) with tot by (symmetry; apply (fold_others ba l (S754_zero false))) end.
  change (f_sub B f1 tot) with (b_sub (b_of_Z 1) tot).
  assert (Ef : map fst l = map fst scores) by (unfold l; rewrite map_map; reflexivity).
  assert (Dl : NoDup (map fst l)) by now rewrite Ef.
  exists (upd i (ba, b_sub (b_of_Z 1) tot) l). split; [reflexivity|].
  split; [rewrite (fst_upd _ _ _ _ _ _ NB); exact Ef|].
  pose proof eta_val as EV. pose proof u_val as UV.
  assert (W : forall q, In q (others ba l) -> bnum q /\ 0 <= bval q <= / INR n * (1 + 5 * u)).
  { intros q Hq. unfold others in Hq. apply in_map_iff in Hq. destruct Hq as ((a, x) & <- & Hq). apply filter_In in Hq. destruct Hq as (Hq & NA).
    unfold not_act in NA. cbn [fst snd] in *. apply in_map_iff in Hq. destruct Hq as ((a', s) & E & Is). cbn [fst snd] in E. inversion E; subst a x.
    destruct (a' =? ba)%N; [discriminate|]. apply square_weight; auto. eapply scaled_pinf; eauto. }
  destruct (others_upd l i ba bs (b_sub (b_of_Z 1) tot) Dl NB) as (SUM & LEN).
  assert (Ll : length l = n) by (unfold l; now rewrite map_length). rewrite Ll in LEN.
  set (q := / INR n * (1 + 5 * u)) in *. set (o := others ba l) in *. assert (LI : INR (length o) = INR n - 1) by (rewrite <- LEN, S_INR; ring).
  set (T := rsum (map bval o)) in *.
  assert (Iq : 0 < / INR n <= 1) by (split; [apply Rinv_0_lt_compat; lra|rewrite <- Rinv_1; apply Rinv_le_contravar; lra]).
  assert (Tn : INR n * / INR n = 1) by (apply Rinv_r; lra).
  assert (TB : T <= 1 - / INR n + 5 * u).
  { apply Rle_trans with (INR (length o) * q).
    - unfold T. rewrite <- (map_length bval o). apply rsum_le. intros x Hx. apply in_map_iff in Hx. destruct Hx as (y & <- & Hy). apply W; auto.
    - rewrite LI. unfold q. replace ((INR n - 1) * (/ INR n * (1 + 5 * u))) with ((INR n * / INR n - / INR n) * (1 + 5 * u)) by ring. rewrite Tn. rewrite UV. lra. }
  assert (T0 : 0 <= T). { apply rsum_nonneg. intros x Hx. apply in_map_iff in Hx. destruct Hx as (y & <- & Hy). apply W; auto. }
  destruct (sum_err o) with (z := false) as (Vt & Pt & Et). { intros p Hp. split; apply W; auto. } { lra. } { fold T. rewrite UV in TB. lra. }
  fold tot in Vt, Pt, Et. fold T in Et. destruct one_num as (V1 & E1). pose proof (nsub (b_of_Z 1) tot V1 Vt) as K. rewrite E1 in K.
  assert (ET : Rabs (bval tot - T) <= (INR n - 1) * (157 / 100 * u)).
  { eapply Rle_trans; [exact Et|]. rewrite LI. apply Rmult_le_compat_l; [lra|]. rewrite UV in *. lra. }
  apply Rabs_le_inv in ET. assert (TT : bval tot <= 12 / 10) by (rewrite UV in *; lra).
  destruct (near_le _ _ 1 K) as (Vr & Er). { apply Rabs_le. lra. } { lra. } apply Rabs_le_inv in Er.
  assert (P23 : p2 (-23) = 2 * u). { change (-23)%Z with (1 + -24)%Z. rewrite p2_add. fold u. rewrite (p2_Z 1) by lia. reflexivity. }
  assert (IN : forall b p, In (b, p) (upd i (ba, b_sub (b_of_Z 1) tot) l) -> p = b_sub (b_of_Z 1) tot \/ In p o \/ (b = ba /\ In (b, p) l)).
  { intros b p H. apply in_upd in H. destruct H as [H|H]; [inversion H; auto|]. right. destruct (N.eq_dec b ba) as [->|NE]; auto. left.
    unfold o, others. apply in_map_iff. exists (b, p). split; auto. apply filter_In. split; auto. unfold not_act. cbn [fst]. apply N.eqb_neq in NE. now rewrite NE. }
  assert (IN2 : forall b p, In (b, p) (upd i (ba, b_sub (b_of_Z 1) tot) l) -> p = b_sub (b_of_Z 1) tot \/ In p o).
  { intros b p H. destruct (N.eq_dec b ba) as [->|NE]; [|destruct (IN b p H) as [?|[?|(? & _)]]; auto; congruence]. left.
    exact (upd_same _ _ _ _ _ _ Dl NB H). }
  split; [|split].
  - intros b p H. destruct (IN2 b p H) as [->|Ho]; auto. apply W; auto.
  - rewrite SUM. fold o T. rewrite P23. apply Rabs_le. rewrite UV in *. lra.
  - intros L3. assert (PB : 0 < 1 - bval tot).
    { assert (I3 : / 3000 <= / INR n) by (apply Rinv_le_contravar; lra). rewrite UV in *. lra. }
    split.
    + intros b p H. destruct (IN2 b p H) as [->|Ho]; [|split; apply W; auto]. split; auto. apply (near_nn _ _ K). lra.
    + exists ba, (b_sub (b_of_Z 1) tot). split; [exact (upd_in _ _ _ _ _ NB)|].
      rewrite UV in *. assert (I3 : / 3000 <= / INR n) by (apply Rinv_le_contravar; lra). lra.
Qed.

(** ** softmax *)
Lemma soft_weight : forall la l a s b bs, exp_unit bexp -> factor la l -> fnumbers l -> In (a, s) l -> In (b, bs) l -> bval bs <= bval s ->
  bnum (bexp (b_mul (SFopp la) (b_sub s bs))) /\ 0 <= bval (bexp (b_mul (SFopp la) (b_sub s bs))) <= 1 /\
  (bval s = bval bs -> bexp (b_mul (SFopp la) (b_sub s bs)) = b_of_Z 1).
Proof.
  intros la l a s b bs (X0 & X1) (Vg & Pg & C) H I1 I2 L.
  assert (Vo : bnum (SFopp la)) by (destruct Vg; split; [now apply opp_ok|now rewrite opp_fin]).
  destruct one_num as (V1 & E1).
  assert (Q : (exists z, b_mul (SFopp la) (b_sub s bs) = S754_zero z) \/ (bval s <> bval bs) /\ bok (b_mul (SFopp la) (b_sub s bs)) /\
     ((exists m e, b_mul (SFopp la) (b_sub s bs) = S754_finite true m e) \/ b_mul (SFopp la) (b_sub s bs) = S754_infinity true)).
  { destruct (diff_pinf l a s b bs H I1 I2 L) as ([(V & P)|E] & K).
    - pose proof (nmul _ _ Vo V) as M. rewrite opp_val in M. assert (MN : - bval la * bval (b_sub s bs) <= 0) by nra.
      pose proof M as (O & [(F & _)|(z & E & I)] & _ & M2 & _).
      + assert (VM : bnum (b_mul (SFopp la) (b_sub s bs))) by (split; auto). specialize (M2 MN). destruct (neg_form _ VM M2) as [Z|Z]; [now left|].
        destruct (Req_dec (bval s) (bval bs)) as [EQ|NE]; [|right; split; auto].
        left. apply zero_form; auto. pose proof (nsub s bs (H _ _ I1) (H _ _ I2)) as D. replace (bval s - bval bs) with 0 in D by lra.
        assert (D0 : bval (b_sub s bs) = 0). { pose proof (near_nn _ _ D ltac:(lra)). pose proof (near_np _ _ D ltac:(lra)). lra. }
        rewrite D0 in M. pose proof (near_nn _ _ M ltac:(lra)). pose proof (near_np _ _ M ltac:(lra)). lra.
      + right. destruct z; [|exfalso; unfold bsgn in I; pose proof (p2_pos 127); lra]. split; [|split; auto].
        intros EQ. pose proof (nsub s bs (H _ _ I1) (H _ _ I2)) as D. replace (bval s - bval bs) with 0 in D by lra.
        assert (D0 : bval (b_sub s bs) = 0). { pose proof (near_nn _ _ D ltac:(lra)). pose proof (near_np _ _ D ltac:(lra)). lra. }
        rewrite D0 in I. unfold bsgn in I. pose proof (p2_pos 127). lra.
    - destruct C as [C|C]; [|destruct (K C) as (_ & X); rewrite E in X; discriminate]. right. rewrite E. destruct (pos_form la Vg C) as (m & e & ->).
      split; [|split; [reflexivity|now right]]. intros EQ. pose proof (nsub s bs (H _ _ I1) (H _ _ I2)) as D. rewrite E in D. destruct D as (_ & [(F & _)|(z & _ & I)] & _); [discriminate F|].
      replace (bval s - bval bs) with 0 in I by lra. pose proof (p2_pos 127). lra. }
  destruct Q as [(z & ->)|(NE & O & Q)].
  - rewrite X0, E1. split; auto. split; [lra|auto].
  - destruct (X1 _ O Q) as (A & D). split; auto. split; auto. intros EQ. contradiction.
Qed.

Lemma rsum_div : forall (l : list b32) t, 0 < bval t -> (forall p, In p l -> bnum p /\ 0 <= bval p /\ bval p <= 2 * bval t) -> bnum t ->
  Rabs (rsum (map bval (map (fun p => b_div p t) l)) - rsum (map bval l) / bval t) <= u * (rsum (map bval l) / bval t) + INR (length l) * eta /\
  (forall p, In p l -> bnum (b_div p t) /\ 0 <= bval (b_div p t)).
Proof.
  intros l t Pt Hl Vt.
  assert (W : forall p, In p l -> bnum (b_div p t) /\ 0 <= bval (b_div p t) /\ Rabs (bval (b_div p t) - bval p / bval t) <= u * (bval p / bval t) + eta).
  { intros p Hp. destruct (Hl p Hp) as (Vp & Pp & Up). pose proof (ndiv p t Vp Vt ltac:(lra)) as K.
    assert (0 <= bval p / bval t) by (apply Rmult_le_pos; [lra|left; now apply Rinv_0_lt_compat]).
    assert (bval p / bval t <= 2) by (apply Rmult_le_reg_r with (bval t); auto; replace (bval p / bval t * bval t) with (bval p) by (field; lra); lra).
    destruct (near_rel _ _ K) as (V & E); [rewrite Rabs_pos_eq by lra; pose proof big_val; lra|]. rewrite (Rabs_pos_eq (bval p / bval t)) in E by lra.
    split; auto. split; auto. apply (near_nn _ _ K). lra. }
  split; [|intros p Hp; destruct (W p Hp) as (A & D & _); auto].
  clear Hl. induction l as [|p l IH]; [cbn; replace (0 - 0 / bval t) with 0 by (field; lra); rewrite Rabs_R0; replace (0 / bval t) with 0 by (field; lra); lra|].
  cbn [map rsum fold_right]. fold (rsum (map bval l)). fold (rsum (map bval (map (fun p => b_div p t) l))). change (length (p :: l)) with (S (length l)). rewrite S_INR.
  specialize (IH (fun q Hq => W q (or_intror Hq))). destruct (W p (or_introl eq_refl)) as (_ & _ & E).
  replace ((bval p + rsum (map bval l)) / bval t) with (bval p / bval t + rsum (map bval l) / bval t) by (field; lra).
  replace (bval (b_div p t) + rsum (map bval (map (fun p0 : b32 => b_div p0 t) l)) - (bval p / bval t + rsum (map bval l) / bval t)) with
    ((bval (b_div p t) - bval p / bval t) + (rsum (map bval (map (fun p0 : b32 => b_div p0 t) l)) - rsum (map bval l) / bval t)) by ring.
  eapply Rle_trans; [apply Rabs_triang|]. lra.
Qed.

Lemma soft_float : forall dbg (ueps la : b32) (scores : list (N * b32)), exp_unit bexp ->
  scores <> [] -> INR (length scores) <= 1048576 -> fnumbers scores -> factor la scores ->
  exists els : list (N * b32), @softmax_probs B dbg ueps la scores = unwrap_res (@enforce_min_prob B dbg ueps false els) /\
    map fst els = map fst scores /\ fdist els (INR (length scores) * p2 (-22)) /\ exists a p, In (a, p) els /\ 0 < bval p.
Proof.
  intros dbg ueps la scores X N0 L Hs Hg. unfold softmax_probs.
  destruct (min_spec (@gt_partial B) (fun x => b_isnan x = false) gt_partial_ltb scores N0) as (i & ba & bs & EM & Hn & Hmin).
  { intros b d H. apply nnan. apply (Hs b d H). }
  specialize (Hmin Hs). change (F B) with b32 in *. rewrite EM. cbn [bind snd].
  set (n := length scores) in *. assert (L1 : 1 <= INR n) by (change 1 with (INR 1); apply le_INR; unfold n; destruct scores; [congruence|cbn; lia]).
  pose proof (nth_error_In _ _ Hn) as Hb.
  set (l := map (fun s : N * b32 => (fst s, bexp (b_mul (SFopp la) (b_sub (snd s) bs)))) scores).
  assert (FS : forall (k : list (N * b32)) z, fold_left (fun acc (s : N * b32) => b_add acc (snd s)) k z = fold_left b_add (map snd k) z).
  { induction k as [|y k IH]; intros z; auto. cbn [fold_left map]. apply IH. }
  set (tot := fold_left b_add (map snd l) (S754_zero false)).
  match goal with |- context [@fold_left ?A1 ?A2 ?f ?k ?z] => replace (@fold_left A1 A2 f k z) with tot by (symmetry; apply (FS l (S754_zero false))) end.
  exists (map (fun s : N * b32 => (fst s, b_div (snd s) tot)) l). split; [reflexivity|].
  split; [unfold l; rewrite !map_map; reflexivity|].
  set (w := map snd l). assert (Lw : length w = n) by (unfold w, l; now rewrite !map_length).
  assert (W : forall q, In q w -> bnum q /\ 0 <= bval q <= 1).
  { intros q Hq. unfold w, l in Hq. rewrite map_map in Hq. apply in_map_iff in Hq. destruct Hq as ((a, s) & <- & Is). cbn [snd].
    destruct (soft_weight la scores a s ba bs X Hg Hs Is Hb (Hmin _ _ Is)) as (A & D & _). auto. }
  set (T := rsum (map bval w)). pose proof eta_val as EV. pose proof u_val as UV. destruct one_num as (V1 & E1).
  assert (TU : T <= INR n). { unfold T. pose proof (rsum_le (map bval w) 1) as K. rewrite map_length, Lw, Rmult_1_r in K. apply K. intros x Hx. apply in_map_iff in Hx. destruct Hx as (y & <- & Hy). apply W; auto. }
  assert (TL : 1 <= T).
  { assert (Iw : In (b_of_Z 1) w).
    { unfold w, l. rewrite map_map. apply in_map_iff. exists (ba, bs). split; auto. cbn [snd].
      destruct (soft_weight la scores ba bs ba bs X Hg Hs Hb Hb ltac:(lra)) as (_ & _ & E). now apply E. }
    unfold T. rewrite <- E1. clear - W Iw. induction w as [|x w IH]; [contradiction|]. cbn [map rsum fold_right]. fold (rsum (map bval w)).
    assert (0 <= rsum (map bval w)). { apply rsum_nonneg. intros y Hy. apply in_map_iff in Hy. destruct Hy as (z & <- & Hz). apply (W z). now right. }
    assert (0 <= bval x) by (apply (W x); now left). destruct Iw as [->|Iw]; [lra|]. specialize (IH (fun q Hq => W q (or_intror Hq)) Iw). lra. }
  destruct (sum_err w) with (z := false) as (Vt & Pt & Et). { intros p Hp. split; apply W; auto. } { rewrite Lw. lra. } { fold T. lra. }
  fold T in Et. change (fold_left b_add w (S754_zero false)) with tot in *. rewrite Lw in Et.
  set (k := INR n * u). assert (Hk : 0 <= k <= / 16) by (unfold k; rewrite UV; lra). assert (K1 : u <= k) by (unfold k; rewrite UV; lra).
  assert (ET : Rabs (bval tot - T) <= 25 / 16 * (k * T)).
  { eapply Rle_trans; [exact Et|]. replace (INR n * (5 / 4 * u * (T + / 4))) with (5 / 4 * (k * (T + / 4))) by (unfold k; ring).
    assert (k * (T + / 4) <= k * (5 / 4 * T)) by (apply Rmult_le_compat_l; lra). lra. }
  assert (KT : 0 <= k * T <= / 16 * T). { split; [apply Rmult_le_pos; lra|apply Rmult_le_compat_r; lra]. }
  apply Rabs_le_inv in ET. assert (TT : 9 / 10 * T <= bval tot) by lra.
  destruct (rsum_div w tot ltac:(lra)) as (SD & WD); auto. { intros p Hp. destruct (W p Hp) as (A & D). split; auto. split; [lra|lra]. }
  set (R0 := T / bval tot). fold T in SD. fold R0 in SD. rewrite Lw in SD.
  assert (ER : R0 * bval tot = T) by (unfold R0; field; lra).
  assert (R1 : 0 < R0) by (unfold R0; apply Rdiv_lt_0_compat; lra).
  assert (R2 : R0 <= 10 / 9). { apply Rmult_le_reg_r with (bval tot); [lra|]. rewrite ER. lra. }
  assert (R3 : - (7 / 4 * k) <= R0 - 1 <= 7 / 4 * k).
  { assert (E : (R0 - 1) * bval tot = T - bval tot) by (rewrite Rmult_minus_distr_r, ER; ring).
    assert (KB : 25 / 16 * (k * T) <= 7 / 4 * k * bval tot).
    { assert (k * (9 / 10 * T) <= k * bval tot) by (apply Rmult_le_compat_l; lra). lra. }
    split; apply Rmult_le_reg_r with (bval tot); try lra. }
  assert (P22 : p2 (-22) = 4 * u). { change (-22)%Z with (2 + -24)%Z. rewrite p2_add. fold u. rewrite (p2_Z 2) by lia. reflexivity. }
  assert (EN : INR n * eta <= u / 1024) by (rewrite UV in *; nra).
  split; [split|].
  - intros b p H. apply in_map_iff in H. destruct H as ((a, x) & E & Hx). cbn [fst snd] in E. inversion E; subst. apply WD. unfold w. apply in_map_iff. now exists (b, x).
  - rewrite fsum_rsum, !map_map. cbn [snd]. rewrite P22. replace (INR n * (4 * u)) with (4 * k) by (unfold k; ring).
    replace (map (fun x : N * b32 => bval (b_div (snd x) tot)) l) with (map bval (map (fun p => b_div p tot) w)) by (unfold w; now rewrite !map_map).
    apply Rabs_le_inv in SD. assert (u * R0 <= 10 / 9 * u) by (rewrite (Rmult_comm u); apply Rmult_le_compat_r; rewrite UV in *; lra). apply Rabs_le. lra.
  - exists ba, (b_div (b_of_Z 1) tot). split.
    + unfold l. rewrite map_map. apply in_map_iff. exists (ba, bs). split; auto. cbn [fst snd]. f_equal. f_equal.
      destruct (soft_weight la scores ba bs ba bs X Hg Hs Hb Hb ltac:(lra)) as (_ & _ & E). now apply E.
    + pose proof (ndiv (b_of_Z 1) tot V1 Vt ltac:(lra)) as K. rewrite E1 in K.
      assert (I1 : / 2000000 <= 1 / bval tot). { unfold Rdiv. rewrite Rmult_1_l. apply Rinv_le_contravar; lra. }
      assert (I2 : 1 / bval tot <= 2). { apply Rmult_le_reg_r with (bval tot); [lra|]. replace (1 / bval tot * bval tot) with 1 by (field; lra). lra. }
      destruct (near_rel _ _ K) as (V & E); [rewrite Rabs_pos_eq by lra; pose proof big_val; lra|]. rewrite (Rabs_pos_eq (1 / bval tot)) in E by lra.
      apply Rabs_le_inv in E. rewrite UV in *. lra.
Qed.
End Explore.

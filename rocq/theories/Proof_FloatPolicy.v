(** C78: the exploration policies in single precision. *)
From Coq Require Import List NArith ZArith Bool Lia Reals Lra.
From Coq Require Import Floats.SpecFloat.
From Verif Require Import Base FloatOps FloatB32 Model_Explore Model_Features Model_Types Model_Coin Model_Stack
  Spec_Explore Spec_FloatReal Spec_Reductions Proof_FloatOrder Proof_FloatRound Proof_FloatSum Proof_Explore Proof_StackShape Proof_StackProps
  Proof_Reductions Proof_StackPtl Proof_ReductionsR Model_Factory Proof_FloatExplore Proof_FloatEnforce.
Import ListNotations.
Open Scope R_scope.

Lemma p2_18 : p2 (-18) = 64 * u.
Proof. change (-18)%Z with (6 + -24)%Z. rewrite p2_add. fold u. rewrite (p2_Z 6) by lia. reflexivity. Qed.
Lemma p2_21 : p2 (-21) = 8 * u.
Proof. change (-21)%Z with (3 + -24)%Z. rewrite p2_add. fold u. rewrite (p2_Z 3) by lia. reflexivity. Qed.
Lemma p2_22 : p2 (-22) = 4 * u.
Proof. change (-22)%Z with (2 + -24)%Z. rewrite p2_add. fold u. rewrite (p2_Z 2) by lia. reflexivity. Qed.
Lemma p2_23 : p2 (-23) = 2 * u.
Proof. change (-23)%Z with (1 + -24)%Z. rewrite p2_add. fold u. rewrite (p2_Z 1) by lia. reflexivity. Qed.
Lemma len_pos : forall A (l : list A), l <> [] -> 1 <= INR (length l).
Proof. intros A l H. change 1 with (INR 1). apply le_INR. destruct l; [congruence|cbn; lia]. Qed.
Lemma same_len : forall A B (r : list (N * A)) (l : list (N * B)), map fst r = map fst l -> length r = length l.
Proof. intros A B r l H. apply (f_equal (@length _)) in H. now rewrite !map_length in H. Qed.

Section Policy.
Context (bexp bln : b32 -> b32) (bpow : b32 -> b32 -> b32).
Notation B := (BF bexp bln bpow).

Lemma min_prob_float : forall dbg (eps : b32) consider (els : list (N * b32)),
  INR (length els) <= 1048576 -> rate eps -> fnonneg els -> fsum els <= 3 / 2 ->
  (exists a p, In (a, p) els /\ counting consider (bval p)) ->
  exists r, @enforce_min_prob B dbg eps consider els = Ok r /\ map fst r = map fst els /\ fnonneg r /\
    (bval eps = 0 -> r = els) /\ (0 < bval eps -> Rabs (fsum r - 1) <= INR (length els) * p2 (-18)) /\
    (forall n, ncount consider (vals els) n -> forall i a p q, nth_error els i = Some (a, p) -> nth_error r i = Some (a, q) ->
       (counting consider (bval p) -> 0 < bval eps -> bval eps / INR n * (1 - p2 (-24)) - p2 (-150) <= bval q) /\ (~ counting consider (bval p) -> q = p)).
Proof.
  intros dbg eps consider els L (Ve & He) Hn HS HC. destruct (enforce_float bexp bln bpow dbg eps consider els L Ve He Hn HS HC) as (r & E & (F1 & F2 & F3 & F4) & Z).
  exists r. split; auto. split; auto. split; auto. split; auto. split; auto. intros n Hc i a p q. apply (F4 n Hc i a p a q).
Qed.

(** composition with the minimum probability *)
Lemma with_min : forall dbg (ueps : b32) (els : list (N * b32)) err, INR (length els) <= 1048576 -> rate ueps -> fdist els err -> err <= / 4 -> err <= INR (length els) * p2 (-18) ->
  (exists a p, In (a, p) els /\ 0 < bval p) ->
  exists r, unwrap_res (@enforce_min_prob B dbg ueps false els) = Ok r /\ map fst r = map fst els /\ fdist r (INR (length els) * p2 (-18)) /\
    (bval ueps = 0 -> r = els) /\
    (forall n, ncount false (vals els) n -> forall i a p q, nth_error els i = Some (a, p) -> nth_error r i = Some (a, q) ->
       (0 < bval p -> 0 < bval ueps -> bval ueps / INR n * (1 - p2 (-24)) - p2 (-150) <= bval q) /\ (bval p = 0 -> q = p)).
Proof.
  intros dbg ueps els err L R (Hn & HE) E4 EL (a & p & I & P). pose proof (Rabs_le_inv _ _ HE).
  destruct (min_prob_float dbg ueps false els L R Hn ltac:(lra)) as (r & ER & F & N1 & Z & S & FL). { exists a, p. split; auto. now right. }
  exists r. rewrite ER. cbn [unwrap_res]. split; auto. split; auto. split; [split; auto|].
  - destruct R as (_ & R1 & R2). destruct (Req_dec (bval ueps) 0) as [X|X]; [rewrite (Z X); lra|]. apply S. lra.
  - split; auto. intros n Hc i b x q Hi Hj. destruct (FL n Hc i b x q Hi Hj) as (A1 & A2). split; [intros X; apply A1; now right|].
    intros X. apply A2. intros [Y|Y]; [discriminate|lra].
Qed.

Lemma greedy_policy : forall (eps : b32) (scores : list (N * b32)),
  scores <> [] -> INR (length scores) <= 1048576 -> rate eps ->
  exists r, @greedy_probs B eps scores = Ok r /\ map fst r = map fst scores /\ fdist r (p2 (-21)) /\
    (forall a p, In (a, p) r -> bval eps / INR (length scores) * (1 - p2 (-22)) - p2 (-148) <= bval p).
Proof. intros eps scores N0 L (V & R). now apply greedy_float. Qed.

Lemma square_policy : forall dbg (ueps gamma : b32) (scores : list (N * b32)),
  scores <> [] -> INR (length scores) <= 3000 -> NoDup (map fst scores) -> fnumbers scores -> factor gamma scores -> rate ueps ->
  exists r, @squarecb_probs B dbg ueps gamma scores = Ok r /\ map fst r = map fst scores /\ fdist r (INR (length scores) * p2 (-18)).
Proof.
  intros dbg ueps gamma scores N0 L D Hs Hg R. destruct (square_float bexp bln bpow dbg ueps gamma scores N0 ltac:(lra) D Hs Hg) as (els & E & F & _ & S & PP).
  destruct (PP L) as (Hn & P). pose proof (len_pos _ _ N0) as L1. pose proof (same_len _ _ _ _ F) as LE. rewrite E.
  destruct (with_min dbg ueps els (INR (length scores) * p2 (-23))) as (r & A1 & A2 & A3 & _); auto.
  - rewrite LE. lra.
  - split; auto.
  - rewrite p2_23, u_val. lra.
  - rewrite LE, p2_18, p2_23. pose proof (p2_pos (-24)). fold u in *. apply Rmult_le_compat_l; lra.
  - rewrite LE in A3. exists r. split; auto. split; auto. congruence.
Qed.
Lemma square_sum : forall dbg (ueps gamma : b32) (scores : list (N * b32)),
  scores <> [] -> INR (length scores) <= 1048576 -> NoDup (map fst scores) -> fnumbers scores -> factor gamma scores -> bnum ueps -> bval ueps = 0 ->
  exists r, @squarecb_probs B dbg ueps gamma scores = Ok r /\ map fst r = map fst scores /\ fnumbers r /\ Rabs (fsum r - 1) <= INR (length scores) * p2 (-23).
Proof.
  intros dbg ueps gamma scores N0 L D Hs Hg Vu Zu. destruct (square_float bexp bln bpow dbg ueps gamma scores N0 L D Hs Hg) as (els & E & F & Nm & S & _).
  exists els. split; [|auto]. rewrite E. unfold enforce_min_prob. destruct els as [|x els]; [destruct scores; [congruence|discriminate]|].
  change (f_eqb B ueps f0) with (SFeqb ueps (S754_zero false)). rewrite (proj2 (zero_eqb ueps Vu) Zu). reflexivity.
Qed.
Lemma soft_policy : forall dbg (ueps la : b32) (scores : list (N * b32)), exp_unit bexp ->
  scores <> [] -> INR (length scores) <= 1048576 -> fnumbers scores -> factor la scores -> rate ueps ->
  exists r, @softmax_probs B dbg ueps la scores = Ok r /\ map fst r = map fst scores /\ fdist r (INR (length scores) * p2 (-18)).
Proof.
  intros dbg ueps la scores X N0 L Hs Hg R. destruct (soft_float bexp bln bpow dbg ueps la scores X N0 L Hs Hg) as (els & E & F & S & P).
  pose proof (len_pos _ _ N0) as L1. pose proof (same_len _ _ _ _ F) as LE. rewrite E.
  destruct (with_min dbg ueps els (INR (length scores) * p2 (-22))) as (r & A1 & A2 & A3 & _); auto.
  - rewrite LE. lra.
  - rewrite p2_22, u_val. lra.
  - rewrite LE, p2_18, p2_22. pose proof (p2_pos (-24)). fold u in *. apply Rmult_le_compat_l; lra.
  - rewrite LE in A3. exists r. split; auto. split; auto. congruence.
Qed.

(** ** whole stacks *)
Definition policy_ok (k : kind B) (sc : list (N * b32)) : Prop :=
  match k with
  | KGreedy eps => rate eps
  | KSoftmax ueps la _ => rate ueps /\ factor la sc /\ fnumbers sc /\ exp_unit bexp
  | KSquareCb ueps gs ge counter => rate ueps /\ factor (@squarecb_gamma B gs ge counter) sc /\ fnumbers sc
  | _ => False
  end.
Lemma stack_policy : forall n w (k : kind B) (ch : red B n) f f' (sc : list (N * b32)),
  ws_predict false ch f = Ok (PrScores sc, f') -> sc <> [] -> INR (length sc) <= 3000 -> policy_ok k sc ->
  exists r : list (N * b32), ws_predict false ((w, k, ch) : red B (S n)) f = Ok (PrProbs r, f') /\ map fst r = map fst sc /\ fdist r (INR (length sc) * p2 (-18)).
Proof.
  intros n w k ch f f' sc H N0 L P. assert (H0 := proj1 (ws_predict_ok (O:=B) false _ ch f (PrScores sc) f') H). pose proof (numbered_nodup _ (predict_scores_numbered _ _ _ _ _ _ _ _ _ H0)) as D.
  pose proof (len_pos _ _ N0) as L1.
  assert (Q : exists r : list (N * b32), probs_of false k sc = Ok r /\ map fst r = map fst sc /\ fdist r (INR (length sc) * p2 (-18))).
  { destruct k; cbn [policy_ok probs_of] in *; try contradiction.
    - destruct (greedy_policy eps sc N0 ltac:(lra) P) as (r & A1 & A2 & (A3 & A4) & _). exists r. split; auto. split; auto. split; auto.
      eapply Rle_trans; [exact A4|]. rewrite p2_18, p2_21, u_val. lra.
    - destruct P as (P1 & P2 & P3 & P4). apply soft_policy; auto. lra.
    - destruct P as (P1 & P2 & P3). apply square_policy; auto. }
  destruct Q as (r & E & F & SD). exists r. split; auto. apply (proj2 (ws_predict_ok (O:=B) false _ ((w, k, ch) : red B (S n)) f (PrProbs r) f')). cbn [predict]. apply wrap0_ok; [lia|].
  split; [|reflexivity]. destruct k; cbn [policy_ok probs_of] in *; try contradiction; cbn [kind_predict]; rewrite H0; cbn [bind as_scores];
    (match goal with |- (let* _ := ?x in _) = _ => replace x with (Ok r) by (symmetry; exact E) end); reflexivity.
Qed.

(** ** what fails *)
Definition many (n : nat) : list (N * b32) := map (fun i => (N.of_nat i, S754_zero false)) (seq 0 n).
Definition first_neg (x : out (list (N * b32))) : bool := match x with Ok ((_, S754_finite true _ _) :: _) => true | _ => false end.
Lemma many_ok : forall n, fnumbers (many n) /\ fclose (many n) /\ NoDup (map fst (many n)).
Proof.
  intros n. assert (Z : forall a p, In (a, p) (many n) -> p = S754_zero false) by (intros a p I; apply in_map_iff in I; destruct I as (i & E & _); now inversion E).
  split; [intros a p I; rewrite (Z a p I); apply zero_num|]. split.
  - intros a p b q I J. rewrite (Z a p I), (Z b q J). cbn [bval]. pose proof (p2_pos 127). lra.
  - unfold many. rewrite map_map. cbn [fst]. apply FinFun.Injective_map_NoDup; [intros x y; apply Nat2N.inj|apply seq_NoDup].
Qed.
Lemma dbg_zero : forall dbg (gamma : b32) scores, @squarecb_probs B dbg (S754_zero false) gamma scores = @squarecb_probs B false (S754_zero false) gamma scores.
Proof.
  intros dbg gamma scores. unfold squarecb_probs. destruct (@min_by B gt_partial scores) as [(bi, (ba, bs))| |]; cbn [bind]; auto.
Qed.
Lemma many_negative : forall n, first_neg (@squarecb_probs B false (S754_zero false) (S754_zero false) (many n)) = true ->
  exists (gamma : b32) (scores : list (N * b32)) r a q,
  fnumbers scores /\ NoDup (map fst scores) /\ factor gamma scores /\ length scores = n /\
  (forall dbg, @squarecb_probs B dbg (S754_zero false) gamma scores = Ok r) /\ In (a, q) r /\ bval q < 0.
Proof.
  intros n K. destruct (many_ok n) as (H1 & H2 & H3). pose proof (fun dbg => dbg_zero dbg (S754_zero false) (many n)) as E.
  destruct (@squarecb_probs B false (S754_zero false) (S754_zero false) (many n)) as [[|(a, q) r]| |] eqn:ER; try discriminate K.
  exists (S754_zero false), (many n), ((a, q) :: r), a, q. split; auto. split; auto. split; [split; [apply zero_num|split; [cbn; lra|now right]]|].
  split; [unfold many; now rewrite map_length, seq_length|]. split; [exact E|].
  split; [now left|]. cbn [first_neg] in K. destruct q as [s|s| |s m e]; try discriminate. destruct s; [|discriminate]. cbn [bval bsgn].
  pose proof (p2_pos e). assert (0 < IZR (Zpos m)) by (apply IZR_lt; lia). assert (0 < IZR (Zpos m) * p2 e) by (apply Rmult_lt_0_compat; auto). lra.
Qed.
Lemma square_negative : exists (gamma : b32) (scores : list (N * b32)) r a q,
  fnumbers scores /\ NoDup (map fst scores) /\ factor gamma scores /\ length scores = N.to_nat 8283 /\
  (forall dbg, @squarecb_probs B dbg (S754_zero false) gamma scores = Ok r) /\ In (a, q) r /\ bval q < 0.
Proof. apply many_negative. vm_compute. reflexivity. Qed.
(** a cost so high that the weight is zero: the rate is not respected *)
Definition half : b32 := b_lit 1 2.
Definition thousand : b32 := b_of_Z 1000.
Definition huge : b32 := S754_finite false 8388608 77.
Lemma soft_no_floor : forall dbg, (forall s, bexp (S754_zero s) = b_of_Z 1) -> bexp (b_of_Z (-1000)) = S754_zero false ->
  @softmax_probs B dbg half (b_of_Z 1) [(0%N, S754_zero false); (1%N, thousand)] = Ok [(0%N, b_of_Z 1); (1%N, S754_zero false)].
Proof.
  intros dbg X0 X1. unfold softmax_probs. replace (@min_by B gt_partial [(0%N, S754_zero false); (1%N, thousand)]) with (Ok (0%N, (0%N, S754_zero false))) by (vm_compute; reflexivity).
  cbn [bind snd map fst]. 
  change (f_mul B (f_neg B (b_of_Z 1)) (f_sub B (S754_zero false) (S754_zero false))) with (b_mul (SFopp (b_of_Z 1)) (b_sub (S754_zero false) (S754_zero false))).
  change (f_mul B (f_neg B (b_of_Z 1)) (f_sub B thousand (S754_zero false))) with (b_mul (SFopp (b_of_Z 1)) (b_sub thousand (S754_zero false))).
  replace (b_mul (SFopp (b_of_Z 1)) (b_sub (S754_zero false) (S754_zero false))) with (S754_zero true) by (vm_compute; reflexivity).
  replace (b_mul (SFopp (b_of_Z 1)) (b_sub thousand (S754_zero false))) with (b_of_Z (-1000)) by (vm_compute; reflexivity).
  change (f_exp B) with bexp. rewrite X0, X1. destruct dbg; vm_compute; reflexivity.
Qed.
Lemma square_no_floor : forall dbg, @squarecb_probs B dbg half huge [(0%N, S754_zero false); (1%N, huge)] = Ok [(0%N, b_of_Z 1); (1%N, S754_zero false)].
Proof. intros []; vm_compute; reflexivity. Qed.
(** differences that overflow, with scale zero *)
Definition top : b32 := S754_finite false 16777215 104.
Lemma square_overflow : forall dbg,
  @squarecb_probs B dbg (S754_zero false) (S754_zero false) [(0%N, SFopp top); (1%N, top)] = Ok [(0%N, S754_nan); (1%N, S754_nan)] /\
  @squarecb_probs B dbg half (S754_zero false) [(0%N, SFopp top); (1%N, top)] = Pn PNaN.
Proof. intros []; split; vm_compute; reflexivity. Qed.
End Policy.
Definition exp_half (x : b32) : b32 := match x with S754_zero _ => b_of_Z 1 | _ => half end.
Lemma exp_half_unit : exp_unit exp_half.
Proof.
  split; [reflexivity|]. assert (HN : bnum half /\ bval half = 1 / 2).
  { replace half with (S754_finite false 8388608 (-24)) by (vm_compute; reflexivity). split; [split; reflexivity|]. cbn [bval bsgn]. pose proof u_val as UV. unfold u in UV. rewrite UV. field. }
  destruct HN as (H1 & H2). intros x _ [(m & e & ->)| ->]; cbn [exp_half]; (split; [exact H1|rewrite H2; lra]).
Qed.
Lemma num_pos : forall m e, valid_binary 24 128 (S754_finite false m e) = true -> bnum (S754_finite false m e) /\ 0 < bval (S754_finite false m e).
Proof. intros m e V. split; [split; [exact V|reflexivity]|]. cbn [bval bsgn]. pose proof (p2_pos e). assert (0 < IZR (Zpos m)) by (apply IZR_lt; lia). assert (0 < IZR (Zpos m) * p2 e) by (apply Rmult_lt_0_compat; auto). lra. Qed.
(** the examples *)
Definition ex_scores : list (N * b32) := [(0%N, b_of_Z 3); (1%N, b_of_Z 1); (2%N, b_of_Z 2)].
Lemma half_rate : rate half.
Proof.
  replace half with (S754_finite false 8388608 (-24)) by (vm_compute; reflexivity). split; [split; reflexivity|]. cbn [bval bsgn]. pose proof u_val as UV. unfold u in UV. rewrite UV. lra.
Qed.
Lemma ex_numbers : fnumbers ex_scores.
Proof. intros a p [H|[H|[H|[]]]]; inversion H; subst; split; vm_compute; reflexivity. Qed.
Lemma ex_factor : forall l, factor (b_of_Z 10) l.
Proof.
  intros l. replace (b_of_Z 10) with (S754_finite false 10485760 (-20)) by (vm_compute; reflexivity). destruct (num_pos 10485760 (-20) eq_refl) as (H1 & H2).
  split; auto. split; [lra|now left].
Qed.
Lemma ex_scores_ok : ex_scores <> [] /\ INR (length ex_scores) <= 3000 /\ NoDup (map fst ex_scores) /\ fnumbers ex_scores /\ factor (b_of_Z 10) ex_scores /\ rate half /\ exp_unit exp_half.
Proof.
  split; [discriminate|]. split; [cbn; lra|]. split; [repeat constructor; cbn; intuition discriminate|]. split; [apply ex_numbers|]. split; [apply ex_factor|].
  split; [apply half_rate|apply exp_half_unit].
Qed.
Definition ex_els : list (N * b32) := [(0%N, half); (1%N, S754_zero false); (2%N, half)].
Lemma ex_els_ok : INR (length ex_els) <= 1048576 /\ rate half /\ fnonneg ex_els /\ fsum ex_els <= 3 / 2 /\ (exists a p, In (a, p) ex_els /\ counting false (bval p)) /\ ncount false (vals ex_els) 2.
Proof.
  assert (V : bval half = / 2). { replace half with (S754_finite false 8388608 (-24)) by (vm_compute; reflexivity). cbn [bval bsgn]. pose proof u_val as UV. unfold u in UV. rewrite UV. field. }
  split; [cbn; lra|]. split; [apply half_rate|]. pose proof half_rate as (B1 & B2). split.
  { intros a p [H|[H|[H|[]]]]; inversion H; subst; (split; [try exact B1; apply zero_num|try lra; cbn; lra]). }
  split. { unfold fsum, ex_els. cbn [map fst snd total]. rewrite V. cbn [bval]. lra. }
  split. { exists 0%N, half. split; [now left|]. right. lra. }
  unfold vals, ex_els. cbn [map fst snd]. rewrite V. cbn [bval]. apply nc_yes; [right; lra|]. apply nc_no; [intros [H|H]; [discriminate|lra]|]. apply nc_yes; [right; lra|]. constructor.
Qed.
Lemma tenth_rate : rate (b_lit 1 10).
Proof.
  replace (b_lit 1 10) with (S754_finite false 13421773 (-27)) by (vm_compute; reflexivity). split; [split; reflexivity|]. cbn [bval bsgn].
  replace (p2 (-27)) with (p2 (-24) * / 8). { pose proof u_val as UV. unfold u in UV. rewrite UV. lra. }
  assert (E : p2 3 * p2 (-27) = p2 (-24)) by (rewrite <- p2_add; reflexivity). rewrite (p2_Z 3) in E by lia. change (IZR (2 ^ 3)) with 8 in E. lra.
Qed.
Definition two_scores (x : out (prediction BF0 * features BF0)) : bool := match x with Ok (PrScores [_; _], _) => true | _ => false end.
Lemma ex_stack : exists w eps (ch : red BF0 2) sc f',
  ws_new ex_hash false ex_gc ex_cfg = Ok (existT (red BF0) 3%nat (w, KGreedy eps, ch)) /\
  ws_predict false ch ex_fts = Ok (@PrScores BF0 sc, f') /\ sc <> [] /\ INR (length sc) <= 3000 /\ rate eps.
Proof.
  destruct (top3 (ws_new ex_hash false ex_gc ex_cfg)) as [[[w k] ch]|] eqn:E; [|vm_compute in E; discriminate].
  assert (K : k = KGreedy (b_lit 1 10 : BF0)) by (vm_compute in E; inversion E; reflexivity). subst k.
  assert (C : two_scores (ws_predict false ch ex_fts) = true).
  { vm_compute in E. inversion E; subst. vm_compute. reflexivity. }
  apply top3_ok in E. destruct (ws_predict false ch ex_fts) as [[p g]|e|e] eqn:E2; try discriminate.
  destruct p as [v l0|b|l|l]; try discriminate C. destruct l as [|x [|y [|z l]]]; try discriminate C.
  exists w, (b_lit 1 10), ch, [x; y], g. split; auto. split; auto. split; [discriminate|]. split; [cbn; lra|]. apply tenth_rate.
Qed.

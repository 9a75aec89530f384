(** C69. *)
From Coq Require Import List NArith ZArith Bool Lia Reals Lra Permutation.
From Verif Require Import Base FloatOps FloatR Model_Features Model_Types Model_Stack Model_Metrics Spec_Explore Spec_Decide Spec_Metrics
  Spec_OffPolicy Proof_Decide.
Import ListNotations.
Open Scope R_scope.

(** the probability of an action in a list *)
Definition prob_of (a : N) (l : list (N * R)) : R := match find (fun q => (fst q =? a)%N) l with Some q => snd q | None => 0 end.
Definition rw (p : point RF) : R :=
  match pt_label p, pt_pred p with
  | LbCb a c plog, PrProbs l => (- (1)) * c * (prob_of a l / plog)
  | _, _ => 0
  end.
Definition gain (l : list (point RF)) : R := fold_right (fun p acc => rw p + acc) 0 l.

Lemma find_in : forall a (l : list (N * R)), In a (map fst l) -> exists q, find (fun q => (fst q =? a)%N) l = Some (a, q).
Proof.
  induction l as [|[b q] l IH]; intros H; [inversion H|]. cbn [find fst]. destruct (N.eqb_spec b a) as [-> |Ne]; eauto.
  destruct H as [H|H]; [simpl in H; congruence|auto].
Qed.

Lemma log_metric : forall n g, fair n g -> forall l, log_of g l -> length l = n /\ forall c (r : R),
  add_points (@MIps R c r : metric RF) l = Ok (MIps (c + N.of_nat n)%N (r + gain l)).
Proof.
  induction 1 as [|n f logging cost pred next Hp Ht Nl Np Cov Hn IH]; intros l L.
  - inversion L; subst. split; auto. intros c r. cbn. f_equal. f_equal; [lia|lra].
  - inversion L as [|f' lg' co' pr' nx' a p l' Hin Hl]; subst. assert (Ha : In a (map fst logging)) by (apply in_map_iff; exists (a, p); auto).
    destruct (IH a Ha l' Hl) as (Len & E). split; [simpl; lia|]. intros c r.
    unfold add_points in *. cbn [foldm]. cbn [pt_label pt_pred pt_feats metric_add as_cb_label as_probs bind].
    destruct (find_in a pred (proj2 (Cov a) Ha)) as (q & Fq).
    change (F RF) with R in *. rewrite Fq. cbn [opt_or bind snd].
    cbn [f_add f_mul f_div f_neg RF]. rewrite RF_f1. rewrite E. f_equal. cbn [gain fold_right]. fold (gain l').
    unfold rw at 1. cbn [pt_label pt_pred]. unfold prob_of. rewrite Fq. cbn [snd]. f_equal; [lia|lra].
Qed.

(** ** linearity *)
Lemma mean_ext : forall g v w, (forall l, v l = w l) -> mean_over g v = mean_over g w.
Proof.
  induction g as [|f logging cost pred next IH]; intros v w H; cbn [mean_over]; auto.
  induction logging as [|[a p] r IHr]; cbn [fold_right]; auto. rewrite IHr. f_equal. f_equal. apply IH. intros l. apply H.
Qed.
Lemma mean_scal : forall g k v, mean_over g (fun l => v l * k) = mean_over g v * k.
Proof.
  induction g as [|f logging cost pred next IH]; intros k v; cbn [mean_over]; auto.
  induction logging as [|[a p] r IHr]; cbn [fold_right fst snd]; [lra|]. rewrite IHr, (IH a k (fun l => v (_ :: l))). lra.
Qed.

(** ** one round *)
Lemma expect_perm : forall f a b, Permutation a b -> expect f a = expect f b.
Proof. induction 1 as [|[x p]|[x p] [y q]|]; simpl; lra. Qed.
Lemma prob_of_nodup : forall l a q, NoDup (map fst l) -> In (a, q) l -> prob_of a l = q.
Proof.
  unfold prob_of. induction l as [|[b p] l IH]; intros a q Nd H; [inversion H|]. simpl in Nd. inversion Nd; subst. cbn [find fst].
  destruct (N.eqb_spec b a) as [-> |Ne].
  - destruct H as [H|H]; [inversion H; auto|]. exfalso. apply H2. apply in_map_iff. exists (a, q). auto.
  - destruct H as [H|H]; [inversion H; congruence|auto].
Qed.
(** an expectation under [pred] as a sum over the actions of another list *)
Lemma expect_as_sum : forall cost pred (acts : list N), NoDup (map fst pred) -> NoDup acts -> (forall a, In a (map fst pred) <-> In a acts) ->
  fold_right (fun a acc => prob_of a pred * cost a + acc) 0 acts = expect cost pred.
Proof.
  intros cost pred acts N1 N2 H.
  assert (P : Permutation acts (map fst pred)).
  { apply NoDup_Permutation; auto. intros a. symmetry. apply H. }
  assert (S : forall h (x y : list N), Permutation x y -> fold_right (fun (a : N) acc => h a + acc) 0 x = fold_right (fun (a : N) acc => h a + acc) 0 y).
  { intros h x y Q. induction Q; simpl; lra. }
  rewrite (S (fun a => prob_of a pred * cost a) _ _ P).
  assert (G : forall l, incl l pred -> fold_right (fun a acc => prob_of a pred * cost a + acc) 0 (map fst l) = expect cost l).
  { induction l as [|[a q] l IH]; intros I; simpl; auto. rewrite IH by (intros x Hx; apply I; now right).
    rewrite (prob_of_nodup pred a q); auto. apply I. now left. }
  apply G. apply incl_refl.
Qed.

Lemma mean_gain : forall n g, fair n g -> forall k, mean_over g (fun l => k + gain l) = k + true_reward g.
Proof.
  induction 1 as [|n f logging cost pred next Hp Ht Nl Np Cov Hn IH]; intros k; cbn [mean_over true_reward]; [cbn; lra|].
  rewrite <- (expect_as_sum cost pred (map fst logging)) by auto.
  assert (G : forall r, incl r logging ->
    fold_right (fun e acc => snd e * mean_over (next (fst e)) (fun l => k + gain (mkPt f (LbCb (fst e) (cost (fst e)) (snd e)) (PrProbs pred) :: l)) + acc) 0 r =
    k * total r - fold_right (fun a acc => prob_of a pred * cost a + acc) 0 (map fst r) + fold_right (fun e acc => snd e * true_reward (next (fst e)) + acc) 0 r).
  { induction r as [|[a p] r IHr]; intros I; cbn [fold_right map total fst snd]; [lra|]. rewrite IHr by (intros x Hx; apply I; now right).
    assert (Hin : In (a, p) logging) by (apply I; now left). assert (Pp := Hp _ _ Hin).
    assert (Ha : In a (map fst logging)) by (apply in_map_iff; exists (a, p); auto).
    rewrite (mean_ext (next a) _ (fun l => (k + - (1) * cost a * (prob_of a pred / p)) + gain l)).
    2:{ intros l. cbn [gain fold_right]. fold (gain l). unfold rw. cbn [pt_label pt_pred]. lra. }
    rewrite (IH a Ha). 
    replace (p * (k + - (1) * cost a * (prob_of a pred / p) + true_reward (next a))) with (k * p - prob_of a pred * cost a + p * true_reward (next a)) by (field; lra).
    lra. }
  rewrite G by apply incl_refl. rewrite Ht. lra.
Qed.

Lemma ips_unbiased : forall n g, fair n g -> (0 < n)%nat ->
  exists v : list (point RF) -> R,
    (forall l, log_of g l -> forall dbg, (let* m := add_points ips_new l in metric_value dbg m) = Ok (MVFloat (v l))) /\
    mean_over g v = true_reward g / INR n.
Proof.
  intros n g Hf Hn. exists (fun l => (0 + gain l) * / INR n). split.
  - intros l L dbg. destruct (log_metric n g Hf l L) as (_ & E). unfold ips_new. rewrite RF_f0, E. cbn [bind metric_value].
    rewrite RF_of_N. cbn [f_div RF]. replace (0 + N.of_nat n)%N with (N.of_nat n) by lia. rewrite Nat2N.id. reflexivity.
  - rewrite mean_scal, (mean_gain n g Hf). unfold Rdiv. lra.
Qed.

(** ** labels of ips learning *)
Lemma ips_labels_unbiased : forall dbg (logging : list (N * R)) (cost : N -> R) i,
  (forall a p, In (a, p) logging -> 0 < p) -> NoDup (map fst logging) -> In i (map fst logging) ->
  exists y : N -> R, (forall a p, In (a, p) logging -> @ips_label RF dbg a (cost a) p i = Ok (LbSimple (y a) 1)) /\
    expect y logging = cost i.
Proof.
  intros dbg logging cost i Hp Nd Hi.
  exists (fun a => if (i =? a)%N then cost a / prob_of a logging else 0). split.
  - intros a p Hin. unfold ips_label, f_gtb. rewrite RF_f0, RF_f1. cbn [f_ltb f_div RF].
    rewrite (prob_of_nodup logging a p Nd Hin). assert (P := Hp _ _ Hin).
    destruct (Rltb_spec 0 p); [|lra]. rewrite andb_false_r. destruct (i =? a)%N; reflexivity.
  - assert (G : forall r, NoDup (map fst r) -> incl r logging ->
      expect (fun a => if (i =? a)%N then cost a / prob_of a logging else 0) r = if in_dec N.eq_dec i (map fst r) then cost i else 0).
    { induction r as [|[a p] r IH]; intros N1 I; [reflexivity|]. simpl in N1. inversion N1; subst. cbn [expect map fst].
      rewrite IH by (auto; intros x Hx; apply I; now right). assert (Hin : In (a, p) logging) by (apply I; now left).
      rewrite (prob_of_nodup logging a p Nd Hin). assert (P := Hp _ _ Hin).
      destruct (N.eqb_spec i a) as [-> |Ne].
      - destruct (in_dec N.eq_dec a (map fst r)); [contradiction|].
        destruct (in_dec N.eq_dec a (a :: map fst r)) as [_|X]; [field; lra|exfalso; apply X; now left].
      - destruct (in_dec N.eq_dec i (map fst r)) as [A|A], (in_dec N.eq_dec i (a :: map fst r)) as [B|B]; try lra.
        + exfalso. apply B. now right.
        + destruct B; [congruence|contradiction]. }
    rewrite G by (auto; apply incl_refl). destruct (in_dec N.eq_dec i (map fst logging)); [reflexivity|contradiction].
Qed.

(** ** an action that is never logged *)
Definition unseen : game := Round (FtsCb None []) [(0%N, 1)] (fun _ => 1) [(0%N, 1 / 2); (1%N, 1 / 2)] (fun _ => Over).
Lemma unseen_biased : exists v : list (point RF) -> R,
  (forall l, log_of unseen l -> forall dbg, (let* m := add_points ips_new l in metric_value dbg m) = Ok (MVFloat (v l))) /\
  mean_over unseen v = - (1 / 2) /\ true_reward unseen = - (1).
Proof.
  exists (fun _ => - (1 / 2)). split; [|split; cbn; lra].
  intros l L dbg. inversion L as [|f' lg' co' pr' nx' a p l' Hin Hl]; subst. destruct Hin as [Hin|[]]. inversion Hin; subst.
  inversion Hl; subst. unfold add_points, ips_new. cbn [foldm pt_feats pt_label pt_pred metric_add as_cb_label as_probs bind opt_or find fst snd N.eqb].
  cbn [bind metric_value]. rewrite RF_of_N, RF_f0, RF_f1. cbn [f_add f_mul f_div f_neg RF]. do 2 f_equal. simpl. field.
Qed.

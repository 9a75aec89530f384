(** Proofs for C30 and C31. *)
From Coq Require Import List NArith ZArith Bool Reals Lia Lra.
From Verif Require Import Base FloatOps FloatR FloatB32 Model_Hash Model_Features Model_Types Model_Stack Model_Metrics
  Model_Train Spec_Metrics.
Import ListNotations.

(** ** C30 *)
Lemma mse_run : forall l xs, Forall2 squared_error l xs -> forall v c,
  add_points (MMse v c) l = Ok (@MMse RF (v + sumR xs)%R (c + N.of_nat (length xs))%N).
Proof.
  unfold add_points. induction 1 as [|p x l xs Hp _ IH]; intros v c; simpl.
  - f_equal. f_equal; [rewrite Rplus_0_r; reflexivity|lia].
  - inversion Hp; subst; simpl. rewrite IH. f_equal. f_equal; [|lia]. simpl. apply Rminus_diag_uniq. ring.
Qed.
Lemma mse_shape : forall l v c m, add_points (MMse v c) l = Ok m -> exists xs, Forall2 squared_error l xs.
Proof.
  unfold add_points. induction l as [|p l IH]; intros v c m H; simpl in *; [eexists; constructor|].
  apply bind_ok in H. destruct H as (m1 & H1 & H2). destruct p as [f lb pr]. simpl in H1.
  destruct lb; simpl in H1; try discriminate. destruct pr; simpl in H1; try discriminate.
  injection H1 as <-. destruct (IH _ _ _ H2) as (xs & Hx). eexists. constructor; [constructor|exact Hx].
Qed.

Lemma find_first : forall (A : Type) (a : N) (x : A) l1 l2, ~ In a (map fst l1) ->
  find (fun q => N.eqb (fst q) a) (l1 ++ (a, x) :: l2) = Some (a, x).
Proof.
  induction l1 as [|[b y] l1 IH]; intros l2 H; simpl in *.
  - rewrite N.eqb_refl. reflexivity.
  - destruct (N.eqb_spec b a) as [E|E]; [subst; exfalso; auto|]. apply IH. auto.
Qed.
Lemma find_split : forall (A : Type) (a : N) (l : list (N * A)) q, find (fun q => N.eqb (fst q) a) l = Some q ->
  exists l1 x l2, l = l1 ++ (a, x) :: l2 /\ ~ In a (map fst l1) /\ q = (a, x).
Proof.
  induction l as [|[b y] l IH]; simpl; intros q H; [discriminate|].
  destruct (N.eqb_spec b a) as [E|E].
  - injection H as <-. subst. exists [], y, l. auto.
  - destruct (IH _ H) as (l1 & x & l2 & -> & Hn & ->). exists ((b, y) :: l1), x, l2. simpl. repeat split; auto.
    intros [|]; auto.
Qed.

Lemma ips_run : forall l xs, Forall2 ips_reward l xs -> forall v c,
  add_points (MIps c v) l = Ok (@MIps RF (c + N.of_nat (length xs))%N (v + sumR xs)%R).
Proof.
  unfold add_points. induction 1 as [|p x l xs Hp _ IH]; intros v c; simpl.
  - f_equal. f_equal; [lia|rewrite Rplus_0_r; reflexivity].
  - inversion Hp; subst; simpl. rewrite find_first by assumption. simpl. rewrite IH. f_equal. f_equal; [lia|].
    simpl. apply Rminus_diag_uniq. unfold Rdiv. rewrite Rinv_1. ring.
Qed.
Lemma ips_shape : forall l v c m, add_points (MIps c v) l = Ok m -> exists xs, Forall2 ips_reward l xs.
Proof.
  unfold add_points. induction l as [|p l IH]; intros v c m H; simpl in *; [eexists; constructor|].
  apply bind_ok in H. destruct H as (m1 & H1 & H2). destruct p as [f lb pr]. simpl in H1.
  destruct lb; simpl in H1; try discriminate. destruct pr; simpl in H1; try discriminate.
  match type of H1 with context [find ?g ?x] => destruct (find g x) as [q|] eqn:E end; simpl in H1; [|discriminate]. injection H1 as <-.
  apply find_split in E. destruct E as (l1 & x & l2 & -> & Hn & ->).
  destruct (IH _ _ _ H2) as (xs & Hx). eexists. constructor; [constructor; exact Hn|exact Hx].
Qed.

Lemma mean_value : forall xs, ((0 + sumR xs) / @f_of_N RF (0 + N.of_nat (length xs))%N)%R = meanR xs.
Proof. intros. unfold meanR. rewrite RF_of_N, N.add_0_l, Nat2N.id, Rplus_0_l. reflexivity. Qed.

Lemma mse_is_mean : forall (l : list (point RF)),
  (forall xs, Forall2 squared_error l xs -> exists m, add_points mse_new l = Ok m /\
     forall dbg, metric_value dbg m = Ok (MVFloat (meanR xs))) /\
  (forall m, add_points mse_new l = Ok m -> exists xs, Forall2 squared_error l xs).
Proof.
  intros l. split.
  - intros xs H. eexists. split; [apply mse_run; exact H|]. intros dbg. cbn [metric_value].
    rewrite <- mean_value. rewrite RF_f0. reflexivity.
  - intros m H. eapply mse_shape. exact H.
Qed.
Lemma ips_is_mean : forall (l : list (point RF)),
  (forall xs, Forall2 ips_reward l xs -> exists m, add_points ips_new l = Ok m /\
     forall dbg, metric_value dbg m = Ok (MVFloat (meanR xs))) /\
  (forall m, add_points ips_new l = Ok m -> exists xs, Forall2 ips_reward l xs).
Proof.
  intros l. split.
  - intros xs H. eexists. split; [apply ips_run; exact H|]. intros dbg. cbn [metric_value].
    rewrite <- mean_value. rewrite RF_f0. reflexivity.
  - intros m H. eapply ips_shape. exact H.
Qed.

Section Counts.
Context {O : FOps}.
Lemma count_objects : forall f : features O, feature_count f = N.of_nat (length (concat (map sf_all (objects f)))).
Proof.
  intros f. assert (G : forall acts n, fold_left (fun n a => (n + N.of_nat (length (sf_all a)))%N) acts n
     = (n + N.of_nat (length (concat (map (@sf_all O) acts))))%N).
  { induction acts as [|a acts IH]; intros n; simpl; [lia|]. rewrite IH, app_length. lia. }
  destruct f as [s|[s|] acts]; simpl; rewrite ?app_length, ?G; simpl; lia.
Qed.
Lemma parsed_run : forall (l : list (point O)) c, add_points (MParsed c) l = Ok (MParsed (c + N.of_nat (total_features l))%N).
Proof.
  unfold add_points, total_features. induction l as [|p l IH]; intros c; simpl.
  - f_equal. f_equal. lia.
  - rewrite IH. f_equal. f_equal. rewrite count_objects, map_app, concat_app, app_length. lia.
Qed.
Lemma parsed_is_total : forall (l : list (point O)), exists m, add_points parsed_new l = Ok m /\ forall dbg,
  ((total_features l < N.to_nat 2147483648)%nat -> metric_value dbg m = Ok (MVInt (Z.of_nat (total_features l)))) /\
  ((N.to_nat 2147483648 <= total_features l)%nat -> metric_value dbg m = Pn PErr).
Proof.
  intros l. eexists. split; [apply parsed_run|]. intros dbg. cbn [metric_value].
  destruct (N.ltb_spec (0 + N.of_nat (total_features l)) 2147483648); split; intros; try lia; auto.
  rewrite N.add_0_l, nat_N_Z. reflexivity.
Qed.
Lemma example_run : forall (l : list (point O)) c, add_points (MExample c) l = Ok (MExample (c + N.of_nat (length l))%N).
Proof.
  unfold add_points. induction l as [|p l IH]; intros c; simpl.
  - f_equal. f_equal. lia.
  - rewrite IH. f_equal. f_equal. lia.
Qed.
Lemma example_is_last : forall (l : list (point O)), exists m, add_points example_new l = Ok m /\ forall dbg,
  (l = [] -> exists p, metric_value dbg m = Pn p) /\
  ((0 < length l < N.to_nat 2147483648)%nat -> metric_value dbg m = Ok (MVInt (Z.of_nat (length l) - 1))).
Proof.
  intros l. eexists. split; [apply example_run|]. intros dbg. split.
  - intros ->. eexists. reflexivity.
  - intros Hl. cbn [metric_value]. rewrite N.add_0_l. destruct (N.eqb_spec (N.of_nat (length l)) 0) as [E|E]; [lia|].
    unfold as_i32, u32_mod. rewrite N.mod_small by lia. destruct (N.ltb_spec (N.of_nat (length l)) 2147483648); [|lia].
    unfold sub_i32. rewrite nat_N_Z.
    assert (B : ((-2147483648 <=? Z.of_nat (length l) - 1) && (Z.of_nat (length l) - 1 <=? 2147483647))%Z = true).
    { apply andb_true_intro; split; apply Z.leb_le; lia. }
    rewrite B. reflexivity.
Qed.

Lemma empty_run_panics : forall H pf dbg preds seed nb names (p : period O) n (r : red O n) pool,
  exists x, train H pf dbg (mkMode false preds) seed nb names p r pool [] = Pn x.
Proof.
  intros. unfold train, train_start. simpl. 
  destruct (mapm (fun name => opt_or PNone (get_metric name)) names) as [ms|e|q] eqn:E; simpl.
  - eexists. reflexivity.
  - exfalso. revert e E. induction names as [|x names IH]; simpl; intros e E; [discriminate|].
    destruct (get_metric x) as [m|]; simpl in E; [|discriminate].
    destruct (mapm (fun name => opt_or PNone (@get_metric O name)) names) eqn:E2; simpl in E; try discriminate.
    eapply IH. reflexivity.
  - eexists. reflexivity.
Qed.
End Counts.

(** ** C31 *)
Lemma add32_fits : forall dbg a b, (a + b < 4294967296)%N -> add32 dbg a b = Ok (a + b)%N.
Proof.
  intros. unfold add32, wrap32, u32_mod. destruct (N.ltb_spec (a + b) 4294967296); [reflexivity|lia].
Qed.

Section Progress.
Context {O : FOps} (dbg : bool) (columns : nat) (rows : list (list (mvalue O))).
Open Scope N_scope.

Lemma add_outputs : forall p n i x, 0 < p -> (p | x) -> i <= x < i + p -> i + N.of_nat n + p <= 4294967296 ->
  exists bs, outputs dbg (mkMgr i x (@Additive O p) rows columns) n = Ok bs /\ length bs = n /\
    forall j, (j < n)%nat -> (nth j bs false = true <-> (p | i + N.of_nat j)).
Proof.
  intros p. induction n as [|n IH]; intros i x Hp Hx Hi Hn.
  - exists []. split; [reflexivity|]. split; [reflexivity|]. intros; lia.
  - cbn [outputs]. unfold inc_iteration. cbn [mg_next mg_iter mg_period mg_rows mg_columns].
    destruct (N.leb_spec x i) as [Hle|Hlt].
    + assert (x = i) by lia. subst x. rewrite add32_fits by lia. cbn [bind]. rewrite add32_fits by lia. cbn [bind snd fst].
      destruct (IH (i + 1) (i + p)) as (bs & Hb & Hlen & Hbs); [lia| |lia|lia|].
      { apply N.divide_add_r; [exact Hx|exists 1; lia]. }
      rewrite Hb. cbn [bind]. exists (true :: bs). split; [reflexivity|]. split; [simpl; lia|].
      intros [|j] Hj; cbn [nth].
      * rewrite N.add_0_r. split; intros; auto.
      * rewrite Hbs by lia. replace (i + 1 + N.of_nat j) with (i + N.of_nat (S j)) by lia. reflexivity.
    + rewrite add32_fits by lia. cbn [bind snd fst].
      destruct (IH (i + 1) x) as (bs & Hb & Hlen & Hbs); [lia|exact Hx|lia|lia|].
      rewrite Hb. cbn [bind]. exists (false :: bs). split; [reflexivity|]. split; [simpl; lia|].
      intros [|j] Hj; cbn [nth].
      * rewrite N.add_0_r. split; [discriminate|]. intros D. exfalso.
        assert (D2 : (p | x - i)) by (apply N.divide_sub_r; assumption).
        apply N.divide_pos_le in D2; lia.
      * rewrite Hbs by lia. replace (i + 1 + N.of_nat j) with (i + N.of_nat (S j)) by lia. reflexivity.
Qed.

(** The doubling period, in any arithmetic in which doubling powers of two is exact. *)
Hypothesis dbl : forall k, k < 31 -> f_to_u32 O (f_mul O (f_of_N (2 ^ k)) (f_of_N 2)) = 2 ^ (k + 1).
Hypothesis dbl_top : f_to_u32 O (f_mul O (f_of_N (2 ^ 31)) (f_of_N 2)) = 4294967295.
Hypothesis dbl_zero : f_to_u32 O (f_mul O (f_of_N 0) (f_of_N 2)) = 0.

Lemma mul_outputs : forall n i x k, k <= 32 -> x = N.min (2 ^ k) 4294967295 -> (k = 0 \/ 2 ^ (k - 1) < i) -> 0 < i -> i <= x ->
  i + N.of_nat n <= 4294967295 ->
  exists bs, outputs dbg (mkMgr i x (@Multiplicative O (f_of_N 2)) rows columns) n = Ok bs /\ length bs = n /\
    forall j, (j < n)%nat -> (nth j bs false = true <-> exists e, i + N.of_nat j = 2 ^ e).
Proof.
  induction n as [|n IH]; intros i x k Hk Hx Hlow Hpos Hi Hn.
  - exists []. split; [reflexivity|]. split; [reflexivity|]. intros; lia.
  - cbn [outputs]. unfold inc_iteration. cbn [mg_next mg_iter mg_period mg_rows mg_columns].
    destruct (N.leb_spec x i) as [Hle|Hlt].
    + assert (Ei : i = x) by lia. assert (Hk32 : k < 32).
      { destruct (N.eq_dec k 32) as [->|]; [|lia]. change (N.min (2 ^ 32) 4294967295) with 4294967295 in Hx. lia. }
      assert (Hpk : 2 ^ k <= 2 ^ 31) by (apply N.pow_le_mono_r; lia). change (2 ^ 31) with 2147483648 in Hpk.
      assert (Ex : x = 2 ^ k) by lia. subst x. 
      assert (Enext : f_to_u32 O (f_mul O (f_of_N i) (f_of_N 2)) = N.min (2 ^ (k + 1)) 4294967295).
      { replace i with (2 ^ k) by lia. destruct (N.eq_dec k 31) as [->|Hk31]; [exact dbl_top|].
        rewrite dbl by lia. assert (2 ^ (k + 1) <= 2 ^ 31) by (apply N.pow_le_mono_r; lia).
        change (2 ^ 31) with 2147483648 in *. lia. }
      cbn [bind]. rewrite add32_fits by lia. cbn [bind snd fst]. rewrite Enext.
      assert (Epow : 2 ^ (k + 1) = 2 * 2 ^ k) by (rewrite N.add_1_r, N.pow_succ_r'; reflexivity).
      destruct (IH (i + 1) (N.min (2 ^ (k + 1)) 4294967295) (k + 1)) as (bs & Hb & Hlen & Hbs).
      { lia. } { reflexivity. } { right. replace (k + 1 - 1) with k by lia. lia. } { lia. }
      { lia. } { lia. }
      rewrite Hb. cbn [bind]. exists (true :: bs). split; [reflexivity|]. split; [simpl; lia|].
      intros [|j] Hj; cbn [nth].
      * rewrite N.add_0_r. split; intros; auto. exists k. lia.
      * rewrite Hbs by lia. replace (i + 1 + N.of_nat j) with (i + N.of_nat (S j)) by lia. reflexivity.
    + rewrite add32_fits by lia. cbn [bind snd fst].
      assert (Hk0 : k <> 0). { intros ->. change (N.min (2 ^ 0) 4294967295) with 1 in Hx. lia. }
      destruct (IH (i + 1) x k) as (bs & Hb & Hlen & Hbs); [lia|exact Hx|right; lia|lia|lia|lia|].
      rewrite Hb. cbn [bind]. exists (false :: bs). split; [reflexivity|]. split; [simpl; lia|].
      intros [|j] Hj; cbn [nth].
      * rewrite N.add_0_r. split; [discriminate|]. intros (e & He). exfalso.
        destruct Hlow as [|Hlow]; [lia|]. rewrite He in Hlow. apply N.pow_lt_mono_r_iff in Hlow; [|lia].
        assert (2 ^ k <= 2 ^ e) by (apply N.pow_le_mono_r; lia). lia.
      * rewrite Hbs by lia. replace (i + 1 + N.of_nat j) with (i + N.of_nat (S j)) by lia. reflexivity.
Qed.

Lemma mul_outputs_start : forall n, N.of_nat n <= 4294967295 ->
  exists bs, outputs dbg (mkMgr 0 0 (@Multiplicative O (f_of_N 2)) rows columns) n = Ok bs /\ length bs = n /\
    forall j, (j < n)%nat -> (nth j bs false = true <-> j = 0%nat \/ exists e, N.of_nat j = 2 ^ e).
Proof.
  intros [|[|n]] Hn.
  - exists []. split; [reflexivity|]. split; [reflexivity|]. intros; lia.
  - cbn [outputs]. unfold inc_iteration. cbn [mg_next mg_iter mg_period mg_rows mg_columns N.leb N.compare].
    cbn [bind]. rewrite dbl_zero. rewrite add32_fits by lia. cbn [bind snd fst].
    exists [true]. split; [reflexivity|]. split; [reflexivity|]. intros [|j] Hj; [|lia]. simpl. split; auto.
  - cbn [outputs]. unfold inc_iteration at 1. cbn [mg_next mg_iter mg_period mg_rows mg_columns N.leb N.compare].
    cbn [bind]. rewrite dbl_zero. rewrite add32_fits by lia. cbn [bind snd fst].
    unfold inc_iteration. cbn [mg_next mg_iter mg_period mg_rows mg_columns].
    change (0 <=? 0 + 1) with true. cbn [bind]. rewrite add32_fits by lia. cbn [bind snd fst].
    change (0 + 1) with (2 ^ 0). rewrite dbl by lia. change (2 ^ 0 + 1) with 2. change (2 ^ (0 + 1)) with 2.
    destruct (mul_outputs n 2 2 1) as (bs & Hb & Hlen & Hbs); [lia|reflexivity|right; reflexivity|lia|lia|lia|].
    rewrite Hb. cbn [bind]. exists (true :: true :: bs). split; [reflexivity|]. split; [simpl; lia|].
    intros [|[|j]] Hj; cbn [nth].
    + split; auto.
    + split; auto. intros _. right. exists 0. reflexivity.
    + rewrite Hbs by lia. replace (2 + N.of_nat j) with (N.of_nat (S (S j))) by lia. split; [auto|].
      intros [?|?]; [discriminate|auto].
Qed.
End Progress.

Lemma below31 : forall P : N -> bool, forallb P (map N.of_nat (seq 0 31)) = true -> forall k, (k < 31)%N -> P k = true.
Proof.
  intros P H k Hk. rewrite forallb_forall in H. apply H. apply in_map_iff. exists (N.to_nat k). split; [lia|].
  apply in_seq. lia.
Qed.
Lemma BF_doubling : forall e l p k, (k < 31)%N ->
  f_to_u32 (BF e l p) (f_mul (BF e l p) (@f_of_N (BF e l p) (2 ^ k)) (@f_of_N (BF e l p) 2)) = (2 ^ (k + 1))%N.
Proof.
  intros e l p k Hk. apply N.eqb_eq. revert k Hk.
  apply (below31 (fun k => N.eqb (b_to_u32 (b_mul (b_lit (Z.of_N (2 ^ k)) 1) (b_lit 2 1))) (2 ^ (k + 1)))).
  vm_compute. reflexivity.
Qed.

Lemma additive_schedule : forall (O : FOps) dbg columns p n, (0 < p)%N -> (N.of_nat n + p <= 4294967296)%N ->
  exists bs, outputs dbg (@mgr_new O (Additive p) columns) n = Ok bs /\ length bs = n /\
    forall j, (j < n)%nat -> (nth j bs false = true <-> (p | N.of_nat j)%N).
Proof.
  intros O dbg columns p n Hp Hn. unfold mgr_new.
  destruct (add_outputs dbg columns (@nil (list (mvalue O))) p n 0 0) as (bs & H); try lia.
  - exists 0%N. lia.
  - exists bs. exact H.
Qed.
Lemma doubling_schedule : forall e l p dbg columns n, (N.of_nat n <= 4294967295)%N ->
  exists bs, outputs dbg (@mgr_new (BF e l p) (Multiplicative (@f_of_N (BF e l p) 2)) columns) n = Ok bs /\ length bs = n /\
    forall j, (j < n)%nat -> (nth j bs false = true <-> j = 0%nat \/ exists i, N.of_nat j = (2 ^ i)%N).
Proof.
  intros e l p dbg columns n Hn. apply (@mul_outputs_start (BF e l p)).
  - apply BF_doubling.
  - vm_compute. reflexivity.
  - vm_compute. reflexivity.
  - exact Hn.
Qed.

(** C08: masking early or late. *)
From Coq Require Import List NArith ZArith Bool Lia.
From Verif Require Import Base Model_Hash Spec_Hash.
Import ListNotations.
Open Scope N_scope.

Lemma mask_from_bits_ok : forall dbg nb mk, mask_from_bits dbg nb = Ok mk ->
  exists b, b <= 31 /\ mk = N.ones b /\ (nb < 32 -> b = nb) /\ bits_to_max_feature_index dbg nb = Ok (2 ^ b).
Proof.
  intros dbg nb mk. unfold mask_from_bits, bits_to_max_feature_index.
  destruct (nb <? 32) eqn:E.
  - apply N.ltb_lt in E. intros H; inversion H. exists nb. rewrite N.ones_equiv, N.pred_sub.
    repeat split; auto; lia.
  - apply N.ltb_ge in E. destruct dbg; [discriminate|]. intros H; inversion H.
    assert (nb mod 32 < 32) by (apply N.mod_lt; lia).
    exists (nb mod 32). rewrite N.ones_equiv, N.pred_sub. repeat split; auto; lia.
Qed.

Lemma mask_mod : forall b h, mask (N.ones b) h = h mod 2 ^ b.
Proof. intros; unfold mask. apply N.land_ones. Qed.

Lemma mod_pow_lt : forall b h, h mod 2 ^ b < 2 ^ b.
Proof. intros; apply N.mod_lt, N.pow_nonzero; lia. Qed.

Lemma lxor_mod : forall b x y, N.lxor x y mod 2 ^ b = N.lxor (x mod 2 ^ b) (y mod 2 ^ b).
Proof.
  intros. rewrite <- !N.land_ones. apply N.bits_inj. intros i.
  rewrite N.lxor_spec, !N.land_spec, N.lxor_spec.
  destruct (N.testbit x i), (N.testbit y i), (N.testbit (N.ones b) i); reflexivity.
Qed.

Lemma mod_mod_le : forall a b x, a <= b -> (x mod 2 ^ b) mod 2 ^ a = x mod 2 ^ a.
Proof.
  intros a b x H. rewrite <- !N.land_ones. rewrite <- N.land_assoc. f_equal.
  apply N.bits_inj. intros i. rewrite N.land_spec.
  destruct (N.lt_ge_cases i a).
  - rewrite !N.ones_spec_low by lia. reflexivity.
  - rewrite (N.ones_spec_high a i) by lia. now rewrite andb_false_r.
Qed.

Lemma u32_pow : u32_mod = 2 ^ 32.
Proof. reflexivity. Qed.

Lemma fnv_mul_mod : forall b x, b <= 32 -> fnv_mul x mod 2 ^ b = (16777619 * x) mod 2 ^ b.
Proof. intros b x H. unfold fnv_mul, wrap32, FNV_PRIME. rewrite u32_pow. now apply mod_mod_le. Qed.

Lemma step_mod : forall b h t, b <= 32 ->
  N.lxor (fnv_mul h) t mod 2 ^ b = mix_step b (h mod 2 ^ b) (t mod 2 ^ b).
Proof.
  intros b h t H. rewrite lxor_mod, fnv_mul_mod by auto. unfold mix_step. f_equal.
  rewrite N.mul_mod_idemp_r; auto. apply N.pow_nonzero; lia.
Qed.

Lemma mix_map_mod : forall b ts, mix b (map (fun t => t mod 2 ^ b) ts) = mix b ts.
Proof.
  intros b [|t0 r]; simpl; auto. rewrite map_map.
  assert (Z : 2 ^ b <> 0) by (apply N.pow_nonzero; lia).
  rewrite N.mod_mod by auto. f_equal. apply map_ext. intros; now apply N.mod_mod.
Qed.

Lemma quadratic_mix : forall b x y, b <= 32 -> mask (N.ones b) (quadratic_feature_hash x y) = mix b [x; y].
Proof. intros. rewrite mask_mod. unfold quadratic_feature_hash. rewrite step_mod by auto. reflexivity. Qed.

Lemma cubic_mix : forall b x y z, b <= 32 -> mask (N.ones b) (cubic_feature_hash x y z) = mix b [x; y; z].
Proof.
  intros. rewrite mask_mod. unfold cubic_feature_hash. rewrite step_mod by auto.
  rewrite step_mod by auto. reflexivity.
Qed.

(** the inner loop of [Feature::hash] *)
Definition inter_go (H : hasher) (dbg : bool) (seed : N) :=
  fix go (h : N) (ts : list feature) : out N :=
    match ts with
    | [] => Pn PIndex
    | [t] => let* v := feature_hash H dbg t seed in Ok (N.lxor h v)
    | t :: r => let* v := feature_hash H dbg t seed in go (fnv_mul (N.lxor h v)) r
    end.

Lemma inter_go_mix : forall H dbg seed b ts hs h,
  b <= 32 -> ts <> [] ->
  mapm (fun t => feature_hash H dbg t seed) ts = Ok hs ->
  exists r, inter_go H dbg seed (fnv_mul h) ts = Ok r /\
    r mod 2 ^ b = fold_left (mix_step b) (map (fun t => t mod 2 ^ b) hs) (h mod 2 ^ b).
Proof.
  intros H dbg seed b ts. induction ts as [|t ts IH]; intros hs h Hb Ne E; [congruence|].
  simpl in E. apply bind_ok in E. destruct E as (v & Ev & E).
  apply bind_ok in E. destruct E as (vs & Evs & E). inversion E; subst hs; clear E.
  destruct ts as [|t' ts].
  - simpl in Evs. inversion Evs; subst vs. simpl. rewrite Ev. simpl.
    eexists. split; [reflexivity|]. now apply step_mod.
  - destruct (IH vs (N.lxor (fnv_mul h) v)) as (r & Er & Hr); auto; [discriminate|].
    exists r. split.
    + cbn [inter_go]. rewrite Ev. cbn [bind]. exact Er.
    + simpl. rewrite Hr. f_equal. now apply step_mod.
Qed.

Lemma feature_hash_mix : forall H dbg seed b t0 t1 ts hs,
  b <= 32 ->
  mapm (fun t => feature_hash H dbg t seed) (t0 :: t1 :: ts) = Ok hs ->
  exists r, feature_hash H dbg (FtInter (t0 :: t1 :: ts)) seed = Ok r /\
    mask (N.ones b) r = mix b hs.
Proof.
  intros H dbg seed b t0 t1 ts hs Hb E. simpl in E. apply bind_ok in E. destruct E as (v & Ev & E).
  apply bind_ok in E. destruct E as (vs & Evs & E). inversion E; subst hs; clear E.
  destruct (inter_go_mix H dbg seed b (t1 :: ts) vs v) as (r & Er & Hr); auto; [discriminate|].
  exists r. split.
  - cbn [feature_hash]. rewrite Ev. cbn [bind]. exact Er.
  - rewrite mask_mod. exact Hr.
Qed.

Lemma hash_masking : forall H dbg nb mk seed terms hs,
  mask_from_bits dbg nb = Ok mk ->
  (2 <= length terms)%nat ->
  mapm (fun t => feature_hash H dbg t seed) terms = Ok hs ->
  exists b h, mk = N.ones b /\ (nb < 32 -> b = nb) /\
    feature_hash H dbg (FtInter terms) seed = Ok h /\
    mask mk h = mix b hs /\
    mask mk h = mix b (map (mask mk) hs) /\
    (forall x y, hs = [x; y] ->
       mask mk h = mask mk (quadratic_feature_hash (mask mk x) (mask mk y))) /\
    (forall x y z, hs = [x; y; z] ->
       mask mk h = mask mk (cubic_feature_hash (mask mk x) (mask mk y) (mask mk z))).
Proof.
  intros H dbg nb mk seed terms hs Hm L E.
  destruct (mask_from_bits_ok _ _ _ Hm) as (b & Hb & -> & Hn & _).
  destruct terms as [|t0 [|t1 ts]]; simpl in L; try lia.
  destruct (feature_hash_mix H dbg seed b t0 t1 ts hs) as (h & Eh & Hh); auto; try lia.
  assert (M : mix b (map (mask (N.ones b)) hs) = mix b hs).
  { rewrite <- (mix_map_mod b hs). f_equal. apply map_ext. intros; apply mask_mod. }
  exists b, h. split; auto. split; auto. split; auto. split; auto. split; [now rewrite M|].
  split; intros; subst hs; cbn [map] in M; rewrite Hh, <- M.
  - now rewrite quadratic_mix by lia.
  - now rewrite cubic_mix by lia.
Qed.

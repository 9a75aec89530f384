(** C12, C13, C14: property theorems about the minimum probability. *)
From Coq Require Import List NArith ZArith Bool Lia Reals Lra.
From Verif Require Import Base FloatOps FloatR FloatB32 Model_Explore Spec_Explore Proof_Explore Proof_ExploreProps.
Import ListNotations.
Open Scope R_scope.

(** C12.  A distribution stays a distribution (exact arithmetic), any rate in [0,1]. *)
Theorem C12_distribution : forall (dbg : bool) (eps : R) (consider : bool) (els : list (N * R)),
  0 <= eps <= 1 -> nonneg els -> total els = 1 ->
  exists r, enforce_min_prob dbg eps consider els = Ok r /\ nonneg r /\ total r = 1.
Proof. exact c12_distribution. Qed.
Print Assumptions C12_distribution.

(** C12.  With a positive rate the result is a distribution whatever the nonnegative
    input values are, as long as some action counts. *)
Theorem C12_any_input : forall (dbg : bool) (eps : R) (consider : bool) (els : list (N * R)) (n : nat),
  0 < eps <= 1 -> nonneg els -> ncount consider els n -> (n > 0)%nat ->
  exists r, enforce_min_prob dbg eps consider els = Ok r /\ nonneg r /\ total r = 1.
Proof. exact c12_projection. Qed.
Print Assumptions C12_any_input.

(** C12.  Above 0.999 the result is uniform over the support. *)
Theorem C12_uniform : forall (dbg : bool) (eps : R) (consider : bool) (els : list (N * R)) (n i : nat) a p,
  999 / 1000 < eps <= 1 -> nonneg els -> ncount consider els n ->
  nth_error els i = Some (a, p) -> counting consider p ->
  exists r, enforce_min_prob dbg eps consider els = Ok r /\ nth_error r i = Some (a, 1 / INR n).
Proof. exact c12_uniform. Qed.
Print Assumptions C12_uniform.

Example C12_example :
  nonneg [(4%N, 1 / 4); (5%N, 0); (6%N, 3 / 4)] /\ total [(4%N, 1 / 4); (5%N, 0); (6%N, 3 / 4)] = 1 /\
  ncount false [(4%N, 1 / 4); (5%N, 0); (6%N, 3 / 4)] 2 /\ counting false (1 / 4).
Proof.
  split. { intros a p [H|[H|[H|[]]]]; inversion H; lra. }
  split. { simpl; lra. }
  split. { apply nc_yes; [right; lra|]. apply nc_no; [intros [H|H]; [discriminate|lra]|].
           apply nc_yes; [right; lra|]. constructor. }
  right; lra.
Qed.

(** C13.  Whenever the call succeeds (positive rate): the actions keep their numbers and
    positions; who counts gets at least rate/n, who does not count stays at zero; and a
    value that was not larger than another one still is not. *)
Theorem C13_floor_and_order :
  forall (dbg : bool) (eps : R) (consider : bool) (els : list (N * R)) (n : nat) (r : list (N * R)),
  0 < eps -> nonneg els -> ncount consider els n ->
  enforce_min_prob dbg eps consider els = Ok r ->
  map fst r = map fst els /\
  (forall i a p q, nth_error els i = Some (a, p) -> nth_error r i = Some (a, q) ->
     (counting consider p -> eps / INR n <= q) /\ (~ counting consider p -> q = 0)) /\
  (forall i j a p q b p' q', nth_error els i = Some (a, p) -> nth_error r i = Some (a, q) ->
     nth_error els j = Some (b, p') -> nth_error r j = Some (b, q') -> p <= p' -> q <= q').
Proof. exact c13_entries. Qed.
Print Assumptions C13_floor_and_order.

(** C13.  A distribution that already respects the floor is returned unchanged. *)
Theorem C13_unchanged : forall (dbg : bool) (eps : R) (consider : bool) (els : list (N * R)) (n : nat),
  0 <= eps <= 999 / 1000 -> nonneg els -> total els = 1 -> ncount consider els n ->
  (forall a p, In (a, p) els -> counting consider p -> eps / INR n <= p) ->
  enforce_min_prob dbg eps consider els = Ok els.
Proof. exact c13_unchanged. Qed.
Print Assumptions C13_unchanged.

(** The bound 0.999 is needed there. *)
Theorem C13_unchanged_refuted : exists (eps : R) (els : list (N * R)) (n : nat),
  0 <= eps <= 1 /\ nonneg els /\ total els = 1 /\ ncount true els n /\
  (forall a p, In (a, p) els -> eps / INR n <= p) /\
  exists r, enforce_min_prob true eps true els = Ok r /\ r <> els.
Proof. exact c13_unchanged_false. Qed.
Print Assumptions C13_unchanged_refuted.

Example C13_example :
  (forall a p, In (a, p) [(4%N, 1 / 4); (5%N, 0); (6%N, 3 / 4)] -> counting false p -> (2 / 5) / INR 2 <= p) /\
  exists r, enforce_min_prob true (2 / 5) false [(4%N, 1 / 4); (5%N, 0); (6%N, 3 / 4)] = Ok r.
Proof.
  destruct C12_example as (H1 & H2 & H3 & _). split.
  - intros a p [H|[H|[H|[]]]]; inversion H; intros Hc; simpl; try lra. destruct Hc; [discriminate|lra].
  - destruct (C12_distribution true (2 / 5) false _ ltac:(lra) H1 H2) as (r & E & _). eauto.
Qed.

(** C14.  For every float arithmetic: an error is returned exactly for an empty list, or a
    rate that is not zero and is below 0 or above 1.  (All error returns come before
    the first write to the list, /repo/reductionml-core/src/explore.rs:8-23.) *)
Theorem C14_error_iff : forall (O : FOps) (dbg : bool) (eps : O) (consider : bool) (els : list (N * O)),
  (exists e, enforce_min_prob dbg eps consider els = Er e) <->
  (els = [] \/ (f_eqb O eps f0 = false /\ (f_ltb O eps f0 = true \/ f_ltb O f1 eps = true))).
Proof. exact c14_error. Qed.
Print Assumptions C14_error_iff.

(** C14.  No panic without a NaN probability (debug or release build). *)
Theorem C14_no_panic : forall (O : FOps) (dbg : bool) (eps : O) (consider : bool) (els : list (N * O)),
  (forall a p, In (a, p) els -> f_isnan O p = false) ->
  forall p, enforce_min_prob dbg eps consider els <> Pn p.
Proof. exact c14_no_panic. Qed.
Print Assumptions C14_no_panic.

Theorem C14_zero_rate_unchanged : forall (O : FOps) (dbg : bool) (eps : O) (consider : bool) (els : list (N * O)),
  els <> [] -> f_eqb O eps f0 = true -> enforce_min_prob dbg eps consider els = Ok els.
Proof. exact c14_zero. Qed.
Print Assumptions C14_zero_rate_unchanged.

(** C14.  At binary32 a NaN rate is accepted. *)
Theorem C14_nan_rate_accepted : forall bexp bln bpow (dbg consider : bool) (els : list (N * BF bexp bln bpow)),
  els <> [] -> (forall a p, In (a, p) els -> f_isnan (BF bexp bln bpow) p = false) ->
  exists r, enforce_min_prob (O := BF bexp bln bpow) dbg Floats.SpecFloat.S754_nan consider els = Ok r.
Proof. exact c14_nan_rate. Qed.
Print Assumptions C14_nan_rate_accepted.

Example C14_example :
  f_ltb BF0 (b_lit (-1) 2) f0 = true /\ f_ltb BF0 f1 (b_lit 3 2) = true /\
  f_eqb BF0 (Floats.SpecFloat.S754_zero true) f0 = true /\
  f_isnan BF0 (Floats.SpecFloat.S754_infinity false) = false.
Proof. repeat split; vm_compute; reflexivity. Qed.

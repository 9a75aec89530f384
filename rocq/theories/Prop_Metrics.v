(** C30, C31: property theorems about metrics and progress output. *)
From Coq Require Import List NArith ZArith Bool Reals.
From Verif Require Import Base FloatOps FloatR FloatB32 Model_Hash Model_Features Model_Types Model_Stack Model_Metrics
  Model_Train Spec_Metrics Proof_Metrics.
Import ListNotations.

(** C30.  Mean squared error in exact arithmetic; points of other types panic. *)
Theorem C30_mse : forall (l : list (point RF)),
  (forall xs, Forall2 squared_error l xs -> exists m, add_points mse_new l = Ok m /\
     forall dbg, metric_value dbg m = Ok (MVFloat (meanR xs))) /\
  (forall m, add_points mse_new l = Ok m -> exists xs, Forall2 squared_error l xs).
Proof. exact mse_is_mean. Qed.
Print Assumptions C30_mse.

(** C30.  The estimated reward in exact arithmetic. *)
Theorem C30_ips : forall (l : list (point RF)),
  (forall xs, Forall2 ips_reward l xs -> exists m, add_points ips_new l = Ok m /\
     forall dbg, metric_value dbg m = Ok (MVFloat (meanR xs))) /\
  (forall m, add_points ips_new l = Ok m -> exists xs, Forall2 ips_reward l xs).
Proof. exact ips_is_mean. Qed.
Print Assumptions C30_ips.

Example C30_satisfiable :
  Forall2 squared_error [mkPt (FtsSimple sf_new) (LbSimple 3%R 1%R) (PrScalar 1%R 1%R)] [((3 - 1) * (3 - 1))%R] /\
  Forall2 ips_reward [mkPt (FtsCb None []) (LbCb 1 2%R (1/2)%R) (PrProbs ([(0%N, 0.25%R)] ++ (1%N, 0.75%R) :: []))]
    [(- (2) * (0.75 / (1/2)))%R].
Proof.
  split; constructor; constructor. simpl. intros [E|[]]. discriminate.
Qed.

(** C30.  The number of features, in any arithmetic; it panics from 2^31 on. *)
Theorem C30_parsed_features : forall (O : FOps) (l : list (point O)), exists m, add_points parsed_new l = Ok m /\ forall dbg,
  ((total_features l < N.to_nat 2147483648)%nat -> metric_value dbg m = Ok (MVInt (Z.of_nat (total_features l)))) /\
  ((N.to_nat 2147483648 <= total_features l)%nat -> metric_value dbg m = Pn PErr).
Proof. exact @parsed_is_total. Qed.
Print Assumptions C30_parsed_features.

(** C30.  The index of the last example; a panic before the first. *)
Theorem C30_example_number : forall (O : FOps) (l : list (point O)), exists m, add_points example_new l = Ok m /\ forall dbg,
  (l = [] -> exists p, metric_value dbg m = Pn p) /\
  ((0 < length l < N.to_nat 2147483648)%nat -> metric_value dbg m = Ok (MVInt (Z.of_nat (length l) - 1))).
Proof. exact @example_is_last. Qed.
Print Assumptions C30_example_number.

(** C30.  A training run on an empty file that is not quiet panics. *)
Theorem C30_empty_run : forall (O : FOps) H pf dbg preds seed nb names (p : period O) n (r : red O n) pool,
  exists x, train H pf dbg (mkMode false preds) seed nb names p r pool [] = Pn x.
Proof. exact @empty_run_panics. Qed.
Print Assumptions C30_empty_run.

(** C31.  Additive period. *)
Theorem C31_additive : forall (O : FOps) dbg columns p n, (0 < p)%N -> (N.of_nat n + p <= 4294967296)%N ->
  exists bs, outputs dbg (@mgr_new O (Additive p) columns) n = Ok bs /\ length bs = n /\
    forall j, (j < n)%nat -> (nth j bs false = true <-> (p | N.of_nat j)%N).
Proof. exact additive_schedule. Qed.
Print Assumptions C31_additive.

(** C31.  Multiplicative period 2, in binary32 arithmetic. *)
Theorem C31_doubling : forall e l p dbg columns n, (N.of_nat n <= 4294967295)%N ->
  exists bs, outputs dbg (@mgr_new (BF e l p) (Multiplicative (@f_of_N (BF e l p) 2)) columns) n = Ok bs /\ length bs = n /\
    forall j, (j < n)%nat -> (nth j bs false = true <-> j = 0%nat \/ exists i, N.of_nat j = (2 ^ i)%N).
Proof. exact doubling_schedule. Qed.
Print Assumptions C31_doubling.

Example C31_satisfiable :
  outputs true (@mgr_new BF0 (Additive 3) 1) 7 = Ok [true; false; false; true; false; false; true] /\
  outputs true (@mgr_new BF0 (Multiplicative (@f_of_N BF0 2)) 1) 9 =
    Ok [true; true; true; false; true; false; false; false; true].
Proof. split; vm_compute; reflexivity. Qed.

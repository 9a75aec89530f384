(** C05, C06, C07: property theorems about weight tables. *)
From Coq Require Import List NArith ZArith Bool Lia Permutation.
From Coq Require Import Floats.SpecFloat.
From Verif Require Import Base FloatOps FloatB32 Model_Weights Spec_Weights Proof_WeightsProps.
Import ListNotations.
Open Scope N_scope.

(** C05.  Cells of different (feature, model) pairs are disjoint and inside the table. *)
Theorem C05_cells_disjoint :
  forall (O : FOps) (dbg : bool) (f m s : N) (w : dweights O) (fi mi fi' mi' : N),
  0 < f < 2 ^ 32 -> 0 < m < 2 ^ 8 -> 0 < s < 2 ^ 8 ->
  dw_new O dbg f m s = Ok w ->
  fi < f -> mi < m -> fi' < f -> mi' < m -> (fi, mi) <> (fi', mi') ->
  exists i i', dw_index dbg w fi mi = Ok i /\ dw_index dbg w fi' mi' = Ok i' /\
    (i + s <= i' \/ i' + s <= i) /\
    i + s <= N.of_nat (length (dw_w w)).
Proof. exact @cells_disjoint. Qed.
Print Assumptions C05_cells_disjoint.

(** C05.  A new table exists for all positive sizes, and after any sequence of state
    writes every read gives the last state written to that pair (zeros at first). *)
Theorem C05_table_is_a_map :
  forall (O : FOps) (dbg : bool) (f m s : N) (ops : list (wop O)),
  0 < f < 2 ^ 32 -> 0 < m < 2 ^ 8 -> 0 < s < 2 ^ 8 ->
  Forall (wop_ok f m s) ops ->
  exists w0 w, dw_new O dbg f m s = Ok w0 /\ foldm (wop_run dbg) ops w0 = Ok w /\
    forall fi mi, fi < f -> mi < m ->
      dw_state_at dbg w fi mi = Ok (last_write s ops fi mi) /\
      dw_weight_at dbg w fi mi = Ok (nth 0 (last_write s ops fi mi) f0).
Proof. exact @table_refines. Qed.
Print Assumptions C05_table_is_a_map.

(** sizes that are no powers of two *)
Example C05_satisfiable :
  Forall (wop_ok 5 3 6) [(4, 2, repeat (@f1 BF0) 6); (0, 0, repeat (@f0 BF0) 6)] /\
  exists w, dw_new BF0 true 5 3 6 = Ok w /\ length (dw_w w) = 256%nat.
Proof.
  split; [repeat constructor; lia|]. eexists. split; [vm_compute; reflexivity|reflexivity].
Qed.

(** C06.  Saving a weight vector in the sparse form and loading it gives a vector of
    the same length in which every value is the old one, or both are zeros.  The
    bound on the length holds for every Rust vector of f32. *)
Theorem C06_sparse_roundtrip :
  forall (O : FOps) (l : list O),
  4 * N.of_nat (length l) < 9223372036854775808 ->
  exists l', sv_to_dense (sv_from_dense l) = Ok l' /\ Forall2 zero_same l l'.
Proof. exact @sparse_roundtrip_same. Qed.
Print Assumptions C06_sparse_roundtrip.

Example C06_satisfiable : exists l',
  sv_to_dense (@sv_from_dense BF0 [f0; @f1 BF0; S754_nan; S754_zero true; S754_infinity true]) = Ok l' /\
  l' = [@f0 BF0; @f1 BF0; S754_nan; @f0 BF0; S754_infinity true].
Proof. eexists. split; vm_compute; reflexivity. Qed.

(** C06, C07.  At binary32 the only possible change is from a zero (of any sign) to
    the positive zero; in particular NaN and infinities are kept. *)
Theorem C06_zero_same_binary32 :
  forall e l p (x y : b32), @zero_same (BF e l p) x y ->
  (y = x \/ (exists s, x = S754_zero s) /\ y = S754_zero false).
Proof. exact zero_same_b32. Qed.
Print Assumptions C06_zero_same_binary32.

(** C07.  For every table reached from a new one by state writes, the per-feature
    form exists, and converting it back, visiting the hash map in any order, gives a
    table of the same shape with the same weights up to the sign of zeros. *)
Theorem C07_ndarray_roundtrip :
  forall (O : FOps) (dbg : bool) (f m s : N) (ops : list (wop O)) (w0 w : dweights O),
  0 < f < 2 ^ 32 -> 0 < m < 2 ^ 8 -> 0 < s < 2 ^ 8 ->
  Forall (wop_ok f m s) ops ->
  dw_new O dbg f m s = Ok w0 -> foldm (wop_run dbg) ops w0 = Ok w ->
  exists nd, nd_from_dense dbg w = Ok nd /\
    forall perm, Permutation perm (nd_map nd) ->
    exists w', nd_to_dense dbg (mkNd perm (nd_fsize nd) (nd_msize nd) (nd_ssize nd) (nd_mshift nd) (nd_sshift nd)) = Ok w' /\
      same_shape w' w /\ Forall2 zero_same (dw_w w) (dw_w w').
Proof. exact @ndarray_roundtrip. Qed.
Print Assumptions C07_ndarray_roundtrip.

Example C07_satisfiable : exists w0 w nd,
  dw_new BF0 true 5 3 6 = Ok w0 /\
  foldm (wop_run true) [(4, 2, repeat (@f1 BF0) 6); (1, 0, repeat f1 6)] w0 = Ok w /\
  nd_from_dense true w = Ok nd /\ map fst (nd_map nd) = [1; 4].
Proof.
  eexists. eexists. eexists. split; [vm_compute; reflexivity|]. split; [vm_compute; reflexivity|].
  split; [vm_compute; reflexivity|reflexivity].
Qed.

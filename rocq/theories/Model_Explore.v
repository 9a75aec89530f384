(** Minimum probability: /repo/reductionml-core/src/explore.rs:3-78. *)
From Coq Require Import List NArith ZArith Bool.
From Verif Require Import Base FloatOps.
Import ListNotations.
Open Scope N_scope.

(** [slice::sort_by]: a stable sort.  [before x y] says that the comparator puts [y]
    strictly before [x].  Insertion from the right is stable, and the result of a
    stable sort by a total preorder is unique. *)
Fixpoint insert_by {A} (before : A -> A -> bool) (x : A) (l : list A) : list A :=
  match l with
  | [] => [x]
  | y :: r => if before x y then y :: insert_by before x r else x :: y :: r
  end.
Definition sort_by {A} (before : A -> A -> bool) (l : list A) : list A :=
  fold_right (insert_by before) [] l.

(** usize subtraction *)
Definition usub (dbg : bool) (a b : N) : out N :=
  if b <=? a then Ok (a - b) else if dbg then Pn POverflow else Ok (a + 18446744073709551616 - b).

Section Explore.
Context (O : FOps).

(** line 45: sorting with [partial_cmp(..).unwrap()] panics if a NaN is compared;
    with two or more elements every element is compared. *)
Definition sort_desc (l : list (N * O)) : out (list (N * O)) :=
  if (2 <=? length l)%nat && existsb (fun e => f_isnan O (snd e)) l then Pn PNaN
  else Ok (sort_by (fun x y => f_ltb O (snd x) (snd y)) l).

(** lines 52-67: the loop over the sorted copy; returns (rho_idx, rho_sum). *)
Fixpoint rho_loop (dbg consider : bool) (support : N) (minp : O) (l : list (N * O))
    (idx : N) (running : O) (rho : N * O) : out (N * O) :=
  match l with
  | [] => Ok rho
  | (_, prob) :: r =>
      if negb consider && f_eqb O prob f0 then Ok rho
      else
        let running := f_add O running prob in
        let* d := usub dbg support idx in
        let* d := usub dbg d 1 in
        let bound :=
          f_add O (f_div O (f_sub O (f_add O (f_mul O (f_of_N d) minp) running) f1)
                           (f_add O (f_of_N idx) f1)) minp in
        let rho := if f_gtb prob bound then (idx, running) else rho in
        rho_loop dbg consider support minp r (idx + 1) running rho
  end.

(** lines 26-30 *)
Definition support_size (consider : bool) (els : list (N * O)) : N :=
  let n := N.of_nat (length els) in
  if consider then n
  else n - N.of_nat (length (filter (fun e => f_eqb O (snd e) f0) els)).

Definition counts (consider : bool) (p : O) : bool := consider || f_gtb p f0.

Definition lit_0999 : O := f_lit O 999 1000.

(** lines 3-78 [enforce_min_prob].  The slice is returned; on [Er] it is unchanged. *)
Definition enforce_min_prob (dbg : bool) (eps : O) (consider : bool) (els : list (N * O))
  : out (list (N * O)) :=
  match els with
  | [] => Er EInvalidArgument
  | _ =>
    if f_eqb O eps f0 then Ok els
    else if f_ltb O eps f0 || f_gtb eps f1 then Er EInvalidArgument
    else
      let support := support_size consider els in
      if f_gtb eps lit_0999 then
        Ok (map (fun e => if counts consider (snd e)
                          then (fst e, f_div O f1 (f_of_N support)) else e) els)
      else
        let minp := f_div O eps (f_of_N support) in
        let* sorted := sort_desc els in
        let* first := opt_or PIndex (hd_error sorted) in
        let* rho := rho_loop dbg consider support minp sorted 0 f0 (0, snd first) in
        let tau :=
          f_div O (f_sub O (f_add O (f_mul O (f_sub O (f_sub O (f_of_N support) (f_of_N (fst rho))) f1) minp)
                                    (snd rho)) f1)
                  (f_add O (f_of_N (fst rho)) f1) in
        Ok (map (fun e => if counts consider (snd e)
                          then (fst e, f_max (f_sub O (snd e) tau) minp) else e) els)
  end.

End Explore.
Arguments sort_desc {O}. Arguments rho_loop {O}. Arguments support_size {O}. Arguments counts {O}.
Arguments enforce_min_prob {O}.

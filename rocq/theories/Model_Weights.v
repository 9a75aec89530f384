(** Weight tables and feature enumeration:
    /repo/reductionml-core/src/dense_weights.rs and weights.rs. *)
From Coq Require Import List NArith ZArith Bool.
From Verif Require Import Base FloatOps Model_Hash Model_Features.
Import ListNotations.
Open Scope N_scope.

Definition u64_mod : N := 18446744073709551616.

(** dense_weights.rs:12-14 [64 - leading_zeros] *)
Definition num_bits_to_represent (v : N) : N := N.size v.

(** [x as u64 - 1]: panics on 0 with overflow checks, else wraps. *)
Definition sub1_64 (dbg : bool) (x : N) : out N :=
  if x =? 0 then (if dbg then Pn POverflow else Ok (u64_mod - 1)) else Ok (x - 1).

(** [1 << a] in usize (64 bit). *)
Definition shl1_64 (dbg : bool) (a : N) : out N :=
  if a <? 64 then Ok (2 ^ a) else if dbg then Pn POverflow else Ok (2 ^ (a mod 64)).

(** usize multiplication *)
Definition mul64 (dbg : bool) (a b : N) : out N :=
  if a * b <? u64_mod then Ok (a * b) else if dbg then Pn POverflow else Ok ((a * b) mod u64_mod).

(** dense_weights.rs:16-30 [DenseWeights] *)
Record dweights (A : Type) : Type := mkDw {
  dw_w : list A;
  dw_fsize : N;
  dw_msize : N;
  dw_ssize : N;
  dw_mshift : N;
  dw_sshift : N
}.

(** dense_weights.rs:141-169 [SparseF32Vec] *)
Record sparse_vec (A : Type) : Type := mkSv { sv_len : N; sv_pairs : list (N * A) }.

(** dense_weights.rs:63-73 [DenseWeightsWithNDArray]; the hash map is a list of
    entries with distinct keys. *)
Record ndweights (A : Type) : Type := mkNd {
  nd_map : list (N * list (list A));
  nd_fsize : N;
  nd_msize : N;
  nd_ssize : N;
  nd_mshift : N;
  nd_sshift : N
}.

Arguments mkDw {A}. Arguments dw_w {A}. Arguments dw_fsize {A}. Arguments dw_msize {A}.
Arguments dw_ssize {A}. Arguments dw_mshift {A}. Arguments dw_sshift {A}.
Arguments mkSv {A}. Arguments sv_len {A}. Arguments sv_pairs {A}.
Arguments mkNd {A}. Arguments nd_map {A}. Arguments nd_fsize {A}. Arguments nd_msize {A}.
Arguments nd_ssize {A}. Arguments nd_mshift {A}. Arguments nd_sshift {A}.

Section Weights.
Context (O : FOps).
Local Notation dweights := (dweights O).
Local Notation sparse_vec := (sparse_vec O).
Local Notation ndweights := (ndweights O).

(** [vec![0.0; len]]: more than isize::MAX bytes is a capacity overflow panic; an
    allocation the machine cannot satisfy is not modelled. *)
Definition vec_zeros (len : N) : out (list O) :=
  if 4 * len <? 9223372036854775808 then Ok (repeat f0 (N.to_nat len)) else Pn PAlloc.

(** [(1 << a) * (1 << b) * (1 << c)] *)
Definition table_len (dbg : bool) (a b c : N) : out N :=
  let* x := shl1_64 dbg a in
  let* y := shl1_64 dbg b in
  let* xy := mul64 dbg x y in
  let* z := shl1_64 dbg c in
  mul64 dbg xy z.

(** dense_weights.rs:206-234 [DenseWeights::new].  The [u8::try_from] of shifts
    (at most 64) cannot fail. *)
Definition dw_new (dbg : bool) (fsize msize ssize : N) : out dweights :=
  let* f' := sub1_64 dbg fsize in
  let fshift := num_bits_to_represent f' in
  let* m' := sub1_64 dbg msize in
  let mshift := num_bits_to_represent m' in
  let* s' := sub1_64 dbg ssize in
  let sshift := num_bits_to_represent s' in
  if 64 <? fshift + mshift + sshift then Pn PAssert
  else
    let* len := table_len dbg fshift mshift sshift in
    let* w := vec_zeros len in
    Ok (mkDw w fsize msize ssize mshift sshift).

(** dense_weights.rs:191-204 [convert_index]; the shifts are at most 8+8 bits on a
    u32, so nothing is shifted out of the 64-bit index. *)
Definition dw_index (dbg : bool) (w : dweights) (fi mi : N) : out N :=
  if dbg && negb ((fi <? dw_fsize w) && (mi <? dw_msize w)) then Pn PAssert
  else Ok (N.shiftl fi (dw_mshift w + dw_sshift w) + N.shiftl mi (dw_sshift w)).

(** [&v[i..i+n]] *)
Definition slice (i n : nat) (l : list O) : out (list O) :=
  if Nat.leb (i + n) (length l) then Ok (firstn n (skipn i l)) else Pn PIndex.

Definition write_slice (i : nat) (st l : list O) : list O :=
  firstn i l ++ st ++ skipn (i + length st) l.

(** dense_weights.rs:238-241 [weight_at] *)
Definition dw_weight_at (dbg : bool) (w : dweights) (fi mi : N) : out O :=
  let* i := dw_index dbg w fi mi in
  opt_or PIndex (nth_error (dw_w w) (N.to_nat i)).

(** dense_weights.rs:248-251 [state_at] *)
Definition dw_state_at (dbg : bool) (w : dweights) (fi mi : N) : out (list O) :=
  let* i := dw_index dbg w fi mi in
  slice (N.to_nat i) (N.to_nat (dw_ssize w)) (dw_w w).

(** dense_weights.rs:253-256 [state_at_mut], followed by an update of the slice
    through the mutable reference (a slice keeps its length). *)
Definition dw_state_upd (dbg : bool) (w : dweights) (fi mi : N) (g : list O -> out (list O))
  : out dweights :=
  let* i := dw_index dbg w fi mi in
  let* st := slice (N.to_nat i) (N.to_nat (dw_ssize w)) (dw_w w) in
  let* st' := g st in
  Ok (mkDw (write_slice (N.to_nat i) st' (dw_w w)) (dw_fsize w) (dw_msize w) (dw_ssize w)
           (dw_mshift w) (dw_sshift w)).

(** lines 148-160 [from_dense] *)
Definition sv_from_dense (l : list O) : sparse_vec :=
  mkSv (N.of_nat (length l))
       (filter (fun p => negb (f_eqb O (snd p) f0)) (enum_from 0 l)).

(** lines 162-168 [to_dense]: [vec[*index] = *value] panics out of bounds *)
Definition sv_to_dense (v : sparse_vec) : out (list O) :=
  let* z := vec_zeros (sv_len v) in
  foldm (fun acc p =>
           if (N.to_nat (fst p) <? length acc)%nat then Ok (upd (N.to_nat (fst p)) (snd p) acc)
           else Pn PIndex) (sv_pairs v) z.

(** [0..n] *)
Definition N_range (n : N) : list N := map N.of_nat (seq 0 (N.to_nat n)).

(** lines 76-107 [from_dense_weights] *)
Definition nd_from_dense (dbg : bool) (w : dweights) : out ndweights :=
  let* rows :=
    mapm (fun i =>
            let* v := mapm (fun j => dw_state_at dbg w i j) (N_range (dw_msize w)) in
            Ok (i, v)) (N_range (dw_fsize w)) in
  Ok (mkNd (filter (fun r => existsb (existsb (fun x => negb (f_eqb O x f0))) (snd r)) rows)
           (dw_fsize w) (dw_msize w) (dw_ssize w) (dw_mshift w) (dw_sshift w)).

(** lines 109-138 [to_dense_weights]; [model_index as u8] wraps modulo 256;
    [copy_from_slice] panics on different lengths. *)
Definition nd_to_dense (dbg : bool) (d : ndweights) : out dweights :=
  let* f' := sub1_64 dbg (nd_fsize d) in
  let* len := table_len dbg (num_bits_to_represent f') (nd_mshift d) (nd_sshift d) in
  let* z := vec_zeros len in
  foldm (fun w row =>
           foldm (fun w js =>
                    dw_state_upd dbg w (fst row) (fst js mod 256)
                      (fun st => if Nat.eqb (length st) (length (snd js)) then Ok (snd js) else Pn PAssert))
                 (enum_from 0 (snd row)) w)
        (nd_map d)
        (mkDw z (nd_fsize d) (nd_msize d) (nd_ssize d) (nd_mshift d) (nd_sshift d)).

(** weights.rs:33-91, the body of the generated [foreach_feature*] functions: the
    list of (index, value) handed to the callback, in order.  In Rust the weight
    access and the callback are interleaved with the enumeration; only the reason
    of a panic can differ from computing the list first. *)
Definition fe_quadratic (mk : N) (m : sfeats O) (p : namespace * namespace) : list (N * O) :=
  let '(n1, n2) := p in
  let same_ns := ns_eqb n1 n2 in
  match sf_get n1 m with
  | None => []
  | Some a =>
      flat_map (fun ix =>
        let '(i, (idx1, v1)) := ix in
        let multiplied := fnv_mul idx1 in
        match sf_get n2 m with
        | None => []
        | Some b =>
            map (fun q => (mask mk (N.lxor multiplied (fst q)), f_mul O v1 (snd q)))
                (skipn (if same_ns then N.to_nat i else 0%nat) (sfn_iter b))
        end) (enum_from 0 (sfn_iter a))
  end.

Definition fe_cubic (mk : N) (m : sfeats O) (p : namespace * namespace * namespace) : list (N * O) :=
  let '(n1, n2, n3) := p in
  let same_ns := ns_eqb n1 n2 in
  let same_ns2 := ns_eqb n2 n3 in
  match sf_get n1 m with
  | None => []
  | Some a =>
      flat_map (fun ix =>
        let '(i, (idx1, v1)) := ix in
        let halfhash1 := fnv_mul idx1 in
        match sf_get n2 m with
        | None => []
        | Some b =>
            flat_map (fun q =>
              let halfhash2 := fnv_mul (N.lxor halfhash1 (fst q)) in
              match sf_get n3 m with
              | None => []
              | Some c =>
                  (* weights.rs:72: the skip uses [i], the position in the FIRST namespace *)
                  map (fun r => (mask mk (N.lxor halfhash2 (fst r)),
                                 f_mul O (f_mul O v1 (snd q)) (snd r)))
                      (skipn (if same_ns2 then N.to_nat i else 0%nat) (sfn_iter c))
              end) (skipn (if same_ns then N.to_nat i else 0%nat) (sfn_iter b))
        end) (enum_from 0 (sfn_iter a))
  end.

(** weights.rs:18-93: all features, interactions and the constant *)
Definition fe_list (dbg : bool) (m : sfeats O) (pairs : list (namespace * namespace))
    (triples : list (namespace * namespace * namespace)) (nb : N) (const : bool)
  : out (list (N * O)) :=
  let* mk := mask_from_bits dbg nb in
  let* c := if const then (let* i := constant_feature_index dbg nb in Ok [(i, f1)]) else Ok [] in
  Ok (sf_all m
      ++ flat_map (fe_quadratic mk m) pairs
      ++ flat_map (fe_cubic mk m) triples
      ++ c).

End Weights.
Arguments dw_index {O}. Arguments slice {O}. Arguments write_slice {O}.
Arguments dw_weight_at {O}. Arguments dw_state_at {O}. Arguments dw_state_upd {O}.
Arguments sv_from_dense {O}. Arguments sv_to_dense {O}.
Arguments nd_from_dense {O}. Arguments nd_to_dense {O}.
Arguments fe_quadratic {O}. Arguments fe_cubic {O}. Arguments fe_list {O}.

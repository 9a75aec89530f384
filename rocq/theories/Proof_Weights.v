(** C05, C06, C07: weight tables. *)
From Coq Require Import List NArith ZArith Bool Lia Permutation.
From Verif Require Import Base FloatOps FloatB32 Model_Hash Model_Features Model_Weights.
Import ListNotations.
Open Scope N_scope.

(** ** Slices *)
Section Slices.
Context {O : FOps}.
Implicit Types l st : list O.

Lemma slice_ok : forall i n l, (i + n <= length l)%nat -> slice i n l = Ok (firstn n (skipn i l)).
Proof. intros. unfold slice. rewrite (proj2 (Nat.leb_le _ _)); auto. Qed.

Lemma slice_inv : forall i n l st, slice i n l = Ok st ->
  (i + n <= length l)%nat /\ st = firstn n (skipn i l) /\ length st = n.
Proof.
  intros i n l st. unfold slice. destruct (Nat.leb (i + n) (length l)) eqn:E; [|discriminate].
  apply Nat.leb_le in E. intros H; inversion H; subst. split; auto. split; auto.
  rewrite firstn_length, skipn_length. lia.
Qed.

Lemma write_slice_length : forall i st l, (i + length st <= length l)%nat ->
  length (write_slice i st l) = length l.
Proof.
  intros. unfold write_slice. rewrite !app_length, firstn_length, skipn_length. lia.
Qed.

Lemma write_slice_nth : forall i st l j d, (i + length st <= length l)%nat ->
  nth j (write_slice i st l) d =
  if (Nat.leb i j && Nat.ltb j (i + length st))%bool then nth (j - i) st d else nth j l d.
Proof.
  intros i st l j d H. unfold write_slice.
  destruct (Nat.leb i j) eqn:E1; simpl.
  - apply Nat.leb_le in E1. rewrite app_nth2; rewrite firstn_length; [|lia].
    replace (Nat.min i (length l)) with i by lia.
    destruct (Nat.ltb j (i + length st)) eqn:E2.
    + apply Nat.ltb_lt in E2. rewrite app_nth1 by lia. reflexivity.
    + apply Nat.ltb_ge in E2. rewrite app_nth2 by lia.
      rewrite <- (firstn_skipn (i + length st) l) at 2. rewrite app_nth2; rewrite firstn_length; [|lia].
      f_equal. lia.
  - apply Nat.leb_gt in E1. rewrite app_nth1 by (rewrite firstn_length; lia).
    rewrite <- (firstn_skipn i l) at 2. rewrite app_nth1 by (rewrite firstn_length; lia). reflexivity.
Qed.

Lemma slice_nth : forall i n l j d, (j < n)%nat -> nth j (firstn n (skipn i l)) d = nth (i + j) l d.
Proof.
  intros i n l j d H. revert l; induction i as [|i IH]; intros l; simpl.
  - revert l j H. induction n as [|n IHn]; intros l j H; [lia|]. destruct l; simpl; [now destruct j|].
    destruct j; auto. apply IHn. lia.
  - destruct l; simpl; auto. rewrite firstn_nil. now destruct j.
Qed.

Lemma slice_write_same : forall i st l, (i + length st <= length l)%nat ->
  slice i (length st) (write_slice i st l) = Ok st.
Proof.
  intros i st l H. rewrite slice_ok by (rewrite write_slice_length; lia). f_equal.
  assert (L : length (firstn (length st) (skipn i (write_slice i st l))) = length st).
  { rewrite firstn_length, skipn_length, write_slice_length by auto. lia. }
  apply nth_ext with (d := f0) (d' := f0); auto.
  intros j Hj. rewrite L in Hj. rewrite slice_nth by auto. rewrite write_slice_nth by auto.
  rewrite (proj2 (Nat.leb_le _ _)) by lia. rewrite (proj2 (Nat.ltb_lt _ _)) by lia. simpl.
  f_equal. lia.
Qed.

Lemma slice_write_other : forall i st l j n, (i + length st <= length l)%nat ->
  (j + n <= i \/ i + length st <= j)%nat ->
  slice j n (write_slice i st l) = slice j n l.
Proof.
  intros i st l j n H D. unfold slice. rewrite write_slice_length by auto.
  destruct (Nat.leb (j + n) (length l)) eqn:E; auto. apply Nat.leb_le in E. f_equal.
  assert (L : forall l', length l' = length l -> length (firstn n (skipn j l')) = n).
  { intros l' Hl. rewrite firstn_length, skipn_length. lia. }
  apply nth_ext with (d := f0) (d' := f0).
  - rewrite !L; auto. now apply write_slice_length.
  - intros k Hk. rewrite L in Hk by now apply write_slice_length.
    rewrite !slice_nth by auto. rewrite write_slice_nth by auto.
    destruct (Nat.leb i (j + k)) eqn:E1; auto. apply Nat.leb_le in E1.
    destruct (Nat.ltb (j + k) (i + length st)) eqn:E2; auto. apply Nat.ltb_lt in E2. lia.
Qed.

Lemma write_slice_id : forall i n l st, slice i n l = Ok st -> write_slice i st l = l.
Proof.
  intros i n l st H. apply slice_inv in H. destruct H as (L & E & Ls).
  apply nth_ext with (d := f0) (d' := f0).
  - apply write_slice_length. lia.
  - intros j _. rewrite write_slice_nth by lia.
    destruct (Nat.leb i j) eqn:E1; auto. apply Nat.leb_le in E1.
    destruct (Nat.ltb j (i + length st)) eqn:E2; auto. apply Nat.ltb_lt in E2.
    simpl. rewrite E, slice_nth by lia. f_equal. lia.
Qed.
End Slices.

(** ** Index arithmetic *)
Lemma size_bound : forall n, n <> 0 -> 2 ^ N.size (n - 1) < 2 * n /\ n <= 2 ^ N.size (n - 1).
Proof.
  intros n H. destruct (N.eq_dec (n - 1) 0) as [E|E].
  - rewrite E. change (N.size 0) with 0. rewrite N.pow_0_r. lia.
  - split.
    + pose proof (N.size_le (n - 1)). lia.
    + pose proof (N.size_gt (n - 1)). lia.
Qed.

Lemma size_le_bits : forall n k, n <= 2 ^ k -> N.size (n - 1) <= k.
Proof.
  intros n k H. destruct (N.eq_dec (n - 1) 0) as [E|E]; [rewrite E; simpl; lia|].
  rewrite N.size_log2 by auto. apply N.le_succ_l. apply N.log2_lt_pow2; lia.
Qed.

(** Cells of (fi, mi): mixed radix representation. *)
Definition cell (msh ssh fi mi : N) : N := N.shiftl fi (msh + ssh) + N.shiftl mi ssh.

Lemma cell_eq : forall msh ssh fi mi, cell msh ssh fi mi = (fi * 2 ^ msh + mi) * 2 ^ ssh.
Proof.
  intros. unfold cell. rewrite !N.shiftl_mul_pow2, N.pow_add_r. lia.
Qed.

Lemma cell_bound : forall fsh msh ssh fi mi s,
  fi < 2 ^ fsh -> mi < 2 ^ msh -> s <= 2 ^ ssh ->
  cell msh ssh fi mi + s <= 2 ^ fsh * 2 ^ msh * 2 ^ ssh.
Proof.
  intros. rewrite cell_eq.
  assert (fi * 2 ^ msh + mi + 1 <= 2 ^ fsh * 2 ^ msh) by nia.
  nia.
Qed.

Lemma cell_disjoint : forall msh ssh fi mi fi' mi' s,
  mi < 2 ^ msh -> mi' < 2 ^ msh -> s <= 2 ^ ssh ->
  (fi, mi) <> (fi', mi') ->
  cell msh ssh fi mi + s <= cell msh ssh fi' mi' \/ cell msh ssh fi' mi' + s <= cell msh ssh fi mi.
Proof.
  intros msh ssh fi mi fi' mi' s Hm Hm' Hs Ne. rewrite !cell_eq.
  assert (D : fi * 2 ^ msh + mi <> fi' * 2 ^ msh + mi').
  { intros E. apply Ne.
    assert (P : 2 ^ msh <> 0) by (apply N.pow_nonzero; lia).
    assert (fi = fi').
    { rewrite (N.div_unique (fi * 2 ^ msh + mi) (2 ^ msh) fi mi) by lia.
      rewrite (N.div_unique (fi' * 2 ^ msh + mi') (2 ^ msh) fi' mi') by lia. now rewrite E. }
    subst. f_equal. lia. }
  set (x := fi * 2 ^ msh + mi) in *. set (y := fi' * 2 ^ msh + mi') in *.
  destruct (N.lt_trichotomy x y) as [L|[L|L]]; [left|congruence|right]; nia.
Qed.

(** ** Tables *)
Section Tables.
Context {O : FOps}.
Implicit Types w : dweights O.

(** tables whose shape is the one made by [dw_new] *)
Definition dw_wf w : Prop :=
  dw_fsize w <> 0 /\ dw_msize w <> 0 /\ dw_ssize w <> 0 /\
  dw_fsize w < 2 ^ 32 /\ dw_msize w < 2 ^ 8 /\ dw_ssize w < 2 ^ 8 /\
  dw_mshift w = N.size (dw_msize w - 1) /\ dw_sshift w = N.size (dw_ssize w - 1) /\
  N.of_nat (length (dw_w w)) =
    2 ^ N.size (dw_fsize w - 1) * 2 ^ dw_mshift w * 2 ^ dw_sshift w.

Lemma sub1_ok : forall dbg x, x <> 0 -> sub1_64 dbg x = Ok (x - 1).
Proof. intros dbg x H. unfold sub1_64. apply N.eqb_neq in H. now rewrite H. Qed.

Lemma table_len_ok : forall dbg a b c, a <= 32 -> b <= 8 -> c <= 8 ->
  table_len dbg a b c = Ok (2 ^ a * 2 ^ b * 2 ^ c).
Proof.
  intros dbg a b c Ha Hb Hc. unfold table_len, shl1_64, mul64.
  rewrite (proj2 (N.ltb_lt a 64)), (proj2 (N.ltb_lt b 64)), (proj2 (N.ltb_lt c 64)) by lia.
  cbn [bind].
  rewrite <- !N.pow_add_r. change u64_mod with (2 ^ 64).
  rewrite (proj2 (N.ltb_lt (2 ^ (a + b)) (2 ^ 64))) by (apply N.pow_lt_mono_r; lia).
  cbn [bind]. rewrite <- !N.pow_add_r.
  rewrite (proj2 (N.ltb_lt (2 ^ (a + b + c)) (2 ^ 64))) by (apply N.pow_lt_mono_r; lia).
  reflexivity.
Qed.

Lemma vec_zeros_ok : forall k, k <= 48 -> vec_zeros O (2 ^ k) = Ok (repeat f0 (N.to_nat (2 ^ k))).
Proof.
  intros k H. unfold vec_zeros. rewrite (proj2 (N.ltb_lt _ _)); auto.
  assert (2 ^ k <= 2 ^ 48) by (apply N.pow_le_mono_r; lia).
  change (2 ^ 48) with 281474976710656 in H0. lia.
Qed.

Lemma dw_new_ok : forall dbg f m s,
  f <> 0 -> m <> 0 -> s <> 0 -> f < 2 ^ 32 -> m < 2 ^ 8 -> s < 2 ^ 8 ->
  exists w, dw_new O dbg f m s = Ok w /\ dw_wf w /\
    dw_fsize w = f /\ dw_msize w = m /\ dw_ssize w = s /\ dw_w w = repeat f0 (length (dw_w w)).
Proof.
  intros dbg f m s Hf Hm Hs Bf Bm Bs. unfold dw_new, num_bits_to_represent.
  rewrite !sub1_ok by auto. cbn [bind].
  assert (N.size (f - 1) <= 32) by (apply size_le_bits; lia).
  assert (N.size (m - 1) <= 8) by (apply size_le_bits; lia).
  assert (N.size (s - 1) <= 8) by (apply size_le_bits; lia).
  rewrite (proj2 (N.ltb_ge _ _)) by lia.
  rewrite table_len_ok by auto. cbn [bind].
  rewrite <- !N.pow_add_r. rewrite vec_zeros_ok by lia. cbn [bind].
  eexists. split; [reflexivity|]. unfold dw_wf; simpl. rewrite repeat_length.
  rewrite N2Nat.id. rewrite !N.pow_add_r. repeat split; auto.
Qed.

Lemma dw_new_inv : forall dbg f m s w, f < 2 ^ 32 -> m < 2 ^ 8 -> s < 2 ^ 8 ->
  dw_new O dbg f m s = Ok w -> f <> 0 -> m <> 0 -> s <> 0 ->
  dw_wf w /\ dw_fsize w = f /\ dw_msize w = m /\ dw_ssize w = s.
Proof.
  intros. destruct (dw_new_ok dbg f m s) as (w' & E & W & ? & ? & ? & _); auto.
  rewrite H2 in E. inversion E; subst. auto.
Qed.

Lemma dw_index_ok : forall dbg w fi mi, fi < dw_fsize w -> mi < dw_msize w ->
  dw_index dbg w fi mi = Ok (cell (dw_mshift w) (dw_sshift w) fi mi).
Proof.
  intros dbg w fi mi Hf Hm. unfold dw_index.
  rewrite (proj2 (N.ltb_lt _ _) Hf), (proj2 (N.ltb_lt _ _) Hm). now rewrite andb_false_r.
Qed.

Definition cell_of w fi mi : nat := N.to_nat (cell (dw_mshift w) (dw_sshift w) fi mi).

Lemma wf_facts : forall w, dw_wf w ->
  dw_fsize w <= 2 ^ N.size (dw_fsize w - 1) /\ dw_msize w <= 2 ^ dw_mshift w /\ dw_ssize w <= 2 ^ dw_sshift w.
Proof.
  intros w (H1 & H2 & H3 & _ & _ & _ & E1 & E2 & _).
  rewrite E1, E2. split; [|split]; apply size_bound; auto.
Qed.

Lemma cell_of_bound : forall w fi mi, dw_wf w -> fi < dw_fsize w -> mi < dw_msize w ->
  (cell_of w fi mi + N.to_nat (dw_ssize w) <= length (dw_w w))%nat.
Proof.
  intros w fi mi W Hf Hm. destruct (wf_facts w W) as (B1 & B2 & B3).
  destruct W as (_ & _ & _ & _ & _ & _ & _ & _ & L).
  unfold cell_of.
  pose proof (cell_bound (N.size (dw_fsize w - 1)) (dw_mshift w) (dw_sshift w) fi mi (dw_ssize w)).
  rewrite <- L in H. lia.
Qed.

Lemma cell_of_disjoint : forall w fi mi fi' mi', dw_wf w ->
  mi < dw_msize w -> mi' < dw_msize w -> (fi, mi) <> (fi', mi') ->
  (cell_of w fi mi + N.to_nat (dw_ssize w) <= cell_of w fi' mi' \/
   cell_of w fi' mi' + N.to_nat (dw_ssize w) <= cell_of w fi mi)%nat.
Proof.
  intros w fi mi fi' mi' W Hm Hm' Ne. destruct (wf_facts w W) as (B1 & B2 & B3).
  unfold cell_of.
  destruct (cell_disjoint (dw_mshift w) (dw_sshift w) fi mi fi' mi' (dw_ssize w)) as [D|D]; auto; lia.
Qed.

Lemma dw_state_ok : forall dbg w fi mi, dw_wf w -> fi < dw_fsize w -> mi < dw_msize w ->
  exists st, dw_state_at dbg w fi mi = Ok st /\ length st = N.to_nat (dw_ssize w) /\
    slice (cell_of w fi mi) (N.to_nat (dw_ssize w)) (dw_w w) = Ok st.
Proof.
  intros dbg w fi mi W Hf Hm. unfold dw_state_at. rewrite dw_index_ok by auto. simpl.
  pose proof (cell_of_bound w fi mi W Hf Hm) as B. unfold cell_of in *.
  rewrite slice_ok by auto. eexists. split; [reflexivity|]. split; auto.
  rewrite firstn_length, skipn_length. lia.
Qed.

Definition dw_put w fi mi (st : list O) : dweights O :=
  mkDw (write_slice (cell_of w fi mi) st (dw_w w)) (dw_fsize w) (dw_msize w) (dw_ssize w)
       (dw_mshift w) (dw_sshift w).

Lemma dw_upd_eq : forall dbg w fi mi g, dw_wf w -> fi < dw_fsize w -> mi < dw_msize w ->
  dw_state_upd dbg w fi mi g =
  (let* st := dw_state_at dbg w fi mi in let* st' := g st in Ok (dw_put w fi mi st')).
Proof.
  intros dbg w fi mi g W Hf Hm. unfold dw_state_upd, dw_state_at. rewrite dw_index_ok by auto. reflexivity.
Qed.

Lemma dw_put_wf : forall w fi mi st, dw_wf w -> fi < dw_fsize w -> mi < dw_msize w ->
  length st = N.to_nat (dw_ssize w) -> dw_wf (dw_put w fi mi st).
Proof.
  intros w fi mi st W Hf Hm L. pose proof (cell_of_bound w fi mi W Hf Hm) as B.
  unfold dw_wf, dw_put in *; simpl. rewrite write_slice_length by lia. exact W.
Qed.

Lemma dw_put_get_same : forall dbg w fi mi st, dw_wf w -> fi < dw_fsize w -> mi < dw_msize w ->
  length st = N.to_nat (dw_ssize w) -> dw_state_at dbg (dw_put w fi mi st) fi mi = Ok st.
Proof.
  intros dbg w fi mi st W Hf Hm L. pose proof (cell_of_bound w fi mi W Hf Hm) as B.
  unfold dw_state_at. rewrite dw_index_ok by auto. simpl.
  change (N.to_nat (cell (dw_mshift w) (dw_sshift w) fi mi)) with (cell_of w fi mi).
  rewrite <- L. apply slice_write_same. lia.
Qed.

Lemma dw_put_get_other : forall dbg w fi mi fi' mi' st, dw_wf w ->
  fi < dw_fsize w -> mi < dw_msize w -> fi' < dw_fsize w -> mi' < dw_msize w ->
  length st = N.to_nat (dw_ssize w) -> (fi, mi) <> (fi', mi') ->
  dw_state_at dbg (dw_put w fi mi st) fi' mi' = dw_state_at dbg w fi' mi'.
Proof.
  intros dbg w fi mi fi' mi' st W Hf Hm Hf' Hm' L Ne. pose proof (cell_of_bound w fi mi W Hf Hm) as B.
  unfold dw_state_at. rewrite !dw_index_ok by auto. simpl.
  change (N.to_nat (cell (dw_mshift w) (dw_sshift w) fi' mi')) with (cell_of w fi' mi').
  apply slice_write_other; [lia|]. rewrite L.
  destruct (cell_of_disjoint w fi mi fi' mi' W Hm Hm' Ne); lia.
Qed.

End Tables.

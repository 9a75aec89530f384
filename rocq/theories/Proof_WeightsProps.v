(** C05, C06, C07. *)
From Coq Require Import List NArith ZArith Bool Lia Permutation.
From Coq Require Import Floats.SpecFloat.
From Verif Require Import Base FloatOps FloatB32 Model_Hash Model_Features Model_Weights Proof_Weights Spec_Weights.
Import ListNotations.
Open Scope N_scope.

Section W.
Context {O : FOps}.
Implicit Types w : dweights O.

(** ** C05 *)
Definition read (w : dweights O) (fi mi : N) : list O :=
  firstn (N.to_nat (dw_ssize w)) (skipn (cell_of w fi mi) (dw_w w)).

Lemma read_ok : forall dbg w fi mi, dw_wf w -> fi < dw_fsize w -> mi < dw_msize w ->
  dw_state_at dbg w fi mi = Ok (read w fi mi) /\ length (read w fi mi) = N.to_nat (dw_ssize w).
Proof.
  intros dbg w fi mi W Hf Hm. destruct (dw_state_ok dbg w fi mi W Hf Hm) as (st & E & L & S).
  apply slice_inv in S. destruct S as (_ & S & _). unfold read. rewrite <- S. auto.
Qed.

Lemma read_put : forall w fi mi fi' mi' st, dw_wf w ->
  fi < dw_fsize w -> mi < dw_msize w -> fi' < dw_fsize w -> mi' < dw_msize w ->
  length st = N.to_nat (dw_ssize w) ->
  read (dw_put w fi mi st) fi' mi' = if (fi =? fi') && (mi =? mi') then st else read w fi' mi'.
Proof.
  intros w fi mi fi' mi' st W Hf Hm Hf' Hm' L.
  assert (W' : dw_wf (dw_put w fi mi st)) by now apply dw_put_wf.
  destruct (read_ok true (dw_put w fi mi st) fi' mi' W') as (E & _); auto.
  destruct ((fi =? fi') && (mi =? mi')) eqn:B.
  - apply andb_true_iff in B. destruct B as (B1 & B2).
    apply N.eqb_eq in B1. apply N.eqb_eq in B2. subst.
    rewrite dw_put_get_same in E by auto. congruence.
  - rewrite dw_put_get_other in E; auto.
    + destruct (read_ok true w fi' mi' W) as (E' & _); auto. congruence.
    + intros H; inversion H; subst. rewrite !N.eqb_refl in B. discriminate.
Qed.

Lemma wops_run : forall dbg ops w, dw_wf w ->
  Forall (wop_ok (dw_fsize w) (dw_msize w) (dw_ssize w)) ops ->
  exists w', foldm (wop_run dbg) ops w = Ok w' /\ dw_wf w' /\ same_shape w' w /\
    forall fi mi, fi < dw_fsize w -> mi < dw_msize w ->
      read w' fi mi = fold_left (fun acc o => let '(fi', mi', st) := o in
               if (fi' =? fi) && (mi' =? mi) then st else acc) ops (read w fi mi).
Proof.
  intros dbg ops. induction ops as [|[[fi mi] st] ops IH]; intros w W H.
  - exists w. simpl. split; [auto|]. split; [auto|]. split; [repeat split|auto].
  - inversion H as [|? ? H0 H']; subst. unfold wop_ok in H0. destruct H0 as (Hf & Hm & L). simpl foldm. unfold wop_run at 1.
    rewrite dw_upd_eq by auto. destruct (read_ok dbg w fi mi W Hf Hm) as (E & _). rewrite E.
    cbn [bind]. destruct (IH (dw_put w fi mi st)) as (w' & E' & W' & S' & R'); auto.
    { now apply dw_put_wf. }
    exists w'. split; auto. split; auto. split; [exact S'|].
    intros fi' mi' Hf' Hm'. rewrite R' by auto. rewrite read_put by auto. reflexivity.
Qed.

Lemma nth_repeat_f0 : forall n i, nth i (repeat (@f0 O) n) f0 = f0.
Proof. induction n; intros [|i]; simpl; auto. Qed.

Lemma firstn_repeat : forall A (x : A) n k, firstn k (repeat x n) = repeat x (Nat.min k n).
Proof. induction n; intros [|k]; simpl; auto. now rewrite IHn. Qed.
Lemma skipn_repeat : forall A (x : A) n k, skipn k (repeat x n) = repeat x (n - k).
Proof. induction n; intros [|k]; simpl; auto. Qed.

Lemma read_zeros : forall w fi mi, dw_wf w -> fi < dw_fsize w -> mi < dw_msize w ->
  dw_w w = repeat f0 (length (dw_w w)) -> read w fi mi = repeat f0 (N.to_nat (dw_ssize w)).
Proof.
  intros w fi mi W Hf Hm E. pose proof (cell_of_bound w fi mi W Hf Hm) as B.
  unfold read. rewrite E at 1. rewrite skipn_repeat, firstn_repeat. f_equal. lia.
Qed.

Lemma table_refines : forall dbg f m s ops,
  0 < f < 2 ^ 32 -> 0 < m < 2 ^ 8 -> 0 < s < 2 ^ 8 ->
  Forall (wop_ok f m s) ops ->
  exists w0 w, dw_new O dbg f m s = Ok w0 /\ foldm (wop_run dbg) ops w0 = Ok w /\
    forall fi mi, fi < f -> mi < m ->
      dw_state_at dbg w fi mi = Ok (last_write s ops fi mi) /\
      dw_weight_at dbg w fi mi = Ok (nth 0 (last_write s ops fi mi) f0).
Proof.
  intros dbg f m s ops Hf Hm Hs H.
  destruct (dw_new_ok (O := O) dbg f m s) as (w0 & E0 & W0 & F0 & M0 & S0 & Z0); try lia.
  rewrite <- F0, <- M0, <- S0 in H.
  destruct (wops_run dbg ops w0 W0 H) as (w & E & W & (Sf & Sm & Ss & Sms & Sss) & R).
  exists w0, w. split; auto. split; auto.
  intros fi mi Bf Bm.
  assert (Rd : read w fi mi = last_write s ops fi mi).
  { rewrite R by lia. unfold last_write. rewrite read_zeros by (auto; lia). now rewrite S0. }
  destruct (read_ok dbg w fi mi W) as (E1 & L1); try lia.
  split; [now rewrite E1, Rd|].
  unfold dw_weight_at. rewrite dw_index_ok by lia. cbn [bind].
  pose proof (cell_of_bound w fi mi W) as B. unfold cell_of in B.
  rewrite <- Rd. unfold read, cell_of in *. rewrite slice_nth by lia. rewrite Nat.add_0_r.
  rewrite nth_error_nth' with (d := f0) by lia. reflexivity.
Qed.

Lemma cells_disjoint : forall dbg f m s w fi mi fi' mi',
  0 < f < 2 ^ 32 -> 0 < m < 2 ^ 8 -> 0 < s < 2 ^ 8 ->
  dw_new O dbg f m s = Ok w ->
  fi < f -> mi < m -> fi' < f -> mi' < m -> (fi, mi) <> (fi', mi') ->
  exists i i', dw_index dbg w fi mi = Ok i /\ dw_index dbg w fi' mi' = Ok i' /\
    (i + s <= i' \/ i' + s <= i) /\
    i + s <= N.of_nat (length (dw_w w)).
Proof.
  intros dbg f m s w fi mi fi' mi' Hf Hm Hs E Bf Bm Bf' Bm' Ne.
  destruct (dw_new_inv dbg f m s w) as (W & F0 & M0 & S0); auto; try lia.
  exists (cell (dw_mshift w) (dw_sshift w) fi mi), (cell (dw_mshift w) (dw_sshift w) fi' mi').
  split; [apply dw_index_ok; lia|]. split; [apply dw_index_ok; lia|].
  destruct (wf_facts w W) as (B1 & B2 & B3).
  split; [apply cell_disjoint; auto; lia|].
  pose proof (cell_of_bound w fi mi W) as B. unfold cell_of in B. lia.
Qed.

(** ** C06 *)
Definition znorm (x : O) : O := if f_eqb O x f0 then f0 else x.

Lemma sparse_fold : forall l pre,
  foldm (fun acc p =>
           if (N.to_nat (fst p) <? length acc)%nat then Ok (upd (N.to_nat (fst p)) (snd p) acc)
           else Pn PIndex)
    (filter (fun p => negb (f_eqb O (snd p) f0)) (enum_from (N.of_nat (length pre)) l))
    (pre ++ repeat f0 (length l)) = Ok (pre ++ map znorm l).
Proof.
  assert (U : forall (x y : O) pre r, upd (length pre) x (pre ++ y :: r) = pre ++ x :: r).
  { induction pre; simpl; intros; auto. now rewrite IHpre. }
  induction l as [|x l IH]; intros pre; simpl.
  - reflexivity.
  - assert (E : N.succ (N.of_nat (length pre)) = N.of_nat (length (pre ++ [znorm x]))).
    { rewrite app_length. simpl. lia. }
    specialize (IH (pre ++ [znorm x])). rewrite <- !app_assoc in IH. cbn [app] in IH.
    assert (Zx : znorm x = if f_eqb O x f0 then f0 else x) by reflexivity.
    destruct (f_eqb O x f0) eqn:Z; simpl; rewrite Zx in *.
    + rewrite E. exact IH.
    + rewrite Nat2N.id. rewrite (proj2 (Nat.ltb_lt _ _)) by (rewrite app_length; simpl; lia).
      simpl. rewrite U, E. exact IH.
Qed.

Lemma sparse_roundtrip : forall l : list O,
  4 * N.of_nat (length l) < 9223372036854775808 ->
  sv_to_dense (sv_from_dense l) = Ok (map znorm l).
Proof.
  intros l B. unfold sv_to_dense, sv_from_dense, vec_zeros; simpl.
  rewrite (proj2 (N.ltb_lt _ _)) by exact B. cbn [bind]. rewrite Nat2N.id.
  exact (sparse_fold l []).
Qed.

Lemma znorm_same : forall l : list O, Forall2 zero_same l (map znorm l).
Proof.
  induction l; simpl; constructor; auto. unfold zero_same, znorm.
  destruct (f_eqb O a f0) eqn:E; auto.
Qed.

Lemma sparse_roundtrip_same : forall l : list O,
  4 * N.of_nat (length l) < 9223372036854775808 ->
  exists l', sv_to_dense (sv_from_dense l) = Ok l' /\ Forall2 zero_same l l'.
Proof. intros l B. exists (map znorm l). split; [now apply sparse_roundtrip|apply znorm_same]. Qed.

(** ** C07 *)
Definition pad_zero w : Prop :=
  forall j, (forall fi mi, fi < dw_fsize w -> mi < dw_msize w ->
               ~ (cell_of w fi mi <= j < cell_of w fi mi + N.to_nat (dw_ssize w))%nat) ->
    nth j (dw_w w) f0 = f0.

Lemma pad_zero_put : forall w fi mi st, dw_wf w -> fi < dw_fsize w -> mi < dw_msize w ->
  length st = N.to_nat (dw_ssize w) -> pad_zero w -> pad_zero (dw_put w fi mi st).
Proof.
  intros w fi mi st W Hf Hm L P j Hj. simpl.
  rewrite write_slice_nth by (pose proof (cell_of_bound w fi mi W Hf Hm); lia).
  pose proof (Hj fi mi Hf Hm) as H0. change (cell_of (dw_put w fi mi st) fi mi) with (cell_of w fi mi) in H0.
  simpl in H0.
  assert (Q : nth j (dw_w w) f0 = f0) by (apply P; exact Hj).
  destruct (Nat.leb (cell_of w fi mi) j) eqn:E1; [destruct (Nat.ltb j (cell_of w fi mi + length st)) eqn:E2|]; simpl; auto.
  apply Nat.leb_le in E1. apply Nat.ltb_lt in E2. lia.
Qed.

Lemma foldm_flat_map : forall A B C (g : C -> B -> out C) (f : A -> list B) l c,
  foldm (fun c a => foldm g (f a) c) l c = foldm g (flat_map f l) c.
Proof.
  induction l as [|a l IH]; intros c; simpl; auto. rewrite foldm_app.
  destruct (foldm g (f a) c); simpl; auto.
Qed.

Lemma foldm_map : forall A B C (g : C -> B -> out C) (f : A -> B) l c,
  foldm g (map f l) c = foldm (fun c a => g c (f a)) l c.
Proof. induction l as [|a l IH]; intros c; simpl; auto. destruct (g c (f a)); simpl; auto. Qed.

Lemma foldm_ext_in : forall A B (f g : B -> A -> out B) l b,
  (forall a c, In a l -> f c a = g c a) -> foldm f l b = foldm g l b.
Proof.
  induction l as [|a l IH]; intros b H; simpl; auto. rewrite H by (left; auto).
  destruct (g b a); simpl; auto. apply IH. intros; apply H; right; auto.
Qed.

(** all writes of an import *)
Definition row_writes (row : N * list (list O)) : list (wop O) :=
  map (fun js => (fst row, fst js, snd js)) (enum_from 0 (snd row)).

Lemma import_step : forall dbg w fi mi st, dw_wf w -> wop_ok (dw_fsize w) (dw_msize w) (dw_ssize w) (fi, mi, st) ->
  dw_state_upd dbg w fi (mi mod 256)
     (fun s0 => if Nat.eqb (length s0) (length st) then Ok st else Pn PAssert)
  = wop_run dbg w (fi, mi, st).
Proof.
  intros dbg w fi mi st W H0. unfold wop_ok in H0. destruct H0 as (Hf & Hm & L). unfold wop_run.
  assert (mi < 256) by (destruct W as (_ & _ & _ & _ & B & _); change (2 ^ 8) with 256 in B; lia).
  rewrite N.mod_small by auto. rewrite !dw_upd_eq by auto.
  destruct (read_ok dbg w fi mi W Hf Hm) as (E & Lr). rewrite E. cbn [bind].
  rewrite Lr, L, Nat.eqb_refl. reflexivity.
Qed.

Lemma wops_pad : forall dbg ops w w', dw_wf w ->
  Forall (wop_ok (dw_fsize w) (dw_msize w) (dw_ssize w)) ops -> pad_zero w ->
  foldm (wop_run dbg) ops w = Ok w' -> pad_zero w'.
Proof.
  intros dbg ops. induction ops as [|[[fi mi] st] ops IH]; intros w w' W H P E.
  - inversion E; subst; auto.
  - inversion H as [|? ? H0 H']; subst. unfold wop_ok in H0. destruct H0 as (Hf & Hm & L). simpl foldm in E. unfold wop_run at 1 in E.
    rewrite dw_upd_eq in E by auto. destruct (read_ok dbg w fi mi W Hf Hm) as (E1 & _). rewrite E1 in E.
    cbn [bind] in E. eapply IH; [| | |exact E]; auto.
    + now apply dw_put_wf.
    + now apply pad_zero_put.
Qed.

Lemma import_writes : forall dbg rows w, dw_wf w ->
  Forall (wop_ok (dw_fsize w) (dw_msize w) (dw_ssize w)) (flat_map row_writes rows) ->
  foldm (fun w row =>
           foldm (fun w js =>
                    dw_state_upd dbg w (fst row) (fst js mod 256)
                      (fun st => if Nat.eqb (length st) (length (snd js)) then Ok (snd js) else Pn PAssert))
                 (enum_from 0 (snd row)) w) rows w
  = foldm (wop_run dbg) (flat_map row_writes rows) w.
Proof.
  intros dbg rows. induction rows as [|row rows IH]; intros w W H; simpl; auto.
  rewrite foldm_app. simpl in H. apply Forall_app in H. destruct H as (H1 & H2).
  assert (E : forall js w, dw_wf w -> Forall (wop_ok (dw_fsize w) (dw_msize w) (dw_ssize w))
      (map (fun js => (fst row, fst js, snd js)) js) ->
    foldm (fun w js =>
                    dw_state_upd dbg w (fst row) (fst js mod 256)
                      (fun st => if Nat.eqb (length st) (length (snd js)) then Ok (snd js) else Pn PAssert)) js w
    = foldm (wop_run dbg) (map (fun js => (fst row, fst js, snd js)) js) w).
  { clear. induction js as [|[j st] js IH]; intros w W H; cbn [foldm map fst snd] in *; auto.
    inversion H; subst. rewrite import_step by auto.
    pose proof H2 as H0. unfold wop_ok in H0. destruct H0 as (Hf & Hm & L).
    assert (EW : wop_run dbg w (fst row, j, st) = Ok (dw_put w (fst row) j st)).
    { unfold wop_run. rewrite dw_upd_eq by auto.
      destruct (read_ok dbg w (fst row) j W Hf Hm) as (E1 & _). now rewrite E1. }
    rewrite EW. cbn [bind].
    apply IH; auto. now apply dw_put_wf. }
  unfold row_writes at 1. rewrite E by auto.
  fold (row_writes row).
  destruct (wops_run dbg (row_writes row) w W H1) as (w' & E' & W' & (S1 & S2 & S3 & _) & _).
  rewrite E'. cbn [bind]. apply IH; auto. now rewrite S1, S2, S3.
Qed.

(** the last write wins; with distinct keys, the order does not matter *)
Definition key (o : wop O) : N * N := fst o.

Lemma fold_last : forall (ops : list (wop O)) fi mi st z, NoDup (map key ops) -> In (fi, mi, st) ops ->
  fold_left (fun acc o => let '(fi', mi', st) := o in
               if (fi' =? fi) && (mi' =? mi) then st else acc) ops z = st.
Proof.
  assert (A : forall (ops : list (wop O)) fi mi z, ~ In (fi, mi) (map key ops) ->
    fold_left (fun acc o => let '(fi', mi', st) := o in
               if (fi' =? fi) && (mi' =? mi) then st else acc) ops z = z).
  { induction ops as [|[[a b] c] ops IH]; simpl; intros fi mi z H; auto.
    destruct ((a =? fi) && (b =? mi)) eqn:E.
    - apply andb_true_iff in E. destruct E as (E1 & E2). apply N.eqb_eq in E1. apply N.eqb_eq in E2.
      subst. exfalso. apply H. left; reflexivity.
    - apply IH. tauto. }
  induction ops as [|[[a b] c] ops IH]; simpl; intros fi mi st z ND H; [contradiction|].
  inversion ND; subst. destruct H as [H|H].
  - inversion H; subst. rewrite !N.eqb_refl. simpl. apply A. exact H2.
  - apply IH; auto.
Qed.

Lemma fold_none : forall (ops : list (wop O)) fi mi z, ~ In (fi, mi) (map key ops) ->
    fold_left (fun acc o => let '(fi', mi', st) := o in
               if (fi' =? fi) && (mi' =? mi) then st else acc) ops z = z.
Proof.
  induction ops as [|[[a b] c] ops IH]; simpl; intros fi mi z H; auto.
  destruct ((a =? fi) && (b =? mi)) eqn:E.
  - apply andb_true_iff in E. destruct E as (E1 & E2). apply N.eqb_eq in E1. apply N.eqb_eq in E2.
    subst. exfalso. apply H. left; reflexivity.
  - apply IH. tauto.
Qed.

(** equality of tables from their states and padding *)
Lemma table_same : forall a b, dw_wf a -> dw_wf b -> same_shape b a -> pad_zero a -> pad_zero b ->
  (forall fi mi, fi < dw_fsize a -> mi < dw_msize a -> Forall2 zero_same (read a fi mi) (read b fi mi)) ->
  Forall2 zero_same (dw_w a) (dw_w b).
Proof.
  intros a b Wa Wb (S1 & S2 & S3 & S4 & S5) Pa Pb H.
  assert (L : length (dw_w a) = length (dw_w b)).
  { destruct Wa as (_ & _ & _ & _ & _ & _ & _ & _ & La). destruct Wb as (_ & _ & _ & _ & _ & _ & _ & _ & Lb).
    rewrite S1, S4, S5 in Lb. lia. }
  assert (N2 : forall (l l' : list O), length l = length l' ->
     (forall j, (j < length l)%nat -> zero_same (nth j l f0) (nth j l' f0)) -> Forall2 zero_same l l').
  { clear. induction l as [|x l IH]; intros [|y l'] L H; try discriminate; constructor.
    - apply (H 0%nat). simpl; lia.
    - apply IH; [simpl in L; lia|]. intros j Hj. apply (H (S j)). simpl; lia. }
  apply N2; auto. intros j Hj.
  assert (C : forall fi mi, cell_of b fi mi = cell_of a fi mi) by (intros; unfold cell_of; now rewrite S4, S5).
  set (q := N.of_nat j / 2 ^ dw_sshift a). set (fi := q / 2 ^ dw_mshift a). set (mi := q mod 2 ^ dw_mshift a).
  set (k := N.of_nat j mod 2 ^ dw_sshift a).
  assert (P1 : 2 ^ dw_sshift a <> 0) by (apply N.pow_nonzero; lia).
  assert (P2 : 2 ^ dw_mshift a <> 0) by (apply N.pow_nonzero; lia).
  assert (Ej : N.of_nat j = cell (dw_mshift a) (dw_sshift a) fi mi + k).
  { rewrite cell_eq. unfold k, mi, fi. rewrite (N.div_mod' (N.of_nat j) (2 ^ dw_sshift a)) at 1. fold q.
    rewrite (N.div_mod' q (2 ^ dw_mshift a)) at 1. lia. }
  destruct (N.lt_ge_cases fi (dw_fsize a)) as [Bf|Bf];
  [destruct (N.lt_ge_cases mi (dw_msize a)) as [Bm|Bm];
   [destruct (N.lt_ge_cases k (dw_ssize a)) as [Bk|Bk]|]|].
  - specialize (H fi mi Bf Bm). unfold read in H. rewrite C, S3 in H.
    assert (F2 : forall (l l' : list O) i, Forall2 zero_same l l' -> zero_same (nth i l f0) (nth i l' f0)).
    { clear. intros l l' i F. revert i. induction F; intros [|i]; simpl; auto; left; auto. }
    specialize (F2 _ _ (N.to_nat k) H). rewrite !slice_nth in F2 by lia.
    replace (cell_of a fi mi + N.to_nat k)%nat with j in F2; auto. unfold cell_of. lia.
  - left. rewrite Pa, Pb; auto.
    + intros fi' mi' Hf' Hm' C'. rewrite C in C'. rewrite S3 in C'.
      assert (k < dw_ssize a); [|lia].
      clear - Ej C' Bk Wa P1. 
      destruct (wf_facts a Wa) as (_ & _ & B3).
      unfold cell_of in C'. rewrite cell_eq in C', Ej.
      assert (k < 2 ^ dw_sshift a) by (apply N.mod_lt; auto).
      set (x := fi * 2 ^ dw_mshift a + mi) in *. set (y := fi' * 2 ^ dw_mshift a + mi') in *.
      assert (y * 2 ^ dw_sshift a <= N.of_nat j < y * 2 ^ dw_sshift a + dw_ssize a) by lia.
      assert (x = y). { destruct (N.lt_trichotomy x y) as [|[|]]; auto; nia. }
      subst y. lia.
    + intros fi' mi' Hf' Hm' C'.
      assert (k < dw_ssize a); [|lia].
      clear - Ej C' Bk Wa P1.
      destruct (wf_facts a Wa) as (_ & _ & B3).
      unfold cell_of in C'. rewrite cell_eq in C', Ej.
      assert (k < 2 ^ dw_sshift a) by (apply N.mod_lt; auto).
      set (x := fi * 2 ^ dw_mshift a + mi) in *. set (y := fi' * 2 ^ dw_mshift a + mi') in *.
      assert (y * 2 ^ dw_sshift a <= N.of_nat j < y * 2 ^ dw_sshift a + dw_ssize a) by lia.
      assert (x = y). { destruct (N.lt_trichotomy x y) as [|[|]]; auto; nia. }
      subst y. lia.
  - left. assert (Q : forall fi' mi', fi' < dw_fsize a -> mi' < dw_msize a ->
       ~ (cell_of a fi' mi' <= j < cell_of a fi' mi' + N.to_nat (dw_ssize a))%nat).
    { intros fi' mi' Hf' Hm' C'. destruct (wf_facts a Wa) as (_ & B2 & B3).
      unfold cell_of in C'. rewrite cell_eq in C', Ej.
      assert (K : k < 2 ^ dw_sshift a) by (apply N.mod_lt; auto).
      assert (M : mi < 2 ^ dw_mshift a) by (apply N.mod_lt; auto).
      assert (X : fi * 2 ^ dw_mshift a + mi = fi' * 2 ^ dw_mshift a + mi').
      { set (x := fi * 2 ^ dw_mshift a + mi) in *. set (y := fi' * 2 ^ dw_mshift a + mi') in *.
        assert (y * 2 ^ dw_sshift a <= N.of_nat j < y * 2 ^ dw_sshift a + dw_ssize a) by lia.
        destruct (N.lt_trichotomy x y) as [|[|]]; auto; nia. }
      destruct (N.lt_trichotomy fi fi') as [|[|]]; nia. }
    rewrite Pa, Pb; auto. intros. rewrite C, S3. apply Q; lia.
  - left. assert (Q : forall fi' mi', fi' < dw_fsize a -> mi' < dw_msize a ->
       ~ (cell_of a fi' mi' <= j < cell_of a fi' mi' + N.to_nat (dw_ssize a))%nat).
    { intros fi' mi' Hf' Hm' C'. destruct (wf_facts a Wa) as (_ & B2 & B3).
      unfold cell_of in C'. rewrite cell_eq in C', Ej.
      assert (K : k < 2 ^ dw_sshift a) by (apply N.mod_lt; auto).
      assert (M : mi < 2 ^ dw_mshift a) by (apply N.mod_lt; auto).
      assert (X : fi * 2 ^ dw_mshift a + mi = fi' * 2 ^ dw_mshift a + mi').
      { set (x := fi * 2 ^ dw_mshift a + mi) in *. set (y := fi' * 2 ^ dw_mshift a + mi') in *.
        assert (y * 2 ^ dw_sshift a <= N.of_nat j < y * 2 ^ dw_sshift a + dw_ssize a) by lia.
        destruct (N.lt_trichotomy x y) as [|[|]]; auto; nia. }
      destruct (N.lt_trichotomy fi fi') as [|[|]]; nia. }
    rewrite Pa, Pb; auto. intros. rewrite C, S3. apply Q; lia.
Qed.

Lemma mapm_ok : forall A B (f : A -> out B) g l, (forall a, In a l -> f a = Ok (g a)) -> mapm f l = Ok (map g l).
Proof.
  induction l as [|a l IH]; intros H; simpl; auto. rewrite H by (left; auto). cbn [bind].
  rewrite IH; auto. intros; apply H; right; auto.
Qed.

Lemma in_range : forall n i, In i (N_range n) <-> i < n.
Proof.
  intros. unfold N_range. rewrite in_map_iff. split.
  - intros (x & E & H). apply in_seq in H. lia.
  - intros H. exists (N.to_nat i). split; [lia|]. apply in_seq. lia.
Qed.

Lemma NoDup_range : forall n, NoDup (N_range n).
Proof.
  intros. unfold N_range. apply FinFun.Injective_map_NoDup; [|apply seq_NoDup].
  intros x y E. lia.
Qed.

Lemma enum_map_range : forall A (g : N -> A) n,
  enum_from 0 (map g (N_range n)) = map (fun j => (j, g j)) (N_range n).
Proof.
  intros A g n. unfold N_range. rewrite !map_map.
  assert (Q : forall k a, enum_from (N.of_nat a) (map (fun x => g (N.of_nat x)) (seq a k)) =
     map (fun x => (N.of_nat x, g (N.of_nat x))) (seq a k)).
  { induction k; intros a; simpl; auto. f_equal. replace (N.succ (N.of_nat a)) with (N.of_nat (S a)) by lia.
    apply IHk. }
  apply (Q _ 0%nat).
Qed.

Definition nonzero_row (r : N * list (list O)) : bool :=
  existsb (existsb (fun x => negb (f_eqb O x f0))) (snd r).

Definition full_row w (i : N) : N * list (list O) := (i, map (read w i) (N_range (dw_msize w))).

Lemma export_ok : forall dbg w, dw_wf w ->
  nd_from_dense dbg w = Ok (mkNd (filter nonzero_row (map (full_row w) (N_range (dw_fsize w))))
     (dw_fsize w) (dw_msize w) (dw_ssize w) (dw_mshift w) (dw_sshift w)).
Proof.
  intros dbg w W. unfold nd_from_dense.
  rewrite mapm_ok with (g := full_row w).
  - reflexivity.
  - intros i Hi. apply in_range in Hi. rewrite mapm_ok with (g := read w i).
    + reflexivity.
    + intros j Hj. apply in_range in Hj. now apply read_ok.
Qed.

Lemma row_writes_full : forall w i,
  row_writes (full_row w i) = map (fun j => (i, j, read w i j)) (N_range (dw_msize w)).
Proof. intros. unfold row_writes, full_row; simpl. rewrite enum_map_range, map_map. reflexivity. Qed.

Lemma NoDup_map_inv' : forall A B (f : A -> B) l, NoDup l -> (forall a b, In a l -> In b l -> f a = f b -> a = b) -> NoDup (map f l).
Proof.
  induction l as [|a l IH]; intros ND H; simpl; [constructor|]. inversion ND; subst. constructor.
  - intros C. apply in_map_iff in C. destruct C as (b & E & Hb).
    assert (b = a) by (apply H; [right; auto|left; auto|auto]). subst. contradiction.
  - apply IH; auto. intros; apply H; auto; right; auto.
Qed.

Lemma import_export : forall dbg w perm,
  dw_wf w -> pad_zero w ->
  Permutation perm (filter nonzero_row (map (full_row w) (N_range (dw_fsize w)))) ->
  exists w', nd_to_dense dbg (mkNd perm (dw_fsize w) (dw_msize w) (dw_ssize w) (dw_mshift w) (dw_sshift w)) = Ok w'
    /\ same_shape w' w /\ Forall2 zero_same (dw_w w) (dw_w w').
Proof.
  intros dbg w perm W P Hp.
  assert (Rows : forall r, In r perm -> exists i, i < dw_fsize w /\ r = full_row w i).
  { intros r Hr. apply (Permutation_in _ Hp) in Hr. apply filter_In in Hr. destruct Hr as (Hr & _).
    apply in_map_iff in Hr. destruct Hr as (i & E & Hi). apply in_range in Hi. eauto. }
  pose proof W as (F0 & M0 & S0 & Fb & Mb & Sb & Em & Es & L).
  unfold nd_to_dense; simpl. rewrite sub1_ok by auto. cbn [bind].
  assert (B1 : N.size (dw_fsize w - 1) <= 32) by (apply size_le_bits; lia).
  assert (B2 : dw_mshift w <= 8) by (rewrite Em; apply size_le_bits; lia).
  assert (B3 : dw_sshift w <= 8) by (rewrite Es; apply size_le_bits; lia).
  unfold num_bits_to_represent. rewrite table_len_ok by auto. cbn [bind].
  rewrite <- !N.pow_add_r. rewrite vec_zeros_ok by lia. cbn [bind].
  set (z := mkDw _ _ _ _ _ _).
  assert (Wz : dw_wf z).
  { unfold z, dw_wf; simpl. rewrite repeat_length, N2Nat.id. rewrite !N.pow_add_r. repeat split; auto. }
  assert (Pz : pad_zero z) by (intros j _; unfold z; simpl; apply nth_repeat_f0).
  assert (WO : Forall (wop_ok (dw_fsize z) (dw_msize z) (dw_ssize z)) (flat_map row_writes perm)).
  { apply Forall_forall. intros o Ho. apply in_flat_map in Ho. destruct Ho as (r & Hr & Ho).
    apply Rows in Hr. destruct Hr as (i & Hi & ->). rewrite row_writes_full in Ho.
    apply in_map_iff in Ho. destruct Ho as (j & <- & Hj). apply in_range in Hj.
    unfold wop_ok, z; simpl. split; auto. split; auto. now apply (read_ok dbg). }
  rewrite import_writes by auto.
  destruct (wops_run dbg (flat_map row_writes perm) z Wz WO) as (w' & E' & W' & S' & R').
  pose proof (wops_pad dbg _ z w' Wz WO Pz E') as P'.
  exists w'. split; auto. split; [exact S'|].
  apply table_same; auto.
  intros fi mi Hf Hm. rewrite R' by auto.
  assert (Zr : read z fi mi = repeat f0 (N.to_nat (dw_ssize w))).
  { refine (read_zeros z fi mi Wz Hf Hm _). unfold z; simpl. now rewrite repeat_length. }
  destruct (nonzero_row (full_row w fi)) eqn:NZ.
  - rewrite fold_last with (st := read w fi mi).
    + clear. induction (read w fi mi); constructor; auto. left; auto.
    + assert (NDp : NoDup (map fst perm)).
      { apply Permutation_NoDup with (l := map fst (filter nonzero_row (map (full_row w) (N_range (dw_fsize w))))).
        - apply Permutation_map. now apply Permutation_sym.
        - assert (Q : forall l, NoDup l -> NoDup (map fst (filter nonzero_row (map (full_row w) l)))).
          { induction l as [|a l IH]; intros ND; simpl; [constructor|]. inversion ND; subst.
            destruct (nonzero_row (full_row w a)); simpl; auto. constructor; auto.
            intros C. apply in_map_iff in C. destruct C as (r & E & Hr). apply filter_In in Hr.
            destruct Hr as (Hr & _). apply in_map_iff in Hr. destruct Hr as (b & <- & Hb). simpl in E. subst.
            contradiction. }
          apply Q, NoDup_range. }
      clear - NDp Rows. induction perm as [|r perm IH]; simpl; [constructor|].
      inversion NDp; subst. rewrite map_app.
      destruct (Rows r (or_introl eq_refl)) as (i & Hi & ->).
      assert (NoDup (map key (flat_map row_writes perm))) by (apply IH; auto; intros; apply Rows; right; auto).
      assert (NoDup (map key (row_writes (full_row w i)))).
      { rewrite row_writes_full, map_map. simpl. apply NoDup_map_inv'; [apply NoDup_range|]. 
        intros a b _ _ E. unfold key in E; simpl in E. now inversion E. }
      assert (Dj : forall x, In x (map key (row_writes (full_row w i))) -> ~ In x (map key (flat_map row_writes perm))).
      { intros x Hx C. rewrite row_writes_full, map_map in Hx. apply in_map_iff in Hx.
        destruct Hx as (j & <- & Hj). unfold key in C; simpl in C.
        apply in_map_iff in C. destruct C as ([[a b] c] & E & Hab). simpl in E. inversion E; subst.
        apply in_flat_map in Hab. destruct Hab as (r & Hr & Hab).
        destruct (Rows r (or_intror Hr)) as (i' & Hi' & ->). rewrite row_writes_full in Hab.
        apply in_map_iff in Hab. destruct Hab as (j' & E2 & Hj'). inversion E2; subst.
        apply H1. simpl. apply in_map_iff. exists (full_row w i). auto. }
      clear - H H0 Dj. revert H0 Dj. generalize (map key (row_writes (full_row w i))) as l.
      induction l as [|a l IH]; intros ND Dj; simpl; auto. inversion ND; subst. constructor.
      * intros C. apply in_app_iff in C. destruct C as [C|C]; [contradiction|]. apply (Dj a); auto. left; auto.
      * apply IH; auto. intros x Hx. apply Dj. right; auto.
    + apply in_flat_map. exists (full_row w fi). split.
      * apply (Permutation_in _ (Permutation_sym Hp)). apply filter_In. split; auto.
        apply in_map. now apply in_range.
      * rewrite row_writes_full. apply in_map_iff. exists mi. split; auto. now apply in_range.
  - rewrite fold_none.
    + rewrite Zr. unfold nonzero_row, full_row in NZ; simpl in NZ.
      destruct (read_ok dbg w fi mi W Hf Hm) as (_ & Lr). rewrite <- Lr.
      assert (A : existsb (fun x => negb (f_eqb O x f0)) (read w fi mi) = false).
      { destruct (existsb (fun x => negb (f_eqb O x f0)) (read w fi mi)) eqn:E; auto.
        rewrite (proj2 (existsb_exists _ _)) in NZ; [discriminate|].
        exists (read w fi mi). split; auto. apply in_map. now apply in_range. }
      clear - A. induction (read w fi mi) as [|x l IH]; simpl in *; constructor.
      * right. apply orb_false_iff in A. destruct A as (A & _). apply negb_false_iff in A. auto.
      * apply IH. now apply orb_false_iff in A.
    + intros C. apply in_map_iff in C. destruct C as ([[a b] c] & E & Hab). simpl in E. inversion E; subst.
      apply in_flat_map in Hab. destruct Hab as (r & Hr & Hab).
      destruct (Rows r Hr) as (i' & Hi' & ->). rewrite row_writes_full in Hab.
      apply in_map_iff in Hab. destruct Hab as (j' & E2 & Hj'). inversion E2; subst.
      apply (Permutation_in _ Hp) in Hr. apply filter_In in Hr. destruct Hr as (_ & Hr). congruence.
Qed.

Lemma ndarray_roundtrip : forall dbg f m s ops w0 w,
  0 < f < 2 ^ 32 -> 0 < m < 2 ^ 8 -> 0 < s < 2 ^ 8 ->
  Forall (wop_ok f m s) ops ->
  dw_new O dbg f m s = Ok w0 -> foldm (wop_run dbg) ops w0 = Ok w ->
  exists nd, nd_from_dense dbg w = Ok nd /\
    forall perm, Permutation perm (nd_map nd) ->
    exists w', nd_to_dense dbg (mkNd perm (nd_fsize nd) (nd_msize nd) (nd_ssize nd) (nd_mshift nd) (nd_sshift nd)) = Ok w' /\
      same_shape w' w /\ Forall2 zero_same (dw_w w) (dw_w w').
Proof.
  intros dbg f m s ops w0 w Hf Hm Hs H E0 E.
  destruct (dw_new_ok (O := O) dbg f m s) as (w1 & E1 & W0 & F0 & M0 & S0 & Z0); try lia.
  rewrite E0 in E1; inversion E1; subst w1; clear E1.
  rewrite <- F0, <- M0, <- S0 in H.
  destruct (wops_run dbg ops w0 W0 H) as (w' & E' & W & _ & _).
  rewrite E in E'; inversion E'; subst w'; clear E'.
  assert (P0 : pad_zero w0) by (intros j _; rewrite Z0; apply nth_repeat_f0).
  pose proof (wops_pad dbg ops w0 w W0 H P0 E) as P.
  eexists. split; [now apply export_ok|]. simpl. intros perm Hp. now apply import_export.
Qed.

End W.

(** binary32: what [zero_same] means *)
Lemma zero_same_b32 : forall e l p (x y : b32), @zero_same (BF e l p) x y ->
  (y = x \/ (exists s, x = S754_zero s) /\ y = S754_zero false).
Proof.
  intros e l p x y [H|(H & E)]; auto. right. split; auto.
  simpl in H. unfold SFeqb in H. destruct x; simpl in H; try discriminate.
  - eauto.
  - now destruct s.
  - now destruct s.
Qed.

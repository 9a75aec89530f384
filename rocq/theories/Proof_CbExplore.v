(** C15, C16, C17. *)
From Coq Require Import List NArith ZArith Bool Lia Reals Lra.
From Verif Require Import Base FloatOps FloatR FloatB32 Model_Explore Model_Features Model_Types Model_Coin Model_Stack
  Spec_Explore Spec_CbExplore Proof_Explore Proof_ExploreProps.
Import ListNotations.
Open Scope R_scope.

Lemma first_min_unique : forall s i j, first_min s i -> first_min s j -> i = j.
Proof.
  intros s i j (a & c & E & H) (b & d & F & K).
  destruct (H _ _ _ F) as (H1 & H2). destruct (K _ _ _ E) as (K1 & K2).
  destruct (lt_eq_lt_dec i j) as [[L|L]|L]; auto; [specialize (K2 L)|specialize (H2 L)]; lra.
Qed.

(** ** min_by *)
Definition gtR (gt : R -> R -> out bool) : Prop := forall a b, gt a b = Ok (Rltb b a).
Lemma gtR_total : gtR (@gt_total RF).
Proof. intros a b. reflexivity. Qed.
Lemma gtR_partial : gtR (@gt_partial RF).
Proof.
  intros a b. unfold gt_partial, f_pcmp. cbn [f_isnan f_ltb RF orb].
  destruct (Rltb_spec a b), (Rltb_spec b a); auto. lra.
Qed.

Lemma min_by_from_spec : forall gt, gtR gt -> forall (rest done : list (N * R)) bi ba bc,
  nth_error done bi = Some (ba, bc) ->
  (forall j b d, nth_error done j = Some (b, d) -> bc <= d /\ ((j < bi)%nat -> bc < d)) ->
  exists i a c, @min_by_from RF gt (N.of_nat bi, (ba, bc)) (enum_from (N.of_nat (length done)) rest) = Ok (N.of_nat i, (a, c)) /\
    nth_error (done ++ rest) i = Some (a, c) /\
    forall j b d, nth_error (done ++ rest) j = Some (b, d) -> c <= d /\ ((j < i)%nat -> c < d).
Proof.
  intros gt G. induction rest as [|[a0 c0] rest IH]; intros done bi ba bc E H.
  - exists bi, ba, bc. rewrite app_nil_r. auto.
  - cbn [enum_from min_by_from snd]. rewrite G. cbn [bind].
    replace (N.succ (N.of_nat (length done))) with (N.of_nat (length (done ++ [(a0, c0)]))) by (rewrite app_length; simpl; lia).
    assert (Eb : (bi < length done)%nat) by (apply nth_error_Some; congruence).
    destruct (Rltb_spec c0 bc) as [L|L].
    + destruct (IH (done ++ [(a0, c0)]) (length done) a0 c0) as (i & a & c & A & B & C).
      * rewrite nth_error_app2, Nat.sub_diag by lia. reflexivity.
      * intros j b d Hj. destruct (lt_dec j (length done)) as [Lj|Lj].
        -- rewrite nth_error_app1 in Hj by lia. destruct (H _ _ _ Hj). split; [lra|intros; lra].
        -- rewrite nth_error_app2 in Hj by lia. destruct (j - length done)%nat as [|x] eqn:Ex.
           ++ simpl in Hj. inversion Hj; subst. split; [lra|lia].
           ++ simpl in Hj. destruct x; discriminate.
      * exists i, a, c. rewrite <- app_assoc in B, C. auto.
    + destruct (IH (done ++ [(a0, c0)]) bi ba bc) as (i & a & c & A & B & C).
      * rewrite nth_error_app1 by lia. exact E.
      * intros j b d Hj. destruct (lt_dec j (length done)) as [Lj|Lj].
        -- rewrite nth_error_app1 in Hj by lia. eauto.
        -- rewrite nth_error_app2 in Hj by lia. destruct (j - length done)%nat as [|x] eqn:Ex.
           ++ simpl in Hj. inversion Hj; subst. split; [lra|lia].
           ++ simpl in Hj. destruct x; discriminate.
      * exists i, a, c. rewrite <- app_assoc in B, C. auto.
Qed.

Lemma min_by_spec : forall gt, gtR gt -> forall (s : list (N * R)), s <> [] ->
  exists i a c, @min_by RF gt s = Ok (N.of_nat i, (a, c)) /\ nth_error s i = Some (a, c) /\
    (forall j b d, nth_error s j = Some (b, d) -> c <= d /\ ((j < i)%nat -> c < d)).
Proof.
  intros gt G [|[a c] s] H; [congruence|]. unfold min_by. cbn [enum_from].
  apply (min_by_from_spec gt G s [(a, c)] 0%nat a c); auto.
  intros j b d Hj. destruct j as [|j]; simpl in Hj; [|destruct j; discriminate]. inversion Hj; subst. split; [lra|lia].
Qed.

(** ** C15 *)
Lemma total_const : forall (s : list (N * R)) x, total (map (fun e => (fst e, x)) s) = INR (length s) * x.
Proof.
  induction s as [|[a c] s IH]; intros x; [simpl; lra|]. cbn [map total length fst]. rewrite IH, S_INR. lra.
Qed.
Lemma total_upd : forall (l : list (N * R)) i a p q, nth_error l i = Some (a, p) -> total (upd i (a, q) l) = total l - p + q.
Proof.
  induction l as [|[b x] l IH]; intros i a p q H; destruct i; simpl in *; try discriminate.
  - inversion H; subst. lra.
  - rewrite (IH _ _ _ _ H). lra.
Qed.

Lemma greedy_eq : forall (eps : R) (scores : list (N * R)),
  @greedy_probs RF eps scores =
  (let* best := @min_by RF gt_total scores in
   let equal : R := eps / INR (length scores) in
   let l : list (N * R) := map (fun s : N * R => (fst s, equal)) scores in
   match @nth_error (N * R) l (N.to_nat (fst best)) with
   | None => Pn PIndex
   | Some s => Ok (@upd (N * R) (N.to_nat (fst best)) (fst s, snd s + (1 - eps)) l)
   end).
Proof. intros. unfold greedy_probs. rewrite RF_of_nat, RF_f1. reflexivity. Qed.

Lemma greedy_spec : forall (eps : R) (scores : list (N * R)), scores <> [] ->
  exists i (r : list (N * R)), first_min scores i /\ @greedy_probs RF eps scores = Ok r /\ length r = length scores /\
    (forall j a c, nth_error scores j = Some (a, c) ->
       nth_error r j = Some (a, eps / INR (length scores) + if Nat.eqb j i then 1 - eps else 0)) /\
    total r = 1 /\ (0 <= eps <= 1 -> nonneg r).
Proof.
  intros eps scores Hne. destruct (min_by_spec _ gtR_total scores Hne) as (i & a & c & E & Ei & Hm).
  rewrite greedy_eq, E. cbn [bind fst]. rewrite Nat2N.id.
  set (n := length scores). set (eq := eps / INR n).
  assert (Hn : 0 < INR n). { apply lt_0_INR. unfold n. destruct scores; [congruence|simpl; lia]. }
  assert (Eq : eq = eps / INR n) by reflexivity.
  cbv zeta. rewrite nth_error_map, Ei. cbn [option_map fst snd].
  eexists i, _. split; [exists a, c; auto|]. split; [reflexivity|].
  assert (Entry : forall j b d, nth_error scores j = Some (b, d) ->
     nth_error (upd i (a, eq + (1 - eps)) (map (fun s : N * R => (fst s, eq)) scores)) j =
     Some (b, eps / INR n + if Nat.eqb j i then 1 - eps else 0)).
  { intros j b d Hj. destruct (Nat.eqb_spec j i) as [->|Ne].
    - rewrite nth_error_upd_eq by (rewrite map_length; apply nth_error_Some; congruence).
      rewrite Ei in Hj. inversion Hj; subst. now rewrite Eq.
    - rewrite nth_error_upd_ne by auto. rewrite nth_error_map, Hj. simpl. rewrite Eq. do 2 f_equal. lra. }
  split; [rewrite upd_length, map_length; reflexivity|]. split; [exact Entry|]. split.
  - rewrite total_upd with (p := eq) by (rewrite nth_error_map, Ei; reflexivity).
    rewrite (total_const scores eq), Eq. fold n. field. lra.
  - intros He b q Hin. apply In_nth_error in Hin. destruct Hin as (j & Hj).
    assert (Lj : (j < length scores)%nat).
    { apply nth_error_Some. intros K. apply nth_error_None in K.
      assert (X : nth_error (upd i (a, eq + (1 - eps)) (map (fun s : N * R => (fst s, eq)) scores)) j = None).
      { apply nth_error_None. rewrite upd_length, map_length. exact K. }
      rewrite X in Hj. discriminate. }
    destruct (nth_error scores j) as [[b' d]|] eqn:Ej; [|apply nth_error_None in Ej; lia].
    rewrite (Entry _ _ _ Ej) in Hj. inversion Hj; subst.
    assert (0 <= eps / INR n) by (apply Rle_mult_inv_pos; lra). destruct (Nat.eqb j i); lra.
Qed.

Lemma greedy_none : forall (O : FOps) (eps : O), greedy_probs eps [] = Pn PNone.
Proof. reflexivity. Qed.

(** ** enforcing the minimum on a positive distribution *)
Lemma counting_pos : forall (els : list (N * R)), (forall a p, In (a, p) els -> 0 < p) -> ncount false els (length els).
Proof.
  induction els as [|[a p] els IH]; intros H; simpl; constructor.
  - right. apply (H a). now left.
  - apply IH. intros b q Hin. apply (H b). now right.
Qed.

Lemma enforce_pos : forall dbg eps (els : list (N * R)), 0 <= eps <= 1 ->
  (forall a p, In (a, p) els -> 0 < p) -> total els = 1 ->
  exists r : list (N * R), @enforce_min_prob RF dbg eps false els = Ok r /\ map fst r = map fst els /\ total r = 1 /\
    (forall i a p q, nth_error els i = Some (a, p) -> nth_error r i = Some (a, q) ->
       eps / INR (length els) <= q /\ 0 < q /\ (eps = 0 -> q = p)) /\
    (forall i j a p q b p' q', nth_error els i = Some (a, p) -> nth_error r i = Some (a, q) ->
       nth_error els j = Some (b, p') -> nth_error r j = Some (b, q') -> p <= p' -> q <= q').
Proof.
  intros dbg eps els He Hpos Ht.
  assert (Hnn : nonneg els) by (intros a p Hin; apply Hpos in Hin; lra).
  pose proof (counting_pos _ Hpos) as Hc.
  assert (Hl : 0 < INR (length els)).
  { apply lt_0_INR. destruct els; [simpl in Ht; lra|simpl; lia]. }
  destruct (Req_dec eps 0) as [->|Hz].
  - exists els. split.
    + apply (@c14_zero RF). { intros ->; simpl in Ht; lra. } cbn [f_eqb RF]. rewrite RF_f0. destruct (Reqb_spec 0 0); auto; lra.
    + split; [reflexivity|]. split; [exact Ht|]. split.
      * intros i a p q H1 H2. rewrite H1 in H2. inversion H2; subst. apply nth_error_In in H1. apply Hpos in H1.
        split; [unfold Rdiv; rewrite Rmult_0_l; lra|]. auto.
      * intros i j a p q b p' q' H1 H2 H3 H4 L. rewrite H1 in H2. rewrite H3 in H4. inversion H2; inversion H4; subst. lra.
  - destruct (c12_distribution dbg eps false els He Hnn Ht) as (r & E & Hr & Htr). exists r.
    destruct (c13_entries dbg eps false els _ r ltac:(lra) Hnn Hc E) as (A & B & C).
    split; [exact E|]. split; [exact A|]. split; [exact Htr|]. split.
    + intros i a p q H1 H2. destruct (B i a p q H1 H2) as (B1 & _).
      assert (P : 0 < p) by (apply nth_error_In in H1; eapply Hpos; eauto).
      assert (0 < eps / INR (length els)) by (apply Rdiv_lt_0_compat; lra).
      specialize (B1 (or_intror P)). split; [exact B1|]. split; [lra|]. intros; lra.
    + exact C.
Qed.

(** both lists have the same actions at the same places *)
Lemma same_fst : forall (r els : list (N * R)) i a q, map fst r = map fst els -> nth_error r i = Some (a, q) ->
  exists p, nth_error els i = Some (a, p).
Proof.
  intros r els i a q H E. assert (K : nth_error (map fst r) i = nth_error (map fst els) i) by now rewrite H.
  rewrite !nth_error_map, E in K. destruct (nth_error els i) as [[b p]|]; simpl in K; inversion K; subst. eauto.
Qed.
Lemma same_fst' : forall (r els : list (N * R)) i a p, map fst r = map fst els -> nth_error els i = Some (a, p) ->
  exists q, nth_error r i = Some (a, q).
Proof. intros. eapply same_fst; [symmetry; eauto|eauto]. Qed.

(** ** C16 *)
Lemma squarecb_eq : forall dbg (ueps gamma : R) (scores : list (N * R)),
  @squarecb_probs RF dbg ueps gamma scores =
  (let* best := @min_by RF gt_partial scores in
   let n := INR (length scores) in
   let bact := fst (snd best) in
   let l : list (N * R) := map (fun s : N * R => (fst s,
      if (fst s =? bact)%N then snd s else 1 / (n + gamma * (snd s - snd (snd best))))) scores in
   let tot : R := @fold_left R (N * R) (fun acc s => if (fst s =? bact)%N then acc else acc + snd s) l 0 in
   match @nth_error (N * R) l (N.to_nat (fst best)) with
   | None => Pn PIndex
   | Some s => unwrap_res (@enforce_min_prob RF dbg ueps false (@upd (N * R) (N.to_nat (fst best)) (fst s, 1 - tot) l))
   end).
Proof.
  intros. unfold squarecb_probs. rewrite RF_of_nat, RF_f1, RF_f0. destruct (min_by gt_partial scores) as [[bi [ba bs]]| |]; reflexivity.
Qed.
Lemma softmax_eq : forall dbg (ueps la : R) (scores : list (N * R)),
  @softmax_probs RF dbg ueps la scores =
  (let* best := @min_by RF gt_partial scores in
   let l : list (N * R) := map (fun s : N * R => (fst s, exp (- la * (snd s - snd (snd best))))) scores in
   let tot : R := @fold_left R (N * R) (fun acc s => acc + snd s) l 0 in
   unwrap_res (@enforce_min_prob RF dbg ueps false (@map (N * R) (N * R) (fun s : N * R => (fst s, snd s / tot)) l))).
Proof. intros. unfold softmax_probs. rewrite RF_f0. reflexivity. Qed.
Section Square.
Variables (gamma : R) (scores : list (N * R)).
Hypothesis Hg : 0 <= gamma.
Hypothesis Hne : scores <> [].
Hypothesis Hnd : NoDup (map fst scores).

Let n := INR (length scores).
Lemma sq_n : 1 <= n.
Proof. unfold n. replace 1 with (INR 1) by reflexivity. apply le_INR. destruct scores; [congruence|simpl; lia]. Qed.

Definition sq_weight (bc c : R) : R := 1 / (n + gamma * (c - bc)).
Lemma sq_weight_bounds : forall bc c, bc <= c -> 0 < sq_weight bc c <= 1 / n.
Proof.
  intros bc c H. pose proof sq_n as Hn. unfold sq_weight.
  assert (0 <= gamma * (c - bc)) by (apply Rmult_le_pos; lra). split.
  - apply Rdiv_lt_0_compat; lra.
  - unfold Rdiv. rewrite !Rmult_1_l. apply Rinv_le_contravar; lra.
Qed.
Lemma sq_weight_anti : forall bc c d, bc <= c -> c <= d -> sq_weight bc d <= sq_weight bc c.
Proof.
  intros bc c d H K. pose proof sq_n as Hn. unfold sq_weight.
  assert (0 <= gamma * (c - bc)) by (apply Rmult_le_pos; lra).
  assert (gamma * (c - bc) <= gamma * (d - bc)) by (apply Rmult_le_compat_l; lra).
  unfold Rdiv. rewrite !Rmult_1_l. apply Rinv_le_contravar; lra.
Qed.

(** sum over the actions other than [b] *)
Fixpoint others (b : N) (l : list (N * R)) : R :=
  match l with [] => 0 | (a, p) :: r => (if (a =? b)%N then 0 else p) + others b r end.
Lemma fold_others : forall b l acc, fold_left (fun acc (s : N * R) => if (fst s =? b)%N then acc else acc + snd s) l acc = acc + others b l.
Proof.
  induction l as [|[a p] l IH]; intros acc; simpl; [lra|]. rewrite IH. destruct (a =? b)%N; lra.
Qed.
Lemma others_notin : forall b l, ~ In b (map fst l) -> others b l = total l.
Proof.
  induction l as [|[a p] l IH]; simpl; intros H; auto. rewrite IH by tauto.
  destruct (N.eqb_spec a b); [subst; tauto|lra].
Qed.
Lemma others_upd : forall b l i p q, NoDup (map fst l) -> nth_error l i = Some (b, p) -> total (upd i (b, q) l) = q + others b l.
Proof.
  induction l as [|[a x] l IH]; intros i p q H E; destruct i; simpl in *; try discriminate; inversion H; subst.
  - inversion E; subst. rewrite N.eqb_refl, others_notin by auto. lra.
  - rewrite (IH _ _ _ H3 E). destruct (N.eqb_spec a b); [|lra]. subst.
    exfalso. apply H2. apply nth_error_In in E. apply in_map_iff. exists (b, p). auto.
Qed.
Lemma others_le : forall b (l : list (N * R)) m, 0 <= m -> (forall a p, In (a, p) l -> p <= m) -> In b (map fst l) -> 
  others b l <= (INR (length l) - 1) * m.
Proof.
  assert (G : forall b (l : list (N * R)) m, 0 <= m -> (forall a p, In (a, p) l -> p <= m) -> others b l <= INR (length l) * m).
  { induction l as [|[a p] l IH]; intros m Hm H; [simpl; lra|]. cbn [others length]. rewrite S_INR.
    assert (others b l <= INR (length l) * m) by (apply IH; auto; intros; eapply H; right; eauto).
    assert (p <= m) by (apply (H a); now left). destruct (a =? b)%N; lra. }
  induction l as [|[a p] l IH]; intros m Hm H Hin; [inversion Hin|]. cbn [others length]. rewrite S_INR.
  destruct (N.eqb_spec a b) as [->|Ne].
  - assert (others b l <= INR (length l) * m) by (apply G; auto; intros; eapply H; right; eauto). lra.
  - destruct Hin as [Hin|Hin]; [simpl in Hin; congruence|].
    assert (others b l <= (INR (length l) - 1) * m) by (apply IH; auto; intros; eapply H; right; eauto).
    assert (p <= m) by (apply (H a); now left). lra.
Qed.

Lemma nodup_nth : forall (l : list (N * R)) i j a p q, NoDup (map fst l) -> nth_error l i = Some (a, p) ->
  nth_error l j = Some (a, q) -> i = j.
Proof.
  intros l i j a p q H Ei Ej. apply (proj1 (NoDup_nth_error (map fst l)) H).
  - rewrite map_length. apply nth_error_Some. congruence.
  - rewrite !nth_error_map, Ei, Ej. reflexivity.
Qed.

Lemma map_fst_upd : forall (l : list (N * R)) i a p q, nth_error l i = Some (a, p) -> map fst (upd i (a, q) l) = map fst l.
Proof.
  induction l as [|[x y] l IH]; intros [|i] a p q E; simpl in *; auto.
  - inversion E; subst. reflexivity.
  - f_equal. eauto.
Qed.

Lemma square_spec : forall dbg ueps, 0 <= ueps <= 1 ->
  exists bi (r : list (N * R)), first_min scores bi /\ @squarecb_probs RF dbg ueps gamma scores = Ok r /\ map fst r = map fst scores /\
    nonneg r /\ total r = 1 /\
    (forall j a q, nth_error r j = Some (a, q) -> ueps / n <= q /\ 0 < q) /\
    (forall j a q b q', nth_error r bi = Some (b, q') -> nth_error r j = Some (a, q) -> q <= q') /\
    (forall i j a c q b d q', nth_error scores i = Some (a, c) -> nth_error r i = Some (a, q) ->
       nth_error scores j = Some (b, d) -> nth_error r j = Some (b, q') -> c < d -> q' <= q).
Proof.
  intros dbg ueps He. destruct (min_by_spec _ gtR_partial scores Hne) as (bi & ba & bc & E & Ei & Hm).
  pose proof sq_n as Hn.
  rewrite squarecb_eq, E. cbn [bind fst snd]. cbv zeta. fold n.
  set (l := map (fun s : N * R => (fst s, if (fst s =? ba)%N then snd s else 1 / (n + gamma * (snd s - bc)))) scores).
  rewrite fold_others, Rplus_0_l, Nat2N.id.
  assert (El : nth_error l bi = Some (ba, bc)).
  { unfold l. rewrite nth_error_map, Ei. simpl. now rewrite N.eqb_refl. }
  rewrite El. cbn [fst].
  set (els := upd bi (ba, 1 - others ba l) l).
  assert (Fl : map fst l = map fst scores) by (unfold l; rewrite map_map; reflexivity).
  assert (Fels : map fst els = map fst scores).
  { rewrite <- Fl. unfold els. eapply map_fst_upd; exact El. }
  (* entries *)
  assert (Ent : forall j a c, nth_error scores j = Some (a, c) ->
     nth_error els j = Some (a, if Nat.eqb j bi then 1 - others ba l else sq_weight bc c)).
  { intros j a c Hj. unfold els. destruct (Nat.eqb_spec j bi) as [->|Ne].
    - rewrite nth_error_upd_eq by (apply nth_error_Some; congruence). congruence.
    - rewrite nth_error_upd_ne by auto. unfold l. rewrite nth_error_map, Hj. simpl.
      destruct (N.eqb_spec a ba) as [->|]; [|reflexivity].
      exfalso. apply Ne. eapply nodup_nth; eauto. }
  assert (Ob : 1 - others ba l >= 1 / n).
  { (* the weights of the others are at most 1/n *)
    assert (X : others ba l = others ba (map (fun s : N * R => (fst s, if (fst s =? ba)%N then 0 else sq_weight bc (snd s))) scores)).
    { unfold l. change (fun s : N * R => (fst s, if (fst s =? ba)%N then snd s else 1 / (n + gamma * (snd s - bc)))) with (fun s : N * R => (fst s, if (fst s =? ba)%N then snd s else sq_weight bc (snd s))). generalize (sq_weight bc). generalize scores. clear. intros s w. induction s as [|[a c] s IH]; simpl; auto. rewrite IH. destruct (a =? ba)%N; auto. }
    rewrite X.
    assert (Y : others ba (map (fun s : N * R => (fst s, if (fst s =? ba)%N then 0 else sq_weight bc (snd s))) scores)
       <= (INR (length (map (fun s : N * R => (fst s, if (fst s =? ba)%N then 0 else sq_weight bc (snd s))) scores)) - 1) * (1 / n)).
    { apply others_le.
      - apply Rlt_le, Rdiv_lt_0_compat; lra.
      - intros a p Hin. apply in_map_iff in Hin. destruct Hin as ([a' c'] & Q & Hin). simpl in Q. inversion Q; subst.
        assert (0 < 1 / n) by (apply Rdiv_lt_0_compat; lra). destruct (a =? ba)%N; [lra|].
        apply In_nth_error in Hin. destruct Hin as (j & Hj). destruct (Hm _ _ _ Hj). now apply sq_weight_bounds.
      - rewrite map_map. simpl. apply nth_error_In in Ei. apply in_map_iff. exists (ba, bc). auto. }
    rewrite map_length in Y. fold n in Y.
    assert ((n - 1) * (1 / n) = 1 - 1 / n) by (field; lra). lra. }
  assert (Opos : 0 < 1 / n) by (apply Rdiv_lt_0_compat; lra).
  assert (Bnd : forall j a c, nth_error scores j = Some (a, c) -> 0 < sq_weight bc c <= 1 / n).
  { intros j a c Hj. apply sq_weight_bounds. eapply Hm; eauto. }
  assert (Hpos : forall a p, In (a, p) els -> 0 < p).
  { intros a p Hin. apply In_nth_error in Hin. destruct Hin as (j & Hj).
    destruct (same_fst _ _ _ _ _ Fels Hj) as (c & Hc). rewrite (Ent _ _ _ Hc) in Hj. inversion Hj; subst.
    destruct (Nat.eqb j bi); [lra|]. eapply Bnd; eauto. }
  assert (Ht : total els = 1).
  { unfold els. erewrite others_upd; [|rewrite Fl; exact Hnd|exact El]. lra. }
  assert (Len : length els = length scores).
  { rewrite <- (map_length fst els), Fels, map_length. reflexivity. }
  destruct (enforce_pos dbg ueps els He Hpos Ht) as (r & Er & Fr & Tr & Ent2 & Mono).
  exists bi, r. split; [exists ba, bc; auto|]. split.
  { fold els. rewrite Er. reflexivity. }
  assert (Fr' : map fst r = map fst scores) by congruence. split; [exact Fr'|].
  assert (Q1 : forall j a q, nth_error r j = Some (a, q) -> ueps / n <= q /\ 0 < q).
  { intros j a q Hq. destruct (same_fst _ _ _ _ _ Fr Hq) as (p & Hp). destruct (Ent2 _ _ _ _ Hp Hq) as (A & B & _).
    rewrite Len in A. auto. }
  split; [intros a q Hin; apply In_nth_error in Hin; destruct Hin as (j & Hj); apply Q1 in Hj; lra|].
  split; [exact Tr|]. split; [exact Q1|].
  assert (Best : forall i a c p, nth_error scores i = Some (a, c) -> nth_error els i = Some (a, p) -> p <= 1 - others ba l).
  { intros i a c p Hi Hp. rewrite (Ent _ _ _ Hi) in Hp. inversion Hp; subst. destruct (Nat.eqb i bi); [lra|].
    pose proof (Bnd _ _ _ Hi). lra. }
  assert (Ebi : nth_error els bi = Some (ba, 1 - others ba l)) by (rewrite (Ent _ _ _ Ei), Nat.eqb_refl; reflexivity).
  split.
  - intros j a q b q' Hb Hq. destruct (same_fst _ _ _ _ _ Fr' Hq) as (c & Hc).
    destruct (same_fst _ _ _ _ _ Fr Hq) as (p & Hp).
    assert (b = ba). { destruct (same_fst _ _ _ _ _ Fr Hb) as (p' & Hp'). rewrite Ebi in Hp'. now inversion Hp'. } subst b.
    eapply (Mono j bi); eauto.
  - intros i j a c q b d q' Hi Hq Hj Hq' L.
    destruct (same_fst _ _ _ _ _ Fr Hq) as (p & Hp). destruct (same_fst _ _ _ _ _ Fr Hq') as (p' & Hp').
    eapply (Mono j i); [exact Hp'|exact Hq'|exact Hp|exact Hq|].
    rewrite (Ent _ _ _ Hi) in Hp. rewrite (Ent _ _ _ Hj) in Hp'. inversion Hp; inversion Hp'; subst.
    assert (j <> bi). { intros ->. rewrite Ei in Hj. inversion Hj; subst. destruct (Hm _ _ _ Hi). lra. }
    destruct (Nat.eqb_spec j bi); [congruence|]. destruct (Nat.eqb_spec i bi).
    + pose proof (Bnd _ _ _ Hj). lra.
    + apply sq_weight_anti; [|lra]. eapply Hm; eauto.
Qed.
End Square.

Lemma gamma_nonneg : forall gs ge counter, 0 <= gs -> 0 <= @squarecb_gamma RF gs ge counter.
Proof.
  intros gs ge counter H. unfold squarecb_gamma. cbn [f_mul f_pow RF]. apply Rmult_le_pos; auto.
  unfold Rpowf. destruct (Req_EM_T _ 0); [destruct (Req_EM_T ge 0); lra|]. unfold Rpower. left. apply exp_pos.
Qed.

(** ** C17 *)
Lemma sum_exp_pos : forall la s, s <> [] -> 0 < sum_exp la s.
Proof.
  intros la [|x s] H; [congruence|]. clear H. revert x. unfold sum_exp. induction s as [|y s IH]; intros x; cbn [fold_right] in *.
  - pose proof (exp_pos (- la * snd x)). lra.
  - pose proof (exp_pos (- la * snd x)). specialize (IH y). lra.
Qed.

Lemma softmax_body : forall la bc (s : list (N * R)) acc,
  fold_left (fun acc (e : N * R) => acc + snd e) (map (fun e : N * R => (fst e, exp (- la * (snd e - bc)))) s) acc
  = acc + exp (la * bc) * sum_exp la s.
Proof.
  intros la bc s. unfold sum_exp. induction s as [|[a c] s IH]; intros acc; cbn [map fold_left fold_right fst snd]; [lra|].
  rewrite IH. replace (- la * (c - bc)) with (la * bc + - la * c) by lra. rewrite exp_plus. lra.
Qed.

Lemma softmax_spec : forall dbg ueps la (scores : list (N * R)), scores <> [] -> 0 <= ueps <= 1 ->
  exists r : list (N * R), @softmax_probs RF dbg ueps la scores = Ok r /\ map fst r = map fst scores /\ total r = 1 /\
    (forall i a c q, nth_error scores i = Some (a, c) -> nth_error r i = Some (a, q) ->
       0 < q /\ ueps / INR (length scores) <= q /\ (ueps = 0 -> q = exp (- la * c) / sum_exp la scores)) /\
    (forall i j a c q b d q', nth_error scores i = Some (a, c) -> nth_error r i = Some (a, q) ->
       nth_error scores j = Some (b, d) -> nth_error r j = Some (b, q') -> 0 <= la -> c <= d -> q' <= q) /\
    @enforce_min_prob RF dbg ueps false (map (fun e : N * R => (fst e, exp (- la * snd e) / sum_exp la scores)) scores) = Ok r.
Proof.
  intros dbg ueps la scores Hne He. destruct (min_by_spec _ gtR_partial scores Hne) as (bi & ba & bc & E & Ei & Hm).
  rewrite softmax_eq, E. cbn [bind fst snd]. cbv zeta.
  set (l := map (fun s : N * R => (fst s, exp (- la * (snd s - bc)))) scores).
  replace (@fold_left R (N * R) (fun acc s => acc + snd s) l 0) with (exp (la * bc) * sum_exp la scores) by (unfold l; rewrite softmax_body; lra).
  set (els := map (fun e : N * R => (fst e, exp (- la * snd e) / sum_exp la scores)) scores).
  pose proof (sum_exp_pos la scores Hne) as Sp. pose proof (exp_pos (la * bc)) as Ep.
  assert (EQ : map (fun s : N * R => (fst s, snd s / (exp (la * bc) * sum_exp la scores))) l = els).
  { unfold l, els. rewrite map_map. apply map_ext. intros [a c]. cbn [fst snd]. f_equal.
    replace (- la * (c - bc)) with (la * bc + - la * c) by lra. rewrite exp_plus. field. lra. }
  rewrite EQ.
  assert (Fels : map fst els = map fst scores) by (unfold els; rewrite map_map; reflexivity).
  assert (Hpos : forall a p, In (a, p) els -> 0 < p).
  { intros a p Hin. unfold els in Hin. apply in_map_iff in Hin. destruct Hin as ([a' c] & Q & _). inversion Q; subst.
    apply Rdiv_lt_0_compat; auto. apply exp_pos. }
  assert (Ht : total els = 1).
  { assert (G : forall (s : list (N * R)) z, z <> 0 -> total (map (fun e : N * R => (fst e, exp (- la * snd e) / z)) s) = sum_exp la s / z).
    { clear. intros s z Hz. unfold sum_exp. induction s as [|[a c] s IH]; cbn [map total fold_right fst snd]; [unfold Rdiv; lra|]. rewrite IH. field; auto. }
    unfold els. rewrite G by lra. field. lra. }
  destruct (enforce_pos dbg ueps els He Hpos Ht) as (r & Er & Fr & Tr & Ent2 & Mono).
  exists r. split; [rewrite Er; reflexivity|].
  split; [congruence|]. split; [exact Tr|].
  assert (Len : length els = length scores) by (unfold els; apply map_length).
  assert (Ent : forall i a c, nth_error scores i = Some (a, c) -> nth_error els i = Some (a, exp (- la * c) / sum_exp la scores)).
  { intros i a c H. unfold els. rewrite nth_error_map, H. reflexivity. }
  split; [|split; [|exact Er]].
  - intros i a c q Hi Hq. destruct (Ent2 _ _ _ _ (Ent _ _ _ Hi) Hq) as (A & B & C). rewrite Len in A. auto.
  - intros i j a c q b d q' Hi Hq Hj Hq' Hla L.
    eapply (Mono j i); [exact (Ent _ _ _ Hj)|exact Hq'|exact (Ent _ _ _ Hi)|exact Hq|].
    apply Rmult_le_compat_r; [left; apply Rinv_0_lt_compat; lra|].
    assert (- la * d <= - la * c) by (assert (la * c <= la * d) by (apply Rmult_le_compat_l; lra); lra).
    destruct (Req_dec (- la * d) (- la * c)) as [->|]; [lra|]. left. apply exp_increasing. lra.
Qed.

Lemma sum_exp_shift : forall la k s, sum_exp la (map (fun e : N * R => (fst e, snd e + k)) s) = exp (- la * k) * sum_exp la s.
Proof.
  intros la k s. unfold sum_exp. induction s as [|[a c] s IH]; cbn [map fold_right fst snd]; [lra|]. rewrite IH.
  replace (- la * (c + k)) with (- la * k + - la * c) by lra. rewrite exp_plus. lra.
Qed.

Lemma softmax_shift : forall dbg ueps la k (scores : list (N * R)), scores <> [] -> 0 <= ueps <= 1 ->
  @softmax_probs RF dbg ueps la (map (fun e : N * R => (fst e, snd e + k)) scores) = @softmax_probs RF dbg ueps la scores.
Proof.
  intros dbg ueps la k scores Hne He.
  destruct (softmax_spec dbg ueps la scores Hne He) as (r & E & _ & _ & _ & _ & F).
  assert (Hne' : map (fun e : N * R => (fst e, snd e + k)) scores <> []) by (destruct scores; simpl; congruence).
  destruct (softmax_spec dbg ueps la _ Hne' He) as (r' & E' & _ & _ & _ & _ & F').
  rewrite E, E'. f_equal. rewrite map_map in F'. cbn [fst snd] in F'.
  assert (X : map (fun x : N * R => (fst x, exp (- la * (snd x + k)) / sum_exp la (map (fun e : N * R => (fst e, snd e + k)) scores))) scores
    = map (fun e : N * R => (fst e, exp (- la * snd e) / sum_exp la scores)) scores).
  { apply map_ext. intros [a c]. cbn [fst snd]. f_equal. rewrite sum_exp_shift.
    pose proof (sum_exp_pos la scores Hne). pose proof (exp_pos (- la * k)).
    replace (- la * (c + k)) with (- la * k + - la * c) by lra. rewrite exp_plus. field. lra. }
  rewrite X in F'. rewrite F in F'. now inversion F'.
Qed.

Lemma squarecb_spec : forall (dbg : bool) (ueps gs ge : R) (counter : N) (scores : list (N * R)),
  0 <= gs -> (0 < counter)%N \/ 0 <= ge -> scores <> [] -> NoDup (map fst scores) -> 0 <= ueps <= 1 ->
  exists bi (r : list (N * R)), first_min scores bi /\
    @squarecb_probs RF dbg ueps (@squarecb_gamma RF gs ge counter) scores = Ok r /\ map fst r = map fst scores /\
    nonneg r /\ total r = 1 /\
    (forall j a q, nth_error r j = Some (a, q) -> ueps / INR (length scores) <= q /\ 0 < q) /\
    (forall j a q b q', nth_error r bi = Some (b, q') -> nth_error r j = Some (a, q) -> q <= q') /\
    (forall i j a c q b d q', nth_error scores i = Some (a, c) -> nth_error r i = Some (a, q) ->
       nth_error scores j = Some (b, d) -> nth_error r j = Some (b, q') -> c < d -> q' <= q).
Proof.
  intros dbg ueps gs ge counter scores Hg _ Hne Hnd He. apply square_spec; auto. now apply gamma_nonneg.
Qed.
Lemma softmax_main : forall (dbg : bool) (ueps la : R) (scores : list (N * R)), scores <> [] -> 0 <= ueps <= 1 ->
  exists r : list (N * R), @softmax_probs RF dbg ueps la scores = Ok r /\ map fst r = map fst scores /\ total r = 1 /\
    (forall i a c q, nth_error scores i = Some (a, c) -> nth_error r i = Some (a, q) ->
       0 < q /\ ueps / INR (length scores) <= q /\ (ueps = 0 -> q = exp (- la * c) / sum_exp la scores)) /\
    (forall i j a c q b d q', nth_error scores i = Some (a, c) -> nth_error r i = Some (a, q) ->
       nth_error scores j = Some (b, d) -> nth_error r j = Some (b, q') -> 0 <= la -> c <= d -> q' <= q).
Proof.
  intros dbg ueps la scores H1 H2. destruct (softmax_spec dbg ueps la scores H1 H2) as (r & A & B & C & D & E & _).
  exists r. auto.
Qed.

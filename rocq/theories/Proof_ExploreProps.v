(** C12, C13, C14: final lemmas. *)
From Coq Require Import List NArith ZArith Bool Lia Reals Lra Permutation Sorted.
From Verif Require Import Base FloatOps FloatR FloatB32 Model_Explore Spec_Explore Proof_Explore.
Import ListNotations.
Open Scope R_scope.

Lemma total_rsum : forall l, total l = rsum (map snd l).
Proof. induction l as [|[a p] l IH]; simpl; auto. now rewrite IH. Qed.

Lemma ncount_counted : forall consider l n, nonneg l -> ncount consider l n -> length (counted consider l) = n.
Proof.
  intros consider l n Hp H. unfold counted. induction H as [|a p l n Hc H IH|a p l n Hc H IH]; simpl; auto.
  - assert (E : (consider || negb (Reqb p 0))%bool = true).
    { destruct Hc as [->|Hc]; auto. destruct (Reqb_spec p 0); [lra|]. apply orb_true_r. }
    rewrite E. simpl. f_equal. apply IH. intros a' p' Hin; eapply Hp; right; eauto.
  - assert (E : (consider || negb (Reqb p 0))%bool = false).
    { destruct consider; [exfalso; apply Hc; left; auto|]. assert (0 <= p) by (eapply Hp; left; eauto).
      destruct (Reqb_spec p 0); auto. exfalso. apply Hc. right. lra. }
    rewrite E. apply IH. intros a' p' Hin; eapply Hp; right; eauto.
Qed.

Lemma total_counted : forall consider g l, nonneg l ->
  total (map (fun e => if consider || Rltb 0 (snd e) then (fst e, g (snd e)) else e) l)
  = rsum (map g (counted consider l)).
Proof.
  intros consider g l Hp. unfold counted. induction l as [|[a p] l IH]; [reflexivity|].
  assert (Hl : nonneg l) by (intros a' p' Hin; eapply Hp; right; eauto).
  cbn [map total fst snd filter].
  assert (0 <= p) by (eapply Hp; left; eauto).
  replace (negb (Reqb p 0)) with (Rltb 0 p).
  2:{ destruct (Rltb_spec 0 p), (Reqb_spec p 0); simpl; auto; lra. }
  destruct (consider || Rltb 0 p)%bool eqn:E; cbn [total map rsum fold_right snd].
  - rewrite IH by auto. reflexivity.
  - rewrite IH by auto. assert (p = 0). { destruct (Rltb_spec 0 p); [rewrite orb_true_r in E; discriminate|lra]. }
    lra.
Qed.

Lemma counted_total : forall consider l, nonneg l -> rsum (counted consider l) = total l.
Proof.
  intros consider l Hp. rewrite <- (map_id (counted consider l)).
  rewrite <- (total_counted consider (fun x => x)) by auto. f_equal.
  rewrite <- (map_id l) at 2. apply map_ext. intros [a p]. simpl. destruct (consider || Rltb 0 p)%bool; auto.
Qed.

Lemma counted_in : forall consider l x, nonneg l ->
  In x (counted consider l) <-> exists a, In (a, x) l /\ counting consider x.
Proof.
  intros consider l x Hp. unfold counted. rewrite in_map_iff. split.
  - intros ([a p] & <- & H). apply filter_In in H. destruct H as (H & E). exists a. split; auto.
    simpl in *. destruct consider; [left; auto|]. right. specialize (Hp a p H).
    simpl in E. destruct (Reqb_spec p 0); [discriminate|lra].
  - intros (a & H & Hc). exists (a, x). split; auto. apply filter_In. split; auto. simpl.
    destruct Hc as [->|Hc]; auto. destruct (Reqb_spec x 0); [lra|]. apply orb_true_r.
Qed.

Lemma counting_b : forall consider p, (consider || Rltb 0 p)%bool = true <-> counting consider p.
Proof.
  intros. unfold counting. rewrite orb_true_iff. destruct (Rltb_spec 0 p); intuition discriminate.
Qed.

Lemma total_zero : forall l, (forall a p, In (a, p) l -> p = 0) -> total l = 0.
Proof.
  induction l as [|[a p] l IH]; simpl; intros H; auto. rewrite IH by (intros; eapply H; right; eauto).
  rewrite (H a p) by auto. lra.
Qed.

(** ** general shape of a successful call (eps > 0, nonnegative input) *)
Lemma enforce_shape : forall dbg eps consider els n,
  0 < eps <= 1 -> nonneg els -> ncount consider els n -> (n > 0)%nat ->
  exists g : R -> R,
    @enforce_min_prob RF dbg eps consider els =
      Ok (map (fun e => if consider || Rltb 0 (snd e) then (fst e, g (snd e)) else e) els) /\
    (forall p, eps / INR n <= g p) /\
    (forall p q, p <= q -> g p <= g q) /\
    rsum (map g (counted consider els)) = 1 /\
    (eps > 999 / 1000 -> forall p, g p = 1 / INR n) /\
    (eps <= 999 / 1000 -> total els = 1 -> (forall a p, In (a, p) els -> counting consider p -> eps / INR n <= p) ->
     forall a p, In (a, p) els -> counting consider p -> g p = p).
Proof.
  intros dbg eps consider els n He Hp Hn Hpos.
  assert (Ln : length (counted consider els) = n) by (apply ncount_counted; auto).
  assert (Hn0 : 0 < INR n) by (apply lt_0_INR; lia).
  destruct (Rle_or_lt eps (999 / 1000)) as [Hs|Hs].
  - destruct (enforce_main dbg eps consider els) as (tau & E & S & U).
    + lra.
    + intros [a p] H. eapply Hp; eauto.
    + intros H. rewrite H in Ln. simpl in Ln. lia.
    + rewrite Ln in *. exists (fun p => Rmax (p - tau) (eps / INR n)). split; [exact E|].
      split; [intros; apply Rmax_r|]. split.
      { intros p q Hpq. unfold Rmax. destruct (Rle_dec (p - tau) (eps / INR n)), (Rle_dec (q - tau) (eps / INR n)); lra. }
      split; auto. split; [lra|]. intros _ Ht Hf a p Hin Hc. apply U.
      * rewrite counted_total; auto.
      * intros x Hx. apply counted_in in Hx; auto. destruct Hx as (b & Hb & Hbc). eapply Hf; eauto.
      * apply counted_in; eauto.
  - exists (fun _ => 1 / INR n). split; [|split; [|split; [|split; [|split]]]].
    + unfold enforce_min_prob. destruct els as [|e0 els0] eqn:Eels.
      { inversion Hn; subst. lia. }
      rewrite <- Eels in *. rewrite RF_f0. cbn [f_eqb RF]. destruct (Reqb_spec eps 0) as [|_]; [lra|].
      assert (B1 : (f_ltb RF eps 0 || @f_gtb RF eps (@f1 RF))%bool = false).
      { unfold f_gtb. rewrite RF_f1. cbn [f_ltb RF]. destruct (Rltb_spec eps 0), (Rltb_spec 1 eps); simpl; auto; lra. }
      rewrite B1. assert (B2 : @f_gtb RF eps (lit_0999 RF) = true).
      { unfold f_gtb, lit_0999. cbn [f_ltb f_lit RF]. destruct (Rltb_spec (999 / 1000) eps); auto; lra. }
      rewrite B2. f_equal. apply map_ext. intros e. unfold counts, f_gtb. rewrite RF_f0, RF_f1. cbn [f_ltb RF].
      rewrite RF_of_N, support_counted, Ln. reflexivity.
    + intros p. unfold Rdiv. apply Rmult_le_compat_r; [|lra]. left. now apply Rinv_0_lt_compat.
    + intros; lra.
    + assert (forall l : list R, rsum (map (fun _ => 1 / INR n) l) = INR (length l) * (1 / INR n)).
      { induction l as [|x l IH]; [simpl; lra|]. cbn [map rsum fold_right length]. fold (rsum (map (fun _ : R => 1 / INR n) l)).
        rewrite IH, S_INR. lra. }
      rewrite H, Ln. field. lra.
    + intros; reflexivity.
    + intros; lra.
Qed.

Lemma pos_count : forall consider l, nonneg l -> 0 < total l ->
  forall n, ncount consider l n -> (n > 0)%nat.
Proof.
  intros consider l Hp Ht n Hn. destruct n; [|lia]. exfalso.
  assert (Z : counted consider l = []).
  { apply length_zero_iff_nil. now apply ncount_counted. }
  rewrite <- (counted_total consider) in Ht by auto. rewrite Z in Ht. simpl in Ht. lra.
Qed.

Lemma ncount_exists : forall consider l, exists n, ncount consider l n.
Proof.
  induction l as [|[a p] l (n & IH)]; [exists 0%nat; constructor|].
  destruct consider.
  - exists (S n). apply nc_yes; auto. left; auto.
  - destruct (Rlt_dec 0 p).
    + exists (S n). apply nc_yes; auto. right; auto.
    + exists n. apply nc_no; auto. intros [H|H]; [discriminate|lra].
Qed.

Lemma c12_distribution : forall dbg eps consider els,
  0 <= eps <= 1 -> nonneg els -> total els = 1 ->
  exists r, @enforce_min_prob RF dbg eps consider els = Ok r /\ nonneg r /\ total r = 1.
Proof.
  intros dbg eps consider els He Hp Ht.
  destruct (Req_EM_T eps 0) as [->|Hz].
  - exists els. split; auto. unfold enforce_min_prob. destruct els; [simpl in Ht; lra|].
    rewrite RF_f0. cbn [f_eqb RF]. destruct (Reqb_spec 0 0); auto. lra.
  - destruct (ncount_exists consider els) as (n & Hn).
    assert (n > 0)%nat by (eapply pos_count; eauto; lra).
    destruct (enforce_shape dbg eps consider els n) as (g & E & F & M & S & _); auto; [lra|].
    eexists. split; [exact E|]. split.
    + intros a p H'. apply in_map_iff in H'. destruct H' as ([b q] & E' & H'). simpl in E'.
      destruct (consider || Rltb 0 q)%bool; inversion E'; subst; [|eapply Hp; eauto].
      specialize (F q). assert (0 < eps / INR n).
      { apply Rdiv_lt_0_compat; [lra|]. apply lt_0_INR; lia. }
      lra.
    + now rewrite total_counted.
Qed.

Lemma c12_projection : forall dbg eps consider els n,
  0 < eps <= 1 -> nonneg els -> ncount consider els n -> (n > 0)%nat ->
  exists r, @enforce_min_prob RF dbg eps consider els = Ok r /\ nonneg r /\ total r = 1.
Proof.
  intros dbg eps consider els n He Hp Hn Hpos.
  destruct (enforce_shape dbg eps consider els n) as (g & E & F & M & S & _); auto.
  eexists. split; [exact E|]. split.
  - intros a p H'. apply in_map_iff in H'. destruct H' as ([b q] & E' & H'). simpl in E'.
    destruct (consider || Rltb 0 q)%bool; inversion E'; subst; [|eapply Hp; eauto].
    specialize (F q). assert (0 < eps / INR n).
    { apply Rdiv_lt_0_compat; [lra|]. apply lt_0_INR; lia. }
    lra.
  - now rewrite total_counted.
Qed.

Lemma c12_uniform : forall dbg eps consider els n i a p,
  999 / 1000 < eps <= 1 -> nonneg els -> ncount consider els n ->
  nth_error els i = Some (a, p) -> counting consider p ->
  exists r, @enforce_min_prob RF dbg eps consider els = Ok r /\ nth_error r i = Some (a, 1 / INR n).
Proof.
  intros dbg eps consider els n i a p He Hp Hn Hi Hc.
  assert (n > 0)%nat.
  { rewrite <- (ncount_counted consider els n) by auto.
    assert (In p (counted consider els)) by (apply counted_in; auto; exists a; split; auto; eapply nth_error_In; eauto).
    destruct (counted consider els); [contradiction|simpl; lia]. }
  destruct (enforce_shape dbg eps consider els n) as (g & E & F & M & S & U & _); auto; [lra|].
  eexists. split; [exact E|]. rewrite nth_error_map, Hi. cbn [option_map snd fst].
  rewrite (proj2 (counting_b consider p)) by auto. rewrite U by lra. reflexivity.
Qed.

Lemma c13_entries : forall dbg eps consider (els : list (N * R)) n (r : list (N * R)),
  0 < eps -> nonneg els -> ncount consider els n ->
  @enforce_min_prob RF dbg eps consider els = Ok r ->
  map fst r = map fst els /\
  (forall i a p q, nth_error els i = Some (a, p) -> nth_error r i = Some (a, q) ->
     (counting consider p -> eps / INR n <= q) /\ (~ counting consider p -> q = 0)) /\
  (forall i j a p q b p' q', nth_error els i = Some (a, p) -> nth_error r i = Some (a, q) ->
     nth_error els j = Some (b, p') -> nth_error r j = Some (b, q') -> p <= p' -> q <= q').
Proof.
  intros dbg eps consider els n r He Hp Hn E.
  assert (He1 : eps <= 1).
  { destruct (Rle_or_lt eps 1); auto. exfalso. revert E. unfold enforce_min_prob. destruct els; [discriminate|].
    rewrite RF_f0, RF_f1. cbn [f_eqb RF]. destruct (Reqb_spec eps 0); [lra|].
    unfold f_gtb. cbn [f_ltb RF]. destruct (Rltb_spec 1 eps); [|lra]. rewrite orb_true_r. discriminate. }
  destruct (Nat.eq_dec n 0) as [->|Hpos].
  - (* nothing counts: every value is zero and stays zero *)
    assert (Z : counted consider els = []) by (apply length_zero_iff_nil; now apply ncount_counted).
    assert (NC : forall a p, In (a, p) els -> ~ counting consider p).
    { intros a p H Hc. assert (In p (counted consider els)) by (apply counted_in; eauto). rewrite Z in H0. contradiction. }
    assert (Er : r = els).
    { assert (K : forall g : RF -> RF, map (fun e => if counts (O := RF) consider (snd e) then (fst e, g (snd e)) else e) els = els).
      { intros g. rewrite <- (map_id els) at 2. apply map_ext_in. intros [a p] H. unfold counts, f_gtb. rewrite RF_f0.
        cbn [snd f_ltb RF]. destruct (consider || Rltb 0 p)%bool eqn:Ec; auto. apply counting_b in Ec. exfalso. eapply NC; eauto. }
      unfold enforce_min_prob in E. destruct els as [|e0 els0] eqn:Ee; [discriminate|]. rewrite <- Ee in *.
      destruct (f_eqb RF eps f0); [congruence|]. destruct (_ || _)%bool; [discriminate|].
      destruct (@f_gtb RF eps _).
      - match type of E with Ok ?x = Ok ?y => assert (y = x) as -> by congruence end.
        refine (K (fun _ => _)).
      - apply bind_ok in E. destruct E as (s & _ & E). apply bind_ok in E. destruct E as (f & _ & E).
        apply bind_ok in E. destruct E as (rho & _ & E). 
        match type of E with Ok ?x = Ok ?y => assert (y = x) as -> by congruence end.
        refine (K (fun p => @f_max RF (f_sub RF p _) _)). }
    subst r. split; auto. split.
    + intros i a p q H1 H2. assert (p = q) as -> by congruence. split.
      * intros Hc. exfalso. eapply NC; [|exact Hc]. eapply nth_error_In; eauto.
      * intros Hc. assert (0 <= q) by (eapply Hp, nth_error_In; eauto).
        destruct (Rle_or_lt q 0); [lra|]. exfalso. apply Hc. right; auto.
    + intros i j a p q b p' q' H1 H2 H3 H4 Hle. assert (p = q) as -> by congruence.
      assert (p' = q') as -> by congruence. exact Hle.
  - destruct (enforce_shape dbg eps consider els n) as (g & E' & F & M & S & _); auto; [lia|].
    rewrite E in E'. inversion E'; subst r. clear E'.
    assert (Hm : 0 < eps / INR n) by (apply Rdiv_lt_0_compat; [lra|]; apply lt_0_INR; lia).
    split; [|split].
    + rewrite map_map. apply map_ext. intros [a p]. simpl. destruct (consider || Rltb 0 p)%bool; auto.
    + intros i a p q H1 H2. rewrite nth_error_map, H1 in H2. cbn [option_map snd fst] in H2.
      destruct (consider || Rltb 0 p)%bool eqn:Ec; inversion H2; subst.
      * apply counting_b in Ec. split; [auto|contradiction].
      * assert (~ counting consider q) by (rewrite <- counting_b; congruence).
        split; [contradiction|]. intros Hc. assert (0 <= q) by (eapply Hp, nth_error_In; eauto).
        destruct (Rle_or_lt q 0); [lra|]. exfalso. apply Hc. right; auto.
    + intros i j a p q b p' q' H1 H2 H3 H4 Hle. rewrite nth_error_map, H1 in H2. rewrite nth_error_map, H3 in H4.
      cbn [option_map snd fst] in *.
      assert (0 <= p) by (eapply Hp, nth_error_In; exact H1).
      destruct (consider || Rltb 0 p)%bool eqn:Ec; destruct (consider || Rltb 0 p')%bool eqn:Ec';
        inversion H2; inversion H4; subst; auto.
      * exfalso. apply counting_b in Ec. assert (counting consider q').
        { destruct Ec as [Ec|Ec]; [left; auto|right; lra]. }
        apply counting_b in H0. congruence.
      * specialize (F p'). assert (~ counting consider q) by (rewrite <- counting_b; congruence).
        assert (q <= 0). { destruct (Rle_or_lt q 0); auto. exfalso. apply H0. right; auto. }
        lra.
Qed.

Lemma c13_unchanged : forall dbg eps consider els n,
  0 <= eps <= 999 / 1000 -> nonneg els -> total els = 1 -> ncount consider els n ->
  (forall a p, In (a, p) els -> counting consider p -> eps / INR n <= p) ->
  @enforce_min_prob RF dbg eps consider els = Ok els.
Proof.
  intros dbg eps consider els n He Hp Ht Hn Hf.
  destruct (Req_EM_T eps 0) as [->|Hz].
  - unfold enforce_min_prob. destruct els; [simpl in Ht; lra|].
    rewrite RF_f0. cbn [f_eqb RF]. destruct (Reqb_spec 0 0); auto. lra.
  - assert (n > 0)%nat by (eapply pos_count; eauto; lra).
    destruct (enforce_shape dbg eps consider els n) as (g & E & F & M & S & _ & U); auto; [lra|].
    rewrite E. f_equal. rewrite <- (map_id els) at 2. apply map_ext_in. intros [a p] Hin. cbn [snd fst].
    destruct (consider || Rltb 0 p)%bool eqn:Ec; auto. apply counting_b in Ec. f_equal. eapply U; eauto. lra.
Qed.

(** Just above 0.999 a distribution that satisfies the floor is still replaced. *)
Lemma c13_unchanged_false : exists eps els n,
  0 <= eps <= 1 /\ nonneg els /\ total els = 1 /\ ncount true els n /\
  (forall a p, In (a, p) els -> eps / INR n <= p) /\
  exists r, @enforce_min_prob RF true eps true els = Ok r /\ r <> els.
Proof.
  exists (9995 / 10000), [(0%N, 5001 / 10000); (1%N, 4999 / 10000)], 2%nat.
  assert (Hn : ncount true [(0%N, 5001 / 10000); (1%N, 4999 / 10000)] 2).
  { repeat (constructor; [left; reflexivity|]). constructor. }
  assert (Hp : nonneg [(0%N, 5001 / 10000); (1%N, 4999 / 10000)]).
  { intros a p [H|[H|[]]]; inversion H; lra. }
  split; [lra|]. split; auto. split; [simpl; lra|]. split; auto. split.
  { intros a p [H|[H|[]]]; inversion H; simpl; lra. }
  destruct (c12_uniform true (9995 / 10000) true _ 2 0 0%N (5001 / 10000)
    ltac:(lra) Hp Hn eq_refl (or_introl eq_refl)) as (r & E & H).
  exists r. split; [exact E|]. intros ->. simpl in H. inversion H. lra.
Qed.

(** ** C14: any float record *)
Section Any.
Context (O : FOps).

Lemma rho_loop_ok : forall dbg consider support m (l : list (N * O)) idx running rho,
  (N.to_nat idx + length (filter (fun e => consider || negb (f_eqb O (snd e) f0)) l) <= N.to_nat support)%nat ->
  exists r, rho_loop dbg consider support m l idx running rho = Ok r.
Proof.
  intros dbg consider support m l. induction l as [|[a p] l IH]; intros idx running rho H; cbn [rho_loop]; eauto.
  cbn [filter snd] in H.
  destruct (f_eqb O p f0) eqn:E; destruct consider; cbn [andb negb orb] in *; eauto;
    cbn [length] in H; unfold usub at 1; rewrite (proj2 (N.leb_le _ _)) by lia; cbn [bind];
    unfold usub at 1; rewrite (proj2 (N.leb_le _ _)) by lia; cbn [bind]; apply IH; lia.
Qed.

Lemma rho_loop_not_er : forall dbg consider support m (l : list (N * O)) idx running rho e,
  rho_loop dbg consider support m l idx running rho <> Er e.
Proof.
  intros dbg consider support m l. induction l as [|[a p] l IH]; intros idx running rho e; cbn [rho_loop]; [discriminate|].
  destruct (negb consider && f_eqb O p f0)%bool; [discriminate|].
  unfold usub. destruct dbg; repeat (destruct (_ <=? _)%N; cbn [bind]; try discriminate); apply IH.
Qed.

Lemma support_filter : forall consider (els : list (N * O)),
  N.to_nat (support_size consider els) = length (filter (fun e => consider || negb (f_eqb O (snd e) f0)) els).
Proof.
  intros consider els. unfold support_size. destruct consider.
  - rewrite Nat2N.id, filter_all; auto.
  - cbn [orb].
    assert (length els = length (filter (fun e : N * O => f_eqb O (snd e) f0) els) +
                        length (filter (fun e : N * O => negb (f_eqb O (snd e) f0)) els))%nat; [|lia].
    induction els as [|e els IH]; simpl; auto. destruct (f_eqb O (snd e) f0); simpl; lia.
Qed.

Lemma enforce_cases : forall dbg eps consider (els : list (N * O)),
  let bad := (f_ltb O eps f0 || f_ltb O f1 eps)%bool in
  match enforce_min_prob dbg eps consider els with
  | Er e => e = EInvalidArgument /\ (els = [] \/ (f_eqb O eps f0 = false /\ bad = true))
  | Pn p => p = PNaN /\ exists a q, In (a, q) els /\ f_isnan O q = true
  | Ok r => els <> [] /\ (f_eqb O eps f0 = true \/ bad = false)
  end.
Proof.
  intros dbg eps consider els bad. unfold enforce_min_prob. destruct els as [|e0 els0] eqn:Ee; auto.
  rewrite <- Ee. assert (Ne : els <> []) by (rewrite Ee; discriminate).
  destruct (f_eqb O eps f0); auto. fold (@f_gtb O eps f1) in bad. fold bad.
  change (f_ltb O eps f0 || f_gtb eps f1)%bool with bad.
  destruct bad; auto. destruct (f_gtb eps (lit_0999 O)); auto.
  unfold sort_desc. destruct ((2 <=? length els)%nat && existsb (fun e => f_isnan O (snd e)) els)%bool eqn:En; cbn [bind].
  - apply andb_true_iff in En. destruct En as (_ & En). apply existsb_exists in En. destruct En as ([a q] & H & Hq).
    split; eauto.
  - set (s := sort_by _ els). assert (P : Permutation s els) by apply sort_by_perm.
    destruct s as [|e s'] eqn:Es. { apply Permutation_nil in P. congruence. }
    cbn [hd_error opt_or bind].
    destruct (rho_loop_ok dbg consider (support_size consider els) (f_div O eps (f_of_N (support_size consider els)))
                (e :: s') 0%N f0 (0%N, snd e)) as (r & Er).
    { rewrite support_filter. simpl N.to_nat. rewrite Nat.add_0_l.
      apply Nat.eq_le_incl, Permutation_length, filter_perm, P. }
    rewrite Er. cbn [bind]. split; auto.
Qed.

(** The error cases and the unchanged case. *)
Lemma c14_error : forall dbg eps consider (els : list (N * O)),
  (exists e, enforce_min_prob dbg eps consider els = Er e) <->
  (els = [] \/ (f_eqb O eps f0 = false /\ (f_ltb O eps f0 = true \/ f_ltb O f1 eps = true))).
Proof.
  intros dbg eps consider els. pose proof (enforce_cases dbg eps consider els) as H. cbv zeta in H.
  destruct (enforce_min_prob dbg eps consider els) as [r|e|p] eqn:E.
  - split; [intros (e & He); discriminate|]. destruct H as (H1 & H2). intros [H3|(H3 & H4)]; [congruence|].
    exfalso. apply orb_true_iff in H4. destruct H2; congruence.
  - destruct H as (-> & H). split; [|eauto]. intros _. destruct H as [H|(H1 & H2)]; auto.
    right. split; auto. now apply orb_true_iff.
  - split; [intros (e & He); discriminate|]. intros [H3|(H3 & H4)].
    + subst els. discriminate.
    + exfalso. apply orb_true_iff in H4. unfold enforce_min_prob in E. destruct els; [discriminate|].
      rewrite H3 in E. unfold f_gtb in E. rewrite H4 in E. discriminate.
Qed.

Lemma c14_no_panic : forall dbg eps consider (els : list (N * O)),
  (forall a p, In (a, p) els -> f_isnan O p = false) ->
  forall p, enforce_min_prob dbg eps consider els <> Pn p.
Proof.
  intros dbg eps consider els Hn p E. pose proof (enforce_cases dbg eps consider els) as H. cbv zeta in H.
  rewrite E in H. destruct H as (_ & a & q & H & Hq). specialize (Hn a q H). congruence.
Qed.

Lemma c14_zero : forall dbg eps consider (els : list (N * O)),
  els <> [] -> f_eqb O eps f0 = true -> enforce_min_prob dbg eps consider els = Ok els.
Proof. intros. unfold enforce_min_prob. destruct els; [congruence|]. now rewrite H0. Qed.
End Any.

Lemma c14_nan_rate : forall bexp bln bpow dbg consider (els : list (N * BF bexp bln bpow)),
  els <> [] -> (forall a p, In (a, p) els -> f_isnan (BF bexp bln bpow) p = false) ->
  exists r, @enforce_min_prob (BF bexp bln bpow) dbg Floats.SpecFloat.S754_nan consider els = Ok r.
Proof.
  intros bexp bln bpow dbg consider els Hne Hn.
  destruct (@enforce_min_prob (BF bexp bln bpow) dbg Floats.SpecFloat.S754_nan consider els) as [r|e|p] eqn:E; eauto.
  - exfalso. destruct (proj1 (c14_error (BF bexp bln bpow) dbg Floats.SpecFloat.S754_nan consider els)) as [H|(_ & [H|H])];
      eauto; try congruence; discriminate.
  - exfalso. eapply c14_no_panic; eauto.
Qed.

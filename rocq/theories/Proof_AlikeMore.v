(** Actions the model cannot tell apart: the policies (C100). *)
From Coq Require Import List NArith ZArith PeanoNat Bool Lia Permutation Reals Lra.
From Verif Require Import Base FloatOps FloatR Model_Hash Model_Features Model_Weights Model_Interactions
  Model_Types Model_Explore Model_Coin Model_Stack Model_Factory Spec_Features Spec_Explore Spec_Coin Spec_Stack Spec_Reductions Spec_Total Spec_Empty Spec_Delegate Spec_Shuffle Spec_Merge Spec_Elem Spec_ElemStack Spec_Trained Spec_Unseen Spec_ActOrder Spec_Built Spec_Builds Spec_Alike
  Proof_Weights Proof_Explore Proof_ExploreProps Proof_CbExplore Proof_Coin Proof_FloatOrder Proof_StackRestore Proof_StackShape Proof_StackProps Proof_EmptyProps Proof_Shuffle Proof_ActOrder Proof_Built Proof_Reductions Proof_Elem Proof_ElemStack Proof_Builds Proof_DebugToo Proof_Empty Proof_Unseen Proof_Alike.
Import ListNotations.
Local Open Scope R_scope.

(** ** policies on equal scores *)
Lemma total_same : forall (l : list (N * R)) x, (forall i a p, nth_error l i = Some (a, p) -> p = x) -> total l = INR (length l) * x.
Proof.
  intros l x E. rewrite <- (total_const l x). f_equal. rewrite <- (map_id l) at 1. apply map_ext_in. intros (a & p) Hin.
  apply In_nth_error in Hin. destruct Hin as (i & Hi). cbn. now rewrite (E _ _ _ Hi).
Qed.
Lemma len_pos : forall A (l : list A), l <> [] -> 0 < INR (length l).
Proof. intros A l H. apply lt_0_INR. destruct l; [congruence|cbn; lia]. Qed.
Lemma share : forall (r : list (N * R)) x, r <> [] -> total r = 1 -> (forall i a p, nth_error r i = Some (a, p) -> p = x) -> x = 1 / INR (length r).
Proof. intros r x Ne T E. rewrite (total_same r x E) in T. pose proof (len_pos _ r Ne). apply (Rmult_eq_reg_l (INR (length r))); [|lra]. rewrite T. field. lra. Qed.
Lemma numbered_list : forall (l : list (N * R)) (g : nat -> R), numbered l -> (forall i a p, nth_error l i = Some (a, p) -> p = g i) ->
  l = map (fun i => (N.of_nat i, g i)) (seq 0 (length l)).
Proof.
  intros l g Nm E. apply nth_ext with (d := (0%N, 0)) (d' := (0%N, 0)); [now rewrite map_length, seq_length|].
  intros i Hi. destruct (nth_error l i) as [(a & p)|] eqn:Q; [|apply nth_error_None in Q; lia].
  rewrite (nth_error_nth _ _ _ Q). pose proof (Nm _ _ Q) as Na. cbn in Na. rewrite Na, (E _ _ _ Q).
  rewrite (nth_indep _ _ (N.of_nat 0, g 0%nat)) by (now rewrite map_length, seq_length).
  rewrite (map_nth (fun i => (N.of_nat i, g i)) _ 0%nat), seq_nth by auto. reflexivity.
Qed.
Lemma fst_numbered : forall (l k : list (N * R)), map fst l = map fst k -> numbered k -> numbered l.
Proof. intros l k E Nm i (a & p) Q. destruct (same_fst _ _ _ _ _ E Q) as (p' & Q'). exact (Nm _ _ Q'). Qed.
Lemma even_of : forall (q : list (N * R)), q <> [] -> numbered q -> total q = 1 ->
  (forall i j a p b p', nth_error q i = Some (a, p) -> nth_error q j = Some (b, p') -> p = p') -> even q (length q).
Proof.
  intros q Ne Nm T E. destruct q as [|(a0 & x) q0] eqn:Q; [congruence|]. rewrite <- Q in *. clear Ne.
  assert (E0 : forall i a p, nth_error q i = Some (a, p) -> p = x) by (intros i a p Hi; apply (E i 0%nat a p a0 x Hi); now rewrite Q).
  unfold even. rewrite <- (share q x ltac:(now rewrite Q) T E0). now apply (numbered_list q (fun _ => x)).
Qed.

Lemma softmax_tied : forall dbg ueps la (sc q : list (N * R)), sc <> [] -> 0 <= ueps <= 1 -> 0 <= la -> numbered sc ->
  @softmax_probs RF dbg ueps la sc = Ok q -> map fst q = map fst sc /\ total q = 1 /\ forall i j, tied sc i j -> tied q i j.
Proof.
  intros dbg ueps la sc q Ne He Hl Nm E. destruct (softmax_main dbg ueps la sc Ne He) as (r & Er & Fr & Tr & _ & Mono).
  rewrite Er in E. inversion E; subst r. split; [exact Fr|]. split; [exact Tr|]. intros i j (v & Ei & Ej).
  destruct (same_fst' _ _ _ _ _ Fr Ei) as (x & Xi). destruct (same_fst' _ _ _ _ _ Fr Ej) as (y & Yj).
  exists x. split; [exact Xi|]. rewrite Yj. do 2 f_equal.
  apply Rle_antisym; [exact (Mono _ _ _ _ _ _ _ _ Ei Xi Ej Yj Hl (Rle_refl _))|exact (Mono _ _ _ _ _ _ _ _ Ej Yj Ei Xi Hl (Rle_refl _))].
Qed.
Lemma others_even : forall ba (s : list (N * R)) c x, NoDup (map fst s) -> In ba (map fst s) ->
  others ba (map (fun e : N * R => (fst e, if (fst e =? ba)%N then c else x)) s) = (INR (length s) - 1) * x.
Proof.
  intros ba s c x. induction s as [|(a & p) s IH]; intros Nd Hin; [contradiction|]. cbn [map others length fst]. rewrite S_INR. inversion Nd; subst.
  destruct (N.eqb_spec a ba) as [->|Ne].
  - rewrite others_notin by (rewrite map_map; cbn; assumption).
    rewrite (total_same _ x); [rewrite map_length; lra|]. intros i b p' Hi. rewrite nth_error_map in Hi.
    destruct (nth_error s i) as [(b' & y)|] eqn:Q; [|discriminate]. cbn in Hi. inversion Hi; subst.
    destruct (N.eqb_spec b ba) as [->|]; [|reflexivity]. exfalso. apply H1. apply nth_error_In in Q. apply in_map_iff. exists (ba, y). auto.
  - destruct Hin as [Hin|Hin]; [cbn in Hin; congruence|]. rewrite IH by auto. lra.
Qed.
Lemma upd_even : forall ba bc x (s : list (N * R)) bi, NoDup (map fst s) -> nth_error s bi = Some (ba, bc) ->
  upd bi (ba, x) (map (fun e : N * R => (fst e, if (fst e =? ba)%N then bc else x)) s) = map (fun e : N * R => (fst e, x)) s.
Proof.
  intros ba bc x. induction s as [|(a & p) s IH]; intros [|bi] Nd Ei; try discriminate; inversion Nd; subst; cbn in Ei.
  - inversion Ei; subst. cbn. f_equal. apply map_ext_in. intros (a & p) Hin. cbn. destruct (N.eqb_spec a ba) as [->|]; [|reflexivity].
    exfalso. apply H1, in_map_iff. exists (ba, p). auto.
  - cbn. rewrite IH by auto. f_equal. destruct (N.eqb_spec a ba) as [->|]; [|reflexivity].
    exfalso. apply H1. apply nth_error_In in Ei. apply in_map_iff. exists (ba, bc). auto.
Qed.
Lemma squarecb_even : forall dbg ueps gamma (sc q : list (N * R)), sc <> [] -> NoDup (map fst sc) -> numbered sc -> 0 <= ueps <= 1 ->
  (forall i j a p b p', nth_error sc i = Some (a, p) -> nth_error sc j = Some (b, p') -> p = p') ->
  @squarecb_probs RF dbg ueps gamma sc = Ok q -> even q (length sc).
Proof.
  intros dbg ueps gamma sc q Hne Hnd Nm He Eq. destruct (min_by_spec _ gtR_partial sc Hne) as (bi & ba & bc & E & Ei & Hm).
  rewrite squarecb_eq, E. cbn [bind fst snd]. cbv zeta. pose proof (len_pos _ sc Hne) as Hn. set (n := INR (length sc)) in *.
  assert (El : map (fun s : N * R => (fst s, if (fst s =? ba)%N then snd s else 1 / (n + gamma * (snd s - bc)))) sc =
               map (fun e : N * R => (fst e, if (fst e =? ba)%N then bc else 1 / n)) sc).
  { apply map_ext_in. intros (a & p) Hin. apply In_nth_error in Hin. destruct Hin as (i & Hi). cbn. rewrite (Eq _ _ _ _ _ _ Hi Ei).
    destruct (a =? ba)%N; [reflexivity|]. do 2 f_equal. lra. }
  rewrite El, fold_others, Rplus_0_l, Nat2N.id, others_even; auto; [|apply nth_error_In in Ei; apply in_map_iff; exists (ba, bc); auto].
  rewrite nth_error_map, Ei. cbn [option_map fst]. fold n. replace (1 - (n - 1) * (1 / n)) with (1 / n) by (field; lra).
  set (els := upd bi _ _). assert (Ee : els = map (fun e : N * R => (fst e, 1 / n)) sc).
  { exact (upd_even _ _ _ _ _ Hnd Ei). }
  rewrite Ee. assert (Pn' : 0 < 1 / n) by (apply Rdiv_lt_0_compat; lra).
  destruct (enforce_pos dbg ueps (map (fun e : N * R => (fst e, 1 / n)) sc) He) as (r & Er & Fr & Tr & _ & Mono).
  { intros a p Hin. apply in_map_iff in Hin. destruct Hin as (e & Q & _). inversion Q; subst. exact Pn'. }
  { rewrite total_const. fold n. field. lra. }
  intros Q. rewrite Er in Q. cbn in Q. inversion Q; subst r. rewrite map_map in Fr. cbn in Fr.
  assert (Ln : length q = length sc) by (rewrite <- (map_length fst q), Fr, map_length; reflexivity).
  rewrite <- Ln. apply even_of; auto.
  - intros ->. apply Hne. now destruct sc.
  - exact (fst_numbered q sc Fr Nm).
  - intros i j a p b p' Hi Hj.
    assert (Y : forall k z y, nth_error q k = Some (z, y) -> nth_error (map (fun e : N * R => (fst e, 1 / n)) sc) k = Some (z, 1 / n)).
    { intros k z y Hk. destruct (same_fst _ _ _ _ _ Fr Hk) as (y' & Hy). now rewrite nth_error_map, Hy. }
    apply Rle_antisym; [exact (Mono _ _ _ _ _ _ _ _ (Y _ _ _ Hi) Hi (Y _ _ _ Hj) Hj (Rle_refl _))|exact (Mono _ _ _ _ _ _ _ _ (Y _ _ _ Hj) Hj (Y _ _ _ Hi) Hi (Rle_refl _))].
Qed.
Lemma greedy_first : forall eps (sc q : list (N * R)), sc <> [] -> numbered sc ->
  (forall i j a p b p', nth_error sc i = Some (a, p) -> nth_error sc j = Some (b, p') -> p = p') ->
  @greedy_probs RF eps sc = Ok q -> first_favoured eps q (length sc).
Proof.
  intros eps sc q Ne Nm Eq G. destruct (greedy_spec eps sc Ne) as (i & r & (b & bc & Ei & Hm) & Er & Ln & Ent & _).
  rewrite Er in G. inversion G; subst r. assert (i = 0%nat).
  { destruct sc as [|(a0 & p0) s]; [congruence|]. destruct (Hm 0%nat a0 p0 eq_refl) as (_ & X). destruct (Nat.eq_dec i 0); auto.
    specialize (X ltac:(lia)). rewrite (Eq 0%nat i a0 p0 b bc eq_refl Ei) in X. lra. }
  subst i. unfold first_favoured. replace (seq 0 (length sc)) with (seq 0 (length q)) by (now rewrite Ln). apply (numbered_list q (fun i => eps / INR (length sc) + (if Nat.eqb i 0 then 1 - eps else 0))).
  - intros j (a & p) Hj. destruct (nth_error sc j) as [(a' & c)|] eqn:Q.
    + rewrite (Ent _ _ _ Q) in Hj. inversion Hj; subst. exact (Nm _ _ Q).
    + apply nth_error_None in Q. assert (j < length q)%nat by (apply nth_error_Some; congruence). lia.
  - intros j a p Hj. destruct (nth_error sc j) as [(a' & c)|] eqn:Q.
    + rewrite (Ent _ _ _ Q) in Hj. now inversion Hj; subst.
    + apply nth_error_None in Q. assert (j < length q)%nat by (apply nth_error_Some; congruence). lia.
Qed.

(** ** stacks *)
Lemma predict_release : forall dbg n (x : red RF n) f p, ws_predict dbg x f = Ok p -> ws_predict false x f = Ok p.
Proof. intros dbg n x f p P. destruct dbg; [|auto]. pose proof (ag_wpredict n x f) as A. rewrite P in A. exact A. Qed.
Section Stack.
Context (H : hasher) (gc : gconfig) (NR : no_repeat H gc) (dbg : bool) (c : rcfg RF) (R0 : anyred RF) (h : list (features RF * label RF))
  (tss : list (list (sfeats RF))) (r : red RF (projT1 R0)).
Context (E : ws_new H dbg gc c = Ok R0) (Hb : (gc_bits gc < 32)%N) (EF : elem_free (projT1 R0) (projT2 R0)).
Context (F : Forall2 (shows (projT2 R0)) h tss) (L : learn_all dbg (projT2 R0) h = Ok r).
Lemma to_release : ws_new H false gc c = Ok R0 /\ learn_all false (projT2 R0) h = Ok r.
Proof.
  destruct dbg; [|auto]. split; [|now apply rel_all]. pose proof (ag_wnew (O:=RF) H gc c) as A. rewrite E in A. exact A.
Qed.
Lemma trained_shape : shape _ (projT2 R0) r /\ rested gc (bottom _ (projT2 R0)) (concat tss) (bottom _ r) /\ good H gc (bottom _ (projT2 R0)) /\ follows H gc c _ r.
Proof.
  destruct to_release as (E' & L').
  destruct (reach_einv RF_ford H gc c R0 (projT2 R0) E' (reach_refl _ _) Hb) as (I & _). destruct (learn_all_keep RF_ford _ _ h _ _ I L') as (_ & Sh).
  split; [exact Sh|]. split; [exact (unseen_zero RF_ford H gc c R0 h tss r E' Hb F L')|]. split; [exact (new_good H gc c R0 _ E' (reach_refl _ _))|].
  eapply shape_follows; [|exact Sh]. eapply create_follows; exact E.
Qed.
Notation al := (alike (bottom _ (projT2 R0)) (seen (bottom _ (projT2 R0)) (concat tss))).
Lemma alike_scores : forall s acts i j a b sc f', sound_fts (FtsCb s acts) -> all_below (2 ^ gc_bits gc) (FtsCb s acts) ->
  nth_error acts i = Some a -> nth_error acts j = Some b -> al s a b ->
  ws_predict dbg r (FtsCb s acts) = Ok (PrScores sc, f') -> tied sc i j.
Proof.
  intros s acts i j a b sc f' Sf Bf Ei Ej Al P. destruct trained_shape as (Sh & Re & G & _).
  exact (alike_tied H gc NR _ _ _ r s acts i j a b sc f' G Re (free_shape _ _ _ Sh EF) Sf Bf Ei Ej Al (predict_release _ _ _ _ _ P)).
Qed.
Lemma alike_policy : forall s acts p f', match c with CGreedy _ _ | CSoftmax _ _ _ | CSquareCb _ _ _ _ => True | _ => False end ->
  sound_fts (FtsCb s acts) -> all_below (2 ^ gc_bits gc) (FtsCb s acts) ->
  ws_predict dbg r (FtsCb s acts) = Ok (p, f') ->
  exists (sc q : list (N * R)), p = PrProbs (q : list (N * RF)) /\ length sc = length acts /\ sc <> [] /\ numbered sc /\ NoDup (map fst sc) /\
    (forall i j a b, nth_error acts i = Some a -> nth_error acts j = Some b -> al s a b -> tied sc i j) /\
    match c with
    | CGreedy eps _ => @greedy_probs RF eps sc = Ok q
    | CSoftmax ue la _ => @softmax_probs RF dbg ue la sc = Ok q
    | CSquareCb ue gs ge _ => exists gamma, @squarecb_probs RF dbg ue gamma sc = Ok q
    | _ => False
    end.
Proof.
  intros s acts p f' Hc Sf Bf P. destruct trained_shape as (Sh & Re & G & Fo). pose proof (free_shape _ _ _ Sh EF) as EF'.
  clear Sh L EF F E. set (c0 := bottom _ (projT2 R0)) in *. clearbody c0. revert r Re Fo EF' P. clear - Hc Sf Bf G NR. generalize (projT1 R0). intros m r Re Fo EF' P.
  assert (Main : forall n w k (ch : red RF n), match k with KGreedy _ | KSoftmax _ _ _ | KSquareCb _ _ _ _ => True | _ => False end ->
    rested gc c0 (concat tss) (bottom _ ch) -> elem_free n ch -> ws_predict dbg ((w, k, ch) : red RF (S n)) (FtsCb s acts) = Ok (p, f') ->
    exists (sc q : list (N * R)), p = PrProbs (q : list (N * RF)) /\ length sc = length acts /\ numbered sc /\ NoDup (map fst sc) /\
    (forall i j a b, nth_error acts i = Some a -> nth_error acts j = Some b -> alike c0 (seen c0 (concat tss)) s a b -> tied sc i j) /\
    match k with
    | KGreedy eps => @greedy_probs RF eps sc = Ok q
    | KSoftmax ueps la _ => @softmax_probs RF dbg ueps la sc = Ok q
    | KSquareCb ueps gs ge counter => @squarecb_probs RF dbg ueps (squarecb_gamma gs ge counter) sc = Ok q
    | _ => False
    end).
  { intros n w k ch Hk Rc Ec Pc. destruct (explore_policy dbg n w k ch _ _ _ Hk Pc) as (sc & q & Ps & Nm & Nd & -> & Pol).
    exists sc, q. split; [reflexivity|]. split.
    { unfold ws_predict in Ps. binv Ps. destruct v as ((p1 & f1) & d1). inversion Ps; subst. exact (scores_length _ _ _ _ _ _ _ _ _ _ _ B). }
    split; [exact Nm|]. split; [exact Nd|]. split; [|exact Pol]. intros i j a b Ei Ej Al.
    exact (alike_tied H gc NR _ _ _ ch s acts i j a b sc f' G Rc Ec Sf Bf Ei Ej Al (predict_release _ _ _ _ _ Ps)). }
  destruct Fo; try contradiction; cbn [bottom elem_free snd] in Re, EF'.
  - destruct (Main n w (KGreedy eps) ch Logic.I Re (proj2 EF') P) as (sc & q & A1 & A2 & A3 & A4 & A5 & A6). exists sc, q. repeat (split; [assumption|]).
    split; [intros ->; rewrite greedy_none in A6; discriminate|]. auto.
  - destruct (Main n w (KSoftmax ue la x) ch Logic.I Re (proj2 EF') P) as (sc & q & A1 & A2 & A3 & A4 & A5 & A6). exists sc, q. repeat (split; [assumption|]).
    split; [intros ->; discriminate|]. auto.
  - destruct (Main n w (KSquareCb ue gs ge x) ch Logic.I Re (proj2 EF') P) as (sc & q & A1 & A2 & A3 & A4 & A5 & A6). exists sc, q. repeat (split; [assumption|]).
    split; [intros ->; discriminate|]. eauto.
Qed.
End Stack.

Lemma alike_softmax : forall H gc (NR : no_repeat H gc) dbg (ueps la : R) (c' : rcfg RF) R0 h tss r s acts i j a b (q : list (N * R)) f',
  ws_new H dbg gc (CSoftmax (ueps : RF) (la : RF) c') = Ok R0 -> (gc_bits gc < 32)%N -> elem_free (projT1 R0) (projT2 R0) -> 0 <= ueps <= 1 -> 0 <= la ->
  Forall2 (shows (projT2 R0)) h tss -> learn_all dbg (projT2 R0) h = Ok r ->
  sound_fts (FtsCb s acts) -> all_below (2 ^ gc_bits gc) (FtsCb s acts) -> nth_error acts i = Some a -> nth_error acts j = Some b ->
  alike (bottom _ (projT2 R0)) (seen (bottom _ (projT2 R0)) (concat tss)) s a b ->
  ws_predict dbg r (FtsCb s acts) = Ok (PrProbs (q : list (N * RF)), f') -> tied q i j.
Proof.
  intros H gc NR dbg ueps la c' R0 h tss r s acts i j a b q f' E Hb EF Hu Hl F L Sf Bf Ei Ej Al P.
  destruct (alike_policy H gc NR dbg _ R0 h tss r E Hb EF F L s acts _ f' Logic.I Sf Bf P) as (sc & q' & Q & _ & Ne & Nm & _ & T & Pol).
  inversion Q; subst q'. exact (proj2 (proj2 (softmax_tied dbg ueps la sc q Ne Hu Hl Nm Pol)) i j (T _ _ _ _ Ei Ej Al)).
Qed.
Lemma alike_even : forall H gc (NR : no_repeat H gc) dbg (c : rcfg RF) R0 h tss r s acts p f',
  ws_new H dbg gc c = Ok R0 -> (gc_bits gc < 32)%N -> elem_free (projT1 R0) (projT2 R0) -> sane c ->
  Forall2 (shows (projT2 R0)) h tss -> learn_all dbg (projT2 R0) h = Ok r ->
  sound_fts (FtsCb s acts) -> all_below (2 ^ gc_bits gc) (FtsCb s acts) ->
  (forall a b, In a acts -> In b acts -> alike (bottom _ (projT2 R0)) (seen (bottom _ (projT2 R0)) (concat tss)) s a b) ->
  ws_predict dbg r (FtsCb s acts) = Ok (p, f') ->
  exists q : list (N * R), p = PrProbs (q : list (N * RF)) /\
    match c with CGreedy eps _ => first_favoured eps q (length acts) | _ => even q (length acts) end.
Proof.
  intros H gc NR dbg c R0 h tss r s acts p f' E Hb EF Sa F L Sf Bf Al P.
  destruct (alike_policy H gc NR dbg c R0 h tss r E Hb EF F L s acts p f') as (sc & q & -> & Ln & Ne & Nm & Nd & T & Pol); auto.
  { destruct c; cbn in Sa; auto. }
  assert (Eq : forall i j a x b y, nth_error sc i = Some (a, x) -> nth_error sc j = Some (b, y) -> x = y).
  { intros i j a x b y Ei Ej. destruct (nth_error acts i) as [u|] eqn:Ui; [|apply nth_error_None in Ui; assert (i < length sc)%nat by (apply nth_error_Some; congruence); lia].
    destruct (nth_error acts j) as [w|] eqn:Uj; [|apply nth_error_None in Uj; assert (j < length sc)%nat by (apply nth_error_Some; congruence); lia].
    destruct (T i j u w Ui Uj (Al _ _ (nth_error_In _ _ Ui) (nth_error_In _ _ Uj))) as (v & Vi & Vj). congruence. }
  exists q. split; [reflexivity|]. rewrite <- Ln. destruct c; cbn in Sa; try contradiction.
  - exact (greedy_first _ sc q Ne Nm Eq Pol).
  - destruct (softmax_tied dbg _ _ sc q Ne (proj1 Sa) (proj2 Sa) Nm Pol) as (Fq & Tq & Ti).
    assert (Lq : length q = length sc) by (rewrite <- (map_length fst q), Fq, map_length; reflexivity).
    rewrite <- Lq. apply even_of; auto.
    + intros ->. destruct sc; [congruence|discriminate].
    + exact (fst_numbered q sc Fq Nm).
    + intros i j a x b y Qi Qj. destruct (same_fst _ _ _ _ _ Fq Qi) as (u & Ui). destruct (same_fst _ _ _ _ _ Fq Qj) as (w & Uj).
      destruct (Ti i j) as (v & Vi & Vj); [|congruence]. pose proof (Nm _ _ Ui) as Na. pose proof (Nm _ _ Uj) as Nb. cbn in Na, Nb.
      rewrite (Eq _ _ _ _ _ _ Ui Uj) in Ui. exists w. rewrite Ui, Uj, Na, Nb. auto.
  - destruct Pol as (gamma & Pol). exact (squarecb_even dbg _ gamma sc q Ne Nd Nm (proj1 Sa) Eq Pol).
Qed.
Lemma untrained_even : forall H gc (NR : no_repeat H gc) dbg (c : rcfg RF) R0 s acts p f',
  ws_new H dbg gc c = Ok R0 -> (gc_bits gc < 32)%N -> elem_free (projT1 R0) (projT2 R0) -> sane c ->
  sound_fts (FtsCb s acts) -> all_below (2 ^ gc_bits gc) (FtsCb s acts) ->
  ws_predict dbg (projT2 R0) (FtsCb s acts) = Ok (p, f') ->
  exists q : list (N * R), p = PrProbs (q : list (N * RF)) /\
    match c with CGreedy eps _ => first_favoured eps q (length acts) | _ => even q (length acts) end.
Proof.
  intros H gc NR dbg c R0 s acts p f' E Hb EF Sa Sf Bf P.
  apply (alike_even H gc NR dbg c R0 [] [] (projT2 R0) s acts p f' E Hb EF Sa (Forall2_nil _) eq_refl Sf Bf); [|exact P].
  intros a b _ _ u v _ _ l k _ _ i (t & [] & _).
Qed.

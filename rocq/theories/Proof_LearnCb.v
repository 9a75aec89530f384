(** C84: bandits. *)
From Coq Require Import List NArith ZArith Bool Lia Reals Lra Permutation.
From Verif Require Import Base FloatOps FloatR Model_Hash Model_Features Model_Weights Model_Loss
  Model_Interactions Model_Types Model_Explore Model_Coin Model_Stack Model_Factory Spec_Features Spec_Weights Spec_Coin Spec_Stack Spec_Explore
  Spec_CbExplore Spec_Reductions Spec_Metrics Spec_OffPolicy Spec_Unbiased Spec_Learn
  Proof_Hash Proof_Weights Proof_WeightsProps Proof_Foreach Proof_FloatOrder Proof_StackRestore Proof_StackProps Proof_Reductions
  Proof_CbExplore Proof_Coin Proof_CoinR Proof_Regret Proof_Unbiased Proof_UnbiasedEx Proof_Learn.
Import ListNotations.
Open Scope R_scope.

Lemma leaf_learn : forall dbg w (c : coin RF) s y wt r f', ws_learn dbg ((w, c) : red RF 0) (FtsSimple s) (LbSimple y wt) = Ok (r, f') ->
  exists c', coin_learn dbg c s y wt = Ok c' /\ r = (w, c').
Proof.
  intros dbg w c s y wt r f' E. apply ws_learn_ok in E. cbn [learn] in E. apply wrap_ok in E. destruct E as (d1 & d2 & E).
  unfold coin_learn_body in E. cbn [as_simple as_simple_label bind fst snd] in E. binv E. destruct v as ((c' & g) & d). binv B. inversion B; inversion E; subst.
  eauto.
Qed.
Lemma leaf_predict : forall dbg w (c : coin RF) s p f', ws_predict dbg ((w, c) : red RF 0) (FtsSimple s) = Ok (p, f') -> coin_predict dbg c s = Ok p.
Proof.
  intros dbg w c s p f' E. apply ws_predict_ok in E. cbn [predict] in E. apply wrap_ok in E. destruct E as (d1 & d2 & E).
  unfold coin_predict_body in E. cbn [as_simple bind fst snd] in E. binv E. inversion E; subst. auto.
Qed.
Lemma leaf_fed : forall dbg w h (c : coin RF) r, fed dbg ((w, c) : red RF 0) h r -> exists c', train dbg h c = Ok c' /\ r = (w, c').
Proof.
  intros dbg w h. induction h as [|e h IH]; intros c r T.
  - inversion T; subst. exists c. split; reflexivity.
  - inversion T as [|r0 e0 l r1 g r' E T']; subst. destruct (leaf_learn _ _ _ _ _ _ _ _ E) as (c1 & E1 & ->).
    destruct (IH _ _ T') as (c' & E2 & ->). exists c'. split; auto. unfold train. cbn [foldm]. rewrite E1. exact E2.
Qed.

Lemma mtr_kind : forall dbg n w l x y (ch : red RF n) r, taught dbg ((w, KCbAdf Mtr x y, ch) : red RF (S n)) l r ->
  exists x' y' ch', r = (w, KCbAdf Mtr x' y', ch').
Proof.
  intros dbg n w l. induction l as [|q l IH]; intros x y ch r T; inversion T; subst; eauto.
  match goal with L : ws_learn _ _ _ _ = Ok _ |- _ => apply cb_mtr_step in L; destruct L as (x' & y' & ch1 & -> & _) end. eauto.
Qed.
Lemma loop_scores : forall dbg w (c : coin RF) shared acts i d sc acts' d',
  cb_predict_loop dbg (predict dbg 0 ((w, c) : red RF 0)) shared acts i d = Ok (sc, acts', d') ->
  forall j, match nth_error (match shared with Some s => map (fun a => joined_to a s) acts | None => acts end) j with
    | Some x => exists v raw, coin_predict dbg c x = Ok (PrScalar v raw) /\ nth_error sc j = Some ((i + N.of_nat j)%N, raw)
    | None => nth_error sc j = None
    end.
Proof.
  intros dbg w c shared acts. induction acts as [|a acts IH]; intros i d sc acts' d' E j.
  - inversion E; subst. destruct shared, j; reflexivity.
  - cbn [cb_predict_loop] in E. binv E. rename v into a1. binv E. destruct v as ((p & g) & d1). binv E. destruct v as (v & raw). binv E. binv E.
    destruct v1 as ((sc1 & acts1) & d2). inversion E; subst; clear E.
    assert (Q : match shared with Some s => map (fun a => joined_to a s) (a :: acts) | None => a :: acts end =
      a1 :: match shared with Some s => map (fun a => joined_to a s) acts | None => acts end).
    { destruct shared as [s|]; cbn [append_opt] in B.
      - cbn [map]. f_equal. unfold joined_to. now rewrite B.
      - now inversion B. }
    rewrite Q. destruct j as [|j]; cbn [nth_error].
    + cbn [predict] in B0. apply wrap_ok in B0. destruct B0 as (e1 & e2 & B0). unfold coin_predict_body in B0. cbn [as_simple bind fst snd] in B0.
      binv B0. inversion B0; subst. destruct p; cbn [as_scalar] in B1; try discriminate. inversion B1; subst. exists v, raw. split; auto. now rewrite N.add_0_r.
    + specialize (IH _ _ _ _ _ B3 j). destruct (nth_error _ j) as [x|]; auto. destruct IH as (v' & raw' & I1 & I2). exists v', raw'. split; auto.
      rewrite I2. cbn [snd]. f_equal. f_equal. lia.
Qed.
Lemma cb_raw : forall dbg w ty x y w0 (c : coin RF) f p f', ws_predict dbg ((w, KCbAdf ty x y, (w0, c)) : red RF 1) f = Ok (p, f') ->
  exists sc, p = PrScores sc /\ forall j, match nth_error (seen_ips f) j with
    | Some x => exists v raw, coin_predict dbg c x = Ok (PrScalar v raw) /\ nth_error sc j = Some (N.of_nat j, raw)
    | None => nth_error sc j = None end.
Proof.
  intros dbg w ty x y w0 c f p f' E. apply ws_predict_ok in E. cbn [predict] in E. apply wrap_ok in E. destruct E as (d1 & d2 & E).
  cbn [kind_predict] in E. binv E. destruct f as [|sh acts]; cbn [as_cb] in B; try discriminate. inversion B; subst; clear B. cbn [fst snd] in E.
  binv E. destruct v as ((sc & acts') & d). inversion E; subst. exists sc. split; auto.
  intros j. pose proof (loop_scores dbg w0 c sh acts 0%N _ sc acts' _ B j) as Q.
  replace (match sh with Some s => map (fun a => joined_to a s) acts | None => acts end) with (seen_ips (FtsCb sh acts)) in Q by reflexivity. exact Q.
Qed.

Lemma scores_main : forall H dbg (cfg : coin_config RF) gc nma n (c0 : coin RF) lo hi w w0 l r f p f',
  coin_new H dbg cfg gc nma = Ok c0 -> (0 < nma < 2 ^ 8)%N -> bits_to_max_feature_index dbg (gc_bits gc) = Ok n ->
  0 < (cc_alpha cfg : R) -> lo <= lo0 cfg -> hi0 cfg <= hi ->
  taught dbg ((w, KCbAdf Mtr 0 0, (w0, c0)) : red RF 1) l r -> countable l -> Forall (fine n lo hi) (mtr_examples 0 0 l) ->
  Forall (below n) (seen_ips f) -> ws_predict dbg r f = Ok (p, f') ->
  exists sc, p = PrScores sc /\ forall i j a b, actions_apart dbg c0 (mtr_examples 0 0 l) lo hi f i j a b ->
    exists si sj : R, nth_error sc i = Some (N.of_nat i, si : RF) /\ nth_error sc j = Some (N.of_nat j, sj : RF) /\ si <= sj /\
      (some_noticed dbg c0 (mtr_examples 0 0 l) a \/ some_noticed dbg c0 (mtr_examples 0 0 l) b -> si < sj).
Proof.
  intros H dbg cfg gc nma n c0 lo hi w w0 l r f p f' E Hn Hb A Hlo Hhi T (K1 & K2) Fi Bl P.
  destruct (coin_new_wf _ _ _ _ _ _ E Hn) as (W & Bb & _). rewrite Hb in Bb. inversion Bb; subst n; clear Bb.
  destruct (mtr_fed dbg 0 w l 0 0 ((w0, c0) : red RF 0) r T) as (k & ch & Er & Fd); auto.
  destruct (mtr_kind dbg 0 w l 0 0 ((w0, c0) : red RF 0) r T) as (x & y & ch' & Er').
  destruct (leaf_fed _ _ _ _ _ Fd) as (c & Ec & ->). rewrite Er' in Er. inversion Er; subst. clear Er.
  destruct (weight_signs H dbg cfg gc nma c0 lo hi _ E Hn A Hlo Hhi Fi) as (c' & Ec' & Ic & Q). rewrite Ec in Ec'. inversion Ec'; subst c'; clear Ec'.
  destruct (cb_raw _ _ _ _ _ _ _ _ _ _ P) as (sc & -> & Sc). exists sc. split; auto.
  intros i j a b (fi & fj & lf & lg & Ni & Nj & Elf & Elg & Ap).
  rewrite Forall_forall in Bl. pose proof (Bl _ (nth_error_In _ _ Ni)) as Bi. pose proof (Bl _ (nth_error_In _ _ Nj)) as Bj.
  destruct (order_core dbg c0 lo hi _ c fi fj Ic Q Bi Bj) as (lf' & lg' & qf & qg & rf & rg & Ef & Eg & Pf & Pg & Od).
  rewrite Elf in Ef. inversion Ef; subst lf'; clear Ef. rewrite Elg in Eg. inversion Eg; subst lg'; clear Eg.
  pose proof (Sc i) as Si. rewrite Ni in Si. destruct Si as (vi & ri & Pi & Si). rewrite Pf in Pi. inversion Pi; subst.
  pose proof (Sc j) as Sj. rewrite Nj in Sj. destruct Sj as (vj & rj & Pj & Sj). rewrite Pg in Pj. inversion Pj; subst.
  exists ri, rj. split; auto.
Qed.

(** *** exploration on top *)
Lemma countable_certain : forall l, countable l -> countable (map certain l).
Proof. intros l (A & B). destruct (certain_bounds l) as (E1 & E2). unfold countable. rewrite E1, E2. auto. Qed.
Lemma probs_main : forall H dbg (cfg : coin_config RF) gc nma n (c0 : coin RF) lo hi w1 k w w0 l r f p f',
  coin_new H dbg cfg gc nma = Ok c0 -> (0 < nma < 2 ^ 8)%N -> bits_to_max_feature_index dbg (gc_bits gc) = Ok n ->
  0 < (cc_alpha cfg : R) -> lo <= lo0 cfg -> hi0 cfg <= hi -> sensible k ->
  taught dbg ((w1, k, ((w, KCbAdf Mtr 0 0, (w0, c0)) : red RF 1)) : red RF 2) l r -> countable l ->
  let h := mtr_examples 0 0 (handed_down k l) in
  Forall (fine n lo hi) h -> Forall (below n) (seen_ips f) -> ws_predict dbg r f = Ok (p, f') ->
  exists probs, p = PrProbs probs /\ forall i j a b, actions_apart dbg c0 h lo hi f i j a b ->
    some_noticed dbg c0 h a \/ some_noticed dbg c0 h b ->
    exists pi pj : R, nth_error probs i = Some (N.of_nat i, pi : RF) /\ nth_error probs j = Some (N.of_nat j, pj : RF) /\ pj <= pi.
Proof.
  intros H dbg cfg gc nma n c0 lo hi w1 k w w0 l r f p f' E Hn Hb A Hlo Hhi Sk T Cl h Fi Bl P.
  assert (Q : exists k' r', r = (w1, k', r') /\ taught dbg ((w, KCbAdf Mtr 0 0, (w0, c0)) : red RF 1) (handed_down k l) r' /\
    sensible k' /\ match k' with KGreedy _ | KSoftmax _ _ _ | KSquareCb _ _ _ _ => True | _ => False end).
  { destruct k; cbn [sensible] in Sk; try contradiction.
    - destruct (explorer_taught dbg 1 w1 (KGreedy eps) ((w, KCbAdf Mtr 0 0, (w0, c0)) : red RF 1) l r eq_refl T) as (r' & -> & T'). do 2 eexists. split; [reflexivity|]. auto.
    - destruct (explorer_taught dbg 1 w1 (KSoftmax ueps lambda counter) ((w, KCbAdf Mtr 0 0, (w0, c0)) : red RF 1) l r eq_refl T) as (r' & -> & T'). do 2 eexists. split; [reflexivity|]. auto.
    - destruct (squarecb_taught dbg 1 w1 _ _ _ l _ _ r T) as (c' & r' & -> & T'). do 2 eexists. split; [reflexivity|]. auto. }
  destruct Q as (k' & r' & -> & T' & Sk' & Ex).
  destruct (explore_policy dbg 1 w1 k' r' f p f' Ex P) as (sc & probs & Ps & Nu & Nd & -> & Po).
  assert (Cl' : countable (handed_down k l)) by (destruct k; auto; now apply countable_certain).
  destruct (scores_main H dbg cfg gc nma n c0 lo hi w w0 _ r' f _ f' E Hn Hb A Hlo Hhi T' Cl' Fi Bl Ps) as (sc' & Es & Od).
  inversion Es; subst sc'; clear Es. exists probs. split; auto. intros i j a b Ap No.
  destruct (Od i j a b Ap) as (si & sj & Ni & Nj & _ & Lt). specialize (Lt No).
  assert (Ne : sc <> []) by (intros ->; destruct i; discriminate).
  destruct k' as [| |eps|ue la cn|ue gs ge cn| |]; try contradiction; cbn [sensible] in Sk'.
  - destruct (greedy_spec eps sc Ne) as (b0 & pr & Fm & Eg & Ln & Pr & _). change (@greedy_probs RF eps sc = Ok probs) in Po. rewrite Eg in Po. inversion Po; subst pr.
    exists (eps / INR (length sc) + if Nat.eqb i b0 then 1 - eps else 0), (eps / INR (length sc) + if Nat.eqb j b0 then 1 - eps else 0).
    split; [exact (Pr i _ _ Ni)|]. split; [exact (Pr j _ _ Nj)|].
    destruct (Nat.eqb_spec j b0) as [Eb|Nb]; [|destruct (Nat.eqb i b0); lra]. exfalso. subst b0.
    destruct Fm as (x & v & Nx & Mi). assert (Q : Some (N.of_nat j, sj) = Some (x, v)) by (etransitivity; [symmetry; exact Nj|exact Nx]). inversion Q; subst. destruct (Mi i _ _ Ni) as (M1 & _). lra.
  - destruct (softmax_main dbg ue la sc Ne) as (pr & Eg & Mp & _ & _ & Mo); [apply Sk'|]. change (@softmax_probs RF dbg ue la sc = Ok probs) in Po. rewrite Eg in Po. inversion Po; subst pr.
    assert (G : forall m x v, nth_error sc m = Some (x, v) -> exists q, nth_error probs m = Some (x, q)).
    { intros m x v Hm. assert (Em : nth_error (map fst probs) m = Some x) by (transitivity (nth_error (map fst sc) m); [f_equal; exact Mp|rewrite nth_error_map, Hm; reflexivity]).
      rewrite nth_error_map in Em. destruct (nth_error probs m) as [[x' q]|]; inversion Em; subst; eauto. }
    destruct (G i _ _ Ni) as (pi & Gi). destruct (G j _ _ Nj) as (pj & Gj). exists pi, pj. split; auto. split; auto.
    apply (Mo i j _ si pi _ sj pj Ni Gi Nj Gj); [apply Sk'|lra].
  - destruct (squarecb_spec dbg ue gs ge cn sc) as (b0 & pr & Fm & Eg & Mp & _ & _ & _ & _ & Mo); auto; try apply Sk'; [right; apply Sk'|].
    change (@squarecb_probs RF dbg ue (@squarecb_gamma RF gs ge cn) sc = Ok probs) in Po. rewrite Eg in Po. inversion Po; subst pr.
    assert (G : forall m x v, nth_error sc m = Some (x, v) -> exists q, nth_error probs m = Some (x, q)).
    { intros m x v Hm. assert (Em : nth_error (map fst probs) m = Some x) by (transitivity (nth_error (map fst sc) m); [f_equal; exact Mp|rewrite nth_error_map, Hm; reflexivity]).
      rewrite nth_error_map in Em. destruct (nth_error probs m) as [[x' q]|]; inversion Em; subst; eauto. }
    destruct (G i _ _ Ni) as (pi & Gi). destruct (G j _ _ Nj) as (pj & Gj). exists pi, pj. split; auto. split; auto.
    exact (Mo i j _ si pi _ sj pj Ni Gi Nj Gj Lt).
Qed.

(** *** two actions with constant costs *)
Lemma mtr_app : forall l1 l2 k m, exists k' m', mtr_examples k m (l1 ++ l2) = mtr_examples k m l1 ++ mtr_examples k' m' l2 /\ (m <= m')%N.
Proof.
  induction l1 as [|p l1 IH]; intros l2 k m.
  - exists k, m. split; [reflexivity|lia].
  - cbn [app mtr_examples]. destruct (IH l2 (k + 1)%N (m + num_actions (pt_feats p))%N) as (k' & m' & E & L).
    exists k', m'. rewrite E, app_assoc. split; [reflexivity|lia].
Qed.
Section Two.
Variables (f : features RF) (lo hi : R) (f0 f1 : sfeats RF).
Hypothesis Hseen : seen_mtr f = [f0; f1].
Hypothesis Hnum : (0 < num_actions f)%N.
Definition from (a : N) (e : example RF) : Prop :=
  0 < ex_w e /\ (a = 0%N /\ ex_f e = f0 /\ ex_y e = lo \/ a = 1%N /\ ex_f e = f1 /\ ex_y e = hi).
Lemma ex_of : forall p k m a c q, pt_feats p = f -> pt_label p = LbCb a c q -> 0 < (q : R) -> (a = 0%N /\ (c : R) = lo \/ a = 1%N /\ (c : R) = hi) ->
  exists e, mtr_examples k m [p] = [e] /\ from a e.
Proof.
  intros p k m a c q Ef El Q D. cbn [mtr_examples]. rewrite El, Ef, Hseen. cbn [app]. eexists. split; [reflexivity|].
  unfold from. cbn [ex_w ex_f ex_y]. split.
  - apply Rmult_lt_0_compat; [now apply Rinv_0_lt_compat|]. apply Rdiv_lt_0_compat; apply lt_0_INR; lia.
  - destruct D as [(-> & ->)|(-> & ->)]; [left|right]; auto.
Qed.
Lemma exs_of : forall l k m, settled_costs f lo hi l -> Forall (fun e => exists a, from a e) (mtr_examples k m l).
Proof.
  induction l as [|p l IH]; intros k m S; [constructor|]. destruct (mtr_app [p] l k m) as (k' & m' & E & _). cbn [app] in E. rewrite E.
  destruct (S p (or_introl eq_refl)) as (Ef & a & c & q & El & Q & D). destruct (ex_of p k m a c q Ef El Q D) as (e & -> & Fe).
  constructor; [eauto|]. apply IH. intros x Hx. apply S. now right.
Qed.
Lemma twice_of : forall l a, settled_costs f lo hi l -> drawn_twice a l ->
  exists g1 x1 g2 x2 g3, mtr_examples 0 0 l = g1 ++ x1 :: g2 ++ x2 :: g3 /\ from a x1 /\ from a x2.
Proof.
  intros l a S (l1 & p1 & l2 & p2 & l3 & -> & (c1 & q1 & E1) & (c2 & q2 & E2)).
  destruct (mtr_app l1 (p1 :: l2 ++ p2 :: l3) 0 0) as (k1 & m1 & M1 & _).
  destruct (mtr_app [p1] (l2 ++ p2 :: l3) k1 m1) as (k2 & m2 & M2 & _).
  destruct (mtr_app l2 (p2 :: l3) k2 m2) as (k3 & m3 & M3 & _).
  destruct (mtr_app [p2] l3 k3 m3) as (k4 & m4 & M4 & _). cbn [app] in M2, M4.
  destruct (S p1) as (Ef1 & a1 & c1' & q1' & El1 & Q1 & D1); [apply in_app_iff; right; now left|]. rewrite E1 in El1. inversion El1; subst a1 c1' q1'.
  destruct (S p2) as (Ef2 & a2 & c2' & q2' & El2 & Q2 & D2); [apply in_app_iff; right; right; apply in_app_iff; right; now left|]. rewrite E2 in El2. inversion El2; subst a2 c2' q2'.
  destruct (ex_of p1 k1 m1 a c1 q1 Ef1 E1 Q1 D1) as (x1 & X1 & F1). destruct (ex_of p2 k3 m3 a c2 q2 Ef2 E2 Q2 D2) as (x2 & X2 & F2).
  rewrite X1 in M2. rewrite X2 in M4. rewrite M1, M2, M3, M4. eexists _, x1, _, x2, _. cbn [app]. split; [reflexivity|]. auto.
Qed.
End Two.
Lemma first_nonzero : forall h : list (example RF), Forall (fun e => ex_y e = 0) h \/
  exists h1 e1 t, h = h1 ++ e1 :: t /\ Forall (fun e => ex_y e = 0) h1 /\ ex_y e1 <> 0.
Proof.
  induction h as [|e h IH]; [left; constructor|]. destruct (Req_dec (ex_y e) 0) as [Z|Z].
  - destruct IH as [IH|(h1 & e1 & t & -> & F & Q)]; [left; now constructor|]. right. exists (e :: h1), e1, t. split; [reflexivity|]. split; auto.
  - right. exists [], e, h. split; [reflexivity|]. split; auto.
Qed.
Lemma second_later : forall (h1 : list (example RF)) e1 t g1 x1 g2 x2 g3, Forall (fun e => ex_y e = 0) h1 -> ex_y x1 <> 0 ->
  h1 ++ e1 :: t = g1 ++ x1 :: g2 ++ x2 :: g3 -> In x2 t.
Proof.
  induction h1 as [|e h1 IH]; intros e1 t g1 x1 g2 x2 g3 Z Nz E.
  - destruct g1 as [|y g1]; cbn [app] in E; inversion E; subst.
    + apply in_app_iff. right. now left.
    + apply in_app_iff. right. right. apply in_app_iff. right. now left.
  - inversion Z; subst. destruct g1 as [|y g1]; cbn [app] in E; inversion E; subst; [contradiction|]. eapply IH; eauto.
Qed.

Lemma two_apart : forall dbg (cfg : coin_config RF) n (c0 : coin RF) lo hi l s a0 a1 l0 l1 g0 g1 common own0 own1,
  let f := FtsCb (Some s) [a0; a1] in
  lo <= lo0 cfg -> hi0 cfg <= hi -> lo < hi -> Forall (below n) (seen_mtr f) ->
  mapm (coin_feats dbg c0) (seen_mtr f) = Ok [l0; l1] -> mapm (coin_feats dbg c0) (seen_ips f) = Ok [g0; g1] ->
  Permutation g0 (common ++ own0) -> Permutation g1 (common ++ own1) -> own_features own0 l0 l1 -> own_features own1 l1 l0 ->
  settled_costs f lo hi l -> drawn_twice 0 l -> drawn_twice 1 l ->
  Forall (fine n lo hi) (mtr_examples 0 0 l) /\ actions_apart dbg c0 (mtr_examples 0 0 l) lo hi f 0 1 own0 own1 /\
  (some_noticed dbg c0 (mtr_examples 0 0 l) own0 \/ some_noticed dbg c0 (mtr_examples 0 0 l) own1).
Proof.
  intros dbg cfg n c0 lo hi l s a0 a1 l0 l1 g0 g1 common own0 own1 f Hlo Hhi Lt Bm Em Ei P0 P1 O0 O1 Sc D0 D1.
  set (f0 := joined_to s a0). set (f1 := joined_to s a1). assert (Hs : seen_mtr f = [f0; f1]) by reflexivity.
  assert (Hn0 : (0 < num_actions f)%N) by (cbn; lia).
  assert (Em2 : coin_feats dbg c0 f0 = Ok l0 /\ coin_feats dbg c0 f1 = Ok l1).
  { rewrite Hs in Em. cbn [mapm] in Em. destruct (coin_feats dbg c0 f0); cbn [bind] in Em; try discriminate.
    destruct (coin_feats dbg c0 f1); cbn [bind] in Em; try discriminate. inversion Em. auto. }
  destruct Em2 as (E0 & E1). clear Em.
  assert (Hi : seen_ips f = [joined_to a0 s; joined_to a1 s]) by reflexivity.
  assert (Ei2 : coin_feats dbg c0 (joined_to a0 s) = Ok g0 /\ coin_feats dbg c0 (joined_to a1 s) = Ok g1).
  { rewrite Hi in Ei. cbn [mapm] in Ei. destruct (coin_feats dbg c0 (joined_to a0 s)); cbn [bind] in Ei; try discriminate.
    destruct (coin_feats dbg c0 (joined_to a1 s)); cbn [bind] in Ei; try discriminate. inversion Ei. auto. }
  destruct Ei2 as (G0 & G1). clear Ei.
  pose proof (exs_of f lo hi f0 f1 Hs Hn0 l 0 0 Sc) as Fr. rewrite Forall_forall in Fr.
  assert (Z : lo <= 0 <= hi).
  { unfold lo0, hi0 in *. destruct (cc_loss cfg); rewrite ?RF_f0, ?RF_fl in *; [lra|]. cbn [f_neg RF] in Hlo. lra. }
  assert (Fi : Forall (fine n lo hi) (mtr_examples 0 0 l)).
  { rewrite Forall_forall. intros e He. destruct (Fr e He) as (a & We & D). rewrite Hs in Bm. inversion Bm as [|? ? Bm0 Bm']; subst. inversion Bm' as [|? ? Bm1 _]; subst.
    unfold fine. destruct D as [(_ & -> & ->)|(_ & -> & ->)]; repeat split; auto; lra. }
  assert (On0 : forall i v, In (i, v) own0 -> 0 <= (v : R) /\ only_with dbg c0 (mtr_examples 0 0 l) i lo).
  { intros i v Hv. destruct O0 as (O0 & _). destruct (O0 i v Hv) as (Pv & No & Ps). split; auto.
    intros e le u He Ele Hu. destruct (Fr e He) as (a & We & [(_ & Fe & Y)|(_ & Fe & Y)]); rewrite Fe in Ele.
    - rewrite E0 in Ele. inversion Ele; subst le. split; [now apply Ps|auto].
    - rewrite E1 in Ele. inversion Ele; subst le. exfalso. now apply (No u). }
  assert (On1 : forall i v, In (i, v) own1 -> 0 <= (v : R) /\ only_with dbg c0 (mtr_examples 0 0 l) i hi).
  { intros i v Hv. destruct O1 as (O1 & _). destruct (O1 i v Hv) as (Pv & No & Ps). split; auto.
    intros e le u He Ele Hu. destruct (Fr e He) as (a & We & [(_ & Fe & Y)|(_ & Fe & Y)]); rewrite Fe in Ele.
    - rewrite E0 in Ele. inversion Ele; subst le. exfalso. now apply (No u).
    - rewrite E1 in Ele. inversion Ele; subst le. split; [now apply Ps|auto]. }
  assert (Ap : actions_apart dbg c0 (mtr_examples 0 0 l) lo hi f 0 1 own0 own1).
  { exists (joined_to a0 s), (joined_to a1 s), g0, g1. rewrite Hi. split; [reflexivity|]. split; [reflexivity|]. split; auto. split; auto.
    split; [exists common; auto|]. auto. }
  assert (No : some_noticed dbg c0 (mtr_examples 0 0 l) own0 \/ some_noticed dbg c0 (mtr_examples 0 0 l) own1).
  { destruct (twice_of f lo hi f0 f1 Hs Hn0 l 0%N Sc D0) as (u1 & x1 & u2 & x2 & u3 & Q0 & X1 & X2).
    destruct (twice_of f lo hi f0 f1 Hs Hn0 l 1%N Sc D1) as (v1 & y1 & v2 & y2 & v3 & Q1 & Y1 & Y2).
    assert (X : ex_y x1 = lo /\ ex_f x2 = f0) by (destruct X1 as (_ & [(_ & _ & ->)|(K & _)]); [|discriminate]; destruct X2 as (_ & [(_ & -> & _)|(K & _)]); [|discriminate]; auto).
    assert (Y : ex_y y1 = hi /\ ex_f y2 = f1) by (destruct Y1 as (_ & [(K & _)|(_ & _ & ->)]); [discriminate|]; destruct Y2 as (_ & [(K & _)|(_ & -> & _)]); [discriminate|]; auto).
    destruct X as (X & X'). destruct Y as (Y & Y').
    destruct (first_nonzero (mtr_examples 0 0 l)) as [Al|(h1 & e1 & t & Eh & Zh & Nz)].
    { rewrite Forall_forall in Al. exfalso.
      assert (ex_y x1 = 0) by (apply Al; rewrite Q0; apply in_app_iff; right; now left).
      assert (ex_y y1 = 0) by (apply Al; rewrite Q1; apply in_app_iff; right; now left). lra. }
    destruct (Fr e1) as (a & We & [(_ & Fe & Ye)|(_ & Fe & Ye)]); [rewrite Eh; apply in_app_iff; right; now left| |].
    - left. destruct O0 as (_ & i & v & v' & Hv & Pv & Hv' & Pv'). exists i, v. split; auto. split; auto.
      assert (It : In x2 t) by (apply (second_later h1 e1 t u1 x1 u2 x2 u3); auto; congruence).
      apply in_split in It. destruct It as (t1 & t2 & ->).
      exists h1, e1, t1, x2, t2, l0, l0, v', v'. rewrite Fe, X'. auto 12.
    - right. destruct O1 as (_ & i & v & v' & Hv & Pv & Hv' & Pv'). exists i, v. split; auto. split; auto.
      assert (It : In y2 t) by (apply (second_later h1 e1 t v1 y1 v2 y2 v3); auto; congruence).
      apply in_split in It. destruct It as (t1 & t2 & ->).
      exists h1, e1, t1, y2, t2, l1, l1, v', v'. rewrite Fe, Y'. auto 12. }
  auto.
Qed.
Lemma two_actions_main : forall H dbg (cfg : coin_config RF) gc nma n (c0 : coin RF) lo hi w w0 l r s a0 a1 l0 l1 g0 g1 common own0 own1 p f',
  let f := FtsCb (Some s) [a0; a1] in
  coin_new H dbg cfg gc nma = Ok c0 -> (0 < nma < 2 ^ 8)%N -> bits_to_max_feature_index dbg (gc_bits gc) = Ok n ->
  0 < (cc_alpha cfg : R) -> lo <= lo0 cfg -> hi0 cfg <= hi -> lo < hi ->
  Forall (below n) (seen_mtr f) -> Forall (below n) (seen_ips f) ->
  mapm (coin_feats dbg c0) (seen_mtr f) = Ok [l0; l1] -> mapm (coin_feats dbg c0) (seen_ips f) = Ok [g0; g1] ->
  Permutation g0 (common ++ own0) -> Permutation g1 (common ++ own1) -> own_features own0 l0 l1 -> own_features own1 l1 l0 ->
  settled_costs f lo hi l -> drawn_twice 0 l -> drawn_twice 1 l -> countable l ->
  taught dbg ((w, KCbAdf Mtr 0 0, (w0, c0)) : red RF 1) l r -> ws_predict dbg r f = Ok (p, f') ->
  exists s0 s1 : R, p = PrScores [(0%N, s0 : RF); (1%N, s1 : RF)] /\ s0 < s1.
Proof.
  intros H dbg cfg gc nma n c0 lo hi w w0 l r s a0 a1 l0 l1 g0 g1 common own0 own1 p f' f E Hn Hb A Hlo Hhi Lt Bm Bi Em Ei P0 P1 O0 O1 Sc D0 D1 Cl T P.
  destruct (two_apart dbg cfg n c0 lo hi l s a0 a1 l0 l1 g0 g1 common own0 own1 Hlo Hhi Lt Bm Em Ei P0 P1 O0 O1 Sc D0 D1) as (Fi & Ap & No).
  destruct (scores_main H dbg cfg gc nma n c0 lo hi w w0 l r f p f' E Hn Hb A Hlo Hhi T Cl Fi Bi P) as (sc & -> & Od).
  destruct (Od 0%nat 1%nat own0 own1 Ap) as (s0 & s1 & N0 & N1 & _ & Sl).
  exists s0, s1. split; [|now apply Sl]. f_equal.
  assert (L2 : nth_error sc 2 = None).
  { destruct (mtr_kind dbg 0 w l 0 0 ((w0, c0) : red RF 0) r T) as (x & y & ch' & Er'). subst r. destruct ch' as (w0' & c').
    destruct (cb_raw _ _ _ _ _ _ _ _ _ _ P) as (sc' & Es & Sc'). inversion Es; subst sc'. exact (Sc' 2%nat). }
  destruct sc as [|x [|y [|z sc]]]; try discriminate. cbn [nth_error] in N0, N1. inversion N0; inversion N1; subst. reflexivity.
Qed.

Lemma certain_settled : forall f lo hi l, settled_costs f lo hi l -> settled_costs f lo hi (map certain l).
Proof.
  intros f lo hi l S p Hp. apply in_map_iff in Hp. destruct Hp as (q & <- & Hq). destruct (S q Hq) as (Ef & a & c & x & El & Px & D).
  split; [now rewrite certain_feats|]. unfold certain. rewrite El. exists a, c, (1 : R). split; [reflexivity|]. split; [lra|exact D].
Qed.
Lemma certain_drawn : forall a p, drawn a p -> drawn a (certain p).
Proof. intros a p (c & q & E). unfold drawn, certain. rewrite E. do 2 eexists. reflexivity. Qed.
Lemma certain_twice : forall a l, drawn_twice a l -> drawn_twice a (map certain l).
Proof.
  intros a l (l1 & p1 & l2 & p2 & l3 & -> & A & B). exists (map certain l1), (certain p1), (map certain l2), (certain p2), (map certain l3).
  split; [rewrite map_app; cbn [map]; now rewrite map_app|]. split; now apply certain_drawn.
Qed.
Lemma two_probs_main : forall H dbg (cfg : coin_config RF) gc nma n (c0 : coin RF) lo hi w1 k w w0 l r s a0 a1 l0 l1 g0 g1 common own0 own1 p f',
  let f := FtsCb (Some s) [a0; a1] in
  coin_new H dbg cfg gc nma = Ok c0 -> (0 < nma < 2 ^ 8)%N -> bits_to_max_feature_index dbg (gc_bits gc) = Ok n ->
  0 < (cc_alpha cfg : R) -> lo <= lo0 cfg -> hi0 cfg <= hi -> lo < hi -> sensible k ->
  Forall (below n) (seen_mtr f) -> Forall (below n) (seen_ips f) ->
  mapm (coin_feats dbg c0) (seen_mtr f) = Ok [l0; l1] -> mapm (coin_feats dbg c0) (seen_ips f) = Ok [g0; g1] ->
  Permutation g0 (common ++ own0) -> Permutation g1 (common ++ own1) -> own_features own0 l0 l1 -> own_features own1 l1 l0 ->
  settled_costs f lo hi l -> drawn_twice 0 l -> drawn_twice 1 l -> countable l ->
  taught dbg ((w1, k, ((w, KCbAdf Mtr 0 0, (w0, c0)) : red RF 1)) : red RF 2) l r -> ws_predict dbg r f = Ok (p, f') ->
  exists probs (p0 p1 : R), p = PrProbs probs /\ nth_error probs 0 = Some (0%N, p0 : RF) /\ nth_error probs 1 = Some (1%N, p1 : RF) /\ p1 <= p0.
Proof.
  intros H dbg cfg gc nma n c0 lo hi w1 k w w0 l r s a0 a1 l0 l1 g0 g1 common own0 own1 p f' f E Hn Hb A Hlo Hhi Lt Sk Bm Bi Em Ei P0 P1 O0 O1 Sc D0 D1 Cl T P.
  assert (S' : settled_costs f lo hi (handed_down k l)) by (destruct k; auto; now apply certain_settled).
  assert (D0' : drawn_twice 0 (handed_down k l)) by (destruct k; auto; now apply certain_twice).
  assert (D1' : drawn_twice 1 (handed_down k l)) by (destruct k; auto; now apply certain_twice).
  destruct (two_apart dbg cfg n c0 lo hi _ s a0 a1 l0 l1 g0 g1 common own0 own1 Hlo Hhi Lt Bm Em Ei P0 P1 O0 O1 S' D0' D1') as (Fi & Ap & No).
  destruct (probs_main H dbg cfg gc nma n c0 lo hi w1 k w w0 l r f p f' E Hn Hb A Hlo Hhi Sk T Cl Fi Bi P) as (probs & -> & Od).
  destruct (Od 0%nat 1%nat own0 own1 Ap No) as (p0 & p1 & N0 & N1 & Le). exists probs, p0, p1. auto.
Qed.

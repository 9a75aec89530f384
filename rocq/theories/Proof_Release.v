(** C58: which text data the train command accepts (release builds). *)
From Coq Require Import List NArith ZArith Bool Lia.
From Verif Require Import Base FloatOps FloatB32 Model_Hash Model_Features Model_Weights Model_Loss
  Model_Interactions Model_Types Model_Explore Model_Coin Model_Stack Model_Factory Model_Text Model_Metrics Model_Train
  Spec_Features Proof_Weights Proof_WeightsProps Proof_Features Proof_FeaturesHist Proof_FloatOrder Spec_Coin Proof_Coin Spec_Stack Spec_Reductions Spec_Total
  Proof_StackCong Proof_StackRestore Proof_StackPtl Proof_StackShape Proof_StackProps Proof_Types Proof_Total
  Spec_Text Proof_TextRead Proof_TextParse Proof_TextFeats Proof_TextChunk Proof_Loose Proof_Train Spec_Release.
Import ListNotations.
Open Scope N_scope.

Section Rel.
Context {O : FOps} (FO : ford O).
Implicit Types (f g : features O) (a b : sfeats O).

(** ** learn and predict in release builds need no separability *)
Definition rok (fs : N) a : Prop := fwf a /\ allf (fun i _ => i < fs) a.
Definition rgood (fs : N) f : Prop := forall a, In a (parts f) -> rok fs a.

Lemma truncate_release : forall n (s : sfn O), exists s', sfn_truncate_by false n s = Ok s'.
Proof. intros n s. unfold sfn_truncate_by. destruct (Nat.leb n (sfn_size s)); eauto. Qed.
Lemma remove_release : forall a b, exists r, sf_remove false a b = Ok r.
Proof.
  intros a b. unfold sf_remove. revert a. induction b as [|(k & s) b IH]; intros a; cbn [foldm]; [eauto|].
  cbn [fst snd]. destruct (sfn_active s); cbn [bind]; [|apply IH].
  unfold sf_updm_ns. destruct (truncate_release (sfn_size s) (sfn_set_active true match fm_get k a with Some s => s | None => sfn_new k end)) as (s' & ->).
  cbn [bind]. apply IH.
Qed.
Lemma remove_opt_release : forall a s, exists r, remove_opt false a s = Ok r.
Proof. intros a [s|]; simpl; [apply remove_release|eauto]. Qed.

Lemma append_release : forall fs a b, rok fs a -> rok fs b -> exists r, sf_append a b = Ok r /\ rok fs r.
Proof.
  intros fs a b (Wa & Pa) (Wb & Pb). destruct (append_get a b Wa Wb) as (r & E & W & _). exists r. split; auto.
  split; auto. eapply allf_append; [exact Wa|exact Wb|exact Pa|exact Pb|exact E].
Qed.
Lemma append_opt_release : forall fs a s, rok fs a -> (forall sh, s = Some sh -> rok fs sh) ->
  exists r, append_opt a s = Ok r /\ rok fs r.
Proof. intros fs a [sh|] Ha Hs; simpl; [apply append_release; auto|eauto]. Qed.

Lemma wrap_release : forall X nmb f d (body : features O -> N -> out (pres O X)) x f' d', d < 256 ->
  body f d = Ok (x, f', d') -> wrap false nmb 0 f d body = Ok (x, f', d').
Proof. intros. apply wrap0_ok; auto. Qed.

Definition mtr_needs (n : nat) (r : red O n) f (lb : label O) : Prop := uses_mtr r = true -> mtr_example f lb.

Lemma rgood_simple : forall fs a, rok fs a -> rgood fs (FtsSimple a).
Proof. intros fs a R u [<-|[]]. exact R. Qed.
Lemma rgood_cb : forall fs s x, rgood fs (FtsCb s x) -> (forall sh, s = Some sh -> rok fs sh) /\ Forall (rok fs) x.
Proof.
  intros fs s x G. split.
  - intros sh ->. apply G. now left.
  - apply Forall_forall. intros a Ha. apply G. destruct s; simpl; auto.
Qed.

Lemma mtr_simple : forall n (r : red O n) f x y, typed n r -> td_in_label (red_types r) = LTSimple -> mtr_needs n r f (LbSimple x y).
Proof. intros n r f x y T L. unfold mtr_needs. destruct (typed_simple n r T) as (-> & _); congruence. Qed.

Lemma rel_ips : forall fs n act cost prob s x i (ch : red O n) d,
  (forall (r : red O n) f lb, inv false fs n r -> rgood fs f -> feat_type_of f = td_in_feats (red_types r) ->
     label_type_of lb = td_in_label (red_types r) -> mtr_needs n r f lb ->
     exists r' f', learn false n r f lb d 0 = Ok (r', f', d)) ->
  inv false fs n ch -> td_in_feats (red_types ch) = FTSimple -> td_in_label (red_types ch) = LTSimple ->
  (forall sh, s = Some sh -> rok fs sh) -> Forall (rok fs) x ->
  exists ch' acts, cb_ips_loop false (learn false n) act cost prob s x i ch d = Ok (ch', acts, d).
Proof.
  intros fs n act cost prob s x i ch d IH I Tf Tl Hs Fx. revert i ch I Tf Tl.
  induction Fx as [|a x Ha Fx IHx]; intros i ch I Tf Tl; simpl; [eauto|].
  destruct (append_opt_release fs a s Ha Hs) as (a1 & E1 & R1). rewrite E1. cbn [bind].
  assert (exists y z, ips_label false act cost prob i = Ok (LbSimple y z)) as (y & z & El).
  { unfold ips_label. destruct (i =? act); simpl; eauto. }
  rewrite El. cbn [bind].
  destruct (IH ch (FtsSimple a1) (LbSimple y z)) as (ch' & f' & E2); auto.
  { now apply rgood_simple. } { apply mtr_simple; auto. apply I. }
  rewrite E2. cbn [bind]. destruct (remove_opt_release (back_simple a1 f') s) as (a2 & E3). rewrite E3. cbn [bind].
  destruct (inv_step FO _ _ _ _ _ _ _ _ _ _ _ I E2) as (I' & Q).
  destruct (IHx (i + 1) ch') as (ch'' & acts & E4); auto; try congruence.
  rewrite E4. cbn [bind]. eauto.
Qed.

Lemma add64_release : forall x y, exists z, add64 false x y = Ok z.
Proof. intros. unfold add64. destruct (_ <? _); eauto. Qed.

Lemma rel_learn : forall fs n d, d < 256 -> forall (r : red O n) f lb, inv false fs n r -> rgood fs f ->
  feat_type_of f = td_in_feats (red_types r) -> label_type_of lb = td_in_label (red_types r) -> mtr_needs n r f lb ->
  exists r' f', learn false n r f lb d 0 = Ok (r', f', d).
Proof.
  intros fs n d Hd. induction n as [|n IH]; intros r f lb I G Tf Tl L.
  - destruct r as (w & c). destruct I as (T & _ & (W & Fs & Rg)). simpl in T, W, Fs, Rg. rewrite T in Tf, Tl. simpl in Tf, Tl.
    destruct f as [a|]; [|discriminate]. destruct lb as [y wt| |]; try discriminate.
    assert (B : below (dw_fsize (co_w c)) a).
    { intros i v Hin. rewrite Fs. destruct (G a (or_introl eq_refl)) as (_ & Q). exact (Q i v Hin). }
    destruct (learn_ok false c a y wt W B) as (c' & l & p & cb & u & E & _); [now apply range_step|].
    exists (w, c'), (FtsSimple a).
    cbn [learn]. apply wrap_release; auto. cbn [bind]. unfold coin_learn_body. cbn [as_simple as_simple_label bind fst snd]. rewrite E. reflexivity.
  - destruct r as ((w & k) & ch).
    assert (RS : forall k' ch' f', kind_learn false k (learn false n) ch f lb d 0 = Ok ((k', ch'), f', d) ->
              exists r' f', learn false (S n) (w, k, ch) f lb d 0 = Ok (r', f', d)).
    { intros k' ch' f' E. exists (w, k', ch'), f'. cbn [learn]. apply wrap_release; auto. rewrite E. reflexivity. }
    destruct I as (T & El & C). pose proof T as (T1 & T2 & T3). pose proof (td_good _ _ T3) as (G1 & G2 & G3).
    unfold uses_elem in El. cbn [some_kind fst snd] in El. apply orb_false_elim in El. destruct El as (El1 & El2).
    assert (Ic : inv false fs n ch) by (split; [exact T1|split; [exact El2|exact C]]).
    change (red_types (n := S n) (w, k, ch)) with (w_types w) in Tf, Tl. rewrite T2 in Tf, Tl, G1, G2, G3.
    unfold mtr_needs, uses_mtr in L. cbn [some_kind fst snd] in L.
    destruct k; try discriminate; cbn [kind_td td_in_feats td_in_label td_out_label td_out_feats td_in_pred td_cb_adf td_explore] in *;
      inversion G1 as [G1']; inversion G2 as [G2'].
    + destruct lb as [|b|]; try discriminate.
      destruct (IH ch f (binary_label b)) as (ch' & f' & E); auto. { apply mtr_simple; auto. }
      eapply RS. simpl. rewrite E. reflexivity.
    + destruct f as [|s x]; try discriminate. destruct lb as [| |act cost prob]; try discriminate.
      apply rgood_cb in G. destruct G as (Gs & Gx).
      destruct ty.
      * destruct (rel_ips fs n act cost prob s x 0 ch d) as (ch' & acts & E); auto.
        eapply RS. cbn [kind_learn as_cb as_cb_label bind fst snd]. rewrite E. reflexivity.
      * destruct L as (sh & x' & act' & c' & p' & Q1 & Q2 & Q3); auto. inversion Q1; subst. inversion Q2; subst. clear Q1 Q2.
        rename x' into x, act' into act, c' into cost, p' into prob.
        destruct (nth_error x (N.to_nat act)) as [a|] eqn:Ea; [|apply nth_error_None in Ea; lia].
        assert (Ha : rok fs a). { apply nth_error_In in Ea. eapply Forall_forall in Gx; eauto. }
        destruct (append_release fs sh a) as (s1 & E1 & R1); auto.
        destruct (add64_release action_sum (N.of_nat (length x))) as (as' & Ea1).
        destruct (add64_release event_sum 1) as (es' & Ea2).
        destruct (IH ch (FtsSimple s1) (LbSimple cost (f_mul O (f_div O f1 prob) (f_div O (f_of_N es') (f_of_N as')))))
          as (ch' & f' & E); auto. { now apply rgood_simple. } { apply mtr_simple; auto. }
        destruct (remove_release (back_simple s1 f') a) as (s2 & E2).
        eapply RS. cbn [kind_learn as_cb as_cb_label bind fst snd]. rewrite Ea1. cbn [bind]. rewrite Ea2. cbn [bind].
        rewrite Ea. cbn [opt_or bind]. rewrite E1. cbn [bind]. rewrite E. cbn [bind]. rewrite E2. reflexivity.
    + destruct (IH ch f lb) as (ch' & f' & E); auto; try congruence.
      eapply RS. simpl. rewrite E. reflexivity.
    + destruct (IH ch f lb) as (ch' & f' & E); auto; try congruence.
      eapply RS. simpl. rewrite E. reflexivity.
    + destruct lb as [| |act cost prob]; try discriminate.
      destruct (IH ch f (LbCb act cost f1)) as (ch' & f' & E); auto; try congruence.
      { intros Q. destruct (L Q) as (sh & x & a & c & p & Q1 & Q2 & Q3). inversion Q2; subst. repeat eexists. exact Q3. }
      destruct (add64_release counter 1) as (cn & Ec).
      eapply RS. cbn [kind_learn as_cb_label bind]. rewrite E. cbn [bind]. rewrite Ec. reflexivity.
    + destruct (IH ch f lb) as (ch' & f' & E); auto; try congruence.
      eapply RS. simpl. rewrite E. reflexivity.
Qed.

(** the mtr cost type needs shared features *)
Lemma learn_needs_shared : forall n (r : red O n) f lb d mo r' f' d', typed n r -> uses_elem r = false -> uses_mtr r = true ->
  learn false n r f lb d mo = Ok (r', f', d') -> exists sh x, f = FtsCb (Some sh) x.
Proof.
  induction n as [|n IH]; intros r f lb d mo r' f' d' T El M E; [discriminate|].
  destruct r as ((w & k) & ch). pose proof T as (T1 & T2 & T3). pose proof (td_good _ _ T3) as (G1 & _ & _). rewrite T2 in G1.
  unfold uses_elem in El. cbn [some_kind fst snd] in El. apply orb_false_elim in El. destruct El as (El1 & El2).
  unfold uses_mtr in M. cbn [some_kind fst snd] in M.
  cbn [learn] in E. apply wrap_ok in E. destruct E as (d1 & d2 & E). binv E. destruct v as (((k' & ch') & g) & e). clear E.
  destruct k; try discriminate; cbn [kind_td td_out_label td_cb_adf td_explore] in G1; inversion G1 as [G1']; cbn [kind_learn] in B.
  - destruct (typed_simple n ch T1) as (Q & _); [congruence|]. unfold uses_mtr in Q. rewrite Q in M. discriminate.
  - destruct f as [|s x]; [discriminate|]. cbn [as_cb bind] in B. binv B. destruct v as ((act & cost) & prob).
    destruct ty.
    + destruct (typed_simple n ch T1) as (Q & _); [congruence|]. unfold uses_mtr in Q. rewrite Q in M. discriminate.
    + binv B. binv B. destruct s as [sh|]; [eauto|discriminate].
  - binv B. destruct v as ((c1 & g1) & e1). eapply IH; [exact T1|exact El2|exact M|exact B0].
  - binv B. destruct v as ((c1 & g1) & e1). eapply IH; [exact T1|exact El2|exact M|exact B0].
  - binv B. destruct v as ((act & cost) & prob). binv B. destruct v as ((c1 & g1) & e1). eapply IH; [exact T1|exact El2|exact M|exact B1].
  - binv B. destruct v as ((c1 & g1) & e1). eapply IH; [exact T1|exact El2|exact M|exact B0].
Qed.

(** ** predict *)
(** scores and probabilities are given for the actions 0, 1, .. in order *)
Definition acts_in_order f (p : prediction O) : Prop :=
  match p with
  | PrScores l | PrProbs l => map fst l = map N.of_nat (seq 0 (N.to_nat (num_actions f)))
  | _ => True
  end.

Lemma rel_cb_predict : forall fs n (ch : red O n) s x i d,
  (forall f, rgood fs f -> feat_type_of f = FTSimple ->
     exists p f', predict false n ch f d 0 = Ok (p, f', d) /\ pred_type_of p = PTScalar) ->
  (forall sh, s = Some sh -> rok fs sh) -> Forall (rok fs) x ->
  exists scores acts, cb_predict_loop false (predict false n ch) s x i d = Ok (scores, acts, d) /\
    map fst scores = map (fun k => i + N.of_nat k) (seq 0 (length x)).
Proof.
  intros fs n ch s x i d IH Hs Fx. revert i. induction Fx as [|a x Ha Fx IHx]; intros i; simpl.
  - exists [], []. auto.
  - destruct (append_opt_release fs a s Ha Hs) as (a1 & E1 & R1). rewrite E1. cbn [bind].
    destruct (IH (FtsSimple a1)) as (p & f' & E2 & T2); auto. { now apply rgood_simple. } rewrite E2. cbn [bind].
    destruct p as [u v|?|?|?]; try discriminate. cbn [as_scalar bind snd].
    destruct (remove_opt_release (back_simple a1 f') s) as (a2 & E3). rewrite E3. cbn [bind].
    destruct (IHx (i + 1)) as (sc & acts & E4 & L4). rewrite E4. cbn [bind]. repeat eexists. cbn [map fst].
    f_equal; [lia|]. rewrite L4, <- seq_shift, map_map. apply map_ext. intros k. lia.
Qed.

Lemma greedy_acts : forall (eps : O) l pr, greedy_probs eps l = Ok pr -> map fst pr = map fst l.
Proof.
  intros eps l pr E. unfold greedy_probs in E. binv E.
  destruct (nth_error _ _) as [s|] eqn:En; [|discriminate]. inversion E; subst. clear E B.
  set (l' := map (fun s => (fst s, f_div O eps (f_of_nat (length l)))) l) in *.
  assert (Q : forall (z : list (N * O)) i s q, nth_error z i = Some s -> map fst (upd i (fst s, q) z) = map fst z).
  { clear. induction z as [|y z IH]; intros [|i] s q E; try discriminate; cbn [upd map nth_error] in *.
    - inversion E; subst. reflexivity.
    - f_equal. now apply IH. }
  rewrite (Q _ _ _ _ En). unfold l'. rewrite map_map. reflexivity.
Qed.

Lemma rel_predict : forall fs n d, d < 256 -> forall (r : red O n) f, inv false fs n r -> uses_weighted r = false ->
  rgood fs f -> feat_type_of f = td_in_feats (red_types r) ->
  (td_out_pred (red_types r) = PTProbs -> num_actions f <> 0) ->
  exists p f', predict false n r f d 0 = Ok (p, f', d) /\ pred_type_of p = td_out_pred (red_types r) /\ acts_in_order f p.
Proof.
  intros fs n d Hd. induction n as [|n IH]; intros r f I U G Tf NE.
  - destruct r as (w & c). destruct I as (T & _ & C). simpl in T, C. rewrite T in Tf. simpl in Tf.
    destruct f as [a|]; [|discriminate].
    destruct (coin_predict_ok false fs c a) as (x & y & E); auto.
    { intros i v H. destruct (G a (or_introl eq_refl)) as (_ & Q). exact (Q i v H). }
    exists (PrScalar x y), (FtsSimple a). split; [|split; [rewrite T; reflexivity|exact Logic.I]].
    cbn [predict]. apply wrap_release; auto. unfold coin_predict_body. cbn [as_simple bind fst snd]. rewrite E. reflexivity.
  - destruct r as ((w & k) & ch).
    assert (RS : forall p f', kind_predict false k (predict false n ch) f d 0 = Ok (p, f', d) -> acts_in_order f p ->
              exists p f', predict false (S n) (w, k, ch) f d 0 = Ok (p, f', d) /\
                pred_type_of p = td_out_pred (red_types (n := S n) (w, k, ch)) /\ acts_in_order f p).
    { intros p f' E Ns.
      assert (E' : predict false (S n) (w, k, ch) f d 0 = Ok (p, f', d)).
      { cbn [predict]. apply wrap_release; auto. }
      exists p, f'. split; auto. split; auto.
      pose proof (predict_nt false (S n) (w, k, ch) f d 0 (proj1 I) Tf) as Q. rewrite E' in Q. apply Q. }
    destruct I as (T & El & C). pose proof T as (T1 & T2 & T3). pose proof (td_good _ _ T3) as (G1 & G2 & G3).
    unfold uses_elem in El. cbn [some_kind fst snd] in El. apply orb_false_elim in El. destruct El as (El1 & El2).
    unfold uses_weighted in U. cbn [some_kind fst snd] in U. apply orb_false_elim in U. destruct U as (U1 & U2).
    assert (Ic : inv false fs n ch) by (split; [exact T1|split; [exact El2|exact C]]).
    change (red_types (n := S n) (w, k, ch)) with (w_types w) in *. rewrite T2 in *.
    destruct k; try discriminate; cbn [kind_td td_in_feats td_in_label td_out_label td_out_feats td_in_pred td_out_pred td_cb_adf td_explore] in *;
      inversion G1 as [G1']; inversion G2 as [G2']; inversion G3 as [G3'].
    + destruct (IH ch f) as (p & f' & E & Tp & _); auto; try congruence. rewrite <- G3' in Tp.
      destruct p as [u v|?|?|?]; try discriminate. eapply RS; [simpl; rewrite E; reflexivity|exact Logic.I].
    + destruct f as [|s x]; try discriminate. apply rgood_cb in G. destruct G as (Gs & Gx).
      destruct (rel_cb_predict fs n ch s x 0 d) as (sc & acts & E & L); auto.
      { intros f Gf Tf'. destruct (IH ch f) as (p & f' & E & Tp & _); auto; try congruence.
        exists p, f'. split; auto. congruence. }
      eapply RS; [cbn [kind_predict as_cb bind fst snd]; rewrite E; reflexivity|].
      cbn [acts_in_order]. rewrite L. cbn [num_actions]. rewrite Nnat.Nat2N.id. apply map_ext. intros; lia.
    + destruct (IH ch f) as (p & f' & E & Tp & Ns); auto; try congruence. rewrite <- G3' in Tp.
      destruct p as [?|?|l|?]; try discriminate. cbn [acts_in_order] in Ns.
      destruct (greedy_total eps l) as (pr & Ep).
      { intros ->. cbn [map] in Ns. specialize (NE eq_refl).
        destruct (N.to_nat (num_actions f)) eqn:En; [lia|discriminate]. }
      eapply RS; [simpl; rewrite E; cbn [bind as_scores]; rewrite Ep; reflexivity|].
      cbn [acts_in_order]. rewrite (greedy_acts _ _ _ Ep). exact Ns.
    + destruct (IH ch f) as (p & f' & E & Tp & Ns); auto; try congruence.
      eapply RS; [simpl; exact E|exact Ns].
Qed.

(** ** parsed features lie inside the table *)
Context (H : hasher) (pf : str -> option O).

Lemma mask_lt : forall nb mk n h, mask_from_bits false nb = Ok mk -> bits_to_max_feature_index false nb = Ok n -> mask mk h < n.
Proof.
  intros nb mk n h E1 E2. unfold mask_from_bits in E1. unfold bits_to_max_feature_index in E2. unfold mask.
  assert (Q : forall k, N.land h (2 ^ k - 1) < 2 ^ k).
  { intros k. rewrite <- N.pred_sub, <- N.ones_equiv, N.land_ones. apply N.mod_lt. now apply N.pow_nonzero. }
  destruct (nb <? 32); inversion E1; inversion E2; subst; apply Q.
Qed.

Lemma allf_fget : forall P a, fwf a -> (allf P a <-> forall k s i v, fm_get k a = Some s -> In (i, v) (sfn_iter s) -> P i v).
Proof.
  intros P a W. unfold allf. split.
  - intros A k s i v E Hin. apply A. apply in_all; eauto.
  - intros A i v Hin. apply in_all in Hin; auto. destruct Hin as (k & s & E & Hin). eauto.
Qed.

Lemma upd_rok : forall fs a k (g : sfn O -> sfn O), rok fs a ->
  (forall s, sfn_wf k s -> sfn_wf k (g s)) ->
  (forall s i v, sfn_wf k s -> In (i, v) (sfn_iter (g s)) -> In (i, v) (sfn_iter s) \/ i < fs) ->
  rok fs (sf_upd_ns k g a).
Proof.
  intros fs a k g (W & A) Hg Hi. rewrite sf_upd_item.
  assert (W1 : fwf (fm_set k (g (sfn_set_active true (item k a))) a)).
  { apply fwf_set; auto. apply Hg. apply set_active_wf. now apply item_wf. }
  split; auto. apply allf_fget; auto. rewrite allf_fget in A by auto. intros j s i v E Hin.
  rewrite fm_get_set in E. destruct (ns_eqb j k); [|eapply A; eauto].
  inversion E; subst. apply Hi in Hin; [|apply set_active_wf; now apply item_wf].
  destruct Hin as [Hin|]; auto. unfold item in Hin. destruct (fm_get k a) as [s|] eqn:Ea; [|contradiction].
  eapply A; [exact Ea|exact Hin].
Qed.

Lemma add_iter : forall k (s : sfn O) i x j v, sfn_wf k s -> In (j, v) (sfn_iter (sfn_add i x s)) -> In (j, v) (sfn_iter s) \/ j = i.
Proof.
  intros k s i x j v (_ & L) Hin. unfold sfn_iter, sfn_add in *. cbn [sfn_idx sfn_val] in Hin.
  rewrite combine_app' in Hin by auto. apply in_app_iff in Hin. destruct Hin as [Hin|[Hin|[]]]; auto. inversion Hin; auto.
Qed.

Context (seed nb fs : N) (Hfs : bits_to_max_feature_index false nb = Ok fs).

Lemma parse_namespace_rok : forall d seg d', rok fs d -> parse_namespace H pf false seed nb d seg = Ok d' -> rok fs d'.
Proof.
  intros d seg d' C E. unfold parse_namespace in E. binv E. destruct v as ((name & nsv) & toks).
  binv E. inversion E; subst. clear E.
  assert (I : forall acc acc', rok fs (fst acc) ->
     foldm (add_token H pf false nb (ns_from_name H name seed) nsv) toks acc = Ok acc' -> rok fs (fst acc')).
  { clear - Hfs. induction toks as [|t toks IH]; intros acc acc' C E; cbn [foldm] in E; [now inversion E; subst|].
    binv E. eapply IH; [|exact E]. unfold add_token in B. binv B. destruct v0 as ((p & v0) & off). binv B. binv B.
    inversion B; subst. cbn [fst]. apply upd_rok; auto.
    - intros; now apply sfn_add_wf.
    - intros s i w W Hin. eapply add_iter in Hin; eauto. destruct Hin as [| ->]; auto. right. eapply mask_lt; eauto. }
  eapply I; [|exact B0]. cbn [fst]. apply upd_rok; auto.
Qed.

Lemma parse_line_rok : forall lt line d l d', rok fs d ->
  parse_line H pf false seed nb lt line d = Ok (l, d') -> rok fs d'.
Proof.
  intros lt line d l d' C E. unfold parse_line in E. destruct (split_char 124 line) as [|ini segs]; [discriminate|].
  binv E. binv E. inversion E; subst. clear E B. revert d C B0.
  induction segs as [|s segs IH]; intros d C E; cbn [foldm] in E; [now inversion E; subst|].
  binv E. eapply IH; [|exact E]. eapply parse_namespace_rok; eauto.
Qed.

Lemma looks_new_rok : forall d, looks_new d -> rok fs d.
Proof.
  intros d L. split; [apply L|]. intros i v Hin. rewrite (fsim_all d sf_new L) in Hin. contradiction.
Qed.

Lemma parse_lines_rok : forall lt ls ds rs, Forall looks_new ds ->
  parse_lines H pf false seed nb lt ls ds = Ok rs -> Forall (fun x => rok fs (snd x)) rs.
Proof.
  induction ls as [|l ls IH]; intros ds rs F E; cbn [parse_lines] in E; [inversion E; constructor|].
  binv E. binv E. inversion E; subst. constructor.
  - destruct v as (l0 & d0). eapply parse_line_rok; [|exact B]. now apply looks_new_rok, hd_new.
  - eapply IH; [|exact B0]. destruct F; [constructor|assumption].
Qed.

Lemma parse_chunk_rgood : forall ft lt ds chunk u, Forall looks_new ds ->
  parse_chunk H pf false seed nb ft lt ds chunk = Ok u -> rgood fs (fst u).
Proof.
  intros ft lt ds chunk u F E. unfold parse_chunk in E. destruct (is_multiline ft lt) eqn:M.
  - binv E. apply parse_lines_rok in B; auto. unfold finalize_multi in E. rewrite M in E.
    destruct v as [|(l0 & g0) rest]; [discriminate|]. inversion B as [|? ? C0 CR]; subst. cbn [snd] in C0. binv E.
    assert (CM : Forall (rok fs) (map snd rest)) by (clear - CR; induction CR; constructor; auto).
    destruct (fst v); binv E; inversion E; subst; cbn [fst]; intros a Ha; cbn [parts map snd] in Ha.
    + destruct Ha as [<-|Ha]; auto. eapply Forall_forall in CM; eauto.
    + destruct Ha as [<-|Ha]; auto. eapply Forall_forall in CM; eauto.
  - binv E. destruct v as (l & d). apply parse_line_rok in B; [|now apply looks_new_rok, hd_new].
    unfold finalize_single in E. cbn [fst snd] in E. destruct l as [[x w|s a]|]; inversion E; subst; now apply rgood_simple.
Qed.

(** ** the chunks that parse with a label *)
(** the pairs of types a stack can have *)
Lemma entry_types : forall n (r : red O n), typed n r ->
  (td_in_feats (red_types r) = FTSimple /\ td_in_label (red_types r) = LTSimple /\ td_out_pred (red_types r) = PTScalar) \/
  (td_in_feats (red_types r) = FTSimple /\ td_in_label (red_types r) = LTBinary) \/
  (td_in_feats (red_types r) = FTCb /\ td_in_label (red_types r) = LTCb).
Proof.
  induction n as [|n IH]; intros r T.
  - destruct r as (w & c). simpl in T. rewrite T. left. repeat split.
  - destruct r as ((w & k) & ch). pose proof T as (T1 & T2 & T3). pose proof (td_good _ _ T3) as (G1 & G2 & G3).
    change (red_types (n := S n) (w, k, ch)) with (w_types w). rewrite T2 in *.
    destruct k; cbn [kind_td td_in_feats td_in_label td_out_label td_out_feats td_in_pred td_out_pred td_cb_adf td_explore] in *; auto;
      inversion G1 as [K1]; inversion G2 as [K2];
      destruct (IH ch T1) as [(A & B & C)|[(A & B)|(A & B)]]; try congruence; auto.
Qed.

Lemma binary_preds : forall n (r : red O n), typed n r -> td_in_label (red_types r) = LTBinary -> td_out_pred (red_types r) = PTBinary.
Proof.
  induction n as [|n IH]; intros r T L.
  - destruct r as (w & c). simpl in T. rewrite T in L. discriminate.
  - destruct r as ((w & k) & ch). pose proof T as (T1 & T2 & T3).
    change (red_types (n := S n) (w, k, ch)) with (w_types w) in *. rewrite T2 in *.
    destruct k; cbn [kind_td td_in_label td_out_label td_out_pred td_cb_adf td_explore] in *; try discriminate; auto.
Qed.

Lemma simple_trainable : forall ft mtr ds chunk,
  (exists u lb, parse_chunk H pf false seed nb ft LTSimple ds chunk = Ok (u, Some lb)) <-> trainable pf LTSimple mtr chunk.
Proof.
  intros ft mtr ds chunk. split.
  - intros (u & lb & E). unfold parse_chunk in E. replace (is_multiline ft LTSimple) with false in E by (destruct ft; reflexivity).
    binv E. destruct v as (l & d). cbn [fst snd] in E.
    pose proof B as B'. unfold parse_line in B'.
    destruct (split_char 124 chunk) as [|ini segs] eqn:Es; [discriminate|]. binv B'. binv B'. inversion B'; subst. clear B'.
    apply parse_label_simple in B0. destruct B0 as (s & Hs & ->).
    destruct s as [(x & w)|]; [|discriminate].
    exists ini, segs, (label_tokens ini), (x, w). split; [apply cut_split; exact Es|]. split; [apply label_words_tokens; reflexivity|].
    split; auto. clear - B1. destruct (Forall_dec (seg_fine pf)) with (l := segs) as [F|F]; auto.
    + intros seg. destruct (namespace_head pf seg) as [r|e|e] eqn:En.
      * left. apply seg_fine_iff. eauto.
      * exfalso. eapply namespace_head_not_er; eauto.
      * right. intros Q. apply seg_fine_iff in Q. destruct Q. congruence.
    + exfalso. destruct (parse_segs_iff H pf seed nb segs (hd sf_new ds)) as (_ & Q). destruct (Q F) as (p & Ep). congruence.
  - intros (ini & segs & ws & s & Hc & Hl & Hs & Hf).
    destruct (chunk_simple_release H pf seed nb ft ds chunk) as (Q & _).
    destruct Q as ((u & lb) & E).
    { exists ini, segs, ws. split; auto. split; auto. split; auto. exists (Some s). exact Hs. }
    exists u. unfold parse_chunk in E |- *. replace (is_multiline ft LTSimple) with false in * by (destruct ft; reflexivity).
    binv E. destruct v as (l & d). pose proof B as B'. unfold parse_line in B'.
    apply cut_split in Hc. rewrite Hc in B'. apply label_words_tokens in Hl. subst ws.
    binv B'. binv B'. inversion B'; subst. clear B'.
    assert (E' : parse_label pf (label_tokens ini) LTSimple = Ok (let (x, w) := s in Some (TLSimple x w))).
    { apply parse_label_simple. exists (Some s). split; auto. }
    rewrite E' in B0. inversion B0; subst. rewrite B. cbn [bind fst snd] in E |- *. destruct s as (x & w).
    cbn [finalize_single] in E |- *. inversion E; subst. eauto.
Qed.

Lemma cb_trainable : forall mtr ds chunk,
  (exists u lb, parse_chunk H pf false seed nb FTCb LTCb ds chunk = Ok (u, Some lb) /\
     (mtr = true -> exists sh x, u = FtsCb (Some sh) x)) <-> trainable pf LTCb mtr chunk.
Proof.
  intros mtr ds chunk. split.
  - intros (u & lb & E & M). destruct (multi_ok H pf seed nb _ _ _ _ _ E) as (ms & l & Hm & Hl & Hi & sh & acts & -> & _ & Hs).
    destruct l as [((i & c) & p)|]; [|discriminate]. split.
    + destruct (chunk_cb_release H pf seed nb ds chunk) as (_ & Q).
      destruct (parse_lines H pf false seed nb LTCb (str_lines chunk) ds) as [rs|e|e] eqn:Ep.
      * clear - Ep FO. revert ds rs Ep. induction (str_lines chunk) as [|l ls IH]; intros ds rs E; [constructor|].
        cbn [parse_lines] in E. binv E. binv E. constructor; [|eapply IH; exact B0].
        destruct v as (lb & d). unfold parse_line in B. destruct (split_char 124 l) as [|ini segs] eqn:Es; [discriminate|].
        binv B. binv B. apply (line_fine_split pf LTCb l ini segs Es). split.
        { apply label_fine_iff. eauto. }
        { clear - B2. destruct (Forall_dec (seg_fine pf)) with (l := segs) as [F|F]; auto.
          - intros seg. destruct (namespace_head pf seg) as [r|e|e] eqn:En.
            + left. apply seg_fine_iff. eauto.
            + exfalso. eapply namespace_head_not_er; eauto.
            + right. intros Q. apply seg_fine_iff in Q. destruct Q. congruence.
          - exfalso. destruct (parse_segs_iff H pf seed nb segs (hd sf_new ds)) as (_ & Q). destruct (Q F) as (p & Ep). congruence. }
      * unfold parse_chunk in E. replace (is_multiline FTCb LTCb) with true in E by reflexivity. rewrite Ep in E. discriminate.
      * unfold parse_chunk in E. replace (is_multiline FTCb LTCb) with true in E by reflexivity. rewrite Ep in E. discriminate.
    + exists ms, i, c, p. split; auto. split; auto. intros Hmtr. apply Hs. destruct (M Hmtr) as (s1 & x1 & Q). inversion Q; subst. discriminate.
  - intros (Hf & ms & i & c & p & Hm & Hi & M).
    destruct (parse_lines_release H pf seed nb LTCb (str_lines chunk) ds) as (Q & _). destruct (Q Hf) as (rs & Er).
    destruct (multi_result H pf seed nb _ _ _ _ Er) as (ms' & Hm' & [(u & lb & E)|[E [Hn|Ht]]]);
      pose proof (line_marks_unique _ _ _ _ Hm Hm') as Hu0; subst ms'.
    + destruct (multi_ok H pf seed nb _ _ _ _ _ E) as (ms' & l & Hm2 & Hl & Hi' & sh & acts & Hu & _ & Hs).
      pose proof (line_marks_unique _ _ _ _ Hm Hm2) as <-. subst u.
      destruct l as [((i' & c') & p')|].
      * subst lb. exists (FtsCb sh acts). eexists. split; [exact E|]. intros Hmtr. apply M in Hmtr. apply Hs in Hmtr.
        destruct sh as [s0|]; [eauto|congruence].
      * exfalso. destruct Hi as ((a & Ha) & _). apply nth_error_In in Ha. exact (Hi' _ Ha Logic.I).
    + exfalso. subst ms. destruct Hi as ((a & Ha) & _). cbn [action_marks] in Ha. destruct (N.to_nat i); discriminate.
    + exfalso. exact (label_is_not_two _ _ Hi Ht).
Qed.

(** the labelled action exists *)
Lemma cb_label_range : forall ds chunk u lb, parse_chunk H pf false seed nb FTCb LTCb ds chunk = Ok (u, Some lb) ->
  exists sh acts i c p, u = FtsCb sh acts /\ lb = LbCb i c p /\ (N.to_nat i < length acts)%nat.
Proof.
  intros ds chunk u lb E. destruct (multi_ok H pf seed nb _ _ _ _ _ E) as (ms & l & Hm & Hl & Hi & sh & acts & -> & Hf & Hs).
  destruct l as [((i & c) & p)|]; [|discriminate]. cbn [lb_of] in Hl. inversion Hl; subst.
  exists sh, acts, i, c, p. split; auto. split; auto. destruct Hi as ((a & Ha) & _).
  assert (L : (N.to_nat i < length (action_marks ms))%nat) by (apply nth_error_Some; congruence).
  assert (L1 : length (str_lines chunk) = length ms) by (eapply F2_length; eauto).
  apply F2_length in Hf. rewrite app_length in Hf. rewrite Hf in L1.
  destruct sh as [s0|]; cbn [length] in L1.
  - destruct (proj1 Hs ltac:(discriminate)) as (r & ->). cbn [action_marks length] in *. lia.
  - destruct ms as [|[| |? ? ?] r]; cbn [action_marks length] in *; lia.
Qed.

(** without shared features the mtr cost type runs into [todo!()] *)
Lemma wrap_panics : forall X nmb f d (body : features O -> N -> out (pres O X)) p, d < 256 ->
  body f d = Pn p -> wrap false nmb 0 f d body = Pn p.
Proof. intros X nmb f d body p Hd E. unfold wrap. rewrite depth_inc0 by auto. cbn [bind]. rewrite E. reflexivity. Qed.
Lemma learn_no_shared : forall n d, d < 256 -> forall (r : red O n) x act cost prob, typed n r -> uses_elem r = false -> uses_mtr r = true ->
  learn false n r (FtsCb None x) (LbCb act cost prob) d 0 = Pn PTodo.
Proof.
  intros n d Hd. induction n as [|n IH]; intros r x act cost prob T El M; [discriminate|].
  destruct r as ((w & k) & ch). pose proof T as (T1 & T2 & T3). pose proof (td_good _ _ T3) as (G1 & _ & _). rewrite T2 in G1.
  unfold uses_elem in El. cbn [some_kind fst snd] in El. apply orb_false_elim in El. destruct El as (El1 & El2).
  unfold uses_mtr in M. cbn [some_kind fst snd] in M.
  assert (IP : forall c p, uses_mtr ch = true -> learn false n ch (FtsCb None x) (LbCb act c p) d 0 = Pn PTodo) by (intros; apply IH; auto).
  cbn [learn]. apply wrap_panics; auto.
  destruct k; try discriminate; cbn [kind_td td_out_label td_cb_adf td_explore] in G1; inversion G1 as [G1']; cbn [kind_learn].
  - destruct (typed_simple n ch T1) as (Q & _); [congruence|]. unfold uses_mtr in Q. rewrite Q in M. discriminate.
  - cbn [as_cb as_cb_label bind fst snd]. destruct ty.
    + destruct (typed_simple n ch T1) as (Q & _); [congruence|]. unfold uses_mtr in Q. rewrite Q in M. discriminate.
    + destruct (add64_release action_sum (N.of_nat (length x))) as (as' & ->). cbn [bind].
      destruct (add64_release event_sum 1) as (es' & ->). reflexivity.
  - rewrite IP by exact M. reflexivity.
  - rewrite IP by exact M. reflexivity.
  - cbn [as_cb_label bind]. rewrite IP by exact M. reflexivity.
  - rewrite IP by exact M. reflexivity.
Qed.

(** ** one chunk *)
Section Run.
Context (n : nat) (T : tdesc) (M : bool).
Definition wsok (r : red O n) : Prop := inv false fs n r /\ red_types r = T /\ uses_mtr r = M.

Lemma wsok_step : forall r f lb r' f', wsok r -> ws_learn false r f lb = Ok (r', f') -> wsok r'.
Proof.
  intros r f lb r' f' (I & E & Em) L. apply ws_learn_ok in L.
  destruct (inv_step FO _ _ _ _ _ _ _ _ _ _ _ I L) as (I' & Q). split; auto. split; [congruence|].
  rewrite (shape_mtr _ _ _ (learn_shape _ _ _ _ _ _ _ _ _ _ L)). exact Em.
Qed.

(** what parsing gives for the workspace *)
Definition fitting (u : features O) (lb : label O) : Prop :=
  rgood fs u /\ pgood u /\ feat_type_of u = td_in_feats T /\ label_type_of lb = td_in_label T /\
  (td_in_label T = LTCb -> exists sh acts i c p, u = FtsCb sh acts /\ lb = LbCb i c p /\ (N.to_nat i < length acts)%nat) /\
  (M = true -> mtr_example u lb).
Local Notation parse ds chunk := (parse_chunk H pf false seed nb (td_in_feats T) (td_in_label T) ds chunk).

Context (r0 : red O n) (W0 : wsok r0).

Lemma parse_cases : forall ds chunk, Forall looks_new ds ->
  (trainable pf (td_in_label T) M chunk /\ exists u lb, parse ds chunk = Ok (u, Some lb) /\ fitting u lb) \/
  (~ trainable pf (td_in_label T) M chunk /\
     ((exists p, unwrap_res (parse ds chunk) = Pn p) \/ (exists u, parse ds chunk = Ok (u, None)) \/
      (M = true /\ exists x i c p, parse ds chunk = Ok (FtsCb None x, Some (LbCb i c p))))).
Proof.
  intros ds chunk F. destruct W0 as ((Ty & El & _) & ET & EM).
  pose proof (parse_chunk_rgood (td_in_feats T) (td_in_label T) ds chunk) as RG.
  pose proof (parse_chunk_good H pf false seed nb (td_in_feats T) (td_in_label T) ds chunk) as PG.
  assert (MS : td_in_label T <> LTCb -> M = false).
  { intros NL. rewrite <- EM. apply typed_simple; auto. congruence. }
  destruct (entry_types n r0 Ty) as [(A & B & _)|[(A & B)|(A & B)]]; rewrite ET in A, B; rewrite A, B in *.
  - pose proof (simple_trainable FTSimple M ds chunk) as Q.
    destruct (parse_chunk H pf false seed nb FTSimple LTSimple ds chunk) as [(u & [lb|])|e|p] eqn:E.
    + left. split; [apply Q; eauto|]. exists u, lb. split; auto.
      pose proof E as E'. unfold parse_chunk in E'. cbn in E'. binv E'. unfold finalize_single in E'.
      assert (exists d x w, u = FtsSimple d /\ lb = LbSimple x w) as (d & x & w & -> & ->).
      { destruct (fst v) as [[? ?|? ?]|]; inversion E'; subst; eauto. }
      split; [exact (RG _ F eq_refl)|]. split; [exact (PG _ F eq_refl)|]. rewrite A, B. repeat split; try discriminate.
      rewrite MS by discriminate. discriminate.
    + right. split; [|eauto]. intros Tr. apply Q in Tr. destruct Tr as (? & ? & Tr). discriminate.
    + right. split; [|left; eexists; reflexivity]. intros Tr. apply Q in Tr. destruct Tr as (? & ? & Tr). discriminate.
    + right. split; [|left; eexists; reflexivity]. intros Tr. apply Q in Tr. destruct Tr as (? & ? & Tr). discriminate.
  - right. split; [intros []|]. left. unfold parse_chunk. cbn [is_multiline feat_type_eqb andb].
    replace (is_multiline FTSimple LTBinary) with false by reflexivity. unfold parse_line.
    destruct (split_char 124 chunk); cbn [parse_label bind unwrap_res]; eauto.
  - pose proof (cb_trainable M ds chunk) as Q.
    destruct (parse_chunk H pf false seed nb FTCb LTCb ds chunk) as [(u & [lb|])|e|p] eqn:E.
    + destruct (cb_label_range _ _ _ _ E) as (sh & acts & i & c & p & -> & -> & L).
      assert (FF : (M = true -> sh <> None) -> fitting (FtsCb sh acts) (LbCb i c p)).
      { intros Hsh. split; [exact (RG _ F eq_refl)|]. split; [exact (PG _ F eq_refl)|]. rewrite A, B.
        split; auto. split; auto. split; [intros _; repeat eexists; exact L|].
        intros Hm. destruct sh as [s0|]; [|exfalso; now apply (Hsh Hm)]. repeat eexists. exact L. }
      destruct M eqn:HM; [destruct sh as [s0|]|].
      * left. split; [apply Q; repeat eexists|]. do 2 eexists. split; [reflexivity|]. apply FF. discriminate.
      * right. split; [|right; right; split; auto; repeat eexists].
        intros Tr. apply Q in Tr. destruct Tr as (u & lb & E1 & E2). inversion E1; subst. destruct (E2 eq_refl) as (? & ? & E3). discriminate.
      * left. split; [apply Q; do 2 eexists; split; [reflexivity|discriminate]|]. do 2 eexists. split; [reflexivity|]. apply FF. discriminate.
    + right. split; [|eauto]. intros Tr. apply Q in Tr. destruct Tr as (? & ? & Tr & _). discriminate.
    + right. split; [|left; eexists; reflexivity]. intros Tr. apply Q in Tr. destruct Tr as (? & ? & Tr & _). discriminate.
    + right. split; [|left; eexists; reflexivity]. intros Tr. apply Q in Tr. destruct Tr as (? & ? & Tr & _). discriminate.
Qed.

Lemma ws_learn_fit : forall r u lb, wsok r -> fitting u lb -> exists r' f', ws_learn false r u lb = Ok (r', f').
Proof.
  intros r u lb (I & ET & EM) (G & _ & Tf & Tl & _ & Hm).
  destruct (rel_learn fs n 0 eq_refl r u lb I G) as (r' & f' & E); try congruence.
  - unfold mtr_needs. rewrite EM. exact Hm.
  - exists r', f'. unfold ws_learn. rewrite E. reflexivity.
Qed.

Lemma process_wf : forall md (st : tstate O n) f lb st' f', ftwf f -> process_example false md st f lb = Ok (st', f') -> ftwf f'.
Proof.
  intros md st f lb st' f' W E. pose proof (process_sim false md n st f f lb (ftsim_refl f W)) as Q. rewrite E in Q.
  inversion Q as [? ? (_ & S3)| |]; subst. cbn [snd] in S3. eapply ftsim_wf_l; eauto.
Qed.

Local Notation ps := (parse_chunk H pf false seed nb (td_in_feats T) (td_in_label T)).

(** an unusable chunk panics, whatever the mode *)
Lemma chunk_panics : forall md need (st : tstate O n) ds chunk, wsok (t_red st) -> Forall looks_new ds ->
  ~ trainable pf (td_in_label T) M chunk -> (tm_quiet md = true /\ tm_preds md = false) ->
  exists p, train_chunk false md ps need (st, ds) chunk = Pn p.
Proof.
  intros md need st ds chunk W F NT (Mq & Mp). unfold train_chunk. cbn [fst snd].
  destruct (parse_cases ds chunk F) as [(Tr & _)|(_ & [(p & E)|[(u & E)|(Hm & x & i & c & p & E)]])]; [contradiction| | |].
  - rewrite E. cbn [bind]. eauto.
  - rewrite E. cbn [unwrap_res bind fst snd]. unfold process_example. cbn [opt_or bind]. eauto.
  - rewrite E. cbn [unwrap_res bind fst snd]. unfold process_example. cbn [opt_or bind].
    rewrite Mq, Mp. cbn [negb orb]. unfold ws_learn. destruct W as ((Ty & El & _) & _ & Em).
    rewrite (learn_no_shared n 0 eq_refl) by (auto; congruence). cbn [bind]. eauto.
Qed.

Lemma chunk_quiet : forall need (st : tstate O n) ds chunk, wsok (t_red st) -> Forall looks_new ds ->
  trainable pf (td_in_label T) M chunk ->
  exists st' ds', train_chunk false quiet ps need (st, ds) chunk = Ok (st', ds') /\ wsok (t_red st') /\ Forall looks_new ds'.
Proof.
  intros need st ds chunk W F Tr. unfold train_chunk. cbn [fst snd].
  destruct (parse_cases ds chunk F) as [(_ & u & lb & E & Fit)|(NT & _)]; [|contradiction].
  rewrite E. cbn [unwrap_res bind fst snd].
  destruct (ws_learn_fit _ _ _ W Fit) as (r' & f' & L).
  assert (P : process_example false quiet st u (Some lb) = Ok (mkTs r' (t_preds st) (t_metrics st) (t_mgr st), f')).
  { unfold process_example. cbn [opt_or bind quiet tm_quiet tm_preds negb orb]. rewrite L. reflexivity. }
  rewrite P. cbn [bind fst snd]. do 2 eexists. split; [reflexivity|]. split; [eapply wsok_step; eauto|].
  apply give_back_new; [|now apply skipn_new]. eapply process_wf; [|exact P]. apply pgood_wf, Fit.
Qed.

Lemma trainable_dec : forall chunk, {trainable pf (td_in_label T) M chunk} + {~ trainable pf (td_in_label T) M chunk}.
Proof.
  intros chunk. pose proof (parse_cases [] chunk (Forall_nil _)) as Q.
  destruct (parse [] chunk) as [(u & [lb|])|e|p] eqn:E.
  - destruct M eqn:HM.
    + destruct u as [a|[sh|] x].
      * left. destruct Q as [(Tr & _)|(NT & [(p & Ep)|[(u & Eu)|(Hm & x & i & c & p & Ep)]])]; auto; discriminate.
      * left. destruct Q as [(Tr & _)|(NT & [(p & Ep)|[(u & Eu)|(Hm & x' & i & c & p & Ep)]])]; auto; discriminate.
      * right. intros Tr. destruct Q as [(_ & u & lb' & E1 & Fit)|(NT & _)]; [|contradiction]. inversion E1; subst.
        destruct Fit as (_ & _ & _ & _ & _ & Hm). destruct (Hm HM) as (? & ? & ? & ? & ? & Hu & _). discriminate.
    + left. destruct Q as [(Tr & _)|(NT & [(p & Ep)|[(u' & Eu)|(Hm & x & i & c & p & Ep)]])]; auto; discriminate.
  - right. intros Tr. destruct Q as [(_ & u' & lb' & E1 & _)|(NT & _)]; [discriminate|contradiction].
  - right. intros Tr. destruct Q as [(_ & u' & lb' & E1 & _)|(NT & _)]; [discriminate|contradiction].
  - right. intros Tr. destruct Q as [(_ & u' & lb' & E1 & _)|(NT & _)]; [discriminate|contradiction].
Qed.

Lemma loop_quiet_cases : forall need chunks (st : tstate O n) ds, wsok (t_red st) -> Forall looks_new ds ->
  (Forall (trainable pf (td_in_label T) M) chunks -> exists x, train_loop false quiet ps need chunks (st, ds) = Ok x) /\
  (~ Forall (trainable pf (td_in_label T) M) chunks -> exists p, train_loop false quiet ps need chunks (st, ds) = Pn p).
Proof.
  intros need. induction chunks as [|c chunks IH]; intros st ds W F; unfold train_loop; cbn [foldm].
  - split; [eauto|]. intros Nf. destruct Nf. constructor.
  - destruct (trainable_dec c) as [Tr|Nt].
    + destruct (chunk_quiet need st ds c W F Tr) as (st' & ds' & -> & W' & F'). cbn [bind].
      destruct (IH st' ds' W' F') as (I1 & I2). split.
      * intros Fa. inversion Fa; subst. now apply I1.
      * intros Nf. apply I2. intros Fa. apply Nf. now constructor.
    + destruct (chunk_panics quiet need st ds c W F Nt) as (p & ->); [auto|]. cbn [bind]. split; [|eauto].
      intros Fa. inversion Fa; contradiction.
Qed.

(** ** with output *)
Definition msuits (m : metric O) : Prop :=
  match m with
  | MMse _ _ => td_in_label T = LTSimple
  | MIps _ _ => td_in_label T = LTCb /\ td_out_pred T = PTProbs
  | MParsed _ => False
  | MExample _ => True
  end.
Definition mstarted (m : metric O) : Prop := match m with MExample c => c <> 0 | MParsed _ => False | _ => True end.

Lemma started_value : forall ms : list (metric O), Forall mstarted ms ->
  exists vs, mapm (metric_value false) ms = Ok vs /\ length vs = length ms.
Proof.
  induction 1 as [|m ms Hm F (vs & E & L)]; [exists []; auto|]. cbn [mapm].
  assert (exists v, metric_value false m = Ok v) as (v & ->).
  { destruct m; cbn [metric_value mstarted] in *; eauto; [contradiction|]. destruct (count =? 0) eqn:E0; [apply N.eqb_eq in E0; contradiction|].
    unfold sub_i32. cbv zeta. destruct (_ && _)%bool; cbn [bind]; eauto. }
  cbn [bind]. rewrite E. cbn [bind]. exists (v :: vs). split; auto. cbn. now rewrite L.
Qed.

Lemma metrics_add : forall ms f u lb (pr : prediction O), Forall msuits ms -> fitting u lb ->
  pred_type_of pr = td_out_pred T -> acts_in_order u pr ->
  (td_in_label T = LTSimple -> td_out_pred T = PTScalar) ->
  exists ms', mapm (fun m => metric_add m f lb pr) ms = Ok ms' /\ Forall msuits ms' /\ Forall mstarted ms' /\ length ms' = length ms.
Proof.
  intros ms f u lb pr F (_ & _ & Tf & Tl & Hcb & _) Tp Ha Hs. induction F as [|m ms Hm F (ms' & E & S1 & S2 & L)].
  - exists []. repeat split; constructor.
  - cbn [mapm].
    assert (exists m', metric_add m f lb pr = Ok m' /\ msuits m' /\ mstarted m') as (m' & -> & K1 & K2).
    { destruct m as [v c|c v|c|c]; cbn [metric_add msuits] in *.
      - rewrite Hm in Tl. destruct lb; try discriminate. rewrite (Hs Hm) in Tp. destruct pr; try discriminate.
        cbn [as_simple_label as_scalar bind]. eexists. split; [reflexivity|]. split; [exact Hm|exact Logic.I].
      - destruct Hm as (Hl & Hp). rewrite Hp in Tp. destruct pr as [?|?|?|l]; try discriminate.
        destruct (Hcb Hl) as (sh & acts & i & c0 & p0 & -> & -> & Li). cbn [as_cb_label as_probs bind].
        cbn [acts_in_order num_actions] in Ha. rewrite Nnat.Nat2N.id in Ha.
        assert (exists x, find (fun q : N * O => fst q =? i) l = Some x) as (x & ->).
        { destruct (find (fun q : N * O => fst q =? i) l) as [x|] eqn:Ef; [eauto|]. exfalso.
          assert (Hin : In i (map fst l)).
          { rewrite Ha. apply in_map_iff. exists (N.to_nat i). split; [lia|]. apply in_seq. lia. }
          apply in_map_iff in Hin. destruct Hin as (q & Hq & Hin). apply (find_none _ _ Ef) in Hin.
          apply N.eqb_neq in Hin. contradiction. }
        cbn [opt_or bind]. eexists. split; [reflexivity|]. split; [split; assumption|exact Logic.I].
      - contradiction.
      - eexists. split; [reflexivity|]. split; [exact Logic.I|]. cbn [mstarted]. lia. }
    cbn [bind]. rewrite E. cbn [bind]. exists (m' :: ms'). split; auto. split; [now constructor|]. split; [now constructor|].
    cbn. now rewrite L.
Qed.

Definition tsok (st : tstate O n) : Prop :=
  wsok (t_red st) /\ uses_weighted (t_red st) = false /\ Forall msuits (t_metrics st) /\ mg_columns (t_mgr st) = length (t_metrics st).

Lemma inc_release : forall m : manager O, exists (q : bool) m', inc_iteration false m = Ok (q, m') /\ mg_columns m' = mg_columns m.
Proof.
  intros m. assert (A : forall x y, exists z, add32 false x y = Ok z) by (intros; unfold add32; destruct (_ <? _); eauto).
  unfold inc_iteration. destruct (mg_next m <=? mg_iter m).
  - assert (exists z, match mg_period m with Additive p => add32 false (mg_iter m) p
                      | Multiplicative p => Ok (f_to_u32 O (f_mul O (f_of_N (mg_iter m)) p)) end = Ok z) as (z & ->).
    { destruct (mg_period m); eauto. }
    cbn [bind]. destruct (A (mg_iter m) 1) as (i & ->). cbn [bind]. do 2 eexists. split; [reflexivity|]. reflexivity.
  - destruct (A (mg_iter m) 1) as (i & ->). cbn [bind]. do 2 eexists. split; [reflexivity|]. reflexivity.
Qed.

Lemma ws_ptl_fit : forall r u lb, wsok r -> uses_weighted r = false -> fitting u lb ->
  exists pr r' f', ws_ptl false r u lb = Ok (pr, r', f') /\ pred_type_of pr = td_out_pred T /\ acts_in_order u pr /\
    wsok r' /\ uses_weighted r' = false.
Proof.
  intros r u lb W U Fit. destruct (ws_learn_fit _ _ _ W Fit) as (r' & f2 & L).
  pose proof W as (I & ET & EM). pose proof Fit as (G & PG & Tf & Tl & Hcb & _).
  destruct (rel_predict fs n 0 eq_refl r u I U G) as (pr & f1 & P & Tp & Ha).
  { congruence. }
  { rewrite ET. intros Hp. destruct I as (Ty & _).
    destruct (entry_types n r Ty) as [(A & B & C)|[(A & B)|(A & B)]]; rewrite ET in *; try congruence.
    - exfalso. rewrite <- ET in Hp, B. rewrite (binary_preds _ _ Ty B) in Hp. discriminate.
    - destruct (Hcb B) as (sh & acts & i & c & p & -> & _ & Li). cbn [num_actions]. lia. }
  assert (P' : ws_predict false r u = Ok (pr, f1)) by (unfold ws_predict; rewrite P; reflexivity).
  destruct (proj2 (ws_ptl_agrees false n r u lb (noelem_ok _ _ (proj1 (proj2 I))) PG) _ _ _ _ P' L) as (f' & E).
  exists pr, r', f'. split; auto. split; [congruence|]. split; auto. split; [eapply wsok_step; eauto|].
  apply ws_learn_ok in L. rewrite (shape_weighted _ _ _ (learn_shape _ _ _ _ _ _ _ _ _ _ L)). exact U.
Qed.

Lemma chunk_output : forall md need (st : tstate O n) ds chunk, tsok st -> Forall looks_new ds ->
  trainable pf (td_in_label T) M chunk ->
  exists st' ds', train_chunk false md ps need (st, ds) chunk = Ok (st', ds') /\ tsok st' /\ Forall looks_new ds' /\
    (tm_quiet md = false -> Forall mstarted (t_metrics st')).
Proof.
  intros md need st ds chunk (W & U & Fm & Lc) F Tr. unfold train_chunk. cbn [fst snd].
  destruct (parse_cases ds chunk F) as [(_ & u & lb & E & Fit)|(NT & _)]; [|contradiction].
  rewrite E. cbn [unwrap_res bind fst snd].
  assert (P : exists st' f', process_example false md st u (Some lb) = Ok (st', f') /\ tsok st' /\
                (tm_quiet md = false -> Forall mstarted (t_metrics st'))).
  { unfold process_example. cbn [opt_or bind]. destruct (negb (tm_quiet md) || tm_preds md) eqn:Md.
    - destruct (ws_ptl_fit _ _ _ W U Fit) as (pr & r' & f' & -> & Tp & Ha & W' & U'). cbn [bind].
      destruct (metrics_add (t_metrics st) f' u lb pr Fm Fit Tp Ha) as (ms & Em & S1 & S2 & L).
      { intros Hs. destruct W as ((Ty & _) & ET & _). destruct (entry_types _ _ Ty) as [(A & B & C)|[(A & B)|(A & B)]]; congruence. }
      rewrite Em. cbn [bind]. destruct (inc_release (t_mgr st)) as (b & m' & -> & Lm). cbn [bind fst snd].
      destruct (started_value ms S2) as (vs & Ev & Lv).
      assert (exists mg, (if b then let* vs := mapm (metric_value false) ms in add_results vs m' else Ok m') = Ok mg /\ mg_columns mg = mg_columns m') as (mg & -> & Lg).
      { destruct b; [|eauto]. rewrite Ev. cbn [bind]. unfold add_results.
        replace (Nat.eqb (length vs) (mg_columns m')) with true by (symmetry; apply Nat.eqb_eq; congruence). eexists. split; reflexivity. }
      cbn [bind]. do 2 eexists. split; [reflexivity|]. split; [|intros _; exact S2].
      split; [exact W'|]. split; [exact U'|]. split; [exact S1|]. cbn [t_mgr t_metrics]. congruence.
    - apply orb_false_elim in Md. destruct Md as (Mq & Mp). apply negb_false_iff in Mq.
      destruct (ws_learn_fit _ _ _ W Fit) as (r' & f' & L). rewrite L. cbn [bind fst snd].
      do 2 eexists. split; [reflexivity|]. split; [|congruence]. split; [eapply wsok_step; eauto|]. split; [|split; auto].
      cbn [t_red]. apply ws_learn_ok in L. rewrite (shape_weighted _ _ _ (learn_shape _ _ _ _ _ _ _ _ _ _ L)). exact U. }
  destruct P as (st' & f' & P & K1 & K2). rewrite P. cbn [bind fst snd]. do 2 eexists. split; [reflexivity|]. split; auto. split; auto.
  apply give_back_new; [|now apply skipn_new]. eapply process_wf; [|exact P]. apply pgood_wf, Fit.
Qed.

Lemma loop_output : forall md need chunks (st : tstate O n) ds, tsok st -> Forall looks_new ds ->
  Forall (trainable pf (td_in_label T) M) chunks ->
  exists st' ds', train_loop false md ps need chunks (st, ds) = Ok (st', ds') /\ tsok st' /\
    (tm_quiet md = false -> chunks <> [] -> Forall mstarted (t_metrics st')).
Proof.
  intros md need chunks. unfold train_loop. induction chunks as [|c chunks IH]; intros st ds S F Fc; cbn [foldm].
  - do 2 eexists. split; [reflexivity|]. split; auto. congruence.
  - inversion Fc; subst. destruct (chunk_output md need st ds c S F) as (st' & ds' & -> & S' & F' & Q); auto. cbn [bind].
    destruct (IH st' ds' S' F') as (st2 & ds2 & E2 & S2 & Q2); auto. exists st2, ds2. split; auto. split; auto.
    intros Mq _. destruct chunks as [|c' chunks]; [inversion E2; subst; auto|]. apply Q2; auto. discriminate.
Qed.
End Run.
End Rel.

(** ** the train command *)
Section Cmd.
Context {O : FOps} (FO : ford O) (H : hasher) (pf : str -> option O).

Lemma bits_release : forall nb, exists n, bits_to_max_feature_index false nb = Ok n.
Proof. intros nb. unfold bits_to_max_feature_index. destruct (nb <? 32); eauto. Qed.

Lemma train_quiet_cases : forall gc (c : rcfg O) R r names (p : period O) ds chunks,
  ws_new H false gc c = Ok R -> reach false (projT2 R) r -> uses_elem (projT2 R) = false ->
  Forall pooled ds -> Forall (fun nm => @get_metric O nm <> None) names ->
  let run := Model_Train.train H pf false (mkMode true false) (gc_seed gc) (gc_bits gc) names p r ds chunks in
  let fine := Forall (trainable pf (td_in_label (red_types (projT2 R))) (uses_mtr (projT2 R))) chunks in
  (fine -> exists st, run = Ok st) /\ (~ fine -> exists e, run = Pn e).
Proof.
  intros gc c R r names p ds chunks E Q U F FN. cbv zeta. destruct (bits_release (gc_bits gc)) as (fs & Hb).
  destruct (reach_inv FO _ _ _ _ _ _ _ E Q Hb U) as (I & T & Mt).
  unfold Model_Train.train. destruct (start_ok names p _ r FN) as (st & -> & R0 & _). cbn [bind].
  assert (W : wsok fs (projT1 R) (red_types (projT2 R)) (uses_mtr (projT2 R)) r) by (split; auto).
  assert (W' : wsok fs (projT1 R) (red_types (projT2 R)) (uses_mtr (projT2 R)) (t_red st)) by (rewrite R0; exact W).
  destruct (loop_quiet_cases FO H pf (gc_seed gc) (gc_bits gc) fs Hb _ _ _ r W (text_need r) chunks st ds W' (pooled_Forall _ F)) as (A & B).
  unfold text_parser. rewrite T. change (mkMode true false) with quiet. split.
  - intros Fc. destruct (A Fc) as (x & ->). cbn [bind]. unfold train_end. cbn [quiet tm_quiet]. eauto.
  - intros Nf. destruct (B Nf) as (e & ->). cbn [bind]. eauto.
Qed.

Lemma start_suits : forall (t : tdesc) names (p : period O) n (r : red O n), Forall (metric_suits t) names ->
  exists st, train_start names p r = Ok st /\ t_red st = r /\ Forall (msuits t) (t_metrics st) /\
    mg_columns (t_mgr st) = length (t_metrics st).
Proof.
  intros t names p n r F. unfold train_start.
  assert (Q : exists ms, mapm (fun name => opt_or PNone (@get_metric O name)) (name_example :: names) = Ok ms /\ Forall (msuits t) ms).
  { assert (F' : Forall (metric_suits t) (name_example :: names)) by (constructor; [left; reflexivity|auto]).
    clear F. induction F' as [|x l Hx F' (ms & Em & Fm)]; [exists []; split; [reflexivity|constructor]|]. cbn [mapm].
    destruct Hx as [->|[(-> & Hl)|(-> & Hl & Hp)]]; cbn [get_metric]; rewrite Em;
      (eexists; split; [reflexivity|constructor; [|exact Fm]]); simpl; auto. }
  destruct Q as (ms & -> & Fm). cbn [bind]. eexists. split; [reflexivity|]. auto.
Qed.

Lemma suits_known : forall t names, Forall (metric_suits t) names -> Forall (fun nm => @get_metric O nm <> None) names.
Proof.
  intros t names F. eapply Forall_impl; [|exact F]. intros x [->|[(-> & _)|(-> & _)]]; discriminate.
Qed.

Lemma train_output_iff : forall gc (c : rcfg O) R r md names (p : period O) ds chunks,
  ws_new H false gc c = Ok R -> reach false (projT2 R) r -> uses_elem (projT2 R) = false -> uses_weighted (projT2 R) = false ->
  Forall pooled ds -> Forall (metric_suits (red_types (projT2 R))) names ->
  ((exists st, Model_Train.train H pf false md (gc_seed gc) (gc_bits gc) names p r ds chunks = Ok st) <->
   Forall (trainable pf (td_in_label (red_types (projT2 R))) (uses_mtr (projT2 R))) chunks /\ (tm_quiet md = false -> chunks <> [])).
Proof.
  intros gc c R r md names p ds chunks E Q U Uw F FN. split.
  - intros (st & Tr). split.
    + destruct (quiet_same_model H pf gc c false R r md names names p p _ _ ds ds chunks st E Q F F (suits_known _ _ FN) Tr) as (st' & Tq & _).
      destruct (bits_release (gc_bits gc)) as (fs & Hb). destruct (reach_inv FO _ _ _ _ _ _ _ E Q Hb U) as (I & T & Mt).
      destruct (train_quiet_cases gc c R r names p ds chunks E Q U F (suits_known _ _ FN)) as (_ & B).
      assert (D : {Forall (trainable pf (td_in_label (red_types (projT2 R))) (uses_mtr (projT2 R))) chunks} +
                  {~ Forall (trainable pf (td_in_label (red_types (projT2 R))) (uses_mtr (projT2 R))) chunks}).
      { apply Forall_dec. intros ch. eapply (trainable_dec H pf (gc_seed gc) (gc_bits gc) fs Hb). split; [exact I|]. split; [exact T|exact Mt]. }
      destruct D as [D|D]; auto. destruct (B D) as (e & Be). change (mkMode true false) with quiet in Be. rewrite Be in Tq. discriminate.
    + intros Mq ->. unfold Model_Train.train in Tr. binv Tr. cbn [train_loop foldm bind fst] in Tr. unfold train_end in Tr. rewrite Mq in Tr.
      destruct (start_suits _ names p _ r FN) as (st0 & E0 & _). 
      unfold train_start in B. cbn [mapm] in B. cbn [get_metric] in B.
      replace (@get_metric O name_example) with (Some (@example_new O)) in B by reflexivity. cbn [opt_or bind] in B.
      binv B. inversion B; subst. cbn [t_metrics] in Tr. binv B0. inversion B0; subst. cbn [mapm] in Tr. discriminate.
  - intros (Fc & Ne). unfold Model_Train.train.
    destruct (bits_release (gc_bits gc)) as (fs & Hb). destruct (reach_inv FO _ _ _ _ _ _ _ E Q Hb U) as (I & T & Mt).
    destruct (start_suits (red_types (projT2 R)) names p _ r FN) as (st & -> & R0 & Fm & Lc). cbn [bind].
    assert (W : wsok fs (projT1 R) (red_types (projT2 R)) (uses_mtr (projT2 R)) r) by (split; auto).
    assert (S : tsok fs (projT1 R) (red_types (projT2 R)) (uses_mtr (projT2 R)) st).
    { split; [rewrite R0; exact W|]. split; [|auto]. rewrite R0, (shape_weighted _ _ _ (reach_shape _ _ _ _ Q)). exact Uw. }
    destruct (loop_output FO H pf (gc_seed gc) (gc_bits gc) fs Hb _ _ _ r W md (text_need r) chunks st ds S (pooled_Forall _ F) Fc)
      as (st' & ds' & El & S' & Q').
    unfold text_parser. rewrite T, El. cbn [bind fst]. unfold train_end. destruct (tm_quiet md) eqn:Mq; [eauto|].
    destruct (started_value (t_metrics st') (Q' eq_refl (Ne eq_refl))) as (vs & -> & Lv). cbn [bind].
    destruct S' as (_ & _ & _ & Lc'). unfold add_results.
    replace (Nat.eqb (length vs) (mg_columns (t_mgr st'))) with true by (symmetry; apply Nat.eqb_eq; congruence). cbn [bind]. eauto.
Qed.
End Cmd.

(** ** examples *)
Definition mtr_greedy_cfg : rcfg BF0 := CGreedy (f_lit BF0 1 10) (CCbAdf Mtr (CCoin coin_default)).
(* |a x *)
Definition no_label_chunk : str := [124; 97; 32; 120].
Lemma ex_trainable : exists R, ws_new ex_hash false ex_gc mtr_greedy_cfg = Ok R /\ uses_elem (projT2 R) = false /\
  uses_weighted (projT2 R) = false /\ uses_mtr (projT2 R) = true /\ td_in_label (red_types (projT2 R)) = LTCb /\
  trainable ex_pf LTCb true ex_chunk /\ ~ trainable ex_pf LTCb true no_label_chunk /\
  Forall (metric_suits (red_types (projT2 R))) [name_ips; name_example].
Proof.
  destruct (ws_new ex_hash false ex_gc mtr_greedy_cfg) as [R|e|e] eqn:E; [|vm_compute in E; discriminate..].
  exists R. split; [reflexivity|]. vm_compute in E. inversion E; subst; clear E.
  do 4 (split; [reflexivity|]). split; [|split].
  - apply (cb_trainable ex_hash ex_pf 0 4 true []).
    destruct (parse_chunk ex_hash ex_pf false 0 4 FTCb LTCb [] ex_chunk) as [(u & [lb|])|e|e] eqn:Ep;
      [|vm_compute in Ep; discriminate..].
    exists u, lb. split; [reflexivity|]. intros _. vm_compute in Ep. inversion Ep; subst. eauto.
  - intros Tr. apply (cb_trainable ex_hash ex_pf 0 4 true []) in Tr. destruct Tr as (u & lb & E & _).
    vm_compute in E. discriminate.
  - constructor; [right; right; repeat split|]. constructor; [left; reflexivity|constructor].
Qed.

(** C25: the order of combining shared and action features. *)
From Coq Require Import List NArith ZArith Bool Lia Permutation Sorted Reals Lra.
From Verif Require Import Base FloatOps FloatR FloatB32 Model_Hash Model_Features Model_Weights Model_Loss Model_Interactions
  Model_Types Model_Explore Model_Coin Spec_Foreach Spec_Features Spec_Stack Proof_Features Proof_Foreach Proof_StackProps Proof_Total Spec_Order
  Proof_Weights Proof_FloatOrder Proof_Coin Spec_Coin.
Import ListNotations.
Open Scope N_scope.

Lemma perm_flat : forall A B (f g : A -> list B) l l', Permutation l l' -> (forall a, In a l -> Permutation (f a) (g a)) ->
  Permutation (flat_map f l) (flat_map g l').
Proof.
  intros A B f g l l' P H. apply Permutation_trans with (flat_map g l).
  - clear P l'. induction l as [|a l IH]; simpl; [constructor|]. apply Permutation_app; [apply H; now left|].
    apply IH. intros; apply H; now right.
  - clear H. induction P; simpl; auto.
    + now apply Permutation_app_head.
    + rewrite !app_assoc. apply Permutation_app_tail. apply Permutation_app_comm.
    + eapply Permutation_trans; eauto.
Qed.

Lemma perm_incl : forall A (l K : list A), NoDup l -> incl l K -> exists rest, Permutation K (l ++ rest).
Proof.
  induction l as [|a l IH]; intros K ND I; [exists K; auto|].
  inversion ND; subst. destruct (in_split a K) as (K1 & K2 & ->); [apply I; now left|].
  destruct (IH (K1 ++ K2)) as (rest & P); auto.
  - intros x Hx. assert (Q : In x (K1 ++ a :: K2)) by (apply I; now right).
    apply in_app_iff in Q. apply in_app_iff. destruct Q as [Q|[Q|Q]]; auto. subst; contradiction.
  - exists rest. simpl. apply Permutation_trans with (a :: K1 ++ K2); [|now constructor].
    apply Permutation_sym, Permutation_middle.
Qed.

Section Order.
Context {O : FOps}.
Implicit Types a b m x y : sfeats O.

Definition at_key m (k : namespace) : list (N * O) := match fm_get k m with Some s => sfn_iter s | None => [] end.

Lemma keys_nodup : forall m, fm_sorted m -> NoDup (map fst m).
Proof.
  intros m S. induction S as [|kv m S IH F]; simpl; constructor; auto.
  intros H. apply in_map_iff in H. destruct H as (kv' & E & H). eapply Forall_forall in F; eauto.
  unfold klt in F. rewrite E in F. rewrite ns_compare_refl in F. discriminate.
Qed.

Lemma flat_ext : forall A B (f g : A -> list B) l, (forall z, In z l -> f z = g z) -> flat_map f l = flat_map g l.
Proof. induction l; simpl; intros H; auto. rewrite IHl, H; auto. Qed.

Lemma sf_all_keys : forall m, fm_sorted m -> sf_all m = flat_map (at_key m) (map fst m).
Proof.
  intros m S. unfold sf_all. rewrite (flat_map_concat_map _ (map fst m)), map_map, <- flat_map_concat_map.
  apply flat_ext. intros (k & s) H. simpl. unfold at_key. now rewrite (fm_in_get _ _ _ S H).
Qed.

Lemma sf_all_perm : forall m K, fm_sorted m -> NoDup K -> incl (map fst m) K ->
  Permutation (sf_all m) (flat_map (at_key m) K).
Proof.
  intros m K S ND I. rewrite sf_all_keys by auto. pose proof (keys_nodup m S) as NK.
  destruct (perm_incl _ _ _ NK I) as (rest & P).
  apply Permutation_sym. eapply Permutation_trans; [apply perm_flat with (g := at_key m); [exact P|auto]|].
  rewrite flat_map_app. assert (E : flat_map (at_key m) rest = []).
  { assert (NR : forall k, In k rest -> ~ In k (map fst m)).
    { apply (Permutation_NoDup P) in ND. clear - ND. induction (map fst m) as [|z l IH]; simpl in *; auto.
      inversion ND; subst. intros k Hk [->|Q]; [apply H1; apply in_app_iff; auto|]. eapply IH; eauto. }
    clear P. induction rest as [|k rest IH]; simpl; auto. rewrite IH; [|intros; apply NR; now right]. rewrite app_nil_r.
    unfold at_key. destruct (fm_get k m) as [s|] eqn:E; auto. exfalso. apply (NR k); [now left|].
    apply fm_get_in in E. apply in_map_iff. exists (k, s). auto. }
  rewrite E, app_nil_r. apply Permutation_refl.
Qed.

Lemma quiet_at : forall m k, quiet m -> at_key m k = feats_of k m.
Proof.
  intros m k Q. unfold at_key, feats_of, sf_get. destruct (fm_get k m) as [s|] eqn:E; auto.
  destruct (sfn_active s) eqn:A; auto. now apply (Q k).
Qed.
Lemma quiet_item : forall m k, quiet m -> sfn_iter (item k m) = feats_of k m.
Proof. intros m k Q. rewrite <- quiet_at by auto. unfold at_key, item. destruct (fm_get k m); reflexivity. Qed.

Lemma cat_iter : forall k (s t : sfn O), sfn_wf k s -> sfn_iter (sfn_cat s t) = sfn_iter s ++ sfn_iter t.
Proof. intros k s t (_ & L). unfold sfn_iter, sfn_cat. simpl. now apply combine_app'. Qed.

Lemma append_feats : forall a b x, fwf a -> fwf b -> quiet a -> sf_append a b = Ok x ->
  fwf x /\ quiet x /\ forall k, feats_of k x = feats_of k a ++ feats_of k b.
Proof.
  intros a b x Wa Wb Qa H. destruct (append_get a b Wa Wb) as (r & E & W & G). rewrite H in E. inversion E; subst r. clear E.
  split; auto. split.
  - intros k s E A. rewrite G in E. destruct (fm_get k b) as [t|]; [|eapply Qa; eauto].
    destruct (sfn_active t) eqn:At; [|eapply Qa; eauto].
    inversion E; subst. unfold sfn_cat in A. simpl in A. congruence.
  - intros k. unfold feats_of at 1. unfold sf_get. rewrite G. unfold feats_of at 2. unfold sf_get.
    destruct (fm_get k b) as [t|] eqn:Eb.
    + destruct (sfn_active t) eqn:At.
      * assert (Ac : sfn_active (sfn_cat (item k a) t) = true) by (unfold sfn_cat; simpl; congruence). rewrite Ac.
        rewrite (cat_iter k) by now apply item_wf. now rewrite quiet_item.
      * rewrite app_nil_r. reflexivity.
    + rewrite app_nil_r. reflexivity.
Qed.

(** ** interactions *)
Lemma quad_distinct : forall mk m n1 n2, n1 <> n2 ->
  fe_quadratic mk m (n1, n2) =
  flat_map (fun p => map (fun q => (mask mk (quadratic_feature_hash (fst p) (fst q)), f_mul O (snd p) (snd q))) (feats_of n2 m)) (feats_of n1 m).
Proof.
  intros mk m n1 n2 N. unfold fe_quadratic.
  assert (E : ns_eqb n1 n2 = false).
  { destruct (ns_eqb n1 n2) eqn:E; auto. apply ns_eqb_eq in E. contradiction. }
  rewrite E. unfold feats_of. destruct (sf_get n1 m) as [s|]; auto.
  generalize 0. induction (sfn_iter s) as [|(i & v) l IH]; intros z; simpl; auto. rewrite IH. f_equal.
  destruct (sf_get n2 m); auto.
Qed.

Lemma quad_ext : forall mk x y n1 n2, feats_of n1 x = feats_of n1 y -> feats_of n2 x = feats_of n2 y ->
  fe_quadratic mk x (n1, n2) = fe_quadratic mk y (n1, n2).
Proof. intros mk x y n1 n2 E1 E2. rewrite !fe_quadratic_pos, E1, E2. reflexivity. Qed.
Lemma cubic_ext : forall mk x y n1 n2 n3, feats_of n1 x = feats_of n1 y -> feats_of n2 x = feats_of n2 y ->
  feats_of n3 x = feats_of n3 y -> fe_cubic mk x (n1, n2, n3) = fe_cubic mk y (n1, n2, n3).
Proof. intros mk x y n1 n2 n3 E1 E2 E3. rewrite !fe_cubic_pos, E1, E2, E3. reflexivity. Qed.

Lemma quad_perm : forall mk x y n1 n2, (forall k, Permutation (feats_of k x) (feats_of k y)) ->
  (n1 = n2 -> feats_of n1 x = feats_of n1 y) ->
  Permutation (fe_quadratic mk x (n1, n2)) (fe_quadratic mk y (n1, n2)).
Proof.
  intros mk x y n1 n2 P E. destruct (ns_eqb n1 n2) eqn:Q.
  - apply ns_eqb_eq in Q. rewrite (quad_ext mk x y); [apply Permutation_refl| |]; subst; auto.
  - assert (N : n1 <> n2) by (intros ->; rewrite ns_eqb_refl in Q; discriminate).
    rewrite !quad_distinct by auto. apply perm_flat; auto. intros. apply Permutation_map. auto.
Qed.

Lemma flat_map_flat : forall A B C (f : A -> list B) (g : B -> list C) l,
  flat_map g (flat_map f l) = flat_map (fun u => flat_map g (f u)) l.
Proof. induction l; simpl; auto. now rewrite flat_map_app, IHl. Qed.
Lemma map_flat : forall A B C (f : A -> list B) (g : B -> C) l,
  map g (flat_map f l) = flat_map (fun u => map g (f u)) l.
Proof. induction l; simpl; auto. now rewrite map_app, IHl. Qed.

Lemma map_seq_nth : forall A B (d : A) (f : A -> B) l, map (fun k => f (nth k l d)) (seq 0 (length l)) = map f l.
Proof. intros A B d f l. pose proof (map_skipn_seq A B d f l 0) as Q. rewrite Nat.sub_0_r in Q. symmetry. exact Q. Qed.

Lemma flat_seq_nth : forall A B (d : A) (f : A -> list B) l,
  flat_map f l = flat_map (fun j => f (nth j l d)) (seq 0 (length l)).
Proof. intros A B d f l. pose proof (flat_map_skipn_seq A B d f l 0) as Q. rewrite Nat.sub_0_r in Q. exact Q. Qed.

(** no coupling of the third namespace *)
Lemma cubic_free : forall mk m n1 n2 n3, n2 <> n3 ->
  fe_cubic mk m (n1, n2, n3) =
  flat_map (fun p => map (fun q =>
     (mask mk (cubic_feature_hash (fidx (feats_of n1 m) (fst p)) (fidx (feats_of n2 m) (snd p)) (fst q)),
      f_mul O (f_mul O (fval (feats_of n1 m) (fst p)) (fval (feats_of n2 m) (snd p))) (snd q))) (feats_of n3 m))
   (pos2 (fun i => if ns_eqb n1 n2 then i else 0%nat) (length (feats_of n1 m)) (length (feats_of n2 m))).
Proof.
  intros mk m n1 n2 n3 N. rewrite fe_cubic_pos.
  assert (E : ns_eqb n2 n3 = false).
  { destruct (ns_eqb n2 n3) eqn:E; auto. apply ns_eqb_eq in E. contradiction. }
  rewrite E. unfold pos3, pos2. rewrite map_flat, flat_map_flat. apply flat_ext. intros i _.
  rewrite map_flat. rewrite (flat_map_concat_map _ (map _ _)), map_map, <- flat_map_concat_map.
  apply flat_ext. intros j _. rewrite map_map, Nat.sub_0_r. simpl.
  rewrite <- (map_seq_nth _ _ (0, f0) _ (feats_of n3 m)). reflexivity.
Qed.

(** no coupling at all *)
Lemma cubic_distinct : forall mk m n1 n2 n3, n1 <> n2 -> n2 <> n3 ->
  fe_cubic mk m (n1, n2, n3) =
  flat_map (fun p => flat_map (fun q => map (fun r =>
     (mask mk (cubic_feature_hash (fst p) (fst q) (fst r)), f_mul O (f_mul O (snd p) (snd q)) (snd r))) (feats_of n3 m))
     (feats_of n2 m)) (feats_of n1 m).
Proof.
  intros mk m n1 n2 n3 N1 N2. rewrite cubic_free by auto.
  assert (E : ns_eqb n1 n2 = false).
  { destruct (ns_eqb n1 n2) eqn:E; auto. apply ns_eqb_eq in E. contradiction. }
  rewrite E. unfold pos2. rewrite flat_map_flat, Nat.sub_0_r.
  set (F := fun p : N * O => flat_map (fun q => map (fun r => (mask mk (cubic_feature_hash (fst p) (fst q) (fst r)),
    f_mul O (f_mul O (snd p) (snd q)) (snd r))) (feats_of n3 m)) (feats_of n2 m)).
  rewrite (flat_seq_nth _ _ (0, f0) F (feats_of n1 m)). apply flat_ext. intros i _.
  rewrite (flat_map_concat_map _ (map _ _)), map_map, <- flat_map_concat_map. unfold F.
  rewrite (flat_seq_nth _ _ (0, f0) _ (feats_of n2 m)). reflexivity.
Qed.

Lemma cubic_perm : forall mk x y n1 n2 n3, (forall k, Permutation (feats_of k x) (feats_of k y)) ->
  (n1 = n2 -> feats_of n1 x = feats_of n1 y) ->
  (n2 = n3 -> feats_of n1 x = feats_of n1 y /\ feats_of n3 x = feats_of n3 y) ->
  Permutation (fe_cubic mk x (n1, n2, n3)) (fe_cubic mk y (n1, n2, n3)).
Proof.
  intros mk x y n1 n2 n3 P E1 E2. destruct (ns_eqb n2 n3) eqn:Q2.
  - apply ns_eqb_eq in Q2. destruct (E2 Q2) as (F1 & F3). rewrite (cubic_ext mk x y); auto. now rewrite Q2.
  - assert (N2 : n2 <> n3) by (intros ->; rewrite ns_eqb_refl in Q2; discriminate).
    destruct (ns_eqb n1 n2) eqn:Q1.
    + apply ns_eqb_eq in Q1. rewrite !cubic_free by auto. rewrite <- Q1. rewrite E1 by auto. apply perm_flat; auto.
      intros. apply Permutation_map. auto.
    + assert (N1 : n1 <> n2) by (intros ->; rewrite ns_eqb_refl in Q1; discriminate).
      rewrite !cubic_distinct by auto. apply perm_flat; auto. intros p _. apply perm_flat; auto. intros q _.
      apply Permutation_map. auto.
Qed.

Lemma order_irrelevant : forall dbg a b x y pairs triples nb const l, built a -> built b -> quiet a -> quiet b ->
  sf_append a b = Ok x -> sf_append b a = Ok y ->
  Forall (pair_safe a b) pairs -> Forall (triple_safe a b) triples ->
  fe_list dbg x pairs triples nb const = Ok l ->
  exists l', fe_list dbg y pairs triples nb const = Ok l' /\ Permutation l l'.
Proof.
  intros dbg a b x y pairs triples nb const l Ba Bb Qa Qb Hx Hy Sp St H.
  apply built_wf in Ba. apply built_wf in Bb.
  destruct (append_feats a b x) as (Wx & Qx & Fx); auto. destruct (append_feats b a y) as (Wy & Qy & Fy); auto.
  assert (P : forall k, Permutation (feats_of k x) (feats_of k y)).
  { intros k. rewrite Fx, Fy. apply Permutation_app_comm. }
  assert (E : forall k, one_sided a b k -> feats_of k x = feats_of k y).
  { intros k [Z|Z]; rewrite Fx, Fy, Z; simpl; now rewrite app_nil_r. }
  unfold fe_list in *. destruct (mask_from_bits dbg nb) as [mk|?|?]; try discriminate. cbn [bind] in *.
  destruct (if const then _ else _) as [c|?|?]; try discriminate. cbn [bind] in *. inversion H; subst. clear H.
  eexists. split; [reflexivity|]. apply Permutation_app; [|apply Permutation_app; [|apply Permutation_app_tail]].
  - assert (D : forall u v : namespace, {u = v} + {u <> v}).
    { intros u v. destruct (ns_eqb u v) eqn:Q; [left; now apply ns_eqb_eq|right]. intros ->. now rewrite ns_eqb_refl in Q. }
    set (K := nodup D (map fst x ++ map fst y)).
    eapply Permutation_trans; [apply (sf_all_perm x K); [apply Wx|apply NoDup_nodup|]|].
    { intros k Hk. apply nodup_In. apply in_app_iff. auto. }
    eapply Permutation_trans; [|apply Permutation_sym, (sf_all_perm y K); [apply Wy|apply NoDup_nodup|]].
    2:{ intros k Hk. apply nodup_In. apply in_app_iff. auto. }
    apply perm_flat; auto. intros k _. rewrite !quiet_at by auto. auto.
  - apply perm_flat; auto. intros (n1 & n2) Hp. eapply Forall_forall in Sp; eauto. unfold pair_safe in Sp. simpl in Sp.
    apply quad_perm; auto.
  - apply perm_flat; auto. intros ((n1 & n2) & n3) Hp. eapply Forall_forall in St; eauto. destruct St as (S1 & S2).
    apply cubic_perm; auto. intros Q. destruct (S2 Q). split; auto.
Qed.

End Order.

(** ** exact predictions do not depend on the order *)
Lemma dot_perm : forall (g : N * R -> out R) l l' (a r : R), Permutation l l' ->
  foldm (fun acc iv => let* w := g iv in Ok (acc + snd iv * w)%R) l a = Ok r ->
  foldm (fun acc iv => let* w := g iv in Ok (acc + snd iv * w)%R) l' a = Ok r.
Proof.
  intros g l l' a r P. revert a r. induction P; intros a r H; auto.
  - cbn [foldm] in *. destruct (g x) as [w|?|?]; cbn [bind] in *; try discriminate. auto.
  - cbn [foldm] in *. destruct (g x) as [w|?|?]; cbn [bind] in *; destruct (g y) as [w'|?|?]; cbn [bind] in *; try discriminate.
    replace (a + snd x * w + snd y * w')%R with (a + snd y * w' + snd x * w)%R by ring. exact H.
Qed.

Lemma order_prediction : forall dbg (c : coin RF) (a b x y : sfeats RF) p, built a -> built b -> quiet a -> quiet b ->
  sf_append a b = Ok x -> sf_append b a = Ok y ->
  Forall (pair_safe a b) (co_pairs c) -> Forall (triple_safe a b) (co_triples c) ->
  coin_predict dbg c x = Ok p -> coin_predict dbg c y = Ok p.
Proof.
  intros dbg c a b x y p Ba Bb Qa Qb Hx Hy Sp St H. unfold coin_predict, coin_feats in *.
  destruct (fe_list dbg x _ _ _ _) as [l|?|?] eqn:E; try discriminate. cbn [bind] in H.
  destruct (order_irrelevant dbg a b x y _ _ _ _ l Ba Bb Qa Qb Hx Hy Sp St E) as (l' & E' & P).
  rewrite E'. cbn [bind]. destruct (coin_dot dbg c l) as [d|?|?] eqn:D; try discriminate.
  assert (D' : coin_dot dbg c l' = Ok d).
  { unfold coin_dot in *. exact (dot_perm (fun iv => dw_weight_at dbg (co_w c) (fst iv) 0) l l' _ _ P D). }
  rewrite D'. exact H.
Qed.

(** ** witnesses *)
Definition od_hist : list (fop BF0) :=
  [FAdd 0 NsDefault 1%N f1; FAdd 1 NsDefault 2%N f1; FAdd 1 (NsNamed 7) 3%N f1; FAdd 0 (NsNamed 8) 5%N f1;
   FAdd 0 (NsNamed 8) 6%N f1].
Definition od_store : fstore BF0 := match fops_run true od_hist fstore0 with Ok st => st | _ => fstore0 end.
Definition od_a := od_store 0%nat.
Definition od_s := od_store 1%nat.
Lemma od_built : forall i, built (od_store i).
Proof. intros i. exists true, od_hist, od_store, i. split; reflexivity. Qed.
Lemma od_quiet : quiet od_a /\ quiet od_s.
Proof.
  split; intros k s H A; apply fm_get_in in H; vm_compute in H; repeat (destruct H as [H|H]; [inversion H; subst; discriminate|]);
    contradiction.
Qed.

Definition misses (l l' : list (N * BF0)) : bool := existsb (fun i => negb (existsb (N.eqb i) (map fst l))) (map fst l').
Lemma misses_ok : forall l l', misses l l' = true -> exists i, In i (map fst l') /\ ~ In i (map fst l).
Proof.
  intros l l' H. apply existsb_exists in H. destruct H as (i & H1 & H2). exists i. split; auto.
  apply negb_true_iff in H2. intros Q. rewrite (proj2 (existsb_exists _ _)) in H2; [discriminate|].
  exists i. split; auto. apply N.eqb_refl.
Qed.

Lemma order_pair_refuted : exists x y l l', sf_append od_a od_s = Ok x /\ sf_append od_s od_a = Ok y /\
  fe_list false x [(NsDefault, NsDefault)] [] 18 true = Ok l /\ fe_list false y [(NsDefault, NsDefault)] [] 18 true = Ok l' /\
  exists i, In i (map fst l') /\ ~ In i (map fst l).
Proof.
  assert (C : match sf_append od_a od_s, sf_append od_s od_a with
    | Ok x, Ok y => match fe_list false x [(NsDefault, NsDefault)] [] 18 true, fe_list false y [(NsDefault, NsDefault)] [] 18 true with
                    | Ok l, Ok l' => misses l l' | _, _ => false end
    | _, _ => false end = true) by (vm_compute; reflexivity).
  destruct (sf_append od_a od_s) as [x|?|?]; try discriminate. destruct (sf_append od_s od_a) as [y|?|?]; try discriminate.
  destruct (fe_list false x _ _ _ _) as [l|?|?] eqn:E1; try discriminate.
  destruct (fe_list false y _ _ _ _) as [l'|?|?] eqn:E2; try discriminate.
  exists x, y, l, l'. repeat split; auto. now apply misses_ok.
Qed.

Definition od_triple := (NsDefault, NsNamed 8, NsNamed 8).
Lemma order_triple_refuted : exists x y l l', sf_append od_a od_s = Ok x /\ sf_append od_s od_a = Ok y /\
  one_sided od_a od_s (NsNamed 8) /\
  fe_list false x [] [od_triple] 18 true = Ok l /\ fe_list false y [] [od_triple] 18 true = Ok l' /\
  exists i, In i (map fst l') /\ ~ In i (map fst l).
Proof.
  assert (C : match sf_append od_a od_s, sf_append od_s od_a with
    | Ok x, Ok y => match fe_list false x [] [od_triple] 18 true, fe_list false y [] [od_triple] 18 true with
                    | Ok l, Ok l' => misses l l' | _, _ => false end
    | _, _ => false end = true) by (vm_compute; reflexivity).
  destruct (sf_append od_a od_s) as [x|?|?]; try discriminate. destruct (sf_append od_s od_a) as [y|?|?]; try discriminate.
  destruct (fe_list false x _ _ _ _) as [l|?|?] eqn:E1; try discriminate.
  destruct (fe_list false y _ _ _ _) as [l'|?|?] eqn:E2; try discriminate.
  exists x, y, l, l'. split; auto. split; auto. split; [right; vm_compute; reflexivity|]. repeat split; auto. now apply misses_ok.
Qed.

(** a non-trivial case: an interaction of two namespaces, one of them in both objects *)
Lemma order_example : built od_a /\ built od_s /\ quiet od_a /\ quiet od_s /\
  pair_safe od_a od_s (NsDefault, NsNamed 8) /\ triple_safe od_a od_s (NsNamed 8, NsNamed 8, NsDefault) /\
  exists x y l l', sf_append od_a od_s = Ok x /\ sf_append od_s od_a = Ok y /\
  fe_list false x [(NsDefault, NsNamed 8)] [(NsNamed 8, NsNamed 8, NsDefault)] 18 true = Ok l /\
  fe_list false y [(NsDefault, NsNamed 8)] [(NsNamed 8, NsNamed 8, NsDefault)] 18 true = Ok l' /\
  length l = 16%nat /\ map fst l <> map fst l'.
Proof.
  split; [apply od_built|]. split; [apply od_built|]. destruct od_quiet as (Q1 & Q2). split; auto. split; auto.
  split; [discriminate|]. split; [split; [intros _; right; vm_compute; reflexivity|discriminate]|].
  assert (C : match sf_append od_a od_s, sf_append od_s od_a with
    | Ok x, Ok y => match fe_list false x [(NsDefault, NsNamed 8)] [(NsNamed 8, NsNamed 8, NsDefault)] 18 true,
                          fe_list false y [(NsDefault, NsNamed 8)] [(NsNamed 8, NsNamed 8, NsDefault)] 18 true with
                    | Ok l, Ok l' => Nat.eqb (length l) 16 && negb (list_eqb N.eqb (map fst l) (map fst l')) | _, _ => false end
    | _, _ => false end = true) by (vm_compute; reflexivity).
  destruct (sf_append od_a od_s) as [x|?|?]; try discriminate. destruct (sf_append od_s od_a) as [y|?|?]; try discriminate.
  destruct (fe_list false x _ _ _ _) as [l|?|?] eqn:E1; try discriminate.
  destruct (fe_list false y _ _ _ _) as [l'|?|?] eqn:E2; try discriminate.
  apply andb_prop in C. destruct C as (C1 & C2). exists x, y, l, l'. repeat split; auto; [now apply Nat.eqb_eq|].
  intros E. rewrite E in C2. assert (Z : list_eqb N.eqb (map fst l') (map fst l') = true).
  { clear. induction (map fst l'); simpl; auto. now rewrite N.eqb_refl. }
  rewrite Z in C2. discriminate.
Qed.

(** C01 and C03 for histories of feature operations. *)
From Coq Require Import List NArith ZArith Bool Lia.
From Verif Require Import Base FloatOps FloatB32 Model_Hash Model_Features Proof_Features Spec_Features.
Import ListNotations.

Section H.
Context {O : FOps}.
Implicit Types (st : fstore O).

Definition stsim (a b : fstore O) : Prop := forall r, fsim (a r) (b r).

Lemma stsim_upd : forall a b r m n, stsim a b -> fsim m n -> stsim (st_upd a r m) (st_upd b r n).
Proof. intros a b r m n H Hm i. unfold st_upd. destruct (Nat.eqb i r); auto. Qed.

Lemma fop_sim : forall dbg o a b, stsim a b -> orel stsim (fop_run dbg a o) (fop_run dbg b o).
Proof.
  intros dbg o a b H. destruct o; simpl.
  - constructor. apply stsim_upd; auto. apply fsim_refl, fwf_nil.
  - constructor. apply stsim_upd; auto. apply fsim_upd; auto.
  - constructor. apply stsim_upd; auto. apply fsim_upd; auto. intros; now apply sfn_add_wf.
  - eapply orel_bind; [apply fsim_updm; [apply H|intros; eapply sfn_adds_wf; eauto]|].
    intros; constructor. now apply stsim_upd.
  - eapply orel_bind; [apply fsim_append2; apply H|]. intros; constructor. now apply stsim_upd.
  - eapply orel_bind; [apply fsim_remove2; apply H|]. intros; constructor. now apply stsim_upd.
  - constructor. apply stsim_upd; auto. apply fsim_clear, H.
  - constructor. apply stsim_upd; auto. apply fsim_del, H.
  - constructor. apply stsim_upd; auto. apply fsim_set; [apply H|]. split; simpl; auto.
    now rewrite !map_length.
Qed.

Lemma fops_sim : forall dbg h a b, stsim a b -> orel stsim (fops_run dbg h a) (fops_run dbg h b).
Proof.
  intros. unfold fops_run. apply orel_foldm; auto. intros; now apply fop_sim.
Qed.

Definition stwf st : Prop := forall r, fwf (st r).

Lemma stsim_refl : forall st, stwf st -> stsim st st.
Proof. intros st W r; apply fsim_refl, W. Qed.

Lemma fops_wf : forall dbg h st st', stwf st -> fops_run dbg h st = Ok st' -> stwf st'.
Proof.
  intros dbg h st st' W E. pose proof (fops_sim dbg h st st (stsim_refl st W)) as S.
  rewrite E in S. inversion S; subst. intros r. apply H1.
Qed.

Lemma stwf0 : stwf (@fstore0 O).
Proof. intros r; apply fwf_nil. Qed.

Lemma fsim_view : forall a b : sfeats O, fsim a b -> same_view a b.
Proof.
  intros a b H. split; [intros k; now apply fsim_get|]. split; [now apply fsim_all|].
  split; [now apply fsim_empty|now apply fsim_active_keys].
Qed.

Lemma absdiffeq_r : forall eps (a b c : sfeats O), fsim a b ->
  sf_absdiffeq eps a c = sf_absdiffeq eps b c.
Proof.
  intros eps a b c H. unfold sf_absdiffeq. rewrite <- (fsim_active_keys a b) by auto. f_equal.
  apply forallb_ext_in. intros k Hk. apply in_active_keys in Hk; [|apply H].
  destruct Hk as (s & E1 & A).
  assert (G1 : sf_get k a = Some s) by now apply fm_get_active.
  rewrite (fsim_get a b) in G1 by auto. apply fm_get_active in G1. destruct G1 as (G1 & _).
  now rewrite E1, G1.
Qed.

Lemma fsim_compare : forall a b : sfeats O, fsim a b -> same_compare a b.
Proof. intros a b H eps c. now apply absdiffeq_r. Qed.

Lemma iter_size : forall k (s : sfn O), sfn_wf k s -> (sfn_iter s <> [] <-> sfn_size s <> 0%nat).
Proof.
  intros k [n i v a] (E & L). unfold sfn_iter, sfn_size; simpl in *.
  destruct i, v; simpl in *; try discriminate; split; intros H; try congruence; auto.
Qed.

Lemma proper_restorable : forall k (m : sfeats O), fwf m -> (proper_entry k m <-> restorable k m).
Proof.
  intros k m W. unfold proper_entry, restorable. split; intros H s E; specialize (H s E).
  - rewrite (iter_size k) in H by now apply W.
    destruct (sfn_active s), (sfn_size s) as [|n] eqn:Z; simpl in *; auto.
    + exfalso. apply (proj1 H); auto.
    + apply (proj2 H). discriminate.
  - rewrite (iter_size k) by now apply W. rewrite H.
    destruct (sfn_size s); simpl; split; intros; congruence.
Qed.

Lemma same_view_back : forall dbg (m other : sfeats O) r r', fwf m -> fwf other ->
  sf_append m other = Ok r -> sf_remove dbg r other = Ok r' ->
  same_view r' m -> forall k, sf_get k other <> None -> restorable k m.
Proof.
  intros dbg m other r r' Wm Wo Hr Hr' V k Hk.
  destruct (append_remove_get dbg m other r) as (r0 & H0 & _ & G); auto.
  rewrite Hr' in H0; inversion H0; subst r0.
  destruct (sf_get k other) as [t|] eqn:E; [|congruence].
  apply fm_get_active in E. destruct E as (E & A).
  destruct V as (V & _). specialize (V k). unfold sf_get in V. rewrite G, E, A in V.
  intros s Es. unfold item in V. rewrite Es in V. unfold sfn_back in V. simpl in V.
  destruct (Nat.eqb (sfn_size s) 0); simpl in *; destruct (sfn_active s) eqn:As; congruence.
Qed.

Lemma append_remove_restores : forall dbg h st (a s : nat),
  fops_run dbg h fstore0 = Ok st ->
  exists A' A'',
    sf_append (st a) (st s) = Ok A' /\ sf_remove dbg A' (st s) = Ok A'' /\
    (same_view A'' (st a) <->
     (forall k, sf_get k (st s) <> None -> proper_entry k (st a))).
Proof.
  intros dbg h st a s E. pose proof (fops_wf _ _ _ _ stwf0 E) as W.
  destruct (append_remove_sim dbg (st a) (st s)) as (r & r' & H1 & H2 & W1 & W2 & I); try apply W.
  exists r, r'. split; auto. split; auto. split.
  - intros V k Hk. apply proper_restorable; [apply W|].
    eapply same_view_back with (other := st s); eauto.
  - intros P. apply fsim_view. apply I. intros k t Ek At. apply proper_restorable; [apply W|].
    apply P. rewrite (proj2 (fm_get_active (st s) k t)); [discriminate|]; auto.
Qed.

(** a recycled object against a new one *)
Lemma recycled_like_new : forall dbg h st r h',
  fops_run dbg h fstore0 = Ok st ->
  orel (fun st1 st2 => forall i, same_view (st1 i) (st2 i) /\ same_compare (st1 i) (st2 i))
    (fops_run dbg (FClear r :: h') st) (fops_run dbg (FNew r :: h') st).
Proof.
  intros dbg h st r h' E. pose proof (fops_wf _ _ _ _ stwf0 E) as W.
  unfold fops_run. simpl.
  eapply orel_mono; [apply (fops_sim dbg h')|].
  - intros i. unfold st_upd. destruct (Nat.eqb i r); [|apply fsim_refl, W].
    apply fsim_clear_new, W.
  - intros a b H i. split; [apply fsim_view, H|apply fsim_compare, H].
Qed.

End H.

(** ** Witnesses *)
Definition nsA := NsNamed 7.
(** an action with an active but empty namespace that the shared features also have *)
Definition refute_hist : list (fop BF0) := [FCreate 0 nsA; FAdd 1 nsA 5 (@f1 BF0)].

Lemma append_remove_unrestored :
  exists (st : fstore BF0) A' A'', fops_run true refute_hist fstore0 = Ok st /\
    sf_append (st 0%nat) (st 1%nat) = Ok A' /\ sf_remove true A' (st 1%nat) = Ok A'' /\
    sf_get nsA (st 0%nat) <> None /\ sf_get nsA A'' = None.
Proof.
  eexists. eexists. eexists. split; [reflexivity|]. split; [reflexivity|]. split; [reflexivity|].
  split; [discriminate|reflexivity].
Qed.

Lemma recycled_namespaces_differ :
  exists (h : list (fop BF0)) st1 st2,
    fops_run true (h ++ [FClear 0]) fstore0 = Ok st1 /\
    fops_run true (h ++ [FNew 0]) fstore0 = Ok st2 /\
    sf_namespaces (st1 0%nat) <> sf_namespaces (st2 0%nat) /\
    fst (sf_remove_ns nsA (st1 0%nat)) <> fst (sf_remove_ns nsA (st2 0%nat)).
Proof.
  exists [FAdd 0 nsA 5%N (@f1 BF0)]. eexists. eexists. split; [reflexivity|]. split; [reflexivity|].
  split; discriminate.
Qed.

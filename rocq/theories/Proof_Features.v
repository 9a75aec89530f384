(** Lemmas about feature maps. *)
From Coq Require Import List NArith ZArith Bool Lia Sorted.
From Verif Require Import Base FloatOps Model_Hash Model_Features.
Import ListNotations.

(** ** Order on namespaces *)
Lemma ns_compare_eq : forall a b, ns_compare a b = Eq <-> a = b.
Proof.
  intros [x|x|] [y|y|]; simpl; split; intros H; try discriminate; auto.
  - apply N.compare_eq in H; now subst.
  - inversion H; apply N.compare_refl.
  - apply N.compare_eq in H; now subst.
  - inversion H; apply N.compare_refl.
Qed.

Lemma ns_compare_refl : forall a, ns_compare a a = Eq.
Proof. intros; now apply ns_compare_eq. Qed.

Lemma ns_compare_antisym : forall a b, ns_compare b a = CompOpp (ns_compare a b).
Proof. intros [x|x|] [y|y|]; simpl; auto; apply N.compare_antisym. Qed.

Lemma ns_compare_gt : forall a b, ns_compare a b = Gt -> ns_compare b a = Lt.
Proof. intros a b H; rewrite ns_compare_antisym, H; reflexivity. Qed.

Lemma ns_compare_trans : forall a b c,
  ns_compare a b = Lt -> ns_compare b c = Lt -> ns_compare a c = Lt.
Proof.
  intros [x|x|] [y|y|] [z|z|]; simpl; intros H1 H2; try discriminate; auto;
    rewrite N.compare_lt_iff in *; lia.
Qed.

Lemma ns_eqb_eq : forall a b, ns_eqb a b = true <-> a = b.
Proof.
  intros; unfold ns_eqb. rewrite <- ns_compare_eq.
  destruct (ns_compare a b); split; intros; congruence.
Qed.

Lemma ns_eqb_refl : forall a, ns_eqb a a = true.
Proof. intros; now apply ns_eqb_eq. Qed.

Lemma ns_eqb_neq : forall a b, ns_eqb a b = false <-> a <> b.
Proof.
  intros; rewrite <- ns_eqb_eq. destruct (ns_eqb a b); split; intros; congruence.
Qed.

Lemma ns_eqb_sym : forall a b, ns_eqb a b = ns_eqb b a.
Proof.
  intros. destruct (ns_eqb a b) eqn:E.
  - apply ns_eqb_eq in E; subst. now rewrite ns_eqb_refl.
  - apply ns_eqb_neq in E. symmetry. apply ns_eqb_neq. congruence.
Qed.

Lemma ns_dec : forall a b : namespace, {a = b} + {a <> b}.
Proof.
  intros. destruct (ns_eqb a b) eqn:E; [left; now apply ns_eqb_eq|right; now apply ns_eqb_neq].
Qed.

Section FM.
Context {O : FOps}.
Implicit Types (m : sfeats O) (k : namespace) (s : sfn O).

Definition klt (a b : namespace * sfn O) : Prop := ns_compare (fst a) (fst b) = Lt.
Definition fm_sorted m : Prop := StronglySorted klt m.

Lemma fm_get_set_eq : forall m k s, fm_get k (fm_set k s m) = Some s.
Proof.
  induction m as [|[k' v'] m IH]; intros k s; simpl.
  - now rewrite ns_eqb_refl.
  - destruct (ns_compare k k') eqn:E; simpl.
    + now rewrite ns_eqb_refl.
    + now rewrite ns_eqb_refl.
    + unfold ns_eqb at 1. rewrite E. apply IH.
Qed.

Lemma fm_get_set_ne : forall m k j s, j <> k -> fm_get j (fm_set k s m) = fm_get j m.
Proof.
  induction m as [|[k' v'] m IH]; intros k j s H; simpl.
  - apply ns_eqb_neq in H. now rewrite H.
  - destruct (ns_compare k k') eqn:E; simpl.
    + apply ns_compare_eq in E; subst k'. apply ns_eqb_neq in H. now rewrite H.
    + apply ns_eqb_neq in H. now rewrite H.
    + destruct (ns_eqb j k'); auto.
Qed.

Lemma fm_get_set : forall m k j s,
  fm_get j (fm_set k s m) = if ns_eqb j k then Some s else fm_get j m.
Proof.
  intros. destruct (ns_eqb j k) eqn:E.
  - apply ns_eqb_eq in E; subst. apply fm_get_set_eq.
  - apply fm_get_set_ne. now apply ns_eqb_neq.
Qed.

Lemma fm_get_none_lt : forall m k, Forall (fun b => ns_compare k (fst b) = Lt) m -> fm_get k m = None.
Proof.
  induction m as [|[k' v'] m IH]; intros k H; simpl; auto.
  inversion H; subst; simpl in *. unfold ns_eqb. rewrite H2. auto.
Qed.

Lemma fm_get_in : forall m k s, fm_get k m = Some s -> In (k, s) m.
Proof.
  induction m as [|[k' v'] m IH]; simpl; intros k s H; [discriminate|].
  destruct (ns_eqb k k') eqn:E.
  - apply ns_eqb_eq in E. inversion H; subst. auto.
  - auto.
Qed.

Lemma fm_in_get : forall m k s, fm_sorted m -> In (k, s) m -> fm_get k m = Some s.
Proof.
  induction m as [|[k' v'] m IH]; simpl; intros k s S H; [contradiction|].
  inversion S as [|? ? S' F']; subst. destruct H as [H|H].
  - inversion H; subst. now rewrite ns_eqb_refl.
  - rewrite Forall_forall in F'. specialize (F' _ H). unfold klt in F'; simpl in F'.
    unfold ns_eqb. rewrite ns_compare_antisym, F'. simpl. auto.
Qed.

Lemma fm_sorted_set : forall m k s, fm_sorted m -> fm_sorted (fm_set k s m).
Proof.
  assert (A : forall m k s b, klt b (k, s) -> Forall (klt b) m -> Forall (klt b) (fm_set k s m)).
  { induction m as [|[k' v'] m IH]; simpl; intros k s b H F.
    - constructor; auto.
    - inversion F; subst. destruct (ns_compare k k'); constructor; auto. }
  induction m as [|[k' v'] m IH]; simpl; intros k s S.
  - constructor; constructor.
  - inversion S as [|? ? S' F']; subst. destruct (ns_compare k k') eqn:E.
    + apply ns_compare_eq in E; subst. constructor; auto.
    + constructor; auto. constructor; auto.
      eapply Forall_impl; [|exact F']. intros [j t] Hj. unfold klt in *; simpl in *.
      eapply ns_compare_trans; eauto.
    + constructor; [apply IH; auto|]. apply A; auto. unfold klt; simpl. now apply ns_compare_gt.
Qed.

Lemma fm_sorted_del : forall m k, fm_sorted m -> fm_sorted (fm_del k m).
Proof.
  assert (A : forall m k b, Forall (klt b) m -> Forall (klt b) (fm_del k m)).
  { induction m as [|[k' v'] m IH]; simpl; intros k b F; auto.
    inversion F; subst. destruct (ns_eqb k k'); auto. }
  induction m as [|[k' v'] m IH]; simpl; intros k S; auto.
  inversion S as [|? ? S' F']; subst. destruct (ns_eqb k k'); auto.
  constructor; [apply IH; auto|]. apply A; auto.
Qed.

Lemma fm_get_del : forall m k j, fm_sorted m ->
  fm_get j (fm_del k m) = if ns_eqb j k then None else fm_get j m.
Proof.
  induction m as [|[k' v'] m IH]; simpl; intros k j S.
  - destruct (ns_eqb j k); auto.
  - inversion S as [|? ? S' F']; subst. destruct (ns_eqb k k') eqn:E.
    + apply ns_eqb_eq in E; subst k'. destruct (ns_eqb j k) eqn:Ej; auto.
      apply ns_eqb_eq in Ej; subst. apply fm_get_none_lt. exact F'.
    + simpl. destruct (ns_eqb j k') eqn:Ej.
      * apply ns_eqb_eq in Ej; subst. rewrite ns_eqb_sym, E. reflexivity.
      * apply IH; auto.
Qed.

Lemma fm_ext : forall a b, fm_sorted a -> fm_sorted b ->
  (forall k, fm_get k a = fm_get k b) -> a = b.
Proof.
  induction a as [|[k v] a IH]; intros [|[k' v'] b] Sa Sb H; auto.
  - specialize (H k'); simpl in H. rewrite ns_eqb_refl in H. discriminate.
  - specialize (H k); simpl in H. rewrite ns_eqb_refl in H. discriminate.
  - inversion Sa as [|? ? Sa' Fa]; inversion Sb as [|? ? Sb' Fb]; subst.
    assert (k = k').
    { destruct (ns_compare k k') eqn:E.
      - now apply ns_compare_eq.
      - exfalso. specialize (H k). simpl in H. rewrite ns_eqb_refl in H.
        unfold ns_eqb in H; rewrite E in H.
        rewrite fm_get_none_lt in H; [discriminate|].
        eapply Forall_impl; [|exact Fb]. intros [j t] Hj; unfold klt in *; simpl in *.
        eapply ns_compare_trans; eauto.
      - exfalso. apply ns_compare_gt in E. specialize (H k'). simpl in H. rewrite ns_eqb_refl in H.
        unfold ns_eqb in H; rewrite E in H.
        rewrite fm_get_none_lt in H; [discriminate|].
        eapply Forall_impl; [|exact Fa]. intros [j t] Hj; unfold klt in *; simpl in *.
        eapply ns_compare_trans; eauto. }
    subst k'. pose proof (H k) as Hk. simpl in Hk. rewrite ns_eqb_refl in Hk. inversion Hk; subst v'.
    f_equal. apply IH; auto. intros j. specialize (H j). simpl in H.
    destruct (ns_eqb j k) eqn:E; auto.
    apply ns_eqb_eq in E; subst. rewrite !fm_get_none_lt; auto.
Qed.

Lemma fm_sorted_filter : forall f m, fm_sorted m -> fm_sorted (filter f m).
Proof.
  induction m as [|a m IH]; simpl; intros S; auto.
  inversion S as [|? ? S' F']; subst. destruct (f a); auto.
  constructor; [apply IH; auto|].
  rewrite Forall_forall in *. intros x Hx. apply filter_In in Hx. now apply F'.
Qed.

Lemma fm_get_filter : forall (f : namespace * sfn O -> bool) m k, fm_sorted m ->
  fm_get k (filter f m) = match fm_get k m with
                          | Some s => if f (k, s) then Some s else None
                          | None => None
                          end.
Proof.
  induction m as [|[k' v] m IH]; simpl; intros k S; auto.
  inversion S as [|? ? S' F']; subst.
  destruct (ns_eqb k k') eqn:E.
  - apply ns_eqb_eq in E; subst k'. destruct (f (k, v)) eqn:Ef.
    + simpl. now rewrite ns_eqb_refl.
    + rewrite IH by auto. rewrite fm_get_none_lt by exact F'. reflexivity.
  - destruct (f (k', v)); simpl; [rewrite E|]; apply IH; auto.
Qed.

(** ** Well-formed feature objects *)
Definition sfn_wf k s : Prop := sfn_ns s = k /\ length (sfn_idx s) = length (sfn_val s).
Definition fwf m : Prop := fm_sorted m /\ forall k s, fm_get k m = Some s -> sfn_wf k s.

Definition svis s : bool := sfn_active s || negb (Nat.eqb (sfn_size s) 0).
Definition vis m : sfeats O := filter (fun kv => svis (snd kv)) m.
Definition vget k m : option (sfn O) :=
  match fm_get k m with Some s => if svis s then Some s else None | None => None end.
Definition veq (a b : sfeats O) : Prop := forall k, vget k a = vget k b.
(** the simulation relation *)
Definition fsim (a b : sfeats O) : Prop := fwf a /\ fwf b /\ veq a b.

Lemma vget_vis : forall m k, fm_sorted m -> fm_get k (vis m) = vget k m.
Proof. intros; unfold vis, vget. now rewrite fm_get_filter. Qed.

Lemma fsim_vis : forall a b, fsim a b -> vis a = vis b.
Proof.
  intros a b ((Sa & _) & (Sb & _) & E). apply fm_ext; try now apply fm_sorted_filter.
  intros k. rewrite !vget_vis by auto. apply E.
Qed.

Lemma vis_fsim : forall a b, fwf a -> fwf b -> vis a = vis b -> fsim a b.
Proof.
  intros a b Wa Wb E. split; auto. split; auto. intros k.
  rewrite <- (vget_vis a), <- (vget_vis b); [now rewrite E|apply Wb|apply Wa].
Qed.

Lemma fsim_refl : forall a, fwf a -> fsim a a.
Proof. intros a W; split; auto; split; auto; intros k; reflexivity. Qed.
Lemma fsim_sym : forall a b, fsim a b -> fsim b a.
Proof. intros a b (W1 & W2 & E). split; auto. split; auto. intros k; symmetry; apply E. Qed.
Lemma fsim_trans : forall a b c, fsim a b -> fsim b c -> fsim a c.
Proof. intros a b c (W1 & W2 & E) (W3 & W4 & E'). split; auto. split; auto.
  intros k. now rewrite E. Qed.

Lemma fwf_nil : fwf [].
Proof. split; [constructor|]. simpl; discriminate. Qed.

Lemma fwf_set : forall m k s, fwf m -> sfn_wf k s -> fwf (fm_set k s m).
Proof.
  intros m k s (S & W) H. split; [now apply fm_sorted_set|].
  intros j t. rewrite fm_get_set. destruct (ns_eqb j k) eqn:E; intros Ht; auto.
  inversion Ht; subst. apply ns_eqb_eq in E; now subst.
Qed.

Lemma fwf_del : forall m k, fwf m -> fwf (fm_del k m).
Proof.
  intros m k (S & W). split; [now apply fm_sorted_del|].
  intros j t. rewrite fm_get_del by auto. destruct (ns_eqb j k); [discriminate|auto].
Qed.

Lemma hidden_new : forall k s, sfn_wf k s -> svis s = false -> s = sfn_new k.
Proof.
  intros k [n i v a] (E & L) H. unfold svis, sfn_size in H; simpl in *.
  destruct a; [discriminate|]. destruct i; [|discriminate]. destruct v; [|discriminate].
  now subst.
Qed.

(** the namespace entry seen by [get_or_create_namespace] *)
Definition item k m : sfn O := match fm_get k m with Some s => s | None => sfn_new k end.

Lemma item_vget : forall k m, fwf m ->
  item k m = match vget k m with Some s => s | None => sfn_new k end.
Proof.
  intros k m (S & W). unfold item, vget. destruct (fm_get k m) eqn:E; auto.
  destruct (svis s) eqn:V; auto. apply hidden_new; auto.
Qed.

Lemma item_wf : forall k m, fwf m -> sfn_wf k (item k m).
Proof.
  intros k m (S & W). unfold item. destruct (fm_get k m) eqn:E; auto. split; auto.
Qed.

Lemma fsim_item : forall a b k, fsim a b -> item k a = item k b.
Proof. intros a b k (Wa & Wb & E). rewrite !item_vget by auto. now rewrite E. Qed.

Lemma set_active_wf : forall k s b, sfn_wf k s -> sfn_wf k (sfn_set_active b s).
Proof. intros k s b (E & L); split; auto. Qed.

Lemma vget_set : forall m k j s,
  vget j (fm_set k s m) = if ns_eqb j k then (if svis s then Some s else None) else vget j m.
Proof. intros; unfold vget. rewrite fm_get_set. now destruct (ns_eqb j k). Qed.

Lemma vget_del : forall m k j, fm_sorted m ->
  vget j (fm_del k m) = if ns_eqb j k then None else vget j m.
Proof. intros; unfold vget. rewrite fm_get_del by auto. now destruct (ns_eqb j k). Qed.

Lemma fsim_set : forall a b k s, fsim a b -> sfn_wf k s -> fsim (fm_set k s a) (fm_set k s b).
Proof.
  intros a b k s (Wa & Wb & E) H. split; [now apply fwf_set|split; [now apply fwf_set|]].
  intros j. rewrite !vget_set. destruct (ns_eqb j k); auto.
Qed.

Lemma fsim_del : forall a b k, fsim a b -> fsim (fm_del k a) (fm_del k b).
Proof.
  intros a b k (Wa & Wb & E). split; [now apply fwf_del|split; [now apply fwf_del|]].
  intros j. rewrite !vget_del by (apply Wa || apply Wb). destruct (ns_eqb j k); auto.
Qed.

Lemma sf_upd_item : forall k f m, sf_upd_ns k f m = fm_set k (f (sfn_set_active true (item k m))) m.
Proof. reflexivity. Qed.
Lemma sf_updm_item : forall k f m,
  sf_updm_ns k f m = bind (f (sfn_set_active true (item k m))) (fun s => Ok (fm_set k s m)).
Proof. reflexivity. Qed.

Lemma fsim_updm : forall a b k f, fsim a b ->
  (forall s s', sfn_wf k s -> f s = Ok s' -> sfn_wf k s') ->
  orel fsim (sf_updm_ns k f a) (sf_updm_ns k f b).
Proof.
  intros a b k f H Hf. rewrite !sf_updm_item. rewrite <- (fsim_item a b) by auto.
  destruct (f (sfn_set_active true (item k a))) eqn:E; simpl; constructor.
  apply fsim_set; auto. eapply Hf; [|exact E]. apply set_active_wf, item_wf, H.
Qed.

Lemma fsim_upd : forall a b k f, fsim a b ->
  (forall s, sfn_wf k s -> sfn_wf k (f s)) ->
  fsim (sf_upd_ns k f a) (sf_upd_ns k f b).
Proof.
  intros a b k f H Hf. rewrite !sf_upd_item. rewrite <- (fsim_item a b) by auto.
  apply fsim_set; auto. apply Hf, set_active_wf, item_wf, H.
Qed.

Lemma sfn_adds_wf : forall k is vs s s', sfn_wf k s -> sfn_adds is vs s = Ok s' -> sfn_wf k s'.
Proof.
  intros k is vs s s' (E & L). unfold sfn_adds.
  destruct (Nat.eqb (length is) (length vs)) eqn:H; [|discriminate].
  apply Nat.eqb_eq in H. intros Hs; inversion Hs; subst. split; simpl; auto.
  rewrite !app_length. lia.
Qed.

Lemma sfn_adds_iter_wf : forall k is vs s s', sfn_wf k s -> sfn_adds_iter is vs s = Ok s' -> sfn_wf k s'.
Proof.
  intros k is vs s s' (E & L). unfold sfn_adds_iter.
  destruct (Nat.eqb (length (sfn_idx s ++ is)) (length (sfn_val s ++ vs))) eqn:H; [|discriminate].
  apply Nat.eqb_eq in H. intros Hs; inversion Hs; subst. split; simpl; auto.
Qed.

Lemma sfn_add_wf : forall k i v s, sfn_wf k s -> sfn_wf k (sfn_add i v s).
Proof. intros k i v s (E & L); split; simpl; auto. rewrite !app_length; simpl; lia. Qed.

Lemma sfn_truncate_wf : forall dbg k n s s', sfn_wf k s -> sfn_truncate_by dbg n s = Ok s' -> sfn_wf k s'.
Proof.
  intros dbg k n s s' (E & L). unfold sfn_truncate_by. destruct (Nat.leb n (sfn_size s)).
  - intros H; inversion H; subst; clear H.
    match goal with |- context [if ?c then _ else _] => destruct c end; split; simpl; auto;
      rewrite !firstn_length; lia.
  - destruct dbg; [discriminate|]. intros H; inversion H; subst; clear H.
    destruct (Nat.eqb (sfn_size s) 0); split; simpl; auto.
Qed.

Lemma fsim_append : forall a b other, fsim a b -> orel fsim (sf_append a other) (sf_append b other).
Proof.
  intros a b other H. unfold sf_append. apply orel_foldm with (R := fsim); auto.
  intros kv c1 c2 _ Hc. destruct (sfn_active (snd kv)); [|constructor; auto].
  apply fsim_updm; auto. intros; eapply sfn_adds_wf; eauto.
Qed.

Lemma fsim_remove : forall dbg a b other, fsim a b -> orel fsim (sf_remove dbg a other) (sf_remove dbg b other).
Proof.
  intros dbg a b other H. unfold sf_remove. apply orel_foldm with (R := fsim); auto.
  intros kv c1 c2 _ Hc. destruct (sfn_active (snd kv)); [|constructor; auto].
  apply fsim_updm; auto. intros; eapply sfn_truncate_wf; eauto.
Qed.

(** [append]/[remove] only look at the visible part of the second object *)
Lemma append_vis : forall other m, sf_append m other = sf_append m (vis other).
Proof.
  unfold sf_append. induction other as [|[k s] o IH]; simpl; intros m; auto.
  unfold svis at 1. destruct (sfn_active s) eqn:A; simpl.
  - rewrite A. destruct (sf_updm_ns k (sfn_adds (sfn_idx s) (sfn_val s)) m); simpl; auto.
  - destruct (negb (Nat.eqb (sfn_size s) 0)); simpl; [rewrite A; simpl|]; apply IH.
Qed.

Lemma remove_vis : forall dbg other m, sf_remove dbg m other = sf_remove dbg m (vis other).
Proof.
  unfold sf_remove. intros dbg. induction other as [|[k s] o IH]; simpl; intros m; auto.
  unfold svis at 1. destruct (sfn_active s) eqn:A; simpl.
  - rewrite A. destruct (sf_updm_ns k (sfn_truncate_by dbg (sfn_size s)) m); simpl; auto.
  - destruct (negb (Nat.eqb (sfn_size s) 0)); simpl; [rewrite A; simpl|]; apply IH.
Qed.

Lemma fsim_append2 : forall a b o1 o2, fsim a b -> fsim o1 o2 ->
  orel fsim (sf_append a o1) (sf_append b o2).
Proof.
  intros a b o1 o2 H Ho. rewrite (append_vis o2), <- (fsim_vis o1 o2), <- append_vis by auto.
  now apply fsim_append.
Qed.

Lemma fsim_remove2 : forall dbg a b o1 o2, fsim a b -> fsim o1 o2 ->
  orel fsim (sf_remove dbg a o1) (sf_remove dbg b o2).
Proof.
  intros dbg a b o1 o2 H Ho. rewrite (remove_vis dbg o2), <- (fsim_vis o1 o2), <- remove_vis by auto.
  now apply fsim_remove.
Qed.

(** ** Clearing *)
Lemma fm_get_clear : forall m k,
  fm_get k (sf_clear m) = option_map (fun s => sfn_set_active false (sfn_clear s)) (fm_get k m).
Proof.
  induction m as [|[k' s] m IH]; simpl; intros k; auto. destruct (ns_eqb k k'); auto.
Qed.

Lemma fm_sorted_map : forall f m, fm_sorted m -> fm_sorted (map (fun kv => (fst kv, f (snd kv))) m).
Proof.
  induction m as [|[k s] m IH]; simpl; intros S; [constructor|].
  inversion S as [|? ? S' F']; subst. constructor; [apply IH; auto|].
  rewrite Forall_forall in *. intros x Hx. apply in_map_iff in Hx. destruct Hx as ([j t] & E & Hx).
  subst x. specialize (F' _ Hx). exact F'.
Qed.

Lemma fwf_clear : forall m, fwf m -> fwf (sf_clear m).
Proof.
  intros m (S & W). split; [exact (fm_sorted_map (fun s => sfn_set_active false (sfn_clear s)) m S)|].
  intros k s. rewrite fm_get_clear. destruct (fm_get k m) eqn:E; simpl; [|discriminate].
  intros H; inversion H; subst. destruct (W _ _ E) as (E1 & _). split; simpl; auto.
Qed.

Lemma fsim_clear_new : forall m, fwf m -> fsim (sf_clear m) [].
Proof.
  intros m W. split; [now apply fwf_clear|split; [apply fwf_nil|]].
  intros k. unfold vget. rewrite fm_get_clear. simpl.
  destruct (fm_get k m); simpl; auto.
Qed.

Lemma fsim_clear : forall a b, fsim a b -> fsim (sf_clear a) (sf_clear b).
Proof.
  intros a b (Wa & Wb & _). eapply fsim_trans; [now apply fsim_clear_new|].
  apply fsim_sym. now apply fsim_clear_new.
Qed.

(** ** Observations *)
Lemma fsim_get : forall a b k, fsim a b -> sf_get k a = sf_get k b.
Proof.
  intros a b k (Wa & Wb & E). specialize (E k). unfold sf_get, vget, svis in *.
  destruct (fm_get k a) as [s|], (fm_get k b) as [t|]; auto.
  - destruct (sfn_active s) eqn:A, (sfn_active t) eqn:B; simpl in E; try congruence.
    + destruct (negb (Nat.eqb (sfn_size t) 0)); congruence.
    + destruct (negb (Nat.eqb (sfn_size s) 0)); congruence.
  - destruct (sfn_active s); simpl in E; congruence.
  - destruct (sfn_active t); simpl in E; congruence.
Qed.

Lemma hidden_iter : forall s, svis s = false -> sfn_iter s = [].
Proof.
  intros [n i v a] H. unfold svis, sfn_size in H; simpl in H. destruct a; [discriminate|].
  destruct i; [reflexivity|discriminate].
Qed.

Lemma sf_all_vis : forall m, sf_all (vis m) = sf_all m.
Proof.
  unfold sf_all. induction m as [|[k s] m IH]; simpl; auto. destruct (svis s) eqn:E; simpl.
  - now rewrite IH.
  - rewrite IH, hidden_iter; auto.
Qed.

Lemma fsim_all : forall a b, fsim a b -> sf_all a = sf_all b.
Proof. intros a b H. rewrite <- sf_all_vis, <- (sf_all_vis b). now rewrite (fsim_vis a b). Qed.

Lemma sf_active_keys_vis : forall m, sf_active_keys (vis m) = sf_active_keys m.
Proof.
  unfold sf_active_keys. induction m as [|[k s] m IH]; simpl; auto.
  unfold svis at 1. destruct (sfn_active s) eqn:A; simpl; [rewrite A; simpl; now rewrite IH|].
  destruct (negb (Nat.eqb (sfn_size s) 0)); simpl; [rewrite A|]; auto.
Qed.

Lemma fsim_active_keys : forall a b, fsim a b -> sf_active_keys a = sf_active_keys b.
Proof. intros a b H. rewrite <- sf_active_keys_vis, <- (sf_active_keys_vis b). now rewrite (fsim_vis a b). Qed.

Lemma sf_empty_keys : forall m, sf_empty m = match sf_active_keys m with [] => true | _ => false end.
Proof.
  intros m. assert (E : sf_empty m = forallb (fun kv => negb (sfn_active (snd kv))) m) by (destruct m; auto).
  rewrite E; clear E. unfold sf_active_keys. induction m as [|[k s] m IH]; simpl; auto.
  destruct (sfn_active s); simpl; auto.
Qed.

Lemma fsim_empty : forall a b, fsim a b -> sf_empty a = sf_empty b.
Proof. intros a b H. rewrite !sf_empty_keys. now rewrite (fsim_active_keys a b). Qed.

Lemma in_active_keys : forall m k, fm_sorted m ->
  (In k (sf_active_keys m) <-> exists s, fm_get k m = Some s /\ sfn_active s = true).
Proof.
  intros m k S. unfold sf_active_keys. rewrite in_map_iff. split.
  - intros ([j s] & E & H). simpl in E; subst j. apply filter_In in H. destruct H as (H & A).
    exists s. split; auto. now apply fm_in_get.
  - intros (s & E & A). exists (k, s). split; auto. apply filter_In. split; auto. now apply fm_get_in.
Qed.

Lemma fm_get_active : forall m k s, sf_get k m = Some s <-> (fm_get k m = Some s /\ sfn_active s = true).
Proof.
  intros m k s. unfold sf_get. destruct (fm_get k m) as [t|]; [|split; [discriminate|intros (H & _); discriminate]].
  destruct (sfn_active t) eqn:A; split; intros H.
  - inversion H; subst; auto.
  - destruct H as (H & _); congruence.
  - discriminate.
  - destruct H as (H & H'). inversion H; subst. congruence.
Qed.

Lemma forallb_ext_in : forall A (f g : A -> bool) l,
  (forall a, In a l -> f a = g a) -> forallb f l = forallb g l.
Proof.
  induction l as [|a l IH]; simpl; intros H; auto. rewrite H by auto. rewrite IH; auto.
Qed.

Lemma list_eqb_ns : forall a b, list_eqb ns_eqb a b = true <-> a = b.
Proof.
  induction a as [|x a IH]; intros [|y b]; simpl; split; intros H; try discriminate; auto.
  - apply andb_true_iff in H. destruct H as (H1 & H2). apply ns_eqb_eq in H1. apply IH in H2. now subst.
  - inversion H; subst. rewrite ns_eqb_refl. simpl. now apply IH.
Qed.

Lemma fsim_absdiffeq : forall eps a b a' b', fsim a b -> fsim a' b' ->
  sf_absdiffeq eps a a' = sf_absdiffeq eps b b'.
Proof.
  intros eps a b a' b' H H'. unfold sf_absdiffeq.
  rewrite <- (fsim_active_keys a b), <- (fsim_active_keys a' b') by auto.
  destruct (list_eqb ns_eqb (sf_active_keys a) (sf_active_keys a')) eqn:E; simpl; auto.
  apply list_eqb_ns in E. apply forallb_ext_in. intros k Hk.
  assert (G : forall x y, fsim x y -> In k (sf_active_keys x) -> exists s, fm_get k x = Some s /\ fm_get k y = Some s).
  { intros x y Hxy Hin. apply in_active_keys in Hin; [|apply Hxy]. destruct Hin as (s & E1 & A).
    assert (G1 : sf_get k x = Some s) by now apply fm_get_active.
    rewrite (fsim_get x y) in G1 by auto. apply fm_get_active in G1. exists s. tauto. }
  destruct (G a b H Hk) as (s & E1 & E2). rewrite E in Hk.
  destruct (G a' b' H' Hk) as (s' & E3 & E4). now rewrite E1, E2, E3, E4.
Qed.

(** ** append then remove *)
Lemma foldm_updm_ok : forall (P : sfn O -> bool) (g : sfn O -> sfn O -> out (sfn O)) other m,
  fm_sorted other -> fm_sorted m ->
  (forall k v, fm_get k other = Some v -> P v = true ->
     exists s, g v (sfn_set_active true (item k m)) = Ok s) ->
  exists r, foldm (fun acc kv => if P (snd kv) then sf_updm_ns (fst kv) (g (snd kv)) acc else Ok acc) other m = Ok r
    /\ fm_sorted r
    /\ forall k, fm_get k r =
         match fm_get k other with
         | Some v => if P v then match g v (sfn_set_active true (item k m)) with Ok s => Some s | _ => None end
                     else fm_get k m
         | None => fm_get k m
         end.
Proof.
  intros P g other. induction other as [|[k v] o IH]; intros m So Sm Hg.
  - exists m. simpl. auto.
  - inversion So as [|? ? So' Fo]; subst. simpl foldm.
    assert (Nk : fm_get k o = None) by now apply fm_get_none_lt.
    destruct (P v) eqn:Pv.
    + destruct (Hg k v) as (s & Hs); auto. { simpl. now rewrite ns_eqb_refl. }
      rewrite sf_updm_item. simpl in Hs. rewrite Hs. simpl.
      destruct (IH (fm_set k s m)) as (r & Hr & Sr & Gr); auto.
      { now apply fm_sorted_set. }
      { intros j w Hj Pw. assert (j <> k) by (intros ->; congruence).
        unfold item. rewrite fm_get_set_ne by auto. apply Hg; auto. simpl.
        apply ns_eqb_neq in H. now rewrite H. }
      exists r. split; auto. split; auto. intros j. rewrite Gr. simpl.
      destruct (ns_eqb j k) eqn:Ej.
      * apply ns_eqb_eq in Ej; subst j. rewrite Nk, Pv, fm_get_set_eq. now rewrite Hs.
      * apply ns_eqb_neq in Ej. unfold item. rewrite fm_get_set_ne by auto. reflexivity.
    + simpl. destruct (IH m) as (r & Hr & Sr & Gr); auto.
      { intros j w Hj Pw. assert (j <> k) by (intros ->; congruence).
        apply Hg; auto. simpl. apply ns_eqb_neq in H. now rewrite H. }
      exists r. split; auto. split; auto. intros j. rewrite Gr. simpl.
      destruct (ns_eqb j k) eqn:Ej; auto.
      apply ns_eqb_eq in Ej; subst j. now rewrite Nk, Pv.
Qed.

Definition sfn_cat (s t : sfn O) : sfn O :=
  mkSfn (sfn_ns s) (sfn_idx s ++ sfn_idx t) (sfn_val s ++ sfn_val t) true.

Lemma append_get : forall m other, fwf m -> fwf other ->
  exists r, sf_append m other = Ok r /\ fwf r /\
    forall k, fm_get k r = match fm_get k other with
                           | Some t => if sfn_active t then Some (sfn_cat (item k m) t) else fm_get k m
                           | None => fm_get k m
                           end.
Proof.
  intros m other (Sm & Wm) (So & Wo).
  assert (A : forall k v, fm_get k other = Some v ->
      sfn_adds (sfn_idx v) (sfn_val v) (sfn_set_active true (item k m)) = Ok (sfn_cat (item k m) v)).
  { intros k v E. unfold sfn_adds. destruct (Wo _ _ E) as (_ & L). rewrite L, Nat.eqb_refl. reflexivity. }
  destruct (foldm_updm_ok (@sfn_active O) (fun v => sfn_adds (sfn_idx v) (sfn_val v)) other m)
    as (r & Hr & Sr & Gr); auto.
  { intros k v E _. rewrite A; eauto. }
  exists r. split; [exact Hr|]. 
  assert (G : forall k, fm_get k r = match fm_get k other with
                           | Some t => if sfn_active t then Some (sfn_cat (item k m) t) else fm_get k m
                           | None => fm_get k m
                           end).
  { intros k. rewrite Gr. destruct (fm_get k other) as [t|] eqn:E; auto. destruct (sfn_active t); auto.
    now rewrite A. }
  split; auto. split; auto. intros k s. rewrite G.
  destruct (fm_get k other) as [t|] eqn:E; [destruct (sfn_active t)|]; auto.
  intros H; inversion H; subst. destruct (Wo _ _ E) as (_ & L).
  destruct (item_wf k m (conj Sm Wm)) as (E1 & L1). split; simpl; auto.
  rewrite !app_length. lia.
Qed.

Lemma firstn_app_exact : forall A (a b : list A) n, n = (length (a ++ b) - length b)%nat -> firstn n (a ++ b) = a.
Proof.
  intros A a b n ->. rewrite app_length. replace (length a + length b - length b)%nat with (length a) by lia.
  rewrite firstn_app. rewrite Nat.sub_diag. simpl. now rewrite firstn_all, app_nil_r.
Qed.

(** what truncation leaves of an entry *)
Definition sfn_back (s : sfn O) : sfn O :=
  sfn_set_active (negb (Nat.eqb (sfn_size s) 0)) s.

Lemma truncate_cat : forall dbg k s t, sfn_wf k s -> length (sfn_idx t) = length (sfn_val t) ->
  sfn_truncate_by dbg (sfn_size t) (sfn_set_active true (sfn_cat s t)) = Ok (sfn_back s).
Proof.
  intros dbg k s t (E & L) Lt. unfold sfn_truncate_by, sfn_size. simpl.
  rewrite app_length. rewrite (proj2 (Nat.leb_le _ _)) by lia.
  rewrite !firstn_app_exact; [|rewrite app_length; lia|rewrite app_length; lia].
  f_equal. unfold sfn_back, sfn_size. destruct s as [n i v a]; simpl.
  destruct i; reflexivity.
Qed.

Lemma append_remove_get : forall dbg m other r, fwf m -> fwf other -> sf_append m other = Ok r ->
  exists r', sf_remove dbg r other = Ok r' /\ fwf r' /\
    forall k, fm_get k r' = match fm_get k other with
                           | Some t => if sfn_active t then Some (sfn_back (item k m)) else fm_get k m
                           | None => fm_get k m
                           end.
Proof.
  intros dbg m other r Wm Wo Hr.
  destruct (append_get m other) as (r0 & Hr0 & Wr & Gr); auto.
  rewrite Hr in Hr0; inversion Hr0; subst r0; clear Hr0.
  assert (A : forall k v, fm_get k other = Some v -> sfn_active v = true ->
      sfn_truncate_by dbg (sfn_size v) (sfn_set_active true (item k r)) = Ok (sfn_back (item k m))).
  { intros k v E Av. unfold item at 1. rewrite Gr, E, Av.
    apply truncate_cat with (k := k); [now apply item_wf|]. now apply (proj2 Wo k v E). }
  destruct (foldm_updm_ok (@sfn_active O) (fun v => sfn_truncate_by dbg (sfn_size v)) other r)
    as (r' & Hr' & Sr' & Gr'); [apply Wo|apply Wr| |].
  { intros k v E Av. rewrite A; eauto. }
  exists r'. split; [exact Hr'|].
  assert (G : forall k, fm_get k r' = match fm_get k other with
                           | Some t => if sfn_active t then Some (sfn_back (item k m)) else fm_get k m
                           | None => fm_get k m
                           end).
  { intros k. rewrite Gr'. destruct (fm_get k other) as [t|] eqn:E.
    - destruct (sfn_active t) eqn:At; [now rewrite A|]. rewrite Gr, E, At. reflexivity.
    - rewrite Gr, E. reflexivity. }
  split; auto. split; auto. intros k s. rewrite G.
  destruct (fm_get k other) as [t|] eqn:E; [destruct (sfn_active t)|]; try now apply Wm.
  intros H; inversion H; subst. apply set_active_wf, item_wf, Wm.
Qed.

(** the entries that are restored *)
Definition restorable k m : Prop :=
  forall s, fm_get k m = Some s -> sfn_active s = negb (Nat.eqb (sfn_size s) 0).

Lemma back_vget : forall k m, fwf m -> restorable k m ->
  (if svis (sfn_back (item k m)) then Some (sfn_back (item k m)) else None) = vget k m.
Proof.
  intros k m W R. unfold item, vget. unfold restorable in R. destruct (fm_get k m) as [s|] eqn:E.
  - assert (sfn_back s = s). { unfold sfn_back. rewrite <- (R s eq_refl). now destruct s. }
    now rewrite H.
  - reflexivity.
Qed.

Lemma back_vget_conv : forall k m, 
  (if svis (sfn_back (item k m)) then Some (sfn_back (item k m)) else None) = vget k m -> restorable k m.
Proof.
  intros k m H s E. unfold item, vget in H. rewrite E in H.
  unfold svis, sfn_back in H. simpl in H. change (sfn_size (sfn_set_active (negb (Nat.eqb (sfn_size s) 0)) s)) with (sfn_size s) in H.
  destruct (Nat.eqb (sfn_size s) 0) eqn:Z; simpl in *.
  - destruct (sfn_active s); simpl in *; congruence.
  - destruct (sfn_active s) eqn:A; simpl in *; auto. inversion H. rewrite <- H1 in A. simpl in A. congruence.
Qed.

Lemma append_remove_sim : forall dbg m other, fwf m -> fwf other ->
  exists r r', sf_append m other = Ok r /\ sf_remove dbg r other = Ok r' /\ fwf r /\ fwf r' /\
   (fsim r' m <-> (forall k t, fm_get k other = Some t -> sfn_active t = true -> restorable k m)).
Proof.
  intros dbg m other Wm Wo.
  destruct (append_get m other) as (r & Hr & Wr & Gr); auto.
  destruct (append_remove_get dbg m other r) as (r' & Hr' & Wr' & Gr'); auto.
  exists r, r'. split; [auto|]. split; [auto|]. split; [auto|]. split; [auto|]. split.
  - intros (_ & _ & E) k t Ek At. specialize (E k). unfold vget at 1 in E. rewrite Gr', Ek, At in E.
    now apply back_vget_conv.
  - intros R. split; auto. split; auto. intros k. unfold vget at 1. rewrite Gr'.
    destruct (fm_get k other) as [t|] eqn:Ek; auto. destruct (sfn_active t) eqn:At; auto.
    apply back_vget; auto. eapply R; eauto.
Qed.

End FM.

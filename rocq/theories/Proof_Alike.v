(** Actions the model cannot tell apart get the same score (C100). *)
From Coq Require Import List NArith ZArith PeanoNat Bool Lia Permutation Reals Lra.
From Verif Require Import Base FloatOps FloatR Model_Hash Model_Features Model_Weights Model_Interactions
  Model_Types Model_Explore Model_Coin Model_Stack Model_Factory Spec_Features Spec_Explore Spec_Coin Spec_Stack Spec_Reductions Spec_Total Spec_Empty Spec_Delegate Spec_Shuffle Spec_Merge Spec_Elem Spec_ElemStack Spec_Trained Spec_Unseen Spec_ActOrder Spec_Built Spec_Alike
  Proof_Weights Proof_Explore Proof_ExploreProps Proof_CbExplore Proof_Coin Proof_FloatOrder Proof_StackRestore Proof_StackShape Proof_StackProps Proof_EmptyProps Proof_Shuffle Proof_ActOrder Proof_Built Proof_Reductions Proof_Unseen.
Import ListNotations.
Open Scope N_scope.

(** ** replacing an action *)
Lemma put_len : forall A i (b : A) l, length (upd i b l) = length l.
Proof. intros A i b l. revert i. induction l as [|x l IH]; intros [|i]; cbn; auto. Qed.
Lemma put_in : forall A i (b : A) l x, In x (upd i b l) -> x = b \/ In x l.
Proof. intros A i b l. revert i. induction l as [|y l IH]; intros [|i] x H; cbn in *; auto; destruct H as [H|H]; auto. destruct (IH _ _ H); auto. Qed.
Lemma put_rel : forall A (P : A -> A -> Prop) i a b l, (forall x, P x x) -> nth_error l i = Some a -> P a b -> Forall2 P l (upd i b l).
Proof.
  intros A P i a b l Rf. revert i. induction l as [|y l IH]; intros [|i] E Q; cbn in *; try discriminate; constructor; auto.
  - inversion E; subst. exact Q.
  - clear - Rf. induction l; constructor; auto.
Qed.
Definition swap (i j k : nat) : nat := if Nat.eqb k i then j else if Nat.eqb k j then i else k.
Lemma swap_inv : forall i j k, swap i j (swap i j k) = k.
Proof.
  intros i j k. unfold swap. destruct (Nat.eqb_spec k i) as [->|N1].
  - destruct (Nat.eqb_spec j i) as [->|N2]; auto. now rewrite Nat.eqb_refl.
  - destruct (Nat.eqb_spec k j) as [->|N2]; [now rewrite Nat.eqb_refl|].
    destruct (Nat.eqb_spec k i); [congruence|]. destruct (Nat.eqb_spec k j); congruence.
Qed.
Lemma swap_moved : forall A (l : list A) i j b, nth_error l i = Some b -> nth_error l j = Some b -> moved (swap i j) l l.
Proof.
  intros A l i j b Ei Ej. assert (Li : (i < length l)%nat) by (apply nth_error_Some; congruence). assert (Lj : (j < length l)%nat) by (apply nth_error_Some; congruence).
  split; [reflexivity|]. split.
  { intros k Hk. unfold swap. destruct (Nat.eqb k i); [exact Lj|]. destruct (Nat.eqb k j); [exact Li|exact Hk]. }
  split.
  { intros k m _ _ Q. rewrite <- (swap_inv i j k), Q. apply swap_inv. }
  intros k _. unfold swap. destruct (Nat.eqb_spec k i) as [->|]; [congruence|]. destruct (Nat.eqb_spec k j) as [->|]; congruence.
Qed.
(** one score for each action *)
Lemma scores_length : forall (O : FOps) dbg n (r : red O n) s x d mo l f' d', predict dbg n r (FtsCb s x) d mo = Ok (PrScores l, f', d') -> length l = length x.
Proof.
  intros O dbg. induction n as [|n IH]; intros r s x d mo l f' d' E.
  { cbn [predict] in E. unfold wrap in E. binv E. binv E. unfold coin_predict_body in B0. cbn [as_simple bind] in B0. discriminate. }
  destruct r as ((w & k) & ch). cbn [predict] in *. unfold wrap in E. binv E. binv E. destruct v0 as ((p1 & f1) & d1). binv E.
  destruct (dbg && negb (fts_absdiffeq f32_eps f1 (FtsCb s x))); [discriminate|]. inversion E; subst. clear E B1. rename B0 into Eb. destruct k; cbn [kind_predict] in Eb.
  - binv Eb. destruct v0 as ((p & fx) & d3). binv Eb. discriminate.
  - cbn [as_cb bind fst snd] in Eb. binv Eb. destruct v0 as ((sc & acts) & d3). inversion Eb; subst.
    exact (proj1 (loop_numbered _ _ _ _ _ _ _ _ _ B0)).
  - binv Eb. destruct v0 as ((p & fx) & d3). binv Eb. binv Eb. discriminate.
  - binv Eb. destruct v0 as ((p & fx) & d3). binv Eb. binv Eb. discriminate.
  - binv Eb. destruct v0 as ((p & fx) & d3). binv Eb. binv Eb. discriminate.
  - unfold elem_frame in Eb. cbn [as_simple bind] in Eb. discriminate.
  - exact (IH _ _ _ _ _ _ _ _ Eb).
Qed.
(** equal actions get equal scores; in any arithmetic *)
Lemma same_action : forall (O : FOps) dbg n (r : red O n) s acts i j b sc f', nth_error acts i = Some b -> nth_error acts j = Some b ->
  ws_predict dbg r (FtsCb s acts) = Ok (PrScores sc, f') -> tied sc i j.
Proof.
  intros O dbg n r s acts i j b sc f' Ei Ej P.
  assert (M : moved_fts (swap i j) (FtsCb s acts) (FtsCb s acts)) by (split; [reflexivity|now apply (swap_moved _ _ _ _ b)]).
  destruct (ws_scores_moved O dbg n r _ _ _ sc f' M P) as (sc' & g' & P' & (Mv & Fa & _) & _).
  rewrite P in P'. inversion P'; subst sc' g'. destruct Mv as (_ & _ & _ & Mv).
  assert (Ln : length sc = length acts).
  { unfold ws_predict in P. binv P. destruct v as ((p1 & f1) & d1). inversion P; subst. exact (scores_length _ _ _ _ _ _ _ _ _ _ _ B). }
  assert (Li : (i < length sc)%nat) by (rewrite Ln; apply nth_error_Some; congruence).
  assert (Lj : (j < length sc)%nat) by (rewrite Ln; apply nth_error_Some; congruence).
  specialize (Mv i ltac:(now rewrite map_length)). unfold swap in Mv. rewrite Nat.eqb_refl, !nth_error_map in Mv.
  assert (Nm : forall k x v, nth_error sc k = Some (x, v) -> x = N.of_nat k).
  { intros k x v E. assert (Q : nth_error (map fst sc) k = Some x) by (now rewrite nth_error_map, E).
    assert (Hk : (k < length sc)%nat) by (apply nth_error_Some; congruence).
    rewrite Fa, nth_error_map, (nth_error_nth' _ 0%nat) in Q by (now rewrite seq_length). rewrite seq_nth in Q by auto. cbn in Q. congruence. }
  destruct (nth_error sc i) as [[x v]|] eqn:Qi; [|apply nth_error_None in Qi; lia].
  destruct (nth_error sc j) as [[y w]|] eqn:Qj; [|apply nth_error_None in Qj; lia].
  cbn in Mv. inversion Mv; subst w. exists v. rewrite Qi, Qj, (Nm _ _ _ Qi), (Nm _ _ _ Qj). auto.
Qed.

(** ** alike actions *)
Section Alike.
Context (H : hasher) (gc : gconfig) (NR : no_repeat H gc) (c0 : coin RF) (ts : list (sfeats RF)).
Lemma alike_tied : forall n (ch : red RF n) s acts i j a b sc f', good H gc c0 -> rested gc c0 ts (bottom n ch) -> elem_free n ch ->
  sound_fts (FtsCb s acts) -> all_below (2 ^ gc_bits gc) (FtsCb s acts) ->
  nth_error acts i = Some a -> nth_error acts j = Some b -> alike c0 (seen c0 ts) s a b ->
  ws_predict false ch (FtsCb s acts) = Ok (PrScores sc, f') -> tied sc i j.
Proof.
  intros n ch s acts i j a b sc f' G U EF Sf Bf Ei Ej Al P.
  assert (Li : (i < length acts)%nat) by (apply nth_error_Some; congruence).
  assert (E1 : nth_error (upd i b acts) i = Some b) by (now apply nth_error_upd_eq).
  assert (E2 : nth_error (upd i b acts) j = Some b).
  { destruct (Nat.eq_dec i j) as [<-|Ne]; [exact E1|]. now rewrite nth_error_upd_ne by auto. }
  assert (Ib : In b acts) by (eapply nth_error_In; eauto).
  assert (Q : zf (zu gc c0 ts) (FtsCb s acts) (FtsCb s (upd i b acts))).
  { apply (fts_zu H gc NR); auto.
    - destruct Sf as (Sx & Ss). split; [|exact Ss]. intros x Hx. apply put_in in Hx. destruct Hx as [->|Hx]; auto.
    - intros x Hx. apply Bf. destruct s; cbn in *.
      + destruct Hx as [Hx|Hx]; auto. apply put_in in Hx. destruct Hx as [->|Hx]; auto.
      + apply put_in in Hx. destruct Hx as [->|Hx]; auto.
    - split; [tauto|]. apply (put_rel _ _ i a b); auto.
      intros x u v Hu Hv. rewrite Hu in Hv. inversion Hv; subst. intros l k L K m _. rewrite L in K. inversion K; subst. reflexivity. }
  unfold ws_predict in P. binv P. destruct v as ((p1 & f1) & d1). inversion P; subst.
  destruct (predict_z _ (rested gc c0 ts) (zu_predict gc _ _) _ ch _ _ 0%N 0%N EF U Q _ B) as (((q & g1) & e1) & P2 & P1 & _ & _ & _).
  cbn [fst snd] in P1. subst q. apply (same_action RF false n ch s (upd i b acts) i j b sc g1 E1 E2). unfold ws_predict. rewrite P2. reflexivity.
Qed.
End Alike.

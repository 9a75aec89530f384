(** Filling an object namespace by namespace. *)
From Coq Require Import List NArith Bool Lia.
From Verif Require Import Base FloatOps Model_Hash Model_Features Model_Types Model_Stack Model_Text Model_Metrics Model_Train Model_Json Spec_Features Spec_Stack
  Spec_Text Spec_Json Proof_Features Proof_FeaturesHist Proof_StackCong Proof_StackRestore Proof_Loose Proof_TextFeats Proof_TextChunk Proof_Train.
Import ListNotations.

Section P.
Context {O : FOps}.

Definition cat (l : list (N * O)) (s : sfn O) : sfn O :=
  mkSfn (sfn_ns s) (sfn_idx s ++ map fst l) (sfn_val s ++ map snd l) (sfn_active s).
Lemma cat_nil : forall s, cat [] s = s.
Proof. intros [n i v a]. unfold cat; simpl. now rewrite !app_nil_r. Qed.
Lemma cat_app : forall l l' s, cat (l ++ l') s = cat l' (cat l s).
Proof. intros l l' [n i v a]. unfold cat; simpl. now rewrite !map_app, !app_assoc. Qed.
Lemma cat_one : forall i v s, cat [(i, v)] s = sfn_add i v s.
Proof. reflexivity. Qed.
Lemma cat_wf : forall k l s, sfn_wf k s -> sfn_wf k (cat l s).
Proof. intros k l s (E & L). split; auto. simpl. rewrite !app_length, !map_length. lia. Qed.
Lemma cat_active : forall l s, sfn_active (cat l s) = sfn_active s.
Proof. reflexivity. Qed.

Definition apply_plan (plan : list (namespace * list (N * O))) (m : sfeats O) : sfeats O :=
  fold_left (fun m n => sf_upd_ns (fst n) (cat (snd n)) m) plan m.

Lemma apply_plan_app : forall p q m, apply_plan (p ++ q) m = apply_plan q (apply_plan p m).
Proof. intros. apply fold_left_app. Qed.

Lemma apply_plan_get : forall plan m k,
  fm_get k (apply_plan plan m) =
  match filter (fun n => ns_eqb k (fst n)) plan with
  | [] => fm_get k m
  | l => Some (cat (flat_map snd l) (sfn_set_active true (item k m)))
  end.
Proof.
  induction plan as [|(j & l) plan IH]; intros m k; auto. cbn [apply_plan fold_left filter].
  fold (apply_plan plan (sf_upd_ns (fst (j, l)) (cat (snd (j, l))) m)). rewrite IH. cbn [fst snd]. rewrite sf_upd_item.
  destruct (ns_eqb k j) eqn:E.
  - apply ns_eqb_eq in E. subst j. 
    assert (EI : forall x, item k (fm_set k x m) = x) by (intros x; unfold item; now rewrite fm_get_set_eq).
    rewrite fm_get_set_eq, EI. cbn [flat_map snd].
    destruct (filter _ plan) as [|p q]; [simpl; now rewrite app_nil_r|].
    rewrite (cat_app l). reflexivity.
  - apply ns_eqb_neq in E. unfold item. rewrite !fm_get_set_ne by auto. reflexivity.
Qed.
Lemma apply_plan_sim : forall plan a b, fsim a b -> fsim (apply_plan plan a) (apply_plan plan b).
Proof.
  induction plan as [|(j & l) plan IH]; intros a b S; auto. apply IH. apply fsim_upd; auto. intros; now apply cat_wf.
Qed.
Lemma apply_plan_wf : forall plan a, fwf a -> fwf (apply_plan plan a).
Proof. intros plan a W. apply (apply_plan_sim plan a a). now apply fsim_refl. Qed.
Lemma apply_plan_clean : forall plan m, pclean m -> Forall (fun n => ~ israw (fst n)) plan -> pclean (apply_plan plan m).
Proof.
  induction plan as [|(j & l) plan IH]; intros m C F; auto. inversion F; subst. apply IH; auto.
  apply upd_clean; auto. intros; now apply cat_wf.
Qed.
(** into an object that looks new *)
Lemma apply_plan_new : forall plan m k, looks_new m ->
  sf_get k (apply_plan plan m) =
  as_sfn k (match filter (fun n => ns_eqb k (fst n)) plan with [] => None | l => Some (flat_map snd l) end).
Proof.
  intros plan m k L. unfold sf_get. rewrite apply_plan_get. destruct (filter _ plan) as [|x l] eqn:E.
  - pose proof (looks_new_get m k L) as G. unfold sf_get in G. now rewrite G.
  - rewrite (looks_new_item m k L). reflexivity.
Qed.
End P.

(** outcomes that are the same, or else the left one is the panic [b] *)
Definition orelb {A B} (b : panic) (R : A -> B -> Prop) (x : out A) (y : out B) : Prop := x = Pn b \/ orel R x y.
Lemma orelb_bind : forall A B C D b (R : A -> B -> Prop) (S : C -> D -> Prop) x y f g,
  orelb b R x y -> (forall u v, R u v -> orelb b S (f u) (g v)) -> orelb b S (bind x f) (bind y g).
Proof.
  intros A B C D b R S x y f g [->|[u v E|e|p]] K; [now left|cbn [bind]; auto|right; constructor..].
Qed.
Lemma orelb_foldm : forall A A' B1 B2 b (R : B1 -> B2 -> Prop) (Q : A -> A' -> Prop) (f : B1 -> A -> out B1) (g : B2 -> A' -> out B2) l l',
  Forall2 Q l l' -> (forall a a' c d, Q a a' -> R c d -> orelb b R (f c a) (g d a')) ->
  forall c d, R c d -> orelb b R (foldm f l c) (foldm g l' d).
Proof.
  intros A A' B1 B2 b R Q f g l l' F K. induction F as [|a a' l l' HQ F IH]; intros c d HR; cbn [foldm].
  - right. now constructor.
  - eapply orelb_bind; [apply K; eauto|]. intros u v HR'. now apply IH.
Qed.
Lemma orelb_mono : forall A B b (R S : A -> B -> Prop) x y, orelb b R x y -> (forall u v, R u v -> S u v) -> orelb b S x y.
Proof. intros A B b R S x y [E|E] K; [now left|right; eapply orel_mono; eauto]. Qed.

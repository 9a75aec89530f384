(** Examples for C88. *)
From Coq Require Import List NArith ZArith Bool Lia Reals Lra Permutation.
From Verif Require Import Base FloatOps FloatR FloatB32 Model_Hash Model_Features Model_Weights Model_Loss Model_Interactions
  Model_Types Model_Explore Model_Coin Model_Stack Model_Factory Spec_Inter Spec_Foreach Spec_Features Spec_Stack Spec_Total Spec_Reductions Spec_Values Spec_Empty Spec_Shuffle
  Proof_Features Proof_Weights Proof_Inter Proof_StackProps Proof_Total Proof_EmptyProps Proof_LearnEx Proof_FloatOrder Spec_Delegate Proof_Shuffle.
Import ListNotations.

(** ** exact arithmetic: the interaction of the context with the actions *)
Definition sh_gc : gconfig := mkGc 8 0 true [[NDName [97%N]; NDDefault]].
(** a context with two features and two actions, in two orders *)
Definition sh_hist : list (fop RF) :=
  [FAdd 0 (ex_ns 97) 3%N (@f1 RF); FAdd 0 (ex_ns 97) 4%N (@fl RF 2);
   FAdd 1 (ex_ns 97) 4%N (@fl RF 2); FAdd 1 (ex_ns 97) 3%N (@f1 RF);
   FAdd 2 NsDefault 5%N (@f1 RF); FAdd 2 NsDefault 9%N (@fl RF 3);
   FAdd 3 NsDefault 9%N (@fl RF 3); FAdd 3 NsDefault 5%N (@f1 RF);
   FAdd 4 NsDefault 6%N (@fl RF 2)].
Definition sh_store : fstore RF := match fops_run false sh_hist fstore0 with Ok st => st | _ => fstore0 end.
Definition sh_fts (i : nat) : features RF := FtsCb (Some (sh_store i)) [sh_store (i + 2)%nat; sh_store 4%nat].
Lemma sh_built : forall i, built (sh_store i).
Proof. intros i. exists false, sh_hist, sh_store, i. split; reflexivity. Qed.
Lemma sh_sound : forall i, sound (sh_store i).
Proof.
  intros i. split; [apply sh_built|]. intros k s E _. apply fm_get_in in E.
  destruct i as [|[|[|[|[|i]]]]]; cbn in E; try contradiction; destruct E as [E|[]]; inversion E; reflexivity.
Qed.
Lemma sh_sound_fts : forall i, sound_fts (sh_fts i).
Proof. intros i. split; [|apply sh_sound]. intros a [<-|[<-|[]]]; apply sh_sound. Qed.
Lemma sh_no_repeat : no_repeat ex_hash sh_gc.
Proof.
  constructor; [|constructor]. intros u d e v E. destruct u as [|x [|y u]]; cbn in E; inversion E; subst.
  - discriminate.
  - destruct u; discriminate.
Qed.
Lemma sh_reordered : reordered_fts (sh_fts 0%nat) (sh_fts 1%nat).
Proof.
  assert (A : forall k, Permutation (in_ns k (sh_store 0%nat)) (in_ns k (sh_store 1%nat))).
  { intros k. unfold in_ns, sh_store. cbn. match goal with |- context [if ?b then _ else _] => destruct b end; [apply perm_swap|constructor]. }
  assert (B : forall k, Permutation (in_ns k (sh_store 2%nat)) (in_ns k (sh_store 3%nat))).
  { intros k. unfold in_ns, sh_store. cbn. match goal with |- context [if ?b then _ else _] => destruct b end; [apply perm_swap|constructor]. }
  split; [exact A|]. constructor; [exact B|]. constructor; [|constructor]. intros k. apply Permutation_refl.
Qed.
Ltac nodup := repeat (constructor; [simpl; intuition discriminate|]); constructor.
Lemma sh_clash : no_clash_fts ex_hash sh_gc (sh_fts 0%nat).
Proof.
  intros a y Ha E ps ts l S L.
  destruct (sorted_fun _ _ _ _ S [(ex_ns 97, NsDefault)] []) as (-> & ->); [repeat constructor|].
  destruct Ha as [<-|[<-|[]]]; vm_compute in E; inversion E; subst y; clear E; vm_compute in L; inversion L; subst l; cbn [map fst]; nodup.
Qed.
Lemma sh_example_ok : forall lb, reordered_example ex_hash sh_gc (sh_fts 0%nat, lb) (sh_fts 1%nat, lb).
Proof. intros lb. exact (conj (sh_sound_fts 0%nat) (conj (sh_sound_fts 1%nat) (conj sh_reordered (conj sh_clash eq_refl)))). Qed.

Lemma sh_plain : forall i, (i < 2)%nat -> plain (sh_fts i).
Proof.
  intros i Hi. split.
  - split; [intros a [<-|[<-|[]]]; apply sh_built|apply sh_built].
  - assert (N0 : forall j, no_composite (sh_store j)).
    { intros [|[|[|[|[|j]]]]] h s H; cbn in H; discriminate. }
    split; [intros a [<-|[<-|[]]]; apply N0|]. split; [apply N0|].
    intros a Ha. split; intros k H s Hs; exfalso; apply fm_get_in in Hs.
    + destruct i as [|[|i]]; try lia; destruct Ha as [<-|[<-|[]]]; destruct Hs as [Hs|[]]; inversion Hs; subst; apply H; reflexivity.
    + destruct i as [|[|i]]; try lia; destruct Ha as [<-|[<-|[]]]; destruct Hs as [Hs|[]]; inversion Hs; subst; apply H; reflexivity.
Qed.
Lemma sh_below : forall i, (i < 2)%nat -> all_below 256 (sh_fts i).
Proof.
  intros i Hi a Ha j v Hin. destruct i as [|[|i]]; try lia; cbn in Ha; destruct Ha as [<-|[<-|[<-|[]]]]; cbn in Hin;
    repeat (destruct Hin as [K|Hin]; [inversion K; reflexivity|]); contradiction.
Qed.
Lemma sh_differ : sh_fts 0%nat <> sh_fts 1%nat.
Proof. intros E. apply (f_equal (fun f => match f with FtsCb (Some a) _ => map fst (in_ns (ex_ns 97) a) | _ => [] end)) in E. vm_compute in E. discriminate. Qed.
Definition sh_cfg (eps : R) : rcfg RF := CGreedy (eps : RF) (CDebug (CCbAdf Mtr (CCoin (@coin_default RF)))).
Lemma sh_new : forall eps : R, exists R0 : anyred RF, ws_new ex_hash false sh_gc (sh_cfg eps) = Ok R0 /\
  elem_free (projT1 R0) (projT2 R0) /\ uses_elem (projT2 R0) = false /\ uses_weighted (projT2 R0) = false /\
  red_types (projT2 R0) = td_explore.
Proof.
  intros eps. unfold ws_new, sh_cfg. cbn [create]. unfold coin_new. cbn [bind]. destruct (@dw_new_ok RF false 256 1 6) as (w & E & _); try lia.
  change (compile_interactions ex_hash (gc_seed sh_gc) (gc_inter sh_gc)) with (Ok ([(ex_ns 97, NsDefault)], @nil (namespace * namespace * namespace))). cbn [bind].
  change (bits_to_max_feature_index false (gc_bits sh_gc)) with (Ok 256%N : out N). cbn [bind cc_loss coin_default].
  rewrite E. cbn [bind]. eexists. split; [reflexivity|]. split; [|repeat split; reflexivity].
  cbn [projT1 projT2 elem_free fst snd]. repeat split; intros; discriminate.
Qed.
(** trained with the features in the first order, asked in the first order *)
Lemma sh_example : forall eps : R, exists (R0 : anyred RF) r h1 q g, ws_new ex_hash false sh_gc (sh_cfg eps) = Ok R0 /\
  elem_free (projT1 R0) (projT2 R0) /\
  ws_learn false (projT2 R0) (sh_fts 0%nat) (LbCb 0%N (@f1 RF) (@f1 RF)) = Ok (r, h1) /\ reach false (projT2 R0) r /\
  ws_predict false r (sh_fts 0%nat) = Ok (PrProbs q, g).
Proof.
  intros eps. destruct (sh_new eps) as (R0 & E & EF & U & W & T).
  destruct (learn_returns (O := RF) RF_ford lr_gt lr_se ex_hash false sh_gc (sh_cfg eps) R0 (projT2 R0) (sh_fts 0%nat) (LbCb 0%N (@f1 RF) (@f1 RF)) 256%N E (reach_refl _ _)) as (r & g1 & L & _);
    [exact U|reflexivity|apply sh_plain; lia|apply sh_below; lia|rewrite T; reflexivity|rewrite T; reflexivity| |discriminate|].
  { intros _. do 5 eexists. split; [reflexivity|]. split; [reflexivity|]. cbn [length]. lia. }
  assert (Q : reach false (projT2 R0) r) by (eapply reach_learn; [apply reach_refl|exact L]).
  destruct (predict_returns (O := RF) RF_ford lr_se ex_hash false sh_gc _ R0 r (sh_fts 0%nat) 256%N E Q) as (p & f' & P & Tp & _);
    [exact U|exact W|reflexivity|apply sh_plain; lia|apply sh_below; lia|rewrite T; reflexivity|intros _; discriminate|discriminate|].
  rewrite T in Tp. destruct p as [| | |q]; try discriminate. exists R0, r, g1, q, f'. repeat (split; [assumption|]). exact P.
Qed.

(** ** why the two conditions are there (binary32) *)
Definition tw_gc (inter : bool) : gconfig := mkGc 8 0 true (if inter then [[NDDefault; NDDefault]] else []).
Definition tw_hist : list (fop BF0) :=
  [FAdd 0 NsDefault 3%N f1; FAdd 0 NsDefault 7%N (@fl BF0 2);
   FAdd 1 NsDefault 7%N (@fl BF0 2); FAdd 1 NsDefault 3%N f1;
   FAdd 2 NsDefault 3%N f1; FAdd 2 NsDefault 3%N (@fl BF0 2);
   FAdd 3 NsDefault 3%N (@fl BF0 2); FAdd 3 NsDefault 3%N f1].
Definition tw_store : fstore BF0 := match fops_run false tw_hist fstore0 with Ok st => st | _ => fstore0 end.
(** train on the features in one order, ask for the features in another one *)
Definition tw_ask (inter : bool) (i j : nat) : option BF0 :=
  match ws_new ex_hash false (tw_gc inter) (CCoin (@coin_default BF0)) with
  | Ok R0 => match learn_all false (projT2 R0) [(FtsSimple (tw_store i), LbSimple f1 f1); (FtsSimple (tw_store i), LbSimple f1 f1)] with
             | Ok r => match ws_predict false r (FtsSimple (tw_store j)) with
                            | Ok (PrScalar _ p, _) => Some p
                            | _ => None end
             | _ => None end
  | _ => None end.
(** an interaction of a namespace with itself: the order matters *)
Lemma tw_self : tw_ask true 0 0 <> tw_ask true 0 1 /\ tw_ask false 0 0 = tw_ask false 0 1.
Proof. split; [vm_compute; discriminate|vm_compute; reflexivity]. Qed.
(** two features with the same index: the order of training matters *)
Lemma tw_twice : tw_ask false 2 2 <> tw_ask false 3 2 /\ tw_ask false 0 0 = tw_ask false 1 0.
Proof. split; [vm_compute; discriminate|vm_compute; reflexivity]. Qed.

(** Examples for C99. *)
From Coq Require Import List NArith ZArith Bool Lia Reals Lra Permutation.
From Verif Require Import Base FloatOps FloatR FloatB32 Model_Hash Model_Features Model_Weights Model_Loss Model_Interactions
  Model_Types Model_Explore Model_Coin Model_Stack Model_Factory Spec_Inter Spec_Foreach Spec_Features Spec_Coin Spec_Stack Spec_Total Spec_Reductions Spec_Values Spec_Empty Spec_Shuffle Spec_Merge Spec_Elem Spec_ElemStack Spec_Trained Spec_Unseen
  Proof_Features Proof_Weights Proof_Inter Proof_StackProps Proof_Total Proof_EmptyProps Proof_LearnEx Proof_FloatOrder Spec_Delegate Proof_StackRestore Proof_Shuffle Proof_ShuffleEx Proof_Builds Proof_MergeEx Proof_UnseenMore.
Import ListNotations.
Open Scope N_scope.

(** a context and two actions; the same with a new namespace in the context and a new feature in
    the second action *)
Definition us_hist : list (fop RF) :=
  [FAdd 0 (ex_ns 97) 3 (@f1 RF); FAdd 0 (ex_ns 97) 4 (@fl RF 2);
   FAdd 1 (ex_ns 97) 3 (@f1 RF); FAdd 1 (ex_ns 97) 4 (@fl RF 2); FAdd 1 (ex_ns 98) 50 (@fl RF 7);
   FAdd 2 NsDefault 5 (@f1 RF); FAdd 2 NsDefault 9 (@fl RF 3);
   FAdd 3 NsDefault 5 (@fl RF 2);
   FAdd 4 NsDefault 5 (@fl RF 2); FAdd 4 NsDefault 40 (@fl RF 2)].
Definition us_store : fstore RF := match fops_run false us_hist fstore0 with Ok st => st | _ => fstore0 end.
Definition us_fts (i : nat) : features RF := FtsCb (Some (us_store i)) [us_store 2%nat; us_store (i + 3)%nat].
Lemma us_built : forall i, built (us_store i).
Proof. intros i. exists false, us_hist, us_store, i. split; reflexivity. Qed.
Lemma us_sound : forall i, sound (us_store i).
Proof.
  intros i. split; [apply us_built|]. intros k s E _. apply fm_get_in in E.
  destruct i as [|[|[|[|[|i]]]]]; cbn in E; try contradiction; repeat (destruct E as [E|E]; [inversion E; reflexivity|]); contradiction.
Qed.
Lemma us_sound_fts : forall i, sound_fts (us_fts i).
Proof. intros i. split; [|apply us_sound]. intros a [<-|[<-|[]]]; apply us_sound. Qed.
Lemma us_plain : forall i, (i < 2)%nat -> plain (us_fts i).
Proof.
  intros i Hi. split.
  - split; [intros a [<-|[<-|[]]]; apply us_built|apply us_built].
  - assert (N0 : forall j, no_composite (us_store j)).
    { intros [|[|[|[|[|j]]]]] h s H; cbn in H; discriminate. }
    split; [intros a [<-|[<-|[]]]; apply N0|]. split; [apply N0|].
    intros a Ha. split; intros k H s Hs; exfalso; apply fm_get_in in Hs.
    + destruct i as [|[|i]]; try lia; destruct Ha as [<-|[<-|[]]]; repeat (destruct Hs as [Hs|Hs]; [inversion Hs; subst; apply H; reflexivity|]); destruct Hs.
    + destruct i as [|[|i]]; try lia; destruct Ha as [<-|[<-|[]]]; repeat (destruct Hs as [Hs|Hs]; [inversion Hs; subst; apply H; reflexivity|]); destruct Hs.
Qed.
Lemma us_below : forall i, (i < 2)%nat -> all_below (2 ^ 8) (us_fts i).
Proof.
  intros i Hi a Ha j v Hin. destruct i as [|[|i]]; try lia; cbn in Ha; destruct Ha as [<-|[<-|[<-|[]]]]; cbn in Hin;
    repeat (destruct Hin as [K|Hin]; [inversion K; reflexivity|]); contradiction.
Qed.
(** what the regressor is shown: the labelled action behind the context *)
Definition us_joined (a b : sfeats RF) : sfeats RF := match sf_append a b with Ok u => u | _ => a end.
Lemma us_joins : forall a b : sfeats RF, built a -> built b -> joined a b (us_joined a b).
Proof.
  intros a b Ba Bb. apply built_wf in Ba, Bb. destruct (append_get a b Ba Bb) as (u & E & W & G). unfold us_joined. rewrite E.
  split; [apply W|]. intros k. rewrite G. unfold sf_get. destruct (fm_get k b) as [y|]; [|reflexivity]. destruct (sfn_active y); [|reflexivity].
  unfold sfn_cat, item. destruct (fm_get k a) as [x|] eqn:Ea; [|reflexivity]. destruct Ba as (_ & Wa). destruct (Wa _ _ Ea) as (-> & _). reflexivity.
Qed.
Definition us_shown : sfeats RF := us_joined (us_store 0%nat) (us_store 2%nat).
Lemma us_new : forall eps : R, exists R0 : anyred RF, ws_new ex_hash false sh_gc (sh_cfg eps) = Ok R0 /\
  elem_free (projT1 R0) (projT2 R0) /\ uses_elem (projT2 R0) = false /\ uses_weighted (projT2 R0) = false /\
  red_types (projT2 R0) = td_explore /\ meets 0 _ (projT2 R0) (us_fts 0%nat) [us_shown].
Proof.
  intros eps. unfold ws_new, sh_cfg. cbn [create]. unfold coin_new. cbn [bind]. destruct (@dw_new_ok RF false 256 1 6) as (w & E & _); try lia.
  change (compile_interactions ex_hash (gc_seed sh_gc) (gc_inter sh_gc)) with (Ok ([(ex_ns 97, NsDefault)], @nil (namespace * namespace * namespace))). cbn [bind].
  change (bits_to_max_feature_index false (gc_bits sh_gc)) with (Ok 256%N : out N). cbn [bind cc_loss coin_default].
  rewrite E. cbn [bind]. eexists. split; [reflexivity|]. split; [|split; [reflexivity|split; [reflexivity|split; [reflexivity|]]]].
  - cbn. repeat split; discriminate.
  - cbn [projT1 projT2 meets snd fst]. exists (us_store 0%nat), [us_store 2%nat; us_store 3%nat], (us_store 2%nat), us_shown.
    split; [reflexivity|]. split; [reflexivity|]. split; [apply us_joins; apply us_built|]. cbn [finds]. exists us_shown. auto.
Qed.
Lemma us_like : forall (eps : R) (R0 : anyred RF), ws_new ex_hash false sh_gc (sh_cfg eps) = Ok R0 ->
  like_fts (bottom _ (projT2 R0)) (seen (bottom _ (projT2 R0)) (concat [[us_shown]])) (us_fts 0%nat) (us_fts 1%nat).
Proof.
  intros eps R0 E. destruct (new_good ex_hash sh_gc _ R0 _ E (reach_refl _ _)) as (_ & S & B & C).
  destruct (sorted_fun _ _ _ _ S [(ex_ns 97, NsDefault)] []) as (Ep & Et); [repeat constructor|].
  assert (SN : forall i, seen (bottom _ (projT2 R0)) (concat [[us_shown]]) i -> In i (map fst (match fe_list false us_shown [(ex_ns 97, NsDefault)] [] 8 true with Ok l => l | _ => [] end))).
  { intros i (t & Ht & (l & v & L & Hin)). rewrite Ep, Et, B, C in L. cbn [concat app] in Ht. destruct Ht as [<-|[]]. change (gc_bits sh_gc) with 8 in L. change (gc_const sh_gc) with true in L. rewrite L. apply in_map_iff. exists (i, v). auto. }
  split; [split; discriminate|]. repeat constructor; intros u v U V l k L K i Hi; apply SN in Hi; clear SN;
    rewrite Ep, Et, B, C in L, K; change (gc_bits sh_gc) with 8 in L, K; change (gc_const sh_gc) with true in L, K;
    vm_compute in U; inversion U; subst u; clear U; vm_compute in V; inversion V; subst v; clear V;
    vm_compute in L; inversion L; subst l; clear L; vm_compute in K; inversion K; subst k; clear K; vm_compute in Hi.
  all: repeat (destruct Hi as [<-|Hi]; [cbn [value_at N.eqb Pos.eqb]; lra|]); contradiction.
Qed.
Lemma us_example : forall eps : R, exists (R0 : anyred RF) r q g, ws_new ex_hash false sh_gc (sh_cfg eps) = Ok R0 /\
  elem_free (projT1 R0) (projT2 R0) /\ Forall2 (shows (projT2 R0)) [(us_fts 0%nat, LbCb 0 (@f1 RF) (@f1 RF))] [[us_shown]] /\
  learn_all false (projT2 R0) [(us_fts 0%nat, LbCb 0 (@f1 RF) (@f1 RF))] = Ok r /\
  like_fts (bottom _ (projT2 R0)) (seen (bottom _ (projT2 R0)) (concat [[us_shown]])) (us_fts 0%nat) (us_fts 1%nat) /\
  ws_predict false r (us_fts 0%nat) = Ok (PrProbs q, g).
Proof.
  intros eps. destruct (us_new eps) as (R0 & E & EF & U & W & T & M).
  destruct (learn_returns (O := RF) RF_ford lr_gt lr_se ex_hash false sh_gc (sh_cfg eps) R0 (projT2 R0) (us_fts 0%nat) (LbCb 0%N (@f1 RF) (@f1 RF)) 256%N E (reach_refl _ _)) as (r & g1 & L & _);
    [exact U|reflexivity|apply us_plain; lia|apply us_below; lia|rewrite T; reflexivity|rewrite T; reflexivity| |discriminate|].
  { intros _. do 5 eexists. split; [reflexivity|]. split; [reflexivity|]. cbn [length]. lia. }
  assert (Q : reach false (projT2 R0) r) by (eapply reach_learn; [apply reach_refl|exact L]).
  destruct (predict_returns (O := RF) RF_ford lr_se ex_hash false sh_gc _ R0 r (us_fts 0%nat) 256%N E Q) as (p & f' & P & Tp & _);
    [exact U|exact W|reflexivity|apply us_plain; lia|apply us_below; lia|rewrite T; reflexivity|intros _; discriminate|discriminate|].
  rewrite T in Tp. destruct p as [| | |q]; try discriminate. exists R0, r, q, f'. split; [exact E|]. split; [exact EF|].
  split; [constructor; [split; [apply (us_plain 0%nat); lia|exact M]|constructor]|]. split; [cbn [learn_all]; rewrite L; reflexivity|].
  split; [exact (us_like eps R0 E)|exact P].
Qed.

(** a regressor without interactions: one example, and the same with two new features *)
Definition ux_hist (O : FOps) : list (fop O) :=
  [FAdd 0 NsDefault 5 f1; FAdd 0 NsDefault 9 (fl 4);
   FAdd 1 NsDefault 5 f1; FAdd 1 NsDefault 40 (fl 2); FAdd 1 NsDefault 9 (fl 4); FAdd 1 (ex_ns 97) 41 (fl 3)].
Definition ux_store (O : FOps) : fstore O := match fops_run false (ux_hist O) fstore0 with Ok st => st | _ => fstore0 end.
Definition ux_fts (O : FOps) (i : nat) : features O := FtsSimple (ux_store O i).
Lemma ux_built : forall O i, built (ux_store O i).
Proof. intros O i. exists false, (ux_hist O), (ux_store O), i. split; reflexivity. Qed.
Lemma ux_sound : forall O i, sound (ux_store O i).
Proof.
  intros O i. split; [apply ux_built|]. intros k s E _. apply fm_get_in in E.
  destruct i as [|[|i]]; cbn in E; try contradiction; repeat (destruct E as [E|E]; [inversion E; reflexivity|]); contradiction.
Qed.
Lemma ux_plain : forall O i, (i < 2)%nat -> plain (ux_fts O i).
Proof. intros O i Hi. split; [apply ux_built|]. destruct i as [|[|i]]; try lia; intros h s E; cbn in E; discriminate. Qed.
Lemma ux_below : forall O i, (i < 2)%nat -> all_below (2 ^ 8) (ux_fts O i).
Proof.
  intros O i Hi a Ha j v Hin. destruct i as [|[|i]]; try lia; cbn in Ha; destruct Ha as [<-|[]]; cbn in Hin;
    repeat (destruct Hin as [K|Hin]; [inversion K; reflexivity|]); contradiction.
Qed.
Lemma ux_new : forall (O : FOps) dbg, exists R0 : anyred O, ws_new ex_hash dbg mx_gc (CCoin (@coin_default O)) = Ok R0 /\ elem_free (projT1 R0) (projT2 R0) /\
  uses_elem (projT2 R0) = false /\ uses_weighted (projT2 R0) = false /\ red_types (projT2 R0) = mkTd LTSimple None FTSimple None None PTScalar /\ uses_mtr (projT2 R0) = false /\ counters _ (projT2 R0) = [] /\
  Forall2 (shows (projT2 R0)) [(ux_fts O 0%nat, LbSimple f1 f1)] [[ux_store O 0%nat]].
Proof.
  intros O dbg. assert (BT : bits_to_max_feature_index dbg (gc_bits mx_gc) = Ok 256%N) by (destruct dbg; reflexivity). unfold ws_new. cbn [create]. unfold coin_new. destruct (@dw_new_ok O dbg 256 1 6) as (w & E & _); try lia.
  change (compile_interactions ex_hash (gc_seed mx_gc) (gc_inter mx_gc)) with (Ok (@nil (namespace * namespace), @nil (namespace * namespace * namespace))). cbn [bind].
  rewrite BT. cbn [bind cc_loss coin_default].
  rewrite E. cbn [bind]. eexists. split; [reflexivity|]. split; [exact Logic.I|]. do 5 (split; [reflexivity|]).
  constructor; [|constructor]. split; [apply ux_built|]. exists (ux_store O 0%nat). split; reflexivity.
Qed.
(** only the two features and the constant were seen *)
Lemma ux_seen : forall (O : FOps) H (R0 : anyred O) i, ws_new H false mx_gc (CCoin (@coin_default O)) = Ok R0 ->
  seen (bottom _ (projT2 R0)) (concat [[ux_store O 0%nat]]) i -> In i (map fst (match fe_list false (ux_store O 0%nat) [] [] 8 true with Ok l => l | _ => [] end)).
Proof.
  intros O H R0 i E (t & Ht & (l & v & L & Hin)). unfold ws_new in E. cbn [create] in E. binv E. inversion E; subst R0. cbn [projT1 projT2 bottom snd] in L.
  unfold coin_new in B. change (compile_interactions H (gc_seed mx_gc) (gc_inter mx_gc)) with (Ok (@nil (namespace * namespace), @nil (namespace * namespace * namespace))) in B. cbn [bind] in B.
  destruct (match cc_loss coin_default with LossSquared => _ | LossLogistic _ _ => _ end) as (mn & mx). binv B. binv B.
  inversion B; subst v0. cbn [co_pairs co_triples co_bits co_const] in L. cbn [concat app] in Ht. destruct Ht as [<-|[]].
  change (gc_bits mx_gc) with 8 in L. change (gc_const mx_gc) with true in L. rewrite L. apply in_map_iff. exists (i, v). auto.
Qed.
Lemma ux_same : forall R0 : anyred RF, ws_new ex_hash false mx_gc (CCoin (@coin_default RF)) = Ok R0 ->
  same_fts_on (seen (bottom _ (projT2 R0)) (concat [[ux_store RF 0%nat]])) (ux_fts RF 0%nat) (ux_fts RF 1%nat).
Proof.
  intros R0 E k i Hi. apply (ux_seen RF _ _ _ E) in Hi. vm_compute in Hi.
  unfold in_ns, ux_store. destruct k as [n|n|]; cbn -[value_at fl f1]; repeat match goal with |- context [if ?b then _ else _] => destruct b end;
    repeat (destruct Hi as [<-|Hi]; [cbn; lra|]); contradiction.
Qed.
Lemma ux_example : forall dbg, exists (R0 : anyred RF) r, ws_new ex_hash dbg mx_gc (CCoin (@coin_default RF)) = Ok R0 /\ elem_free (projT1 R0) (projT2 R0) /\
  Forall2 (shows (projT2 R0)) [(ux_fts RF 0%nat, LbSimple f1 f1)] [[ux_store RF 0%nat]] /\
  learn_all dbg (projT2 R0) [(ux_fts RF 0%nat, LbSimple f1 f1)] = Ok r /\
  same_fts_on (seen (bottom _ (projT2 R0)) (concat [[ux_store RF 0%nat]])) (ux_fts RF 0%nat) (ux_fts RF 1%nat) /\
  like_fts (bottom _ (projT2 R0)) (seen (bottom _ (projT2 R0)) (concat [[ux_store RF 0%nat]])) (ux_fts RF 0%nat) (ux_fts RF 1%nat) /\
  forall i, (i < 2)%nat -> exists p g, ws_predict dbg r (ux_fts RF i) = Ok (p, g).
Proof.
  intros dbg. assert (BT : bits_to_max_feature_index dbg (gc_bits mx_gc) = Ok 256%N) by (destruct dbg; reflexivity).
  destruct (ux_new RF dbg) as (R0 & E & EF & U & W & T & Mt & Ct & F).
  assert (E' : ws_new ex_hash false mx_gc (CCoin (@coin_default RF)) = Ok R0).
  { destruct dbg; [|exact E]. pose proof (ag_wnew (O:=RF) ex_hash mx_gc (CCoin (@coin_default RF))) as A. rewrite E in A. exact A. }
  destruct (learn_returns (O := RF) RF_ford lr_gt lr_se ex_hash dbg mx_gc _ R0 (projT2 R0) (ux_fts RF 0%nat) (LbSimple (@f1 RF) (@f1 RF)) 256%N E (reach_refl _ _)) as (r & g1 & L & _);
    [exact U|exact BT|apply ux_plain; lia|apply ux_below; lia|rewrite T; reflexivity|rewrite T; reflexivity| | |].
  2:{ intros _. split; [exact Logic.I|]. split; [|intros ? ? ? ? ?; reflexivity]. rewrite Ct. intros ? []. }
  { intros C. rewrite Mt in C. discriminate C. }
  assert (Q : reach dbg (projT2 R0) r) by (eapply reach_learn; [apply reach_refl|exact L]).
  exists R0, r. split; [exact E|]. split; [exact EF|]. split; [exact F|]. split; [cbn [learn_all]; rewrite L; reflexivity|]. split; [exact (ux_same R0 E')|]. split.
  { apply (same_like ex_hash mx_gc); [exact (new_good ex_hash mx_gc _ R0 _ E' (reach_refl _ _))|reflexivity|apply ux_sound|apply ux_sound|exact (ux_same R0 E')]. }
  intros i Hi.
  destruct (predict_returns (O := RF) RF_ford lr_se ex_hash dbg mx_gc _ R0 r (ux_fts RF i) 256%N E Q) as (p & f' & P & Tp & _);
    [exact U|exact W|exact BT|apply ux_plain; lia|apply ux_below; lia|rewrite T; reflexivity|intros C; rewrite T in C; discriminate C|intros _ ? ? ? ? ?; reflexivity|]. eauto.
Qed.
(** single precision: the example with the new features, and without them *)
Definition ux_list (i : nat) : list (N * BF0) := match fe_list false (ux_store BF0 i) [] [] 8 true with Ok l => l | _ => [] end.
Lemma ux_single : exists (R0 : anyred BF0) r y q g, ws_new ex_hash false mx_gc (CCoin (@coin_default BF0)) = Ok R0 /\
  Forall2 (shows (projT2 R0)) [(ux_fts BF0 0%nat, LbSimple f1 f1); (ux_fts BF0 0%nat, LbSimple f1 f1)] [[ux_store BF0 0%nat]; [ux_store BF0 0%nat]] /\
  learn_all false (projT2 R0) [(ux_fts BF0 0%nat, LbSimple f1 f1); (ux_fts BF0 0%nat, LbSimple f1 f1)] = Ok r /\ below (2 ^ 8) (ux_store BF0 1%nat) /\
  (let c := bottom _ (projT2 R0) in
   (forall i, (i < 2)%nat -> fe_list false (ux_store BF0 i) (co_pairs c) (co_triples c) (co_bits c) (co_const c) = Ok (ux_list i)) /\
   leaves_out (seen c (concat [[ux_store BF0 0%nat]; [ux_store BF0 0%nat]])) (ux_list 1%nat) (ux_list 0%nat)) /\
  ws_predict false r (ux_fts BF0 1%nat) = Ok (PrScalar y q, g) /\ f_eqb BF0 q f0 = false.
Proof.
  destruct (ux_new BF0 false) as (R0 & E & _ & _ & _ & _ & _ & _ & F0).
  assert (F : Forall2 (shows (projT2 R0)) [(ux_fts BF0 0%nat, LbSimple f1 f1); (ux_fts BF0 0%nat, LbSimple f1 f1)] [[ux_store BF0 0%nat]; [ux_store BF0 0%nat]]) by (inversion F0; subst; constructor; assumption).
  assert (S : forall i, seen (bottom _ (projT2 R0)) (concat [[ux_store BF0 0%nat]; [ux_store BF0 0%nat]]) i -> In i (map fst (ux_list 0%nat))) by (intros i (t & Ht & Ut); apply (ux_seen BF0 ex_hash R0 i E); exists t; split; [cbn in *; tauto|exact Ut]).
  assert (C : match ws_new ex_hash false mx_gc (CCoin (@coin_default BF0)) with
    | Ok R1 => match learn_all false (projT2 R1) [(ux_fts BF0 0%nat, LbSimple f1 f1); (ux_fts BF0 0%nat, LbSimple f1 f1)] with
        | Ok r => match ws_predict false r (ux_fts BF0 1%nat) with Ok (PrScalar _ q, _) => negb (f_eqb BF0 q f0) | _ => false end
        | _ => false end
    | _ => false end = true) by (vm_compute; reflexivity).
  rewrite E in C. destruct (learn_all false (projT2 R0) [(ux_fts BF0 0%nat, LbSimple f1 f1); (ux_fts BF0 0%nat, LbSimple f1 f1)]) as [r|?|?] eqn:L; try discriminate.
  destruct (ws_predict false r (ux_fts BF0 1%nat)) as [([y q| | |] & g)|?|?] eqn:P; try discriminate.
  exists R0, r, y, q, g. split; [exact E|]. split; [exact F|]. split; [exact L|]. split; [apply (ux_below BF0 1%nat); [lia|now left]|].
  split; [|split; [exact P|now destruct (f_eqb BF0 q f0)]]. split.
  - intros i Hi. clear -E Hi. unfold ws_new in E. cbn [create] in E. binv E. inversion E; subst R0. cbn [projT1 projT2 bottom snd].
    unfold coin_new in B. change (compile_interactions ex_hash (gc_seed mx_gc) (gc_inter mx_gc)) with (Ok (@nil (namespace * namespace), @nil (namespace * namespace * namespace))) in B. cbn [bind] in B.
    destruct (match cc_loss coin_default with LossSquared => _ | LossLogistic _ _ => _ end) as (mn & mx). binv B. binv B.
    inversion B; subst v. cbn [co_pairs co_triples co_bits co_const]. destruct i as [|[|i]]; try lia; reflexivity.
  - assert (K : map fst (ux_list 0%nat) = [5; 9; 128]) by (vm_compute; reflexivity). rewrite K in S.
    set (D := seen (bottom _ (projT2 R0)) (concat [[ux_store BF0 0%nat]; [ux_store BF0 0%nat]])) in *. clearbody D. clear -S.
    let x := eval vm_compute in (ux_list 1%nat) in change (ux_list 1%nat) with x.
    let x := eval vm_compute in (ux_list 0%nat) in change (ux_list 0%nat) with x.
    repeat first [apply lo_nil | apply lo_keep | apply lo_drop; [intros Q; apply S in Q; cbn in Q; intuition discriminate|reflexivity|reflexivity|]].
Qed.

(** Examples for C87. *)
From Coq Require Import List NArith ZArith Bool Lia Reals Lra.
From Verif Require Import Base FloatOps FloatR FloatB32 Model_Hash Model_Features Model_Weights Model_Loss Model_Interactions
  Model_Types Model_Explore Model_Coin Model_Stack Model_Factory Spec_Foreach Spec_Features Spec_Stack Spec_Total Spec_Reductions Spec_Values Spec_Empty Spec_Context
  Proof_Features Proof_Weights Proof_StackProps Proof_Total Proof_EmptyProps Proof_LearnEx Proof_FloatOrder Spec_Delegate Proof_Context.
Import ListNotations.

(** ** exact arithmetic: an interaction within the actions only *)
Definition ct_gc : gconfig := mkGc 4 0 true [[NDDefault; NDDefault]].
(** two contexts, with one feature each, and two actions *)
Definition ct_hist : list (fop RF) :=
  [FAdd 0 (NsNamed 7) 3%N (@f1 RF); FAdd 1 (NsNamed 7) 4%N (@fl RF 2); FAdd 2 NsDefault 5%N (@f1 RF); FAdd 2 NsDefault 9%N (@f1 RF); FAdd 3 NsDefault 6%N (@fl RF 2)].
Definition ct_store : fstore RF := match fops_run false ct_hist fstore0 with Ok st => st | _ => fstore0 end.
Definition ct_acts : list (sfeats RF) := [ct_store 2%nat; ct_store 3%nat].
Definition ct_fts (i : nat) : features RF := FtsCb (Some (ct_store i)) ct_acts.
Lemma ct_built : forall i, built (ct_store i).
Proof. intros i. exists false, ct_hist, ct_store, i. split; reflexivity. Qed.
Lemma ct_sound : forall i, sound (ct_store i).
Proof.
  intros i. split; [apply ct_built|]. intros k s E _. apply fm_get_in in E.
  destruct i as [|[|[|[|i]]]]; cbn in E; try contradiction; destruct E as [E|[]]; inversion E; reflexivity.
Qed.
Lemma ct_sound_fts : forall i, sound_fts (ct_fts i).
Proof. intros i. split; [|apply ct_sound]. intros a [<-|[<-|[]]]; apply ct_sound. Qed.
Lemma ct_uncoupled : forall i, (i < 2)%nat -> uncoupled ex_hash ct_gc (Some (ct_store i)) ct_acts.
Proof.
  intros i Hi. constructor; [|constructor]. left. intros d [<-|[<-|[]]]; destruct i as [|[|i]]; try lia; reflexivity.
Qed.
Lemma ct_plain : forall i, (i < 2)%nat -> plain (ct_fts i).
Proof.
  intros i Hi. split.
  - split; [intros a [<-|[<-|[]]]; apply ct_built|apply ct_built].
  - assert (N0 : forall j, no_composite (ct_store j)).
    { intros [|[|[|[|j]]]] h s H; cbn in H; discriminate. }
    split; [intros a [<-|[<-|[]]]; apply N0|]. split; [apply N0|].
    intros a Ha. split; intros k H s Hs; exfalso; apply fm_get_in in Hs.
    + destruct i as [|[|i]]; try lia; destruct Ha as [<-|[<-|[]]]; destruct Hs as [Hs|[]]; inversion Hs; subst; apply H; reflexivity.
    + destruct i as [|[|i]]; try lia; destruct Ha as [<-|[<-|[]]]; destruct Hs as [Hs|[]]; inversion Hs; subst; apply H; reflexivity.
Qed.
Lemma ct_below : forall i, (i < 2)%nat -> all_below 16 (ct_fts i).
Proof.
  intros i Hi a Ha j v Hin. destruct i as [|[|i]]; try lia; cbn in Ha; destruct Ha as [<-|[<-|[<-|[]]]]; cbn in Hin;
    repeat (destruct Hin as [K|Hin]; [inversion K; reflexivity|]); contradiction.
Qed.

Definition ct_cfg (eps : R) : rcfg RF := CGreedy (eps : RF) (CDebug (CCbAdf Mtr (CCoin (@coin_default RF)))).
Lemma ct_new : forall eps : R, exists R0 : anyred RF, ws_new ex_hash false ct_gc (ct_cfg eps) = Ok R0 /\
  elem_free (projT1 R0) (projT2 R0) /\ uses_elem (projT2 R0) = false /\ uses_weighted (projT2 R0) = false /\
  red_types (projT2 R0) = td_explore.
Proof.
  intros eps. unfold ws_new, ct_cfg. cbn [create]. unfold coin_new. cbn [bind]. destruct (@dw_new_ok RF false 16 1 6) as (w & E & _); try lia.
  change (compile_interactions ex_hash (gc_seed ct_gc) (gc_inter ct_gc)) with (Ok ([(NsDefault, NsDefault)], @nil (namespace * namespace * namespace))). cbn [bind].
  change (bits_to_max_feature_index false (gc_bits ct_gc)) with (Ok 16%N : out N). cbn [bind cc_loss coin_default].
  rewrite E. cbn [bind]. eexists. split; [reflexivity|]. split; [|repeat split; reflexivity].
  cbn [projT1 projT2 elem_free fst snd]. repeat split; intros; discriminate.
Qed.
(** trained in the first context, asked in both *)
Lemma ct_example : forall eps : R, exists (R0 : anyred RF) r h1 q q' g g', ws_new ex_hash false ct_gc (ct_cfg eps) = Ok R0 /\
  elem_free (projT1 R0) (projT2 R0) /\
  ws_learn false (projT2 R0) (ct_fts 0) (LbCb 0%N (@f1 RF) (@f1 RF)) = Ok (r, h1) /\ reach false (projT2 R0) r /\
  ws_predict false r (ct_fts 0) = Ok (PrProbs q, g) /\ ws_predict false r (ct_fts 1) = Ok (PrProbs q', g').
Proof.
  intros eps. destruct (ct_new eps) as (R0 & E & EF & U & W & T).
  destruct (learn_returns (O := RF) RF_ford lr_gt lr_se ex_hash false ct_gc (ct_cfg eps) R0 (projT2 R0) (ct_fts 0) (LbCb 0%N (@f1 RF) (@f1 RF)) 16%N E (reach_refl _ _)) as (r & g1 & L & _);
    [exact U|reflexivity|apply ct_plain; lia|apply ct_below; lia|rewrite T; reflexivity|rewrite T; reflexivity| |discriminate|].
  { intros _. do 5 eexists. split; [reflexivity|]. split; [reflexivity|]. cbn [length ct_acts]. lia. }
  assert (Q : reach false (projT2 R0) r) by (eapply reach_learn; [apply reach_refl|exact L]).
  assert (P : forall i, (i < 2)%nat -> exists q g, ws_predict false r (ct_fts i) = Ok (PrProbs q, g)).
  { intros i Hi. destruct (predict_returns (O := RF) RF_ford lr_se ex_hash false ct_gc _ R0 r (ct_fts i) 16%N E Q) as (p & f' & P & Tp & _);
      [exact U|exact W|reflexivity|now apply ct_plain|now apply ct_below|rewrite T; reflexivity|intros _; discriminate|discriminate|].
    rewrite T in Tp. destruct p; try discriminate. eauto. }
  destruct (P 0%nat) as (q & g & P0); [lia|]. destruct (P 1%nat) as (q' & g' & P1); [lia|].
  exists R0, r, g1, q, q', g, g'. repeat (split; [assumption|]). exact P1.
Qed.

(** ** binary32: the interaction of the context with the actions *)
Definition pz_gc (inter : bool) : gconfig := mkGc 8 0 true (if inter then [[NDName [97%N]; NDName [98%N]]] else []).
Definition pz_hist : list (fop BF0) :=
  [FAdd 0 (Proof_StackProps.ex_ns 97) 3%N f1; FAdd 1 (Proof_StackProps.ex_ns 97) 4%N f1; FAdd 2 (Proof_StackProps.ex_ns 98) 5%N f1; FAdd 3 (Proof_StackProps.ex_ns 98) 6%N f1].
Definition pz_store : fstore BF0 := match fops_run false pz_hist fstore0 with Ok st => st | _ => fstore0 end.
Definition pz_fts (i : nat) : features BF0 := FtsCb (Some (pz_store i)) [pz_store 2%nat; pz_store 3%nat].
Definition pz_ex (i : nat) (a : N) (c : Z) : features BF0 * label BF0 := (pz_fts i, LbCb a (@fl BF0 c) (f_lit BF0 1 2)).
(** the first action is free in the first context, the second one in the second *)
Definition pz_round : list (features BF0 * label BF0) := [pz_ex 0 0 0; pz_ex 0 1 1; pz_ex 1 0 1; pz_ex 1 1 0].
Definition pz_log : list (features BF0 * label BF0) := pz_round ++ pz_round ++ pz_round.
Definition pz_first (inter : bool) (i : nat) : option bool :=
  match ws_new ex_hash false (pz_gc inter) (CCbAdf Mtr (CCoin (@coin_default BF0))) with
  | Ok R0 => match learn_all false (projT2 R0) pz_log with
             | Ok r => match ws_predict false r (pz_fts i) with
                       | Ok (PrScores [(_, x); (_, y)], _) => Some (f_ltb BF0 x y)
                       | _ => None end
             | _ => None end
  | _ => None end.
(** with the interaction the cheaper action of each context has the lower score; without it
    the same action has the lower score in both *)
Lemma pz_example : pz_first true 0 = Some true /\ pz_first true 1 = Some false /\
  pz_first false 0 = Some true /\ pz_first false 1 = Some true.
Proof. vm_compute. repeat split. Qed.

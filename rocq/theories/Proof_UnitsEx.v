(** Examples for C91 and C92. *)
From Coq Require Import List NArith ZArith Bool Lia Reals Lra.
From Verif Require Import Base FloatOps FloatR FloatB32 Model_Hash Model_Features Model_Weights Model_Loss Model_Interactions
  Model_Types Model_Explore Model_Coin Model_Stack Model_Factory Spec_Inter Spec_Foreach Spec_Features Spec_Stack Spec_Total Spec_Reductions Spec_Values Spec_Save Spec_Empty Spec_Delegate Spec_Units
  Proof_Features Proof_Weights Proof_StackRestore Proof_StackProps Proof_Total Proof_EmptyProps Proof_LearnEx Proof_FloatOrder Proof_ShuffleEx Proof_StackTwo Proof_Retell Proof_Units.
Import ListNotations.

(** features made by the operations of the interface have as many indices as values *)
Lemma built_paired : forall (O : FOps) (a : sfeats O), built a -> paired a.
Proof.
  intros O a Ba k s E. apply built_wf in Ba. destruct Ba as (So & W). apply fm_in_get in E; auto. apply W in E. apply E.
Qed.

(** ** exact arithmetic: a context and two actions, greedy exploration *)
Definition un_gc : gconfig := mkGc 8 0 true [].
Definition un_u (i : N) : R := if N.eqb i 3 then 100%R else if N.eqb i 5 then (-2)%R else 1%R.
Lemma un_nonzero : forall i, un_u i <> 0%R.
Proof. intros i. unfold un_u. destruct (N.eqb i 3); [lra|]. destruct (N.eqb i 5); lra. Qed.
Lemma un_const : gc_const un_gc = true -> un_u (2 ^ gc_bits un_gc / 2) = 1%R.
Proof. reflexivity. Qed.
Definition un_calls : list (call RF) :=
  [AskLearn (sh_fts 0) (LbCb 0%N (@f1 RF) (@f1 RF)); AskPredict (sh_fts 0)].
Lemma un_paired : Forall paired_call un_calls.
Proof.
  assert (P : forall i, paired_fts (sh_fts i)).
  { intros i. split; [|apply built_paired, sh_built]. intros a [<-|[<-|[]]]; apply built_paired, sh_built. }
  repeat constructor; apply P.
Qed.
Lemma un_new : forall eps : R, exists R0 : anyred RF, ws_new ex_hash false un_gc (sh_cfg eps) = Ok R0 /\
  elem_free (projT1 R0) (projT2 R0) /\ uses_elem (projT2 R0) = false /\ uses_weighted (projT2 R0) = false /\
  red_types (projT2 R0) = td_explore.
Proof.
  intros eps. unfold ws_new, sh_cfg. cbn [create]. unfold coin_new. cbn [bind]. destruct (@dw_new_ok RF false 256 1 6) as (w & E & _); try lia.
  change (compile_interactions ex_hash (gc_seed un_gc) (gc_inter un_gc)) with (Ok (@nil (namespace * namespace), @nil (namespace * namespace * namespace))). cbn [bind].
  change (bits_to_max_feature_index false (gc_bits un_gc)) with (Ok 256%N : out N). cbn [bind cc_loss coin_default].
  rewrite E. cbn [bind]. eexists. split; [reflexivity|]. split; [|repeat split; reflexivity].
  cbn [projT1 projT2 elem_free fst snd]. repeat split; intros; discriminate.
Qed.
Lemma un_example : forall eps : R, exists (R0 : anyred RF) h1 q g, ws_new ex_hash false un_gc (sh_cfg eps) = Ok R0 /\
  elem_free (projT1 R0) (projT2 R0) /\
  answers false (projT2 R0) un_calls = [AnsFeatures None h1; AnsFeatures (Some (PrProbs q)) g].
Proof.
  intros eps. destruct (un_new eps) as (R0 & E & EF & U & W & T).
  destruct (learn_returns (O := RF) RF_ford lr_gt lr_se ex_hash false un_gc (sh_cfg eps) R0 (projT2 R0) (sh_fts 0%nat) (LbCb 0%N (@f1 RF) (@f1 RF)) 256%N E (reach_refl _ _)) as (r & g1 & L & _);
    [exact U|reflexivity|apply sh_plain; lia|apply sh_below; lia|rewrite T; reflexivity|rewrite T; reflexivity| |discriminate|].
  { intros _. do 5 eexists. split; [reflexivity|]. split; [reflexivity|]. cbn [length]. lia. }
  assert (Q : reach false (projT2 R0) r) by (eapply reach_learn; [apply reach_refl|exact L]).
  destruct (predict_returns (O := RF) RF_ford lr_se ex_hash false un_gc _ R0 r (sh_fts 0%nat) 256%N E Q) as (p & f' & P & Tp & _);
    [exact U|exact W|reflexivity|apply sh_plain; lia|apply sh_below; lia|rewrite T; reflexivity|intros _; discriminate|discriminate|].
  rewrite T in Tp. destruct p as [| | |q]; try discriminate. exists R0, g1, q, f'. split; [exact E|]. split; [exact EF|].
  unfold un_calls. cbn [answers]. rewrite L. rewrite P. reflexivity.
Qed.
(** the two features are really told in another way *)
Lemma un_differ : retell (fun i => i) (uva un_u) (sh_store 0%nat) = [(ex_ns 97, mkSfn (ex_ns 97) [3%N; 4%N] [100%R; 2%R] true)].
Proof.
  change (retell (fun i => i) (uva un_u) (sh_store 0%nat)) with
    [(ex_ns 97, mkSfn (ex_ns 97) [3%N; 4%N] [uva un_u 3 (@f1 RF); uva un_u 4 (@fl RF 2)] true)].
  rewrite RF_f1, RF_fl. unfold uva. change (un_u 3) with 100%R. change (un_u 4) with 1%R. now rewrite Rmult_1_r, Rmult_1_l.
Qed.

(** ** binary32 *)
Definition un_hist (s : Z) : list (fop BF0) :=
  [FAdd 0 NsDefault 3%N (@fl BF0 s); FAdd 0 NsDefault 7%N (@fl BF0 2); FAdd 1 NsDefault 7%N (@fl BF0 1); FAdd 1 NsDefault 9%N (@fl BF0 3)].
Definition un_store (s : Z) : fstore BF0 := match fops_run false (un_hist s) fstore0 with Ok st => st | _ => fstore0 end.
Definition un_bcalls (s : Z) : list (call BF0) :=
  [AskLearn (FtsSimple (un_store s 0%nat)) (LbSimple f1 f1); AskBoth (FtsSimple (un_store s 1%nat)) (LbSimple f0 f1); AskPredict (FtsSimple (un_store s 0%nat)); AskSensitivity (FtsSimple (un_store s 0%nat))].
Definition un_preds (x : list (answer BF0)) : list (option BF0) :=
  map (fun a => match a with AnsFeatures (Some (PrScalar _ p)) _ => Some p | AnsNumber p => Some p | _ => None end) x.
Definition un_run (cs : list (call BF0)) : list (option BF0) :=
  match ws_new ex_hash false un_gc (CCoin (@coin_default BF0)) with Ok R0 => un_preds (answers false (projT2 R0) cs) | _ => [] end.
Definition un_swap (i : N) : N := if N.eqb i 3 then 200%N else if N.eqb i 200 then 3%N else i.
Definition un_merge (i : N) : N := if N.eqb i 3 then 7%N else i.

Definition un_last (l : list (option BF0)) : option BF0 := last l None.
(** units matter for the sensitivity *)
Lemma un_sens : removelast (un_run (un_bcalls 1)) = removelast (un_run (un_bcalls 3)) /\ un_last (un_run (un_bcalls 1)) <> un_last (un_run (un_bcalls 3)) /\
  nth 2 (un_run (un_bcalls 1)) None <> Some f0 /\ nth 2 (un_run (un_bcalls 1)) None <> None.
Proof. vm_compute. repeat split; discriminate. Qed.
(** another index changes nothing, the same index for two features does *)
Lemma un_renamed : un_run (map (retell_call un_swap (fun _ x => x)) (un_bcalls 3)) = un_run (un_bcalls 3) /\
  un_run (map (retell_call un_merge (fun _ x => x)) (un_bcalls 3)) <> un_run (un_bcalls 3).
Proof. split; [vm_compute; reflexivity|vm_compute; discriminate]. Qed.
Lemma un_renaming : renaming un_gc un_swap.
Proof.
  change (2 ^ gc_bits un_gc)%N with 256%N in *. unfold renaming. cbn [gc_bits un_gc]. change (2 ^ 8)%N with 256%N. split; [|split].
  - intros i j. unfold un_swap. destruct (N.eqb_spec i 3), (N.eqb_spec j 3), (N.eqb_spec i 200), (N.eqb_spec j 200); lia.
  - intros i. unfold un_swap. destruct (N.eqb_spec i 3), (N.eqb_spec i 200); lia.
  - reflexivity.
Qed.
Lemma un_any : Forall paired_any (un_bcalls 3).
Proof.
  assert (P : forall i, paired_fts (FtsSimple (un_store 3 i))).
  { intros i. apply built_paired. exists false, (un_hist 3), (un_store 3), i. split; reflexivity. }
  repeat constructor; apply P.
Qed.
Lemma un_new_b : exists R0, ws_new ex_hash false un_gc (CCoin (@coin_default BF0)) = Ok R0 /\ elem_free (projT1 R0) (projT2 R0).
Proof. eexists. split; [vm_compute; reflexivity|]. exact Logic.I. Qed.

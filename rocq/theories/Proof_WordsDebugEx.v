(** Debug runs over the lines of Proof_WordsEx (C98). *)
From Coq Require Import List NArith ZArith PeanoNat Bool Lia Permutation Reals Lra.
From Verif Require Import Base FloatOps FloatR FloatB32 Model_Hash Model_Features Model_Weights Model_Loss Model_Interactions
  Model_Types Model_Explore Model_Coin Model_Stack Model_Factory Model_Text Model_Metrics Model_Train Model_Json Model_JsonTrain Model_Save Model_Command
  Spec_Foreach Spec_Features Spec_Stack Spec_Reductions Spec_Total Spec_Text Spec_Json Spec_JsonLabel Spec_Command Spec_Formats Proof_Train Spec_Order Spec_Inter Spec_Empty Spec_Delegate Spec_Shuffle Spec_Merge Spec_Words
  Proof_Features Proof_Weights Proof_FloatOrder Proof_Inter Proof_StackProps Proof_Pieces Proof_Command Proof_CommandEx Proof_Total Proof_TextRead Proof_TextParse Proof_TextChunk Proof_JsonTrain Proof_LearnEx Proof_UnbiasedEx Proof_ShuffleEx
  Proof_WordsEx.
Import ListNotations.
Open Scope N_scope.

Definition wd_dhist (i : nat) : list (fop RF) :=
  match i with
  | 0%nat => [FAdd 0 (NsNamed 97) 55 (f_mul RF f1 f1); FAdd 0 (NsNamed 97) 56 wd_two; FAdd 0 NsDefault 117 (f_mul RF f1 f1)]
  | _ => [FAdd 0 NsDefault 117 (f_mul RF f1 f1); FAdd 0 (NsNamed 97) 56 wd_two; FAdd 0 (NsNamed 97) 55 (f_mul RF f1 f1)]
  end.
Definition wd_dstore (i : nat) : fstore RF := match fops_run false (wd_dhist i) fstore0 with Ok st => st | _ => fstore0 end.
Definition wd_dfts (i : nat) : features RF := FtsSimple (wd_dstore i 0%nat).
Lemma wd_dparse : forall i, (i < 2)%nat -> parse_chunk ex_hash wd_pf true 0 8 FTSimple LTSimple [] (wd_line i) = Ok (wd_dfts i, Some (LbSimple f1 f1)).
Proof. intros [|[|i]] Hi; try lia; vm_compute; reflexivity. Qed.
Lemma wd_dplain : forall i, (i < 2)%nat -> plain (wd_dfts i).
Proof.
  intros i Hi. split; [exists false, (wd_dhist i), (wd_dstore i), 0%nat; split; [destruct i as [|[|i]]; try lia; reflexivity|reflexivity]|].
  destruct i as [|[|i]]; try lia; intros h s E; cbn in E; discriminate.
Qed.
Lemma wd_dbelow : forall i, (i < 2)%nat -> all_below 256 (wd_dfts i).
Proof.
  intros [|[|i]] Hi; try lia; intros a Ha j v Hin; cbn in Ha; destruct Ha as [<-|[]]; cbn in Hin; repeat (destruct Hin as [K|Hin]; [inversion K; reflexivity|]); contradiction.
Qed.
Lemma wd_dnew : exists R0 : anyred RF, ws_new ex_hash true sh_gc wd_cfg = Ok R0 /\
  uses_elem (projT2 R0) = false /\ uses_mtr (projT2 R0) = false /\ types_of (projT2 R0) = (FTSimple, LTSimple) /\
  forall k, has_room k (counters _ (projT2 R0)).
Proof.
  unfold ws_new, wd_cfg. cbn [create]. unfold coin_new. cbn [bind]. destruct (@dw_new_ok RF true 256 1 6) as (w & E & _); try lia.
  change (compile_interactions ex_hash (gc_seed sh_gc) (gc_inter sh_gc)) with (Ok ([(NsNamed 97, NsDefault)], @nil (namespace * namespace * namespace))). cbn [bind].
  change (bits_to_max_feature_index true (gc_bits sh_gc)) with (Ok 256%N : out N). cbn [bind cc_loss coin_default].
  rewrite E. cbn [bind]. eexists. split; [reflexivity|]. repeat split. intros k x [].
Qed.
Lemma wd_debug : forall i, (i < 2)%nat -> exists rep,
  train_command ex_hash wd_pf wd_rd ex_al true wd_opts (FromConfig sh_gc wd_cfg) (wd_line i) = Ok rep.
Proof.
  intros i Hi. destruct wd_dnew as (R0 & E & U & M & TT & HR). destruct R0 as (n & r). cbn [projT1 projT2] in *.
  assert (CH : chunks_of FmtText r (wd_line i) = Some [wd_line i]).
  { cbn [chunks_of].
    change (all_chunks (S (length (wd_line i))) (is_multiline (fst (types_of r)) (snd (types_of r))) (wd_line i) = Some [wd_line i]).
    rewrite TT. destruct i as [|[|i]]; try lia; vm_compute; reflexivity. }
  assert (PS : text_parser ex_hash wd_pf true 0 8 r [] (wd_line i) = Ok (wd_dfts i, Some (LbSimple f1 f1))).
  { unfold text_parser. change (td_in_feats (red_types r)) with (fst (types_of r)). change (td_in_label (red_types r)) with (snd (types_of r)). rewrite TT. exact (wd_dparse i Hi). }
  destruct (learn_returns (O := RF) RF_ford lr_gt lr_se ex_hash true sh_gc wd_cfg (existT _ n r) r (wd_dfts i) (LbSimple f1 f1) 256%N E (reach_refl _ _)) as (r' & g1 & L & _);
    [exact U|reflexivity|exact (wd_dplain i Hi)|exact (wd_dbelow i Hi)|symmetry; exact (f_equal fst TT)|symmetry; exact (f_equal snd TT)|intros X; exact (False_ind _ (eq_true_false_abs _ X M))| |].
  { intros _. split; [exact Logic.I|]. split; [exact (HR _)|]. intros a Ha j v Hin. reflexivity. }
  cbn [projT1 projT2] in L, r'. eexists.
  unfold train_command. cbn [open_source]. rewrite E. cbn [bind fst snd projT1 projT2]. unfold train_from. change (op_format wd_opts) with FmtText. cbn [get_parser bind fst snd].
  unfold train_start. cbn [op_metrics wd_opts mapm op_period]. change (@get_metric RF name_example) with (Some (@MExample RF 0)). cbn [opt_or bind mapm]. rewrite CH. cbn [opt_or bind].
  unfold train_loop. cbn [foldm]. unfold train_chunk at 1. cbn [fst snd]. change (gc_seed sh_gc) with 0. change (gc_bits sh_gc) with 8. rewrite PS. cbn [unwrap_res bind fst snd].
  unfold process_example. change (op_mode wd_opts) with (mkMode true false). cbn [opt_or bind op_mode tm_quiet tm_preds negb orb t_red]. rewrite L. cbn [bind fst snd]. unfold train_end. cbn [tm_quiet bind fst]. reflexivity.
Qed.

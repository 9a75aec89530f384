(** Lines with the words in another order, and given twice (C98). *)
From Coq Require Import List NArith ZArith PeanoNat Bool Lia Permutation Reals Lra.
From Verif Require Import Base FloatOps FloatR FloatB32 Model_Hash Model_Features Model_Weights Model_Loss Model_Interactions
  Model_Types Model_Explore Model_Coin Model_Stack Model_Factory Model_Text Model_Metrics Model_Train Model_Json Model_JsonTrain Model_Save Model_Command
  Spec_Foreach Spec_Features Spec_Stack Spec_Reductions Spec_Total Spec_Text Spec_Json Spec_JsonLabel Spec_Command Spec_Formats Proof_Train Spec_Order Spec_Inter Spec_Empty Spec_Delegate Spec_Shuffle Spec_Merge Spec_Words
  Proof_Features Proof_Weights Proof_FloatOrder Proof_Inter Proof_StackProps Proof_Pieces Proof_Command Proof_CommandEx Proof_Total Proof_TextRead Proof_TextParse Proof_TextChunk Proof_JsonTrain Proof_LearnEx Proof_UnbiasedEx Proof_ShuffleEx.
Import ListNotations.
Open Scope N_scope.

Definition wd_pf (s : str) : option RF := match s with [49] => Some f1 | [50] => Some (@fl RF 2) | _ => None end.
Definition wd_rd (s : str) : option (json RF) := None.
Definition wd_x : str * (str * option str) := ([32], ([120], None)).
Definition wd_y2 : str * (str * option str) := ([32], ([121], Some [50])).
Definition wd_y : str * (str * option str) := ([32], ([121], None)).
Definition wd_u : str * (str * option str) := ([32], ([117], None)).
(* "|a x y:2 | u"   "| u|a y:2 |a x"   "|a x y y | u" *)
Definition wd_ns (i : nat) : list tns :=
  match i with
  | 0%nat => [mkTns (Some ([97], None)) [wd_x; wd_y2] [32]; mkTns None [wd_u] []]
  | 1%nat => [mkTns None [wd_u] []; mkTns (Some ([97], None)) [wd_y2] [32]; mkTns (Some ([97], None)) [wd_x] []]
  | _ => [mkTns (Some ([97], None)) [wd_y; wd_x; wd_y] [32]; mkTns None [wd_u] []]
  end.
Definition wd_line (i : nat) : str := line_text [49; 32] (wd_ns i).
Definition wd_two : RF := f_mul RF (@fl RF 2) f1.
Definition wd_part (i : nat) : part RF :=
  match i with
  | 0%nat => [(Some [97], BNamed [([120], VFlag); ([121], VNum wd_two)]); (None, BNamed [([117], VFlag)])]
  | 1%nat => [(None, BNamed [([117], VFlag)]); (Some [97], BNamed [([121], VNum wd_two)]); (Some [97], BNamed [([120], VFlag)])]
  | _ => [(Some [97], BNamed [([121], VFlag); ([120], VFlag); ([121], VFlag)]); (None, BNamed [([117], VFlag)])]
  end.
Definition wd_exam (i : nat) : exam RF := ESimple (wd_part i) (Some (f1, f1)).

Lemma one_one : f_mul RF f1 f1 = f1. Proof. cbn. lra. Qed.
Ltac doc :=
  repeat match goal with
  | |- _ /\ _ => split
  | |- Forall _ [] => constructor
  | |- Forall _ (_ :: _) => constructor
  | |- True => exact Logic.I
  | |- _ <> [] => discriminate
  | |- plain_char _ => repeat split; discriminate
  | |- exists r, _ => eexists; reflexivity
  | |- _ = _ => reflexivity
  | _ => progress cbn [tn_head tn_feats tn_trail fst snd]
  end.
Lemma wd_writes : forall i, (i < 3)%nat -> writes wd_pf wd_rd FmtText (wd_line i) (wd_exam i).
Proof.
  intros i Hi. cbn [writes]. refine (te_simple wd_pf (wd_line i) [49; 32] [[49]] (Some (f1, None)) (wd_ns i) (wd_part i) _ _ _ _ eq_refl).
  - intros [E|[E|[]]]; discriminate.
  - apply label_words_tokens. reflexivity.
  - apply sl_value. reflexivity.
  - destruct i as [|[|[|i]]]; try lia; repeat (constructor; [split; [unfold tn_ok, item_ok, Spec_Text.word, gap, wd_x, wd_y, wd_y2, wd_u; doc|split; [reflexivity|apply tb_named;
      repeat (constructor; [first [apply ti_flag; exact one_one|exact (ti_num wd_pf f1 121 [] [50] (@fl RF 2) eq_refl)]|]); constructor]]|]); constructor.
Qed.
Lemma wd_fits : forall i, exam_fits ex_hash false 0 (wd_exam i).
Proof.
  intros i. constructor; [|constructor]. destruct i as [|[|i]]; intros name b I [D|(xs & ->)]; try discriminate; simpl in I; intuition discriminate.
Qed.
Lemma wd_same : exam_with same_words (wd_exam 0%nat) (wd_exam 1%nat).
Proof.
  cbn [wd_exam exam_with]. unfold same_words. cbn [wd_part words flat_map body_marks map item_mark fst snd app].
  apply Permutation_sym. eapply Permutation_trans; [apply (Permutation_cons_append _ _)|]. cbn [app]. apply perm_swap.
Qed.
Lemma wd_totals : exam_with same_totals (wd_exam 0%nat) (wd_exam 2%nat).
Proof.
  cbn [wd_exam exam_with]. intros a. cbn [wd_part words flat_map body_marks map item_mark fst snd app].
  split; [cbn [In]; tauto|]. cbn [total]. unfold wd_two.
  repeat match goal with |- context [word_dec ?b a] => destruct (word_dec b a) end; try congruence; cbn; lra.
Qed.

(** ** a run *)
Definition wd_hist : list (fop RF) :=
  [FAdd 0 (NsNamed 97) 55 (f_mul RF f1 f1); FAdd 0 (NsNamed 97) 56 wd_two; FAdd 0 NsDefault 117 (f_mul RF f1 f1)].
Definition wd_store : fstore RF := match fops_run false wd_hist fstore0 with Ok st => st | _ => fstore0 end.
Definition wd_fts : features RF := FtsSimple (wd_store 0%nat).
Definition wd_cfg : rcfg RF := CCoin (@coin_default RF).
Definition wd_opts : options RF := mkOpts FmtText (mkMode true false) [] (Additive 1).
Lemma wd_parse : parse_chunk ex_hash wd_pf false 0 8 FTSimple LTSimple [] (wd_line 0%nat) = Ok (wd_fts, Some (LbSimple f1 f1)).
Proof. vm_compute. reflexivity. Qed.
Lemma wd_plain : plain wd_fts.
Proof. split; [exists false, wd_hist, wd_store, 0%nat; split; reflexivity|]. intros h s E; cbn in E; discriminate. Qed.
Lemma wd_below : all_below 256 wd_fts.
Proof.
  intros a Ha j v Hin. cbn in Ha; destruct Ha as [<-|[]]; cbn in Hin; repeat (destruct Hin as [K|Hin]; [inversion K; reflexivity|]); contradiction.
Qed.
Lemma wd_new : exists R0 : anyred RF, ws_new ex_hash false sh_gc wd_cfg = Ok R0 /\
  elem_free (projT1 R0) (projT2 R0) /\ uses_elem (projT2 R0) = false /\ uses_mtr (projT2 R0) = false /\ types_of (projT2 R0) = (FTSimple, LTSimple).
Proof.
  unfold ws_new, wd_cfg. cbn [create]. unfold coin_new. cbn [bind]. destruct (@dw_new_ok RF false 256 1 6) as (w & E & _); try lia.
  change (compile_interactions ex_hash (gc_seed sh_gc) (gc_inter sh_gc)) with (Ok ([(NsNamed 97, NsDefault)], @nil (namespace * namespace * namespace))). cbn [bind].
  change (bits_to_max_feature_index false (gc_bits sh_gc)) with (Ok 256%N : out N). cbn [bind cc_loss coin_default].
  rewrite E. cbn [bind]. eexists. split; [reflexivity|]. split; [|repeat split; reflexivity]. exact Logic.I.
Qed.
Lemma wd_example : exists (R0 : anyred RF) rep, ws_new ex_hash false sh_gc wd_cfg = Ok R0 /\ elem_free (projT1 R0) (projT2 R0) /\
  types_of (projT2 R0) = (FTSimple, LTSimple) /\
  (forall i, (i < 3)%nat -> pieces FmtText (is_multiline (fst (types_of (projT2 R0))) (snd (types_of (projT2 R0)))) (wd_line i) [wd_line i]) /\
  clash_free ex_hash wd_pf wd_rd ex_al FmtText sh_gc (projT2 R0) (wd_line 0%nat) /\
  train_command ex_hash wd_pf wd_rd ex_al false wd_opts (FromConfig sh_gc wd_cfg) (wd_line 0%nat) = Ok rep.
Proof.
  destruct wd_new as (R0 & E & EF & U & M & TT). destruct R0 as (n & r). cbn [projT1 projT2] in *.
  assert (CH : forall i, (i < 3)%nat -> chunks_of FmtText r (wd_line i) = Some [wd_line i]).
  { intros i Hi. cbn [chunks_of].
    change (all_chunks (S (length (wd_line i))) (is_multiline (fst (types_of r)) (snd (types_of r))) (wd_line i) = Some [wd_line i]).
    rewrite TT. destruct i as [|[|[|i]]]; try lia; vm_compute; reflexivity. }
  assert (PS : text_parser ex_hash wd_pf false 0 8 r [] (wd_line 0%nat) = Ok (wd_fts, Some (LbSimple f1 f1))).
  { unfold text_parser. change (td_in_feats (red_types r)) with (fst (types_of r)). change (td_in_label (red_types r)) with (snd (types_of r)). rewrite TT. exact wd_parse. }
  destruct (learn_returns (O := RF) RF_ford lr_gt lr_se ex_hash false sh_gc wd_cfg (existT _ n r) r wd_fts (LbSimple f1 f1) 256%N E (reach_refl _ _)) as (r' & g1 & L & _);
    [exact U|reflexivity|exact wd_plain|exact wd_below|symmetry; exact (f_equal fst TT)|symmetry; exact (f_equal snd TT)|intros X; exact (False_ind _ (eq_true_false_abs _ X M))|discriminate|].
  cbn [projT1 projT2] in L, r'. eexists (existT _ n r), _. cbn [projT1 projT2]. split; [exact E|]. split; [exact EF|]. split; [exact TT|]. split; [|split].
  - intros i Hi. destruct (pieces_one RF _ r FmtText (wd_line i)) as (cs & EC & P & _). rewrite (CH i Hi) in EC. injection EC as <-. exact P.
  - intros ps need f lb G P. cbn [get_parser] in G. injection G as <- <-. change (gc_seed sh_gc) with 0 in P. change (gc_bits sh_gc) with 8 in P. rewrite PS in P. injection P as <- <-.
    intros pp ts l S L1. destruct (sorted_fun _ _ _ _ S [(NsNamed 97, NsDefault)] []) as (-> & ->); [repeat constructor|].
    vm_compute in L1. inversion L1; subst l. cbn [map fst]. nodup.
  - unfold train_command. cbn [open_source]. rewrite E. cbn [bind fst snd projT1 projT2]. unfold train_from. change (op_format wd_opts) with FmtText. cbn [get_parser bind fst snd].
    unfold train_start. cbn [op_metrics wd_opts mapm op_period]. change (@get_metric RF name_example) with (Some (@MExample RF 0)). cbn [opt_or bind mapm]. rewrite (CH 0%nat) by lia. cbn [opt_or bind].
    unfold train_loop. cbn [foldm]. unfold train_chunk at 1. cbn [fst snd]. change (gc_seed sh_gc) with 0. change (gc_bits sh_gc) with 8. rewrite PS. cbn [unwrap_res bind fst snd].
    unfold process_example. change (op_mode wd_opts) with (mkMode true false). cbn [opt_or bind op_mode tm_quiet tm_preds negb orb t_red]. rewrite L. cbn [bind fst snd]. unfold train_end. cbn [tm_quiet bind fst]. reflexivity.
Qed.
Lemma wd_differ : wd_line 0%nat <> wd_line 1%nat /\ wd_line 0%nat <> wd_line 2%nat.
Proof. split; discriminate. Qed.

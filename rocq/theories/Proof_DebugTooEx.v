(** Examples for C97. *)
From Coq Require Import List NArith ZArith Bool Lia Reals Lra Permutation.
From Verif Require Import Base FloatOps FloatR FloatB32 Model_Hash Model_Features Model_Weights Model_Loss Model_Interactions
  Model_Types Model_Explore Model_Coin Model_Stack Model_Factory Spec_Inter Spec_Foreach Spec_Features Spec_Stack Spec_Total Spec_Reductions Spec_Values Spec_Save Spec_Empty Spec_Delegate Spec_Shuffle Spec_Units Spec_DebugToo
  Proof_Features Proof_Weights Proof_Inter Proof_StackProps Proof_Total Proof_EmptyProps Proof_LearnEx Proof_FloatOrder Proof_ShuffleEx Proof_Units Proof_UnitsEx Proof_MergeEx.
Import ListNotations.

(** two features, in the other order, with an empty namespace, and in other units *)
Definition dt_hist : list (fop RF) :=
  [FAdd 0 NsDefault 5%N (@f1 RF); FAdd 0 NsDefault 9%N (@fl RF 4);
   FAdd 1 NsDefault 9%N (@fl RF 4); FAdd 1 NsDefault 5%N (@f1 RF);
   FAdd 2 NsDefault 5%N (@f1 RF); FAdd 2 NsDefault 9%N (@fl RF 4); FCreate 2 (ex_ns 97);
   FAdd 3 NsDefault 5%N ((un_u 5 * (@f1 RF : RF))%R : RF); FAdd 3 NsDefault 9%N ((un_u 9 * (@fl RF 4 : RF))%R : RF)].
Definition dt_store : fstore RF := match fops_run false dt_hist fstore0 with Ok st => st | _ => fstore0 end.
Lemma dt_built : forall i, built (dt_store i).
Proof. intros i. exists false, dt_hist, dt_store, i. split; reflexivity. Qed.
Lemma dt_sound : forall i, sound (dt_store i).
Proof.
  intros i. split; [apply dt_built|]. intros k s E Z. apply fm_get_in in E.
  destruct i as [|[|[|[|i]]]]; cbn in E; try contradiction; repeat (destruct E as [E|E]; [inversion E; subst; reflexivity|]); contradiction.
Qed.
Lemma dt_reordered : reordered_fts (FtsSimple (dt_store 0%nat)) (FtsSimple (dt_store 1%nat)).
Proof. intros k. unfold in_ns, dt_store. cbn. match goal with |- context [if ?b then _ else _] => destruct b end; [apply perm_swap|constructor]. Qed.
Lemma dt_clash : no_clash_fts ex_hash mx_gc (FtsSimple (dt_store 0%nat)).
Proof.
  intros ps ts l S L. destruct (sorted_fun _ _ _ _ S [] []) as (-> & ->); [constructor|].
  vm_compute in L. inversion L; subst l; cbn [map fst]; nodup.
Qed.
Lemma dt_contents : same_contents (FtsSimple (dt_store 0%nat)) (FtsSimple (dt_store 2%nat)).
Proof.
  intros k. unfold in_ns, dt_store. cbn. destruct (ns_eqb k (NsNamed 97)) eqn:Q; [|reflexivity].
  destruct k; cbn in *; try discriminate; reflexivity.
Qed.
Lemma dt_plain : forall i, (i < 4)%nat -> plain (FtsSimple (dt_store i)).
Proof. intros i Hi. split; [apply dt_built|]. destruct i as [|[|[|[|i]]]]; try lia; intros h s E; cbn in E; discriminate. Qed.
Lemma dt_below : forall i, (i < 4)%nat -> all_below 256 (FtsSimple (dt_store i)).
Proof.
  intros i Hi a Ha j v Hin. destruct i as [|[|[|[|i]]]]; try lia; cbn in Ha; destruct Ha as [<-|[]]; cbn in Hin;
    repeat (destruct Hin as [K|Hin]; [inversion K; reflexivity|]); contradiction.
Qed.
Lemma dt_new : exists R0 : anyred RF, ws_new ex_hash true mx_gc (CCoin (@coin_default RF)) = Ok R0 /\ elem_free (projT1 R0) (projT2 R0) /\
    uses_elem (projT2 R0) = false /\ uses_weighted (projT2 R0) = false /\ red_types (projT2 R0) = mkTd LTSimple None FTSimple None None PTScalar /\
    uses_mtr (projT2 R0) = false /\ counters _ (projT2 R0) = [].
Proof.
  unfold ws_new. cbn [create]. unfold coin_new. destruct (@dw_new_ok RF true 256 1 6) as (w & E & _); try lia.
  change (compile_interactions ex_hash (gc_seed mx_gc) (gc_inter mx_gc)) with (Ok (@nil (namespace * namespace), @nil (namespace * namespace * namespace))). cbn [bind].
  change (bits_to_max_feature_index true (gc_bits mx_gc)) with (Ok 256%N : out N). cbn [bind cc_loss coin_default].
  rewrite E. cbn [bind]. eexists. split; [reflexivity|]. repeat split; reflexivity.
Qed.
Definition dt_label : label RF := LbSimple (@f1 RF) (@f1 RF).
Lemma dt_returns : exists R0 : anyred RF, ws_new ex_hash true mx_gc (CCoin (@coin_default RF)) = Ok R0 /\ elem_free (projT1 R0) (projT2 R0) /\
  forall i, (i < 4)%nat -> exists r g, ws_learn true (projT2 R0) (FtsSimple (dt_store i)) dt_label = Ok (r, g) /\ reach true (projT2 R0) r /\
    forall j, (j < 4)%nat -> exists p h, ws_predict true r (FtsSimple (dt_store j)) = Ok (p, h).
Proof.
  destruct dt_new as (R0 & E & EF & U & W & T & Mt & Ct). exists R0. split; [exact E|]. split; [exact EF|]. intros i Hi.
  destruct (learn_returns (O := RF) RF_ford lr_gt lr_se ex_hash true mx_gc _ R0 (projT2 R0) (FtsSimple (dt_store i)) dt_label 256%N E (reach_refl _ _)) as (r & g1 & L & _);
    [exact U|reflexivity|apply dt_plain; lia|apply dt_below; lia|rewrite T; reflexivity|rewrite T; reflexivity| | |].
  2:{ intros _. split; [exact Logic.I|]. split; [|intros ? ? ? ? ?; reflexivity]. rewrite Ct. intros ? []. }
  { intros C. rewrite Mt in C. discriminate C. }
  assert (Q : reach true (projT2 R0) r) by (eapply reach_learn; [apply reach_refl|exact L]).
  exists r, g1. repeat (split; [assumption|]). intros j Hj.
  destruct (predict_returns (O := RF) RF_ford lr_se ex_hash true mx_gc _ R0 r (FtsSimple (dt_store j)) 256%N E Q) as (p & f' & P & Tp & _);
    [exact U|exact W|reflexivity|apply dt_plain; lia|apply dt_below; lia|rewrite T; reflexivity|intros C; rewrite T in C; discriminate C|intros _ ? ? ? ? ?; reflexivity|]. eauto.
Qed.
(** the calls, and the calls in other units *)
Definition dt_calls : list (call RF) := [AskLearn (FtsSimple (dt_store 0%nat)) dt_label; AskPredict (FtsSimple (dt_store 0%nat))].
Lemma dt_paired : Forall paired_call dt_calls.
Proof. repeat constructor; apply (built_paired RF _ (dt_built 0%nat)). Qed.
Lemma dt_retold : map (retell_call (fun i => i) (fun i x => (un_u i * x)%R)) dt_calls =
  [AskLearn (FtsSimple (dt_store 3%nat)) dt_label; AskPredict (FtsSimple (dt_store 3%nat))].
Proof. reflexivity. Qed.
Lemma dt_calm : exists R0 : anyred RF, ws_new ex_hash true mx_gc (CCoin (@coin_default RF)) = Ok R0 /\ elem_free (projT1 R0) (projT2 R0) /\
  calm (answers true (projT2 R0) dt_calls) /\ calm (answers true (projT2 R0) (map (retell_call (fun i => i) (fun i x => (un_u i * x)%R)) dt_calls)).
Proof.
  destruct dt_returns as (R0 & E & EF & K). exists R0. split; [exact E|]. split; [exact EF|].
  assert (Z : forall i, (i < 4)%nat -> calm (answers true (projT2 R0) [AskLearn (FtsSimple (dt_store i)) dt_label; AskPredict (FtsSimple (dt_store i))])).
  { intros i Hi. destruct (K i Hi) as (r & g & L & _ & P). destruct (P i Hi) as (p & h & P2). cbn [answers]. rewrite L, P2. intros q [D|[D|[]]]; discriminate. }
  split; [apply (Z 0%nat); lia|]. rewrite dt_retold. apply (Z 3%nat); lia.
Qed.
(** indices, at binary32 *)
Definition calmb (l : list (answer BF0)) : bool := forallb (fun a => match a with AnsPn _ => false | _ => true end) l.
Lemma calmb_calm : forall l, calmb l = true -> calm l.
Proof. intros l E p I. unfold calmb in E. rewrite forallb_forall in E. apply E in I. discriminate. Qed.
Lemma dt_indices : exists R0 : anyred BF0, ws_new ex_hash true un_gc (CCoin (@coin_default BF0)) = Ok R0 /\ elem_free (projT1 R0) (projT2 R0) /\
  calm (answers true (projT2 R0) (un_bcalls 3)) /\ calm (answers true (projT2 R0) (map (retell_call un_swap (fun _ x => x)) (un_bcalls 3))).
Proof.
  assert (C : match ws_new ex_hash true un_gc (CCoin (@coin_default BF0)) with
    | Ok R0 => calmb (answers true (projT2 R0) (un_bcalls 3)) && calmb (answers true (projT2 R0) (map (retell_call un_swap (fun _ x => x)) (un_bcalls 3)))
               && Nat.eqb (projT1 R0) 0
    | _ => false end = true) by (vm_compute; reflexivity).
  destruct (ws_new ex_hash true un_gc (CCoin (@coin_default BF0))) as [R0|?|?]; try discriminate.
  apply andb_prop in C. destruct C as (C & Z). apply andb_prop in C. destruct C as (C & D).
  exists R0. split; [reflexivity|]. split; [|split; now apply calmb_calm].
  destruct R0 as [[|m] r]; [exact Logic.I|discriminate].
Qed.

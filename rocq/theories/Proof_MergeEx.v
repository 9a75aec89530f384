(** Examples for C96. *)
From Coq Require Import List NArith ZArith Bool Lia Reals Lra Permutation.
From Verif Require Import Base FloatOps FloatR FloatB32 Model_Hash Model_Features Model_Weights Model_Loss Model_Interactions
  Model_Types Model_Explore Model_Coin Model_Stack Model_Factory Spec_Inter Spec_Foreach Spec_Features Spec_Stack Spec_Total Spec_Reductions Spec_Values Spec_Empty Spec_Shuffle Spec_Merge
  Proof_Features Proof_Weights Proof_Inter Proof_StackProps Proof_Total Proof_EmptyProps Proof_LearnEx Proof_FloatOrder Spec_Delegate Proof_Shuffle Proof_ShuffleEx.
Import ListNotations.

(** ** exact arithmetic *)
(** a context and an action with features that occur twice, and the same with the values added up *)
Definition mg_hist : list (fop RF) :=
  [FAdd 0 (ex_ns 97) 3%N (@f1 RF); FAdd 0 (ex_ns 97) 4%N (@fl RF 2); FAdd 0 (ex_ns 97) 3%N (@f1 RF);
   FAdd 1 (ex_ns 97) 4%N (@fl RF 2); FAdd 1 (ex_ns 97) 3%N (@fl RF 2);
   FAdd 2 NsDefault 9%N (@f1 RF); FAdd 2 NsDefault 5%N (@f1 RF); FAdd 2 NsDefault 9%N (@fl RF 2);
   FAdd 3 NsDefault 5%N (@f1 RF); FAdd 3 NsDefault 9%N (@fl RF 3);
   FAdd 4 NsDefault 6%N (@fl RF 2); FAdd 4 NsDefault 9%N (@fl RF 1)].
Definition mg_store : fstore RF := match fops_run false mg_hist fstore0 with Ok st => st | _ => fstore0 end.
Definition mg_fts (i : nat) : features RF := FtsCb (Some (mg_store i)) [mg_store (i + 2)%nat; mg_store 4%nat].
Lemma mg_built : forall i, built (mg_store i).
Proof. intros i. exists false, mg_hist, mg_store, i. split; reflexivity. Qed.
Lemma mg_sound : forall i, sound (mg_store i).
Proof.
  intros i. split; [apply mg_built|]. intros k s E _. apply fm_get_in in E.
  destruct i as [|[|[|[|[|i]]]]]; cbn in E; try contradiction; destruct E as [E|[]]; inversion E; reflexivity.
Qed.
Lemma mg_sound_fts : forall i, sound_fts (mg_fts i).
Proof. intros i. split; [|apply mg_sound]. intros a [<-|[<-|[]]]; apply mg_sound. Qed.
Lemma mg_merged : merged_fts (mg_fts 0%nat) (mg_fts 1%nat).
Proof.
  assert (A : merged (mg_store 0%nat) (mg_store 1%nat)).
  { intros k i. unfold in_ns, mg_store. cbn -[value_at fl f1]. match goal with |- context [if ?b then _ else _] => destruct b end; [|split; [tauto|reflexivity]].
    change ((In i (map fst ([(3%N, @f1 RF); (4%N, @fl RF 2); (3%N, @f1 RF)]  : list (N * RF))) <-> In i (map fst ([(4%N, @fl RF 2); (3%N, @fl RF 2)]  : list (N * RF)))) /\ value_at i [(3%N, @f1 RF); (4%N, @fl RF 2); (3%N, @f1 RF)]  = value_at i [(4%N, @fl RF 2); (3%N, @fl RF 2)] ).
    cbn [map fst In value_at]. split; [tauto|]. destruct (N.eqb 3 i), (N.eqb 4 i); cbn; lra. }
  assert (B : merged (mg_store 2%nat) (mg_store 3%nat)).
  { intros k i. unfold in_ns, mg_store. cbn -[value_at fl f1]. match goal with |- context [if ?b then _ else _] => destruct b end; [|split; [tauto|reflexivity]].
    change ((In i (map fst ([(9%N, @f1 RF); (5%N, @f1 RF); (9%N, @fl RF 2)]  : list (N * RF))) <-> In i (map fst ([(5%N, @f1 RF); (9%N, @fl RF 3)]  : list (N * RF)))) /\ value_at i [(9%N, @f1 RF); (5%N, @f1 RF); (9%N, @fl RF 2)]  = value_at i [(5%N, @f1 RF); (9%N, @fl RF 3)] ).
    cbn [map fst In value_at]. split; [tauto|]. destruct (N.eqb 9 i), (N.eqb 5 i); cbn; lra. }
  split; [exact A|]. constructor; [exact B|]. constructor; [|constructor]. intros k i. split; [tauto|reflexivity].
Qed.
Lemma mg_plain : forall i, (i < 2)%nat -> plain (mg_fts i).
Proof.
  intros i Hi. split.
  - split; [intros a [<-|[<-|[]]]; apply mg_built|apply mg_built].
  - assert (N0 : forall j, no_composite (mg_store j)).
    { intros [|[|[|[|[|j]]]]] h s H; cbn in H; discriminate. }
    split; [intros a [<-|[<-|[]]]; apply N0|]. split; [apply N0|].
    intros a Ha. split; intros k H s Hs; exfalso; apply fm_get_in in Hs.
    + destruct i as [|[|i]]; try lia; destruct Ha as [<-|[<-|[]]]; destruct Hs as [Hs|[]]; inversion Hs; subst; apply H; reflexivity.
    + destruct i as [|[|i]]; try lia; destruct Ha as [<-|[<-|[]]]; destruct Hs as [Hs|[]]; inversion Hs; subst; apply H; reflexivity.
Qed.
Lemma mg_below : forall i, (i < 2)%nat -> all_below 256 (mg_fts i).
Proof.
  intros i Hi a Ha j v Hin. destruct i as [|[|i]]; try lia; cbn in Ha; destruct Ha as [<-|[<-|[<-|[]]]]; cbn in Hin;
    repeat (destruct Hin as [K|Hin]; [inversion K; reflexivity|]); contradiction.
Qed.
Lemma mg_example : forall eps : R, exists (R0 : anyred RF) r h1 q g, ws_new ex_hash false sh_gc (sh_cfg eps) = Ok R0 /\
  elem_free (projT1 R0) (projT2 R0) /\
  ws_learn false (projT2 R0) (mg_fts 0%nat) (LbCb 0%N (@f1 RF) (@f1 RF)) = Ok (r, h1) /\ reach false (projT2 R0) r /\
  ws_predict false r (mg_fts 0%nat) = Ok (PrProbs q, g).
Proof.
  intros eps. destruct (sh_new eps) as (R0 & E & EF & U & W & T).
  destruct (learn_returns (O := RF) RF_ford lr_gt lr_se ex_hash false sh_gc (sh_cfg eps) R0 (projT2 R0) (mg_fts 0%nat) (LbCb 0%N (@f1 RF) (@f1 RF)) 256%N E (reach_refl _ _)) as (r & g1 & L & _);
    [exact U|reflexivity|apply mg_plain; lia|apply mg_below; lia|rewrite T; reflexivity|rewrite T; reflexivity| |discriminate|].
  { intros _. do 5 eexists. split; [reflexivity|]. split; [reflexivity|]. cbn [length]. lia. }
  assert (Q : reach false (projT2 R0) r) by (eapply reach_learn; [apply reach_refl|exact L]).
  destruct (predict_returns (O := RF) RF_ford lr_se ex_hash false sh_gc _ R0 r (mg_fts 0%nat) 256%N E Q) as (p & f' & P & Tp & _);
    [exact U|exact W|reflexivity|apply mg_plain; lia|apply mg_below; lia|rewrite T; reflexivity|intros _; discriminate|discriminate|].
  rewrite T in Tp. destruct p as [| | |q]; try discriminate. exists R0, r, g1, q, f'. repeat (split; [assumption|]). exact P.
Qed.

(** ** mixtures *)
Definition mx_gc : gconfig := mkGc 8 0 true [].
(** the third one is the mean of the first two, the fourth one has a feature of the first one in two parts *)
Definition mx_hist : list (fop RF) := [FAdd 0 NsDefault 5%N (@f1 RF); FAdd 0 NsDefault 9%N (@fl RF 4);
   FAdd 1 NsDefault 7%N (@fl RF 2); FAdd 1 NsDefault 9%N (@fl RF 2);
   FAdd 2 NsDefault 7%N (@f1 RF); FAdd 2 NsDefault 9%N (@fl RF 3); FAdd 2 NsDefault 5%N (f_div RF f1 (@fl RF 2));
   FAdd 3 NsDefault 9%N (@fl RF 2); FAdd 3 NsDefault 5%N (@f1 RF); FAdd 3 NsDefault 9%N (@fl RF 2)].
Definition mx_store : fstore RF := match fops_run false mx_hist fstore0 with Ok st => st | _ => fstore0 end.
Lemma mx_built : forall i, built (mx_store i).
Proof. intros i. exists false, mx_hist, mx_store, i. split; reflexivity. Qed.
Lemma mx_sound : forall i, sound (mx_store i).
Proof.
  intros i. split; [apply mx_built|]. intros k s E _. apply fm_get_in in E.
  destruct i as [|[|[|[|i]]]]; cbn in E; try contradiction; destruct E as [E|[]]; inversion E; reflexivity.
Qed.
Lemma mx_mixture : mixture (/ 2) (/ 2) (mx_store 0%nat) (mx_store 1%nat) (mx_store 2%nat).
Proof.
  intros k i. unfold in_ns, mx_store. cbn -[value_at fl f1 f_div]. match goal with |- context [if ?b then _ else _] => destruct b end; [|cbn; lra].
  change (value_at i [(7%N, @f1 RF); (9%N, @fl RF 3); (5%N, f_div RF f1 (@fl RF 2))]  = (/ 2 * value_at i [(5%N, @f1 RF); (9%N, @fl RF 4)]  + / 2 * value_at i [(7%N, @fl RF 2); (9%N, @fl RF 2)] )%R).
  cbn [value_at]. destruct (N.eqb_spec 5 i), (N.eqb_spec 9 i), (N.eqb_spec 7 i); try (exfalso; lia); cbn; lra.
Qed.
Lemma mx_merged : merged (mx_store 0%nat) (mx_store 3%nat).
Proof.
  intros k i. unfold in_ns, mx_store. cbn -[value_at fl f1]. match goal with |- context [if ?b then _ else _] => destruct b end; [|split; [tauto|reflexivity]].
  change ((In i (map fst ([(5%N, @f1 RF); (9%N, @fl RF 4)] : list (N * RF))) <-> In i (map fst ([(9%N, @fl RF 2); (5%N, @f1 RF); (9%N, @fl RF 2)] : list (N * RF)))) /\
    value_at i [(5%N, @f1 RF); (9%N, @fl RF 4)] = value_at i [(9%N, @fl RF 2); (5%N, @f1 RF); (9%N, @fl RF 2)]).
  cbn [map fst In value_at]. split; [tauto|]. destruct (N.eqb 9 i), (N.eqb 5 i); cbn; lra.
Qed.
Lemma mx_plain : forall i, (i < 4)%nat -> plain (FtsSimple (mx_store i)).
Proof.
  intros i Hi. split; [apply mx_built|]. destruct i as [|[|[|[|i]]]]; try lia; intros h s E; cbn in E; discriminate.
Qed.
Lemma mx_below : forall i, (i < 4)%nat -> all_below 256 (FtsSimple (mx_store i)).
Proof.
  intros i Hi a Ha j v Hin. destruct i as [|[|[|[|i]]]]; try lia; cbn in Ha; destruct Ha as [<-|[]]; cbn in Hin;
    repeat (destruct Hin as [K|Hin]; [inversion K; reflexivity|]); contradiction.
Qed.
Lemma mx_example : forall dbg, exists (R0 : anyred RF) r h1, ws_new ex_hash dbg mx_gc (CCoin (@coin_default RF)) = Ok R0 /\
  ws_learn dbg (projT2 R0) (FtsSimple (mx_store 0%nat)) (LbSimple (@f1 RF) (@f1 RF)) = Ok (r, h1) /\ reach dbg (projT2 R0) r /\
  forall i, (i < 4)%nat -> exists p g, ws_predict dbg r (FtsSimple (mx_store i)) = Ok (p, g).
Proof.
  intros dbg. assert (NW : exists R0 : anyred RF, ws_new ex_hash dbg mx_gc (CCoin (@coin_default RF)) = Ok R0 /\
    uses_elem (projT2 R0) = false /\ uses_weighted (projT2 R0) = false /\ red_types (projT2 R0) = mkTd LTSimple None FTSimple None None PTScalar /\ uses_mtr (projT2 R0) = false /\ counters _ (projT2 R0) = []).
  { assert (BT : bits_to_max_feature_index dbg (gc_bits mx_gc) = Ok 256%N) by (destruct dbg; reflexivity). unfold ws_new. cbn [create]. unfold coin_new. destruct (@dw_new_ok RF dbg 256 1 6) as (w & E & _); try lia.
    change (compile_interactions ex_hash (gc_seed mx_gc) (gc_inter mx_gc)) with (Ok (@nil (namespace * namespace), @nil (namespace * namespace * namespace))). cbn [bind].
    rewrite BT. cbn [bind cc_loss coin_default].
    rewrite E. cbn [bind]. eexists. split; [reflexivity|]. repeat split; reflexivity. }
  assert (BT : bits_to_max_feature_index dbg (gc_bits mx_gc) = Ok 256%N) by (destruct dbg; reflexivity).
  destruct NW as (R0 & E & U & W & T & Mt & Ct).
  destruct (learn_returns (O := RF) RF_ford lr_gt lr_se ex_hash dbg mx_gc _ R0 (projT2 R0) (FtsSimple (mx_store 0%nat)) (LbSimple (@f1 RF) (@f1 RF)) 256%N E (reach_refl _ _)) as (r & g1 & L & _);
    [exact U|exact BT|apply mx_plain; lia|apply mx_below; lia|rewrite T; reflexivity|rewrite T; reflexivity| | |].
  2:{ intros _. split; [exact Logic.I|]. split; [|intros ? ? ? ? ?; reflexivity]. rewrite Ct. intros ? []. }
  { intros C. rewrite Mt in C. discriminate C. }
  assert (Q : reach dbg (projT2 R0) r) by (eapply reach_learn; [apply reach_refl|exact L]).
  exists R0, r, g1. repeat (split; [assumption|]). intros i Hi.
  destruct (predict_returns (O := RF) RF_ford lr_se ex_hash dbg mx_gc _ R0 r (FtsSimple (mx_store i)) 256%N E Q) as (p & f' & P & Tp & _);
    [exact U|exact W|exact BT|apply mx_plain; lia|apply mx_below; lia|rewrite T; reflexivity|intros C; rewrite T in C; discriminate C|intros _ ? ? ? ? ?; reflexivity|]. eauto.
Qed.

(** ** training tells the difference (binary32) *)
Definition mg_check (O : FOps) : bool :=
  match ws_new ex_hash false mx_gc (CCoin (@coin_default O)), fops_run false (twice NsDefault 3%N f1) fstore0, fops_run false (once NsDefault 3%N f1) fstore0 with
  | Ok R0, Ok s, Ok t =>
      match ws_learn false (projT2 R0) (FtsSimple (s 0%nat)) (LbSimple f1 f1), ws_learn false (projT2 R0) (FtsSimple (t 0%nat)) (LbSimple f1 f1) with
      | Ok (r1, _), Ok (r2, _) =>
          match ws_predict false r1 (FtsSimple (t 0%nat)), ws_predict false r2 (FtsSimple (t 0%nat)) with
          | Ok (PrScalar _ p, _), Ok (PrScalar _ q, _) => negb (f_eqb O p q)
          | _, _ => false end
      | _, _ => false end
  | _, _, _ => false end.
Lemma merge_learn_refuted : forall ex lx px, let O := BF ex lx px in
  ~ (forall H gc (c : coin_config O) k i v y R0 s t r1 r2 f1' f2' p q a b g1 g2,
       ws_new H false gc (CCoin c) = Ok R0 -> fops_run false (twice k i v) fstore0 = Ok s -> fops_run false (once k i v) fstore0 = Ok t ->
       ws_learn false (projT2 R0) (FtsSimple (s 0%nat)) (LbSimple y f1) = Ok (r1, f1') ->
       ws_learn false (projT2 R0) (FtsSimple (t 0%nat)) (LbSimple y f1) = Ok (r2, f2') ->
       ws_predict false r1 (FtsSimple (t 0%nat)) = Ok (PrScalar a p, g1) ->
       ws_predict false r2 (FtsSimple (t 0%nat)) = Ok (PrScalar b q, g2) -> f_eqb O p q = true).
Proof.
  intros ex lx px O K. assert (C : mg_check O = true) by (vm_compute; reflexivity). unfold mg_check in C.
  destruct (ws_new ex_hash false mx_gc (CCoin (@coin_default O))) as [R0|?|?] eqn:E0; try discriminate.
  destruct (fops_run false (twice NsDefault 3%N f1) fstore0) as [s|?|?] eqn:E1; try discriminate.
  destruct (fops_run false (once NsDefault 3%N f1) fstore0) as [t|?|?] eqn:E2; try discriminate.
  destruct (ws_learn false (projT2 R0) (FtsSimple (s 0%nat)) (LbSimple f1 f1)) as [(r1 & h1)|?|?] eqn:E3; try discriminate.
  destruct (ws_learn false (projT2 R0) (FtsSimple (t 0%nat)) (LbSimple f1 f1)) as [(r2 & h2)|?|?] eqn:E4; try discriminate.
  destruct (ws_predict false r1 (FtsSimple (t 0%nat))) as [([a p| | |] & g1)|?|?] eqn:E5; try discriminate.
  destruct (ws_predict false r2 (FtsSimple (t 0%nat))) as [([b q| | |] & g2)|?|?] eqn:E6; try discriminate.
  rewrite (K _ _ _ _ _ _ _ _ _ _ _ _ _ _ _ _ _ _ _ _ E0 E1 E2 E3 E4 E5 E6) in C. discriminate.
Qed.

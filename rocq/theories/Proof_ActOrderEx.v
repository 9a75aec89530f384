(** Examples for C89. *)
From Coq Require Import List NArith ZArith Bool Lia Reals Lra Permutation.
From Verif Require Import Base FloatOps FloatR FloatB32 Model_Hash Model_Features Model_Weights Model_Loss Model_Interactions
  Model_Types Model_Explore Model_Coin Model_Stack Model_Factory Spec_Features Spec_Stack Spec_Explore Spec_Delegate Spec_Unbiased
  Proof_StackProps Proof_StackRestore Proof_Explore Proof_CbExplore Proof_UnbiasedEx Proof_CoinR Proof_Learn Proof_LearnCb Proof_LearnEx Spec_ActOrder Proof_ActOrder.
Import ListNotations.

(** two actions change places *)
Definition swap2 (i : nat) : nat := (1 - i)%nat.
Lemma swap2_moved : forall A (a b : A), moved swap2 [a; b] [b; a].
Proof.
  intros A a b. unfold moved, swap2. cbn [length]. repeat split; try lia.
  intros [|[|i]] Hi; try lia; reflexivity.
Qed.

(** ** exact arithmetic: a trained model that tells the actions apart *)
Lemma ao_trained : forall eps : R, exists w1 (r : red RF 1) sc q h f',
  ws_predict false r ub_fts = Ok (PrScores (sc : list (N * RF)), h) /\ unique_min sc /\ length sc = 2%nat /\
  ws_predict false ((w1, KGreedy (eps : RF), r) : red RF 2) ub_fts = Ok (PrProbs q, f').
Proof.
  intros eps. destruct (lr_example 0 1) as (w & w0 & c0 & r & p & f' & E & Ec & A1 & A2 & A3 & B1 & B2 & M1 & M2 & O1 & O2 & St & D0 & D1 & Ct & T & P); try lra.
  destruct (two_actions_main ex_hash false (@coin_default RF) gc16n 1%N 16%N c0 0 1 w w0 (lr_log 0 1) r (ub_store 0%nat) (ub_store 1%nat) (ub_store 2%nat) lr_l0 lr_l1 lr_l0 lr_l1 [] lr_l0 lr_l1 p f'
    Ec ltac:(lia) eq_refl A1 A2 A3 ltac:(lra) B1 B2 M1 M2 (Permutation_refl _) (Permutation_refl _) O1 O2 St D0 D1 Ct T P) as (s0 & s1 & -> & Lt).
  set (sc := [(0%N, s0); (1%N, s1)] : list (N * R)) in *.
  destruct (greedy_spec eps sc ltac:(discriminate)) as (i & q & _ & Eq & _).
  exists (mkW td_explore 1), r, sc, q, f', f'. split; [exact P|]. split; [|split; [reflexivity|]].
  - exists 0%nat, 0%N, s0. split; [reflexivity|]. intros [|[|j]] b v K Ne; cbn in K; [congruence|inversion K; subst; exact Lt|destruct j; discriminate].
  - unfold ws_predict in P |- *. binv P. destruct v as ((p & f1) & d). inversion P; subst. change (predict false 2 ((mkW td_explore 1, KGreedy (eps : RF), r) : red RF 2) ub_fts 0 0) with (wrap false 1 0 ub_fts 0 (fun f d => kind_predict false (KGreedy (eps : RF)) (predict false 1 r) f d 0)). unfold wrap. change (depth_inc false 0 1 0) with (Ok 0%N : out N). cbn [bind kind_predict].
    rewrite B. cbn [bind as_scores]. match goal with |- context [greedy_probs ?e ?l] => assert (X : greedy_probs e l = Ok q) by exact Eq; rewrite X end. cbn [bind].
    assert (d = 0%N). { pose proof (proj1 (offset_balanced false 1 r ub_fts (LbBinary true) 0%N ltac:(lia))) as Q. rewrite B in Q. inversion Q as [u v (Q1 & Q2 & Q3) U V| |]. exact Q2. }
    subst d. change (depth_dec false 0 1 0) with (Ok 0%N : out N). reflexivity.
Qed.

(** ** binary32 *)
Definition ao_gc : gconfig := mkGc 8 0 true [].
Definition ao_hist : list (fop BF0) := [FAdd 0 NsDefault 3%N f1; FAdd 1 NsDefault 5%N f1; FAdd 2 NsDefault 6%N (@fl BF0 2)].
Definition ao_store : fstore BF0 := match fops_run false ao_hist fstore0 with Ok st => st | _ => fstore0 end.
Definition ao_fts (b : bool) : features BF0 := FtsCb (Some (ao_store 0%nat)) (if b then [ao_store 1%nat; ao_store 2%nat] else [ao_store 2%nat; ao_store 1%nat]).
Lemma ao_moved : moved_fts swap2 (ao_fts true) (ao_fts false).
Proof. split; [reflexivity|apply swap2_moved]. Qed.
(** two rounds of learning, then what the learned model predicts for the first order *)
Definition ao_ask (ty : cbtype) (b : bool) : option (list (N * BF0)) :=
  let lb := LbCb (if b then 0%N else 1%N) (@fl BF0 1) (f_lit BF0 1 2) in
  match ws_new ex_hash false ao_gc (CCbAdf ty (CCoin (@coin_default BF0))) with
  | Ok R0 => match learn_all false (projT2 R0) [(ao_fts b, lb); (ao_fts b, lb); (ao_fts b, lb)] with
             | Ok r => match ws_predict false r (ao_fts true) with
                       | Ok (PrScores l, _) => Some l
                       | _ => None end
             | _ => None end
  | _ => None end.
Lemma ao_mtr : ao_ask Mtr true = ao_ask Mtr false /\ ao_ask Mtr true <> None.
Proof. split; [vm_compute; reflexivity|vm_compute; discriminate]. Qed.
(** inverse propensity scoring learns the actions one after the other *)
Lemma ao_ips : ao_ask Ips true <> ao_ask Ips false.
Proof. vm_compute. discriminate. Qed.
(** what a new model predicts for the two orders *)
Definition ao_new (k : rcfg BF0) : option (list (N * BF0) * list (N * BF0)) :=
  match ws_new ex_hash false ao_gc k with
  | Ok R0 => match ws_predict false (projT2 R0) (ao_fts true), ws_predict false (projT2 R0) (ao_fts false) with
             | Ok (PrProbs l, _), Ok (PrProbs l', _) => Some (l, l')
             | _, _ => None end
  | _ => None end.
(** all scores are 0: the first action gets the most, in both orders *)
Lemma ao_tie : exists x y, ao_new (CGreedy (f_lit BF0 1 2) (CCbAdf Mtr (CCoin (@coin_default BF0)))) = Some ([(0%N, x); (1%N, y)], [(0%N, x); (1%N, y)]) /\
  f_ltb BF0 y x = true /\ ~ moved_pred swap2 [(0%N, x); (1%N, y)] [(0%N, x); (1%N, y)].
Proof.
  do 2 eexists. split; [vm_compute; reflexivity|]. split; [vm_compute; reflexivity|]. intros ((_ & _ & _ & K) & _).
  specialize (K 0%nat ltac:(cbn; lia)). vm_compute in K. discriminate.
Qed.

(** Examples for C101. *)
From Coq Require Import List NArith ZArith Bool.
From Coq Require Import Floats.SpecFloat.
From Verif Require Import Base FloatOps FloatB32 Model_Hash Model_Features Model_Weights Model_Loss Model_Interactions
  Model_Types Model_Explore Model_Coin Model_Stack Model_Factory Spec_Features Spec_Stack Spec_Alike Spec_Fresh Spec_Built Proof_Built Proof_Reductions Proof_StackProps Proof_Fresh.
Import ListNotations.

(** an instance of single precision; the exponential of 0 is 1 *)
Definition FR : FOps := BF (fun _ => b_of_Z 1) (fun x => x) (fun x _ => x).
Definition fr_gc : gconfig := mkGc 8 0 true [].
(** a context, and three actions: one with a negative value, an infinite one, and one that is not a number *)
Definition fr_hist : list (fop FR) :=
  [FAdd 0 NsDefault 3%N f1; FAdd 1 NsDefault 5%N (f_lit FR (-7) 2); FAdd 2 NsDefault 6%N (S754_infinity true : FR); FAdd 3 NsDefault 5%N (S754_nan : FR)].
Definition fr_store : fstore FR := match fops_run false fr_hist fstore0 with Ok st => st | _ => fstore0 end.
Definition fr_ctx : option (sfeats FR) := Some (fr_store 0%nat).
Definition fr_acts : list (sfeats FR) := [fr_store 1%nat; fr_store 2%nat; fr_store 3%nat].
Definition fr_cb : rcfg FR := CCbAdf Mtr (CCoin (@coin_default FR)).
Definition fr_greedy : rcfg FR := CGreedy (f_lit FR 1 2) fr_cb.
Definition fr_softmax : rcfg FR := CSoftmax (f_lit FR 1 2) f1 fr_cb.
Definition fr_square : rcfg FR := CSquareCb (f_lit FR 1 2) (@fl FR 10) (f_lit FR 1 2) fr_cb.
(** what a new workspace answers *)
Definition fr_ask (c : rcfg FR) (f : features FR) : option (prediction FR) :=
  match ws_new ex_hash false fr_gc c with
  | Ok R0 => match ws_predict false (projT2 R0) f with Ok (p, _) => Some p | _ => None end
  | _ => None
  end.
Lemma fr_ask_ok : forall c f p, fr_ask c f = Some p -> exists R0 g, ws_new ex_hash false fr_gc c = Ok R0 /\ ws_predict false (projT2 R0) f = Ok (p, g).
Proof.
  intros c f p E. unfold fr_ask in E. destruct (ws_new ex_hash false fr_gc c) as [R0| |]; try discriminate.
  destruct (ws_predict false (projT2 R0) f) as [(q & g)| |] eqn:P; try discriminate. inversion E; subst. eauto.
Qed.
Definition fr_is (k : prediction FR -> bool) (c : rcfg FR) (f : features FR) : bool := match fr_ask c f with Some p => k p | None => false end.
Lemma fr_is_ok : forall k c f, fr_is k c f = true -> exists R0 p g, ws_new ex_hash false fr_gc c = Ok R0 /\ ws_predict false (projT2 R0) f = Ok (p, g) /\ k p = true.
Proof.
  intros k c f E. unfold fr_is in E. destruct (fr_ask c f) as [p|] eqn:Q; [|discriminate]. destruct (fr_ask_ok _ _ _ Q) as (R0 & g & A & B). exists R0, p, g. auto.
Qed.
Definition is_scalar (p : prediction FR) : bool := match p with PrScalar _ _ => true | _ => false end.
Definition is_scores (p : prediction FR) : bool := match p with PrScores l => Nat.eqb (length l) 3 | _ => false end.
Definition is_probs (p : prediction FR) : bool := match p with PrProbs l => Nat.eqb (length l) 3 | _ => false end.
Lemma fr_scalar : exists R0 y v g, ws_new ex_hash false fr_gc (CCoin (@coin_default FR)) = Ok R0 /\ ws_predict false (projT2 R0) (FtsSimple (fr_store 3%nat)) = Ok (PrScalar y v, g).
Proof.
  destruct (fr_is_ok is_scalar (CCoin (@coin_default FR)) (FtsSimple (fr_store 3%nat))) as (R0 & p & g & A & B & C); [vm_compute; reflexivity|].
  destruct p; try discriminate. eauto 6.
Qed.
Lemma fr_scores : exists R0 sc g, ws_new ex_hash false fr_gc fr_cb = Ok R0 /\ ws_predict false (projT2 R0) (FtsCb fr_ctx fr_acts) = Ok (PrScores sc, g).
Proof.
  destruct (fr_is_ok is_scores fr_cb (FtsCb fr_ctx fr_acts)) as (R0 & p & g & A & B & C); [vm_compute; reflexivity|].
  destruct p; try discriminate. eauto 6.
Qed.
Lemma fr_policy : forall c, In c [fr_greedy; fr_softmax; fr_square] ->
  exists R0 q g, ws_new ex_hash false fr_gc c = Ok R0 /\ ws_predict false (projT2 R0) (FtsCb fr_ctx fr_acts) = Ok (PrProbs q, g) /\ length q = 3%nat.
Proof.
  intros c Hc. destruct (fr_is_ok is_probs c (FtsCb fr_ctx fr_acts)) as (R0 & p & g & A & B & C).
  { cbn [In] in Hc. destruct Hc as [<-|[<-|[<-|[]]]]; vm_compute; reflexivity. }
  destruct p as [| | |q]; try discriminate. exists R0, q, g. split; [exact A|]. split; [exact B|]. apply PeanoNat.Nat.eqb_eq. exact C.
Qed.
(** the first action may differ from the others by rounding *)
Lemma fr_square_first : exists R0 q g, ws_new ex_hash false fr_gc fr_square = Ok R0 /\
  ws_predict false (projT2 R0) (FtsCb fr_ctx fr_acts) = Ok (PrProbs q, g) /\ ~ tied q 0 1.
Proof.
  destruct (fr_is_ok (fun p => match p with PrProbs [(_, x); (_, y); _] => negb (f_eqb FR x y) && f_eqb FR x x | _ => false end) fr_square (FtsCb fr_ctx fr_acts)) as (R0 & p & g & A & B & C); [vm_compute; reflexivity|].
  destruct p as [| | |q]; try discriminate. exists R0, q, g. split; [exact A|]. split; [exact B|]. intros (v & E1 & E2).
  destruct q as [|(a & x) [|(b & y) [|z [|t q]]]]; try discriminate. cbn in E1, E2. inversion E1. inversion E2. subst x y.
  destruct (f_eqb FR v v); discriminate.
Qed.
Lemma fr_ties : exists n w ueps la x (ch : red FR n) sc g q f', ws_predict false ch (FtsCb fr_ctx fr_acts) = Ok (PrScores sc, g) /\
  ws_predict false ((w, KSoftmax ueps la x, ch) : red FR (S n)) (FtsCb fr_ctx fr_acts) = Ok (PrProbs q, f') /\ tied sc 1 2.
Proof.
  destruct (fr_policy fr_softmax ltac:(cbn; auto)) as (R0 & q & g & A & B & _). pose proof (create_follows _ _ _ _ _ _ A) as Fo. pose proof (new_untrained _ _ _ _ _ A) as U.
  assert (K : match fr_softmax with CSoftmax _ _ _ => True | _ => False end) by exact Logic.I.
  revert Fo U B K. generalize (projT2 R0). generalize (projT1 R0). generalize fr_softmax. intros c m r Fo U B K.
  destruct Fo; try contradiction. destruct U as (_ & U). cbn [snd] in U.
  destruct (explore_policy false n w (KSoftmax ue la x) ch _ _ _ Logic.I B) as (sc & q' & Ps & _). exists n, w, ue, la, x, ch, sc, g, q, g.
  split; [exact Ps|]. split; [exact B|]. rewrite (zero_scores _ _ _ _ _ _ _ _ _ _ U Ps). apply zeros_tied; cbn; auto.
Qed.
(** a binary classifier with either link *)
Definition fr_binary (k : link) : rcfg FR := CBinary (CCoin (mkCoinCfg (@fl FR 4) (@fl FR 1) (@f0 FR) (@f0 FR) LossSquared k)).
Lemma fr_links : forall k, link_of (fr_binary k) = k /\ exists R0 b g, ws_new ex_hash false fr_gc (fr_binary k) = Ok R0 /\
  ws_predict false (projT2 R0) (FtsSimple (fr_store 2%nat)) = Ok (PrBinary b, g).
Proof.
  intros k. split; [reflexivity|].
  destruct (fr_is_ok (fun p => match p with PrBinary _ => true | _ => false end) (fr_binary k) (FtsSimple (fr_store 2%nat))) as (R0 & p & g & A & B & C); [destruct k; vm_compute; reflexivity|].
  destruct p; try discriminate. eauto 6.
Qed.

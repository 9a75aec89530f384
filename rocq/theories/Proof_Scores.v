(** C18: the scores of contextual bandit actions are not clamped. *)
From Coq Require Import List NArith ZArith Bool.
From Verif Require Import Base FloatOps FloatB32 Model_Hash Model_Features Model_Weights Model_Interactions Model_Types Model_Explore
  Model_Coin Model_Stack Model_Factory Spec_Features Spec_Stack Spec_Scores Proof_StackProps Proof_CoinR.
Import ListNotations.
Open Scope N_scope.

Definition sc_hist : list (fop BF0) :=
  [FAdd 1 NsDefault 5 (@f1 BF0); FAdd 2 NsDefault 6 (@f1 BF0); FAdd 3 NsDefault 5 (@f1 BF0); FAdd 3 NsDefault 6 (@f1 BF0)].
Definition sc_store : fstore BF0 := match fops_run false sc_hist fstore0 with Ok st => st | _ => fstore0 end.
(** no shared feature; actions with the feature 5, the feature 6, and both *)
Definition sc_train : features BF0 := FtsCb (Some (sc_store 0%nat)) [sc_store 1%nat; sc_store 2%nat].
Definition sc_ask : features BF0 := FtsCb (Some (sc_store 0%nat)) [sc_store 1%nat; sc_store 3%nat].
Definition sc_actions : list N := [0; 1; 0; 1; 0; 1].
Fixpoint sc_run {n} (r : red BF0 n) (l : list N) : out (red BF0 n) :=
  match l with
  | [] => Ok r
  | a :: l => let* x := ws_learn false r sc_train (LbCb a f1 f1) in sc_run (fst x) l
  end.
Definition sc_cfg : rcfg BF0 := CCbAdf Mtr (CCoin coin_default).
Definition sc_check : bool :=
  match ws_new ex_hash false gc16n sc_cfg with
  | Ok R => match sc_run (projT2 R) sc_actions with
            | Ok r => match ws_predict false r sc_ask with
                      | Ok (PrScores [(0, a); (1, b)], _) => @f_gtb BF0 a (fl 1) && @f_gtb BF0 b (fl 3)
                      | _ => false end
            | _ => false end
  | _ => false end.
Lemma sc_checked : sc_check = true. Proof. vm_compute. reflexivity. Qed.

Lemma sc_built : built_fts sc_train /\ built_fts sc_ask.
Proof.
  assert (B : forall i, built (sc_store i)) by (intros i; exists false, sc_hist, sc_store, i; split; reflexivity).
  split; (split; [intros a [<-|[<-|[]]]; apply B|apply B]).
Qed.

Lemma sc_run_reach : forall n (r0 : red BF0 n) l r r', learned_cost false (@f1 BF0) r0 r -> sc_run r l = Ok r' -> learned_cost false (@f1 BF0) r0 r'.
Proof.
  induction l as [|a l IH]; intros r r' Q E; cbn [sc_run] in E.
  - inversion E; subst; auto.
  - destruct (ws_learn false r sc_train (LbCb a f1 f1)) as [(r1 & g)|e|e] eqn:L; try discriminate.
    cbn [bind fst] in E. eapply IH; [|exact E]. eapply lc_learn; eauto. apply sc_built.
Qed.

Lemma scores_leave : exists R r s0 s1 f',
  ws_new ex_hash false gc16n sc_cfg = Ok R /\ learned_cost false (@f1 BF0) (projT2 R) r /\ built_fts sc_ask /\
  ws_predict false r sc_ask = Ok (@PrScores BF0 [(0, s0); (1, s1)], f') /\
  f_gtb s0 f1 = true /\ f_gtb s1 (fl 3) = true.
Proof.
  pose proof sc_checked as K. unfold sc_check in K.
  destruct (ws_new ex_hash false gc16n sc_cfg) as [R|e|e] eqn:E; try discriminate.
  destruct (sc_run (projT2 R) sc_actions) as [r|e|e] eqn:E1; try discriminate.
  destruct (ws_predict false r sc_ask) as [(p & f')|e|e] eqn:E2; try discriminate.
  destruct p as [| |[|[i0 a] [|[i1 b] [|]]]|]; try discriminate; try (destruct i0; discriminate);
    try (destruct i0; [destruct i1 as [|[]]|]; discriminate).
  destruct i0; [|discriminate]. destruct i1 as [|[| |]]; try discriminate. apply andb_prop in K. destruct K as (K1 & K2).
  exists R, r, a, b, f'. split; [reflexivity|]. split.
  { eapply sc_run_reach; [apply lc_refl|exact E1]. }
  split; [apply sc_built|]. split; [exact E2|]. split; [exact K1|exact K2].
Qed.

(** C70 and C71: property theorems about labels in JSON examples and about stacks made
    from configurations. *)
From Coq Require Import List NArith ZArith Bool.
From Verif Require Import Base FloatOps FloatB32 Model_Hash Model_Features Model_Types Model_Interactions Model_Weights Model_Loss Model_Explore Model_Coin
  Model_Stack Model_Factory Model_Json Spec_Stack Spec_Delegate Spec_JsonLabel Spec_Built
  Proof_StackProps Proof_Delegate Proof_JsonTrain Proof_JsonLabel Proof_Built.
Import ListNotations.
Open Scope N_scope.

(** C70.  A JSON example is parsed exactly if its document has the features and a label of
    the label type, and then the learner gets this label. *)
Theorem C70_json_label : forall (O : FOps) (H : hasher) (dbg : bool) (seed nb : N) al rd ft lt ds chunk x (lb : option (label O)),
  json_chunk O H dbg seed nb al rd ft lt ds chunk = Ok (x, lb) <->
  exists v, rd chunk = Some v /\ json_features O H dbg seed nb al ft v ds = Ok x /\ label_in lt v lb.
Proof. exact @json_chunk_label. Qed.
Print Assumptions C70_json_label.
(** So no JSON example can be used by a reduction with binary labels. *)
Theorem C70_no_binary : forall (O : FOps) (H : hasher) (dbg : bool) (seed nb : N) al rd ft ds chunk r,
  json_chunk O H dbg seed nb al rd ft LTBinary ds chunk <> Ok r.
Proof. exact @json_no_binary. Qed.
Print Assumptions C70_no_binary.
(** {"label": {"action": 1, "cost": 2, "probability": 3, "cost": 4}} *)
Example C70_example : @label_in BF0 LTCb
  (JObj [(s_label, JObj [(s_action, jn 1); (s_cost, jn 2); (s_probability, jn 3); (s_cost, jn 4)])])
  (Some (LbCb 1 (@f_of_N BF0 4) (@f_of_N BF0 3))).
Proof.
  refine (@li_cb BF0 _ _ (mkNum (@f_of_N BF0 1) (@f_of_N BF0 1) (Some 1)) (mkNum (@f_of_N BF0 4) (@f_of_N BF0 4) (Some 4))
            (mkNum (@f_of_N BF0 3) (@f_of_N BF0 3) (Some 3)) 1 _ _ _ _ eq_refl).
  - exists [], []. split; [reflexivity|intros []].
  - exists [], [(s_cost, jn 2); (s_probability, jn 3); (s_cost, jn 4)]. split; [reflexivity|]. intros [X|[X|[X|[]]]]; discriminate X.
  - exists [(s_action, jn 1); (s_cost, jn 2); (s_probability, jn 3)], []. split; [reflexivity|intros []].
  - exists [(s_action, jn 1); (s_cost, jn 2)], [(s_cost, jn 4)]. split; [reflexivity|]. intros [X|[]]; discriminate X.
Qed.
Example C70_chunk_example : is_ok (json_chunk BF0 ex_hash true 0 18 ex_al ex_rd FTCb LTCb [] [1]) = true.
Proof. vm_compute. reflexivity. Qed.

(** C71.  A stack made from a configuration is the configured stack of reductions with the
    configured settings, when it is made and after any calls. *)
Theorem C71_configured : forall (O : FOps) (H : hasher) (dbg : bool) gc (c : rcfg O) R r,
  ws_new H dbg gc c = Ok R -> reach dbg (projT2 R) r -> follows H gc c (projT1 R) r.
Proof. exact @configured. Qed.
Print Assumptions C71_configured.

(** It starts untrained. *)
Theorem C71_untrained : forall (O : FOps) (H : hasher) (dbg : bool) gc (c : rcfg O) R,
  ws_new H dbg gc c = Ok R -> untrained (projT1 R) (projT2 R).
Proof. exact @new_untrained. Qed.
Print Assumptions C71_untrained.

(** A configured exploration policy, for the whole life of a workspace: its predictions are
    the policy with the configured settings, applied to what the workspace without the
    policy and with the same history predicts (for SquareCB: with all logged probabilities
    set to 1). *)
Theorem C71_policy : forall (O : FOps) (H : hasher) (dbg : bool) gc (c c' : rcfg O) R, explorer c c' -> ws_new H dbg gc c = Ok R ->
  exists R', ws_new H dbg gc c' = Ok R' /\
  forall h r f p f', N.of_nat (length h) < u64_mod -> learn_all dbg (projT2 R) h = Ok r -> ws_predict dbg r f = Ok (p, f') ->
  exists r' scores probs,
    learn_all dbg (projT2 R') (match c with CSquareCb _ _ _ _ => map (fun e => (fst e, sure (snd e))) h | _ => h end) = Ok r' /\
    ws_predict dbg r' f = Ok (PrScores scores, f') /\ p = PrProbs probs /\ policy dbg c (N.of_nat (length h)) scores = Ok probs.
Proof. exact @lifelong. Qed.
Print Assumptions C71_policy.

Example C71_example :
  forallb (fun c => match ws_new ex_hash false ex_gc c with
                    | Ok R => match learn_all false (projT2 R) [(ex_fts, ex_lb); (ex_fts, ex_lb)] with
                              | Ok r => ok_of (ws_predict false r ex_fts)
                              | _ => false
                              end
                    | _ => false
                    end) [ex_cfg; CSoftmax (f_lit BF0 1%Z 10) f1 (CCbAdf Mtr (CCoin coin_default)); ex_sq_cfg] = true /\
  ok_of (ws_new ex_hash false ex_gc ex_raw_cfg) = true /\
  explorer ex_cfg (CDebug (CCbAdf Ips (CCoin coin_default))).
Proof. split; [vm_compute; reflexivity|split; [vm_compute; reflexivity|reflexivity]]. Qed.

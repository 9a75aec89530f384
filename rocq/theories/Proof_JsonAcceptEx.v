(** Examples for C86. *)
From Coq Require Import List NArith Bool Lia.
From Verif Require Import Base FloatOps FloatB32 Model_Hash Model_Features Model_Types Model_Interactions Model_Weights Model_Loss Model_Explore Model_Coin
  Model_Stack Model_Factory Model_Text Model_Metrics Model_Train Model_Json Model_JsonTrain Model_Save Model_Command
  Spec_Stack Spec_Total Spec_Release Spec_Json Spec_JsonLabel Spec_Command Spec_Formats Spec_JsonAccept Proof_StackProps
  Proof_TextRead Proof_TextParse Proof_TextChunk Proof_Train Proof_JsonTrain Proof_Release Proof_CommandEx Proof_FormatsEx Proof_JsonAccept.
Import ListNotations.
Open Scope N_scope.

(** {"label": [7, 1, 1], "actions": [{}]}: no shared features, no action 7 *)
Definition jx_far : json BF0 := JObj [(s_label, JArr [jn 7; jn 1; jn 1]); (s_actions, JArr [JObj []])].
Definition jx_rd (s : str) : option (json BF0) := match s with 51 :: _ => Some jx_far | _ => fx_rd s end.

Lemma jx_no_lists : forall fmt c, no_string_lists jx_rd fmt FTCb c.
Proof.
  intros fmt c _ v E. unfold jx_rd, fx_rd in E.
  assert (K : v = jx_far \/ v = fx_json \/ v = fx_ds).
  { destruct c as [|x c]; [discriminate|]. destruct x as [|x]; [discriminate|]. do 7 (try (destruct x as [x|x|]; try discriminate)); inversion E; auto. }
  destruct K as [-> | [-> | ->]]; cbn [json_parts jget jx_far fx_json fx_ds]; repeat constructor; intros l name s r El Hin;
    vm_compute in El; try discriminate; injection El as <-; cbn in Hin; intuition discriminate.
Qed.
Lemma jx_labelled : forall fmt v, (fmt = FmtJson /\ v = fx_json) \/ (fmt = FmtDs /\ v = fx_ds) -> labelled ex_hash 0 v fmt LTCb true 2 0.
Proof.
  intros fmt v [(-> & ->)|(-> & ->)].
  - destruct (proj1 (json_iff ex_hash 0 4 eq_refl jx_rd ex_al FTCb LTCb [49] (or_intror (or_intror (conj eq_refl eq_refl))) (jx_no_lists _ _) true 2%nat 0)) as (v & E & L).
    + destruct (json_example BF0 ex_hash false 0 4 ex_al jx_rd FTCb LTCb [] [49]) as [(u & [lb|])|e|e] eqn:E; [|vm_compute in E; discriminate..].
      exists u, lb. split; [reflexivity|]. vm_compute in E. injection E as <- <-. cbn [shape]. auto.
    + injection E as <-. exact L.
  - destruct (proj1 (service_iff ex_hash 0 4 eq_refl jx_rd [50] true 2%nat 0)) as (v & E & L).
    + destruct (ds_chunk BF0 ex_hash false 0 4 jx_rd [] [50]) as [(u & [lb|])|e|e] eqn:E; [|vm_compute in E; discriminate..].
      exists u, lb. split; [reflexivity|]. vm_compute in E. injection E as <- <-. cbn [shape]. auto.
    + injection E as <-. exact L.
Qed.
Lemma jx_far_labelled : labelled ex_hash 0 jx_far FmtJson LTCb false 1 7.
Proof.
  destruct (proj1 (json_iff ex_hash 0 4 eq_refl jx_rd ex_al FTCb LTCb [51] (or_intror (or_intror (conj eq_refl eq_refl))) (jx_no_lists _ _) false 1%nat 7)) as (v & E & L).
  - destruct (json_example BF0 ex_hash false 0 4 ex_al jx_rd FTCb LTCb [] [51]) as [(u & [lb|])|e|e] eqn:E; [|vm_compute in E; discriminate..].
    exists u, lb. split; [reflexivity|]. vm_compute in E. injection E as <- <-. cbn [shape]. auto.
  - injection E as <-. exact L.
Qed.

Lemma jx_accept : forall fmt, fmt <> FmtText -> exists R, ws_new ex_hash false ex_gc mtr_greedy_cfg = Ok R /\ gc_bits ex_gc < 32 /\
  uses_elem (projT2 R) = false /\ uses_weighted (projT2 R) = false /\ uses_mtr (projT2 R) = true /\ td_in_label (red_types (projT2 R)) = LTCb /\
  Forall (metric_suits (red_types (projT2 R))) [name_ips; name_example] /\
  full_lines (fx_text fmt) (fx_pieces fmt) /\
  Forall (no_string_lists jx_rd fmt (td_in_feats (red_types (projT2 R)))) (fx_pieces fmt) /\
  Forall (line_shows ex_hash 0 jx_rd fmt (red_types (projT2 R)) true [name_ips; name_example]) (fx_pieces fmt) /\
  ~ line_trains ex_hash 0 jx_rd fmt LTCb true [51] /\ line_trains ex_hash 0 jx_rd FmtJson LTCb false [51].
Proof.
  intros fmt NT. destruct (ws_new ex_hash false ex_gc mtr_greedy_cfg) as [R|e|e] eqn:E; [|vm_compute in E; discriminate..].
  exists R. split; [reflexivity|]. vm_compute in E. inversion E; subst; clear E.
  do 5 (split; [reflexivity|]). split; [constructor; [right; right; repeat split|]; constructor; [left; reflexivity|constructor]|].
  split; [|split; [|split; [|split]]].
  - destruct fmt; [congruence| |].
    + apply (full_more [50] [50; 10]); [intros [X|[]]; discriminate|]. apply (full_more [50] []); [intros [X|[]]; discriminate|constructor].
    + apply (full_more [49] [49]); [intros [X|[]]; discriminate|]. apply full_last; [discriminate|intros [X|[]]; discriminate].
  - apply Forall_forall. intros c _. apply jx_no_lists.
  - apply Forall_forall. intros c Hc.
    assert (K : exists v, jx_rd c = Some v /\ labelled ex_hash 0 v fmt LTCb true 2 0).
    { destruct fmt; [congruence| |]; cbn in Hc; destruct Hc as [<-|[<-|[]]]; eexists; (split; [reflexivity|]); apply jx_labelled; auto. }
    destruct K as (v & Ev & L). exists v, true, 2%nat, 0. split; auto. split; [exact L|]. repeat split; intros; try discriminate; cbn; lia.
  - intros (v & sh & k & i & Ev & L & K). cbn in Ev. injection Ev as <-. destruct (K eq_refl) as (-> & _).
    inversion L as [| |x l i' c p F _ _ _ _|x l i' c p F _ _ _ _]; subst.
    + destruct F as (l1 & l2 & El & _). injection El as El. destruct l1 as [|? [|? [|? l1]]]; inversion El.
    + destruct F as (l1 & l2 & El & _). injection El as El. destruct l1 as [|? [|? [|? l1]]]; inversion El.
  - exists jx_far, false, 1%nat, 7. split; [reflexivity|]. split; [exact jx_far_labelled|discriminate].
Qed.

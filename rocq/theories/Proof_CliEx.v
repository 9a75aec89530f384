(** Examples for the text of the command-line program (C76, C77). *)
From Coq Require Import String List NArith ZArith Bool Lia PeanoNat Floats.SpecFloat.
From Verif Require Import Base FloatOps FloatB32 Model_Hash Model_Features Model_Interactions Model_Weights Model_Loss Model_Explore Model_Coin Model_Types
  Model_Stack Model_Factory Model_Text Model_Metrics Model_Train Model_Json Model_Config Model_JsonTrain Model_Save Model_Export Model_Command Model_Cli
  Spec_Features Spec_Stack Spec_Text Spec_Metrics Spec_Progress Spec_Save Spec_Export Spec_Command Spec_Cli
  Proof_StackRestore Proof_StackProps Proof_TextChunk Proof_Train Proof_Progress Proof_JsonTrain Proof_Pieces Proof_Export Proof_ExportReach Proof_Command Proof_CommandEx
  Proof_Cli Proof_CliRuns.
Import ListNotations.
Open Scope N_scope.

(** ** a printer: mantissa and binary exponent *)
Definition ci_sign (s : bool) : str := if s then [45] else [].
Definition ci_z (z : Z) : str := ci_sign (z <? 0)%Z ++ dec (Z.abs_N z).
Definition ci_pr (x : BF0) : str :=
  match x with
  | S754_finite s m e => ci_sign s ++ dec (Npos m) ++ [101] ++ ci_z e
  | S754_zero s => ci_sign s ++ [48]
  | _ => []
  end.
Definition digit (c : N) : Prop := 48 <= c <= 57.
Lemma dec_digits : forall n, Forall digit (dec n).
Proof.
  intro n. apply Forall_forall. intros c I. pose proof (proj2 (dec_facts n)) as D. rewrite forallb_forall in D. specialize (D c I).
  apply andb_true_iff in D. destruct D as (A & B). apply N.leb_le in A, B. unfold digit. lia.
Qed.
Lemma sign_inj : forall s s' n n' r r', Forall digit (n ++ r) -> Forall digit (n' ++ r') -> n <> [] -> n' <> [] ->
  ci_sign s ++ n ++ r = ci_sign s' ++ n' ++ r' -> s = s' /\ n ++ r = n' ++ r'.
Proof.
  intros [] [] n n' r r' F F' N0 N0' E; cbn [ci_sign app] in E; auto.
  - injection E as E. auto.
  - destruct n' as [|c n']; [congruence|]. cbn [app] in E. injection E as <- _. inversion F' as [|? ? D]; subst. unfold digit in D. lia.
  - destruct n as [|c n]; [congruence|]. cbn [app] in E. injection E as -> _. inversion F as [|? ? D]; subst. unfold digit in D. lia.
Qed.
Lemma dec_ne : forall n, dec n <> [].
Proof. intros n E. unfold dec in E. cbn [digits] in E. destruct (n <? 10); [discriminate E|]. apply app_eq_nil in E. destruct E as (_ & E). discriminate E. Qed.
Lemma ci_z_inj : forall a b, ci_z a = ci_z b -> a = b.
Proof.
  intros a b E. unfold ci_z in E. rewrite <- (app_nil_r (dec (Z.abs_N a))), <- (app_nil_r (dec (Z.abs_N b))) in E.
  apply sign_inj in E; try apply dec_ne; try (rewrite app_nil_r; apply dec_digits). destruct E as (S0 & E). rewrite !app_nil_r in E. apply dec_inj in E.
  destruct (a <? 0)%Z eqn:A, (b <? 0)%Z eqn:B; try discriminate S0; lia.
Qed.
Lemma sign_head : forall s s' c c' r r', digit c -> digit c' -> ci_sign s ++ c :: r = ci_sign s' ++ c' :: r' -> s = s' /\ c :: r = c' :: r'.
Proof.
  intros [] [] c c' r r' D D' E; cbn [ci_sign app] in E; auto.
  - injection E as -> ->. auto.
  - injection E as <- _. unfold digit in D'. lia.
  - injection E as -> _. unfold digit in D. lia.
Qed.
Lemma dec_head : forall n, exists c r, dec n = c :: r /\ digit c.
Proof. intros n. pose proof (dec_digits n) as D. pose proof (dec_ne n) as K. destruct (dec n) as [|c r]; [congruence|]. inversion D; subst. eauto. Qed.
Lemma ci_prints : prints ci_pr.
Proof.
  split.
  - assert (S0 : forall s, Forall number_char (ci_sign s)) by (intros []; repeat constructor; right; cbn; tauto).
    intros [s|s| |s m x] (A & B); try discriminate; cbn [ci_pr].
    + apply Forall_app. split; auto. repeat constructor; lia.
    + apply Forall_app. split; auto. apply Forall_app. split; [apply dec_chars|]. constructor; [right; cbn; tauto|].
      unfold ci_z. apply Forall_app. split; auto. apply dec_chars.
  - intros [s|s| |s m x] [s'|s'| |s' m' x'] (A & B) (A' & B') E; try discriminate A; try discriminate B; try discriminate A'; try discriminate B'; cbn [ci_pr] in E.
    + apply sign_head in E; try (unfold digit; lia). destruct E as (-> & _). reflexivity.
    + exfalso. destruct (dec_head (Npos m')) as (c & r & EC & DC). rewrite EC in E. cbn [app] in E.
      apply sign_head in E; auto; try (unfold digit; lia). destruct E as (_ & E). injection E as _ E. destruct r; discriminate E.
    + exfalso. destruct (dec_head (Npos m)) as (c & r & EC & DC). rewrite EC in E. cbn [app] in E.
      apply sign_head in E; auto; try (unfold digit; lia). destruct E as (_ & E). injection E as _ E. destruct r; discriminate E.
    + destruct (dec_head (Npos m)) as (c & r & EC & DC), (dec_head (Npos m')) as (c' & r' & EC' & DC').
      rewrite EC, EC' in E. cbn [app] in E. apply sign_head in E; auto. destruct E as (-> & E).
      change (c :: r ++ 101 :: ci_z x) with ((c :: r) ++ 101 :: ci_z x) in E. change (c' :: r' ++ 101 :: ci_z x') with ((c' :: r') ++ 101 :: ci_z x') in E.
      rewrite <- EC, <- EC' in E. apply (span_one digit) in E; try apply dec_digits; try (unfold digit; lia). destruct E as (E1 & _ & E2).
      apply dec_inj in E1. injection E1 as ->. apply ci_z_inj in E2. now subst.
Qed.

(** ** runs *)
Definition ci_quiet (fmt : format) : options BF0 := mkOpts fmt (mkMode true true) [name_ips] (Additive 1).
Definition finpb (p : prediction BF0) : bool :=
  match p with PrScalar a b => finb a && finb b | PrBinary _ => true | PrScores l | PrProbs l => forallb (fun x => finb (snd x)) l end.
Lemma finpb_ok : forall p, finpb p = true -> finite_pred p.
Proof.
  intros [a b|b|l|l] E; cbn [finpb finite_pred] in *; auto.
  - apply andb_true_iff in E. destruct E. split; now apply finb_iff.
  - rewrite forallb_forall in E. intros a x I. now apply finb_iff, (E (a, x)).
  - rewrite forallb_forall in E. intros a x I. now apply finb_iff, (E (a, x)).
Qed.
Lemma finite_run : forall o s t k, match cx_run o s t with Ok rep => Some (forallb finpb (rp_preds rep), length (rp_preds rep), length (rp_rows rep)) | _ => None end = Some (true, k, k) ->
  exists rep, cx_run o s t = Ok rep /\ Forall finite_pred (rp_preds rep) /\ length (rp_preds rep) = k /\ length (rp_rows rep) = k.
Proof.
  intros o s t k E. destruct (cx_run o s t) as [rep| |]; try discriminate. exists rep. injection E as E1 E2 E3. split; [reflexivity|]. split; auto.
  apply Forall_forall. intros q I. rewrite forallb_forall in E1. now apply finpb_ok, E1.
Qed.
Lemma ci_predicts : predicts ex_hash false cx_src PTProbs.
Proof.
  destruct (ws_new ex_hash false ex_gc ex_cfg) as [R|e|e] eqn:E; [|vm_compute in E; discriminate..].
  exists ex_gc, R. unfold cx_src, open_source. rewrite E. split; [reflexivity|].
  vm_compute in E. inversion E; subst; clear E. reflexivity.
Qed.
Lemma ci_run : forall fmt, exists rep, cx_run (ci_quiet fmt) cx_src (cx_text fmt ++ cx_text fmt) = Ok rep /\ Forall finite_pred (rp_preds rep) /\
  length (rp_preds rep) = 2%nat /\ length (rp_rows rep) = 2%nat.
Proof. intros fmt. apply finite_run. destruct fmt; vm_compute; reflexivity. Qed.
Lemma ci_pieces : pieces FmtJson true (cx_text FmtJson ++ cx_text FmtJson) [[49; 10]; [49; 10]].
Proof. apply (full_more [49]); [intros [X|[]]; discriminate|]. apply (full_more [49] []); [intros [X|[]]; discriminate|constructor]. Qed.
Lemma ci_quiet_run : exists rep, source_ok ex_hash false cx_src /\ tm_quiet (op_mode (ci_quiet FmtText)) = true /\
  train_command ex_hash ex_pf cx_rd ex_al false (ci_quiet FmtText) cx_src (cx_text FmtText) = Ok rep /\ rp_rows rep <> [].
Proof.
  destruct (one_run_ex (ci_quiet FmtText) cx_src (cx_text FmtText) 1 1) as (rep & E & _ & L); [vm_compute; reflexivity|].
  exists rep. split; [exact Logic.I|]. split; [reflexivity|]. split; [exact E|]. intros Z. rewrite Z in L. discriminate L.
Qed.

(** texts of the progress option *)
Lemma ci_period : forall A (pf : str -> option A), period_text pf (lit "+10") (Additive 10) /\ period_text pf (lit "007") (Additive 7).
Proof.
  intros A pf. split.
  - apply (pt_plus pf (lit "10") 10), number_plain; [apply (decimal_more [49] 1 0); [apply (decimal_one 1); lia|lia]|lia].
  - apply pt_number, number_plain; [|lia]. apply (decimal_more [48; 48] 0 7); [|lia]. apply (decimal_more [48] 0 0); [|lia]. apply (decimal_one 0). lia.
Qed.
(** an empty text, more than 32 bits *)
Lemma ci_no_period : forall A (pf : str -> option A) p, ~ period_text pf [] p /\ ~ period_text pf (lit "4294967296") p.
Proof. intros A pf p. split; intros K; apply (period_iff A (fun s => s)) in K; vm_compute in K; discriminate K. Qed.

Lemma ci_null : exists ps qs : list (prediction BF0), ps <> qs /\ map pred_type_of ps = map pred_type_of qs /\
  forall pr, predictions_file pr ps = predictions_file pr qs.
Proof. exists [PrScalar S754_nan S754_nan], [PrScalar (S754_infinity true) (S754_infinity false)]. split; [discriminate|]. split; [reflexivity|reflexivity]. Qed.
Lemma ci_kinds : exists ps qs : list (prediction BF0), ps <> qs /\ Forall finite_pred ps /\ Forall finite_pred qs /\
  forall pr, predictions_file pr ps = predictions_file pr qs.
Proof.
  exists [PrScores [(0, f1)]], [PrProbs [(0, f1)]]. split; [discriminate|].
  split; [constructor; [intros a x [E|[]]; injection E as <- <-; split; reflexivity|constructor]|].
  split; [constructor; [intros a x [E|[]]; injection E as <- <-; split; reflexivity|constructor]|]. intros pr. reflexivity.
Qed.

(** an exploration above a coin is refused *)
Lemma ci_refused : exists x, open_source (O := BF0) ex_hash false (FromConfig ex_gc (CGreedy f0 (CCoin (@coin_default BF0)))) = Er x.
Proof. assert (C : match open_source (O := BF0) ex_hash false (FromConfig ex_gc (CGreedy f0 (CCoin (@coin_default BF0)))) with Er _ => true | _ => false end = true) by (vm_compute; reflexivity).
  destruct (open_source (O := BF0) ex_hash false (FromConfig ex_gc (CGreedy f0 (CCoin (@coin_default BF0))))) as [|x|]; try discriminate C. eauto.
Qed.
(** a line that is no example *)
Lemma ci_panics : exists p, train_command ex_hash ex_pf cx_rd ex_al false (cx_quiet FmtJson) cx_src [51; 10] = Pn p.
Proof.
  assert (C : match cx_run (cx_quiet FmtJson) cx_src [51; 10] with Pn _ => true | _ => false end = true) by (vm_compute; reflexivity).
  destruct (cx_run (cx_quiet FmtJson) cx_src [51; 10]) as [| |p]; try discriminate C. eauto.
Qed.

(** ** models as JSON *)
Lemma ci_json : exists R r f', plain (xp_extra xp_child) /\ any_order (O := BF0) (@rev _) /\
  ws_new ex_hash false ex_gc xp_cfg = Ok R /\ reach false (projT2 R) r /\ ws_learn false (projT2 R) ex_fts xp_lb = Ok (r, f') /\
  gc_bits ex_gc < 256 /\ gc_seed ex_gc < 2 ^ 32 /\ finite_weights r /\ finite_numbers r.
Proof.
  destruct xp_trained as (R & r & f' & E & L & F1 & F2 & _). exists R, r, f'. split; [exact xp_plain|]. split; [exact any_order_rev|]. split; [exact E|].
  split; [eapply reach_learn; [apply reach_refl|exact L]|]. repeat (split; [assumption || reflexivity|]). exact F2.
Qed.

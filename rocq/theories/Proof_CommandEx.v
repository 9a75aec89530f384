(** Examples for the train command (C72, C73). *)
From Coq Require Import List NArith ZArith Bool Lia PeanoNat.
From Verif Require Import Base FloatOps FloatB32 Model_Hash Model_Features Model_Interactions Model_Weights Model_Loss Model_Explore Model_Coin Model_Types
  Model_Stack Model_Factory Model_Text Model_Metrics Model_Train Model_Json Model_JsonTrain Model_Save Model_Command
  Spec_Features Spec_Stack Spec_Text Spec_Metrics Spec_Progress Spec_Save Spec_Command
  Proof_StackRestore Proof_StackProps Proof_TextChunk Proof_Train Proof_Progress Proof_JsonTrain Proof_Pieces Proof_Command.
Import ListNotations.
Open Scope N_scope.

Definition cx_rd (s : str) : option (json BF0) := match s with 49 :: _ => ex_rd [1] | 50 :: _ => ex_rd [2] | _ => None end.
Definition cx_opts (fmt : format) : options BF0 := mkOpts fmt (mkMode false true) [name_ips; name_parsed] (Additive 1).
Definition cx_quiet (fmt : format) : options BF0 := mkOpts fmt (mkMode true false) [name_ips] (Additive 1).
Definition cx_src : source BF0 := FromConfig ex_gc ex_cfg.
Definition cx_simple : source BF0 := FromConfig ex_gc (CCoin (@coin_default BF0)).
(** a bandit example in each of the formats *)
Definition cx_text (fmt : format) : str :=
  match fmt with FmtText => ex_chunk ++ [10; 10] | FmtDs => [50; 10] | FmtJson => [49; 10] end.
Notation cx_run o s text := (train_command (O := BF0) ex_hash ex_pf cx_rd ex_al false o s text).

Lemma cx_closed : forall fmt, closed fmt true (cx_text fmt).
Proof.
  intros fmt. split.
  - right. destruct fmt; [exists (ex_chunk ++ [10])|exists [50]|exists [49]]; reflexivity.
  - intros -> _. right. exists (ex_chunk ++ [10]), []. repeat split; auto.
    + right. exists ex_chunk. reflexivity.
    + constructor.
Qed.
Lemma cx_takes : takes_multi ex_hash false cx_src true.
Proof.
  destruct (ws_new ex_hash false ex_gc ex_cfg) as [R|e|e] eqn:E; [|vm_compute in E; discriminate..].
  exists ex_gc, R. unfold cx_src, open_source. rewrite E. split; [reflexivity|].
  vm_compute in E. inversion E; subst; clear E. reflexivity.
Qed.
Lemma cx_simple_takes : takes_multi ex_hash false cx_simple false.
Proof.
  destruct (ws_new ex_hash false ex_gc (CCoin (@coin_default BF0))) as [R|e|e] eqn:E; [|vm_compute in E; discriminate..].
  exists ex_gc, R. unfold cx_simple, open_source. rewrite E. split; [reflexivity|].
  vm_compute in E. inversion E; subst; clear E. reflexivity.
Qed.

Definition two_runs (o : options BF0) (s : source BF0) (t1 t2 : str) : option nat :=
  match cx_run o s t1 with
  | Ok rep1 => match cx_run o (FromModel (rp_model rep1)) t2 with
               | Ok rep2 => Some (length (rp_preds rep1 ++ rp_preds rep2))
               | _ => None end
  | _ => None
  end.
Definition one_run (o : options BF0) (s : source BF0) (t : str) : option (nat * nat) :=
  match cx_run o s t with Ok rep => Some (length (rp_preds rep), length (rp_rows rep)) | _ => None end.
Lemma two_runs_ex : forall fmt o s t1 t2 k, op_format o = fmt -> tm_preds (op_mode o) = true -> two_runs o s t1 t2 = Some k ->
  exists ps s', sessions ex_hash false ex_pf cx_rd ex_al fmt true s [t1; t2] ps s' /\ length ps = k.
Proof.
  intros fmt o s t1 t2 k EF EP E. unfold two_runs in E. destruct (cx_run o s t1) as [rep1| |] eqn:E1; try discriminate.
  destruct (cx_run o (FromModel (rp_model rep1)) t2) as [rep2| |] eqn:E2; try discriminate.
  exists (rp_preds rep1 ++ rp_preds rep2 ++ []), (FromModel (rp_model rep2)). split.
  - econstructor; [exact EF|exact EP|exact E1|]. econstructor; [exact EF|exact EP|exact E2|constructor].
  - rewrite app_nil_r. congruence.
Qed.
Lemma one_run_ex : forall o s t j k, one_run o s t = Some (j, k) -> exists rep, cx_run o s t = Ok rep /\ length (rp_preds rep) = j /\ length (rp_rows rep) = k.
Proof. intros o s t j k E. unfold one_run in E. destruct (cx_run o s t) as [rep| |]; try discriminate. exists rep. inversion E; auto. Qed.

Lemma cx_sessions : forall fmt, exists ps s' rep,
  source_ok ex_hash false cx_src /\ takes_multi ex_hash false cx_src true /\
  sessions ex_hash false ex_pf cx_rd ex_al fmt true cx_src [cx_text fmt; cx_text fmt] ps s' /\
  Forall (closed fmt true) (removelast [cx_text fmt; cx_text fmt]) /\
  train_command ex_hash ex_pf cx_rd ex_al false (cx_opts fmt) cx_src (concat [cx_text fmt; cx_text fmt]) = Ok rep /\
  length ps = 2%nat /\ length (rp_rows rep) = 3%nat.
Proof.
  intros fmt.
  destruct (two_runs_ex fmt (cx_opts fmt) cx_src (cx_text fmt) (cx_text fmt) 2) as (ps & s' & S & L); [reflexivity..|destruct fmt; vm_compute; reflexivity|].
  destruct (one_run_ex (cx_opts fmt) cx_src (concat [cx_text fmt; cx_text fmt]) 2 3) as (rep & E & L1 & L2); [destruct fmt; vm_compute; reflexivity|].
  exists ps, s', rep. split; [exact Logic.I|]. split; [apply cx_takes|]. split; auto. split; [constructor; [apply cx_closed|constructor]|]. split; auto.
Qed.
Lemma cx_quiet_runs : forall fmt, exists rep,
  train_command ex_hash ex_pf cx_rd ex_al false (cx_quiet fmt) cx_src (cx_text fmt ++ cx_text fmt) = Ok rep.
Proof.
  intros fmt. destruct (one_run_ex (cx_quiet fmt) cx_src (cx_text fmt ++ cx_text fmt) 0 0) as (rep & E & _); [destruct fmt; vm_compute; reflexivity|].
  exists rep. exact E.
Qed.

(** "1 | a" without a newline *)
Definition cx_open : str := [49; 32; 124; 32; 97].
Definition cx_simple_opts : options BF0 := mkOpts FmtText (mkMode false true) [] (Additive 1).
(** the sum of the indices of the weights stored in a model *)
Fixpoint indices_in (n : nat) : sred BF0 n -> N :=
  match n with 0%nat => fun s => fold_left (fun a x => a + fst x) (sv_pairs (fst (snd s))) 0 | S m => fun s => indices_in m (snd s) end.
Definition indices (m : model BF0) : N := indices_in _ (projT2 (mo_stack m)).
Definition three_runs (o : options BF0) (s : source BF0) (t : str) : option ((nat * nat) * (N * N)) :=
  match cx_run o s t with
  | Ok rep1 => match cx_run o (FromModel (rp_model rep1)) t with
               | Ok rep2 => match cx_run o s (concat [t; t]) with
                            | Ok rep => Some ((length (rp_preds rep1 ++ rp_preds rep2 ++ []), length (rp_preds rep)), (indices (rp_model rep2), indices (rp_model rep)))
                            | _ => None end
               | _ => None end
  | _ => None end.
Lemma three_runs_ex : forall o s t a b c d, tm_preds (op_mode o) = true -> three_runs o s t = Some ((a, b), (c, d)) -> a <> b -> c <> d ->
  exists ps s' rep, sessions ex_hash false ex_pf cx_rd ex_al (op_format o) true s [t; t] ps s' /\ cx_run o s (concat [t; t]) = Ok rep /\
  ps <> rp_preds rep /\ s' <> FromModel (rp_model rep).
Proof.
  intros o s t a b c d EP Q N1 N2. unfold three_runs in Q.
  destruct (cx_run o s t) as [rep1| |] eqn:E1; try discriminate.
  destruct (cx_run o (FromModel (rp_model rep1)) t) as [rep2| |] eqn:E2; try discriminate.
  destruct (cx_run o s (concat [t; t])) as [rep| |] eqn:E; try discriminate.
  exists (rp_preds rep1 ++ rp_preds rep2 ++ []), (FromModel (rp_model rep2)), rep.
  split; [econstructor; [reflexivity|exact EP|exact E1|]; econstructor; [reflexivity|exact EP|exact E2|constructor]|].
  split; [reflexivity|]. injection Q as Q1 Q2 Q3 Q4. split; intros X.
  - exact (N1 (eq_trans (eq_sym Q1) (eq_trans (f_equal (@length _) X) Q2))).
  - injection X as X. exact (N2 (eq_trans (eq_sym Q3) (eq_trans (f_equal indices X) Q4))).
Qed.
Lemma open_differs : exists ps s' rep,
  source_ok ex_hash false cx_simple /\ takes_multi ex_hash false cx_simple false /\
  sessions ex_hash false ex_pf cx_rd ex_al FmtText true cx_simple [cx_open; cx_open] ps s' /\
  train_command ex_hash ex_pf cx_rd ex_al false cx_simple_opts cx_simple (concat [cx_open; cx_open]) = Ok rep /\
  ps <> rp_preds rep /\ s' <> FromModel (rp_model rep).
Proof.
  destruct (three_runs_ex cx_simple_opts cx_simple cx_open 2 1 462 321 eq_refl) as (ps & s' & rep & S & E & N1 & N2);
    [vm_compute; reflexivity|discriminate|discriminate|].
  exists ps, s', rep. split; [exact Logic.I|]. split; [apply cx_simple_takes|]. split; [exact S|]. split; [exact E|]. split; [exact N1|exact N2].
Qed.
(** lines complete, but no blank line between the examples *)
Lemma two_runs_panic : forall o s t k, two_runs o s t t = Some k -> match cx_run o s (t ++ t) with Pn _ => true | _ => false end = true ->
  exists rep1 rep2 e, cx_run o s t = Ok rep1 /\ cx_run o (FromModel (rp_model rep1)) t = Ok rep2 /\ cx_run o s (t ++ t) = Pn e.
Proof.
  intros o s t k T P. unfold two_runs in T.
  destruct (cx_run o s t) as [rep1| |] eqn:E1; try discriminate.
  destruct (cx_run o (FromModel (rp_model rep1)) t) as [rep2| |] eqn:E2; try discriminate.
  destruct (cx_run o s (t ++ t)) as [| |e]; try discriminate. exists rep1, rep2, e. auto.
Qed.
Lemma unseparated_fails : exists rep1 rep2 e,
  complete (ex_chunk ++ [10]) /\
  train_command ex_hash ex_pf cx_rd ex_al false (cx_quiet FmtText) cx_src (ex_chunk ++ [10]) = Ok rep1 /\
  train_command ex_hash ex_pf cx_rd ex_al false (cx_quiet FmtText) (FromModel (rp_model rep1)) (ex_chunk ++ [10]) = Ok rep2 /\
  train_command ex_hash ex_pf cx_rd ex_al false (cx_quiet FmtText) cx_src ((ex_chunk ++ [10]) ++ ex_chunk ++ [10]) = Pn e.
Proof.
  destruct (two_runs_panic (cx_quiet FmtText) cx_src (ex_chunk ++ [10]) 0) as (rep1 & rep2 & e & E1 & E2 & E3);
    [vm_compute; reflexivity|vm_compute; reflexivity|].
  exists rep1, rep2, e. split; [right; exists ex_chunk; reflexivity|]. split; [exact E1|]. split; [exact E2|exact E3].
Qed.

Lemma cx_from : forall fmt, exists R rep, ws_new ex_hash false ex_gc ex_cfg = Ok R /\ reach false (projT2 R) (projT2 R) /\
  train_from ex_hash ex_pf cx_rd ex_al false (cx_opts fmt) ex_gc (projT2 R) (cx_text fmt ++ cx_text fmt) = Ok rep /\
  length (rp_preds rep) = 2%nat.
Proof.
  intros fmt. destruct (one_run_ex (cx_opts fmt) cx_src (cx_text fmt ++ cx_text fmt) 2 3) as (rep & E & L1 & L2); [destruct fmt; vm_compute; reflexivity|].
  unfold train_command, cx_src, open_source in E. binv E. binv B. inversion B; subst.
  exists v0, rep. split; auto. split; [constructor|]. split; auto.
Qed.
Lemma cx_complete : forall fmt, exists R ps need cs (exs : list (example BF0)) prs bs rows,
  ws_new ex_hash false ex_gc ex_cfg = Ok R /\
  get_parser ex_hash ex_pf cx_rd ex_al false fmt ex_gc (projT2 R) = Ok (ps, need) /\
  pieces fmt (is_multiline (td_in_feats (red_types (projT2 R))) (td_in_label (red_types (projT2 R)))) (cx_text fmt ++ cx_text fmt) cs /\
  Forall2 (fun chunk ex => ps [] chunk = Ok (fst ex, Some (snd ex))) cs exs /\
  progressive false (projT2 R) exs prs /\ length prs = 2%nat /\
  Forall (fun name => exists m0 m, get_metric name = Some m0 /\ add_points m0 (points_of exs prs) = Ok m) [name_example; name_ips; name_parsed] /\
  outputs false (mgr_new (Additive 1 : period BF0) 3) (length exs) = Ok bs /\
  Forall2 (row_after false [name_example; name_ips; name_parsed] (points_of exs prs)) (answered 0 bs ++ [length exs]) rows.
Proof.
  intros fmt. destruct (cx_from fmt) as (R & rep & E & RE & T & L).
  destruct (from_progressive ex_hash ex_pf cx_rd ex_al false _ _ _ _ _ _ _ _ E RE T) as (ps & need & cs & exs & r' & X1 & X2 & X3 & X4 & _ & X6 & _).
  destruct (X6 (or_introl eq_refl)) as (prs & bs & P & P2 & O1 & R1). cbn [cx_opts op_mode op_format op_metrics op_period tm_quiet tm_preds length] in *.
  subst. exists R, ps, need, cs, exs, (rp_preds rep), bs, (rp_rows rep). repeat (split; [assumption|]). split; [|split; auto].
  apply Forall2_app_inv_l in R1. destruct R1 as (l1 & l2 & _ & R2 & _). inversion R2 as [|? row ? ? HR]; subst.
  assert (PL : length (points_of exs (rp_preds rep)) = length exs) by (clear - P; unfold points_of; rewrite map_length; induction P; simpl; auto).
  unfold row_after in HR. rewrite <- PL, firstn_all in HR. clear - HR.
  induction HR as [|nm v l l' (m0 & m & A & B & _)]; constructor; eauto.
Qed.
Lemma pieces_ex : full_lines [97; 10; 10; 98] [[97; 10]; [10]; [98]].
Proof.
  apply (full_more [97] [10; 98]); [intros [X|[]]; discriminate|]. apply (full_more [] [98]); [intros []|].
  apply (full_last [98]); [discriminate|intros [X|[]]; discriminate].
Qed.
Lemma pieces_one : forall (O : FOps) n (r : red O n) (fmt : format) (text : str),
  let multi := is_multiline (td_in_feats (red_types r)) (td_in_label (red_types r)) in
  exists cs, chunks_of fmt r text = Some cs /\ pieces fmt multi text cs /\ (forall cs', pieces fmt multi text cs' -> cs' = cs).
Proof.
  intros. destruct (chunks_pieces O fmt n r text) as (cs & E & P). exists cs. repeat split; auto. intros. eapply pieces_fun; eauto.
Qed.

(** C95: examples. *)
From Coq Require Import List NArith Bool Lia.
From Verif Require Import Base FloatOps FloatB32 Model_Hash Model_Features Model_Types Model_Stack Model_Factory Model_Text Model_Metrics Model_Train
  Model_Json Model_Pipeline Model_Save Model_Coin Spec_Builds Spec_Pipeline Proof_StackProps Proof_TextChunk Proof_Release Proof_Train Proof_JsonTrain Proof_PipeTrain Proof_Python Proof_PythonEx Proof_CommandEx
  Proof_BuildsPy Proof_BuildsPipe Spec_Python.
From Verif Require Import Model_Command.
From Verif Require Model_Python.
Import ListNotations.
Open Scope N_scope.

(** shared |a x / 0:1:2 |b y / (space) |b z *)
Definition dbg_chunk : str :=
  [115; 104; 97; 114; 101; 100; 32; 124; 97; 32; 120; 10; 48; 58; 49; 58; 50; 32; 124; 98; 32; 121; 10; 32; 124; 98; 32; 122].
Definition dbg_text (fmt : format) : str := match fmt with FmtText => dbg_chunk ++ [10; 10] | _ => cx_text fmt end.
(** the train command in each of the formats *)
Lemma debug_runs : forall fmt, exists rep,
  train_command ex_hash ex_pf cx_rd ex_al true (cx_opts fmt) cx_src (dbg_text fmt ++ dbg_text fmt) = Ok rep /\
  length (rp_preds rep) = 2%nat /\ length (rp_rows rep) = 3%nat.
Proof.
  intros fmt.
  assert (K : match train_command ex_hash ex_pf cx_rd ex_al true (cx_opts fmt) cx_src (dbg_text fmt ++ dbg_text fmt) with
              | Ok rep => Nat.eqb (length (rp_preds rep)) 2 && Nat.eqb (length (rp_rows rep)) 3
              | _ => false end = true) by (destruct fmt; vm_compute; reflexivity).
  destruct (train_command ex_hash ex_pf cx_rd ex_al true (cx_opts fmt) cx_src (dbg_text fmt ++ dbg_text fmt)) as [rep| |]; try discriminate K.
  exists rep. apply andb_true_iff in K. destruct K as [K1 K2]. apply PeanoNat.Nat.eqb_eq in K1. apply PeanoNat.Nat.eqb_eq in K2. auto.
Qed.
(** a program of the Python module *)
Definition dbg_prog : list (Model_Python.pyworld * Model_Python.pyop BF0) :=
  map (pair py_w) [Model_Python.FromConfig ex_gc py_ex mtr_greedy_cfg; Model_Python.ParserOf 0 Model_Python.FVwText; Model_Python.Parse 1 dbg_chunk;
    Model_Python.Drop 2; Model_Python.Parse 1 dbg_chunk; Model_Python.Learn 0 4 5; Model_Python.Predict 0 4; Model_Python.Drop 4; Model_Python.EntryTypes 3].
Lemma debug_python : map see (fst (Model_Python.py_run ex_hash true ex_pf ex_rd dbg_prog Model_Python.py_start)) =
    [Object 0; Object 1; Parsed 2 (Some 3%nat); Nothing; Parsed 4 (Some 5%nat); Nothing; Object 6; Nothing; WrongType].
Proof. vm_compute. reflexivity. Qed.
(** two parser threads, three examples *)
Definition dbg_check (k : forall n (r : red BF0 n), tstate BF0 n -> bool) : bool :=
  match ws_new ex_hash true ex_gc ex_cfg with
  | Ok R => match train_start [] (Additive 1) (projT2 R) with Ok st => k _ (projT2 R) st | _ => false end
  | _ => false
  end.
Lemma debug_threads : exists (R : anyred BF0) st p, ws_new ex_hash true ex_gc ex_cfg = Ok R /\
  train_start [] (Additive 1) (projT2 R) = Ok st /\
  train_run true (mkMode true true) (text_parser ex_hash ex_pf true 0 4 (projT2 R)) (text_need (projT2 R)) _ 1 true 2 [] st
    [dbg_chunk; dbg_chunk; dbg_chunk] p /\
  (forall i, ~ In (PDead i) (pi_par p)) /\ pi_learner p = LExit.
Proof.
  assert (K : dbg_check (fun n r st => is_ok (Spec_Pipeline.one_thread true (mkMode true true) (text_parser ex_hash ex_pf true 0 4 r) (text_need r) n
    [dbg_chunk; dbg_chunk; dbg_chunk] st)) = true) by (vm_compute; reflexivity).
  unfold dbg_check in K. destruct (ws_new ex_hash true ex_gc ex_cfg) as [R| |]; try discriminate K.
  destruct (train_start [] (Additive 1) (projT2 R)) as [st| |] eqn:E2; try discriminate K.
  match type of K with is_ok ?x = true => destruct x as [sN| |] eqn:E3; try discriminate K end.
  destruct (text_finishes ex_hash ex_pf true (mkMode true true) 0 4 _ (projT2 R) 1 true 2 [] st [dbg_chunk; dbg_chunk; dbg_chunk] sN ltac:(lia)
    (Forall_nil _) E3) as (p & G & _ & X & L & _).
  exists R, st, p. split; [reflexivity|]. split; [exact E2|]. split; [exact G|]. split; [|exact L].
  intros i Q. specialize (X _ Q). discriminate X.
Qed.

(** a hash function with a very large value, and the line "1 |a :1 :1" *)
Definition big_hash : hasher := fun _ _ => 4294967295.
Definition anon_line : str := [49; 32; 124; 97; 32; 58; 49; 32; 58; 49; 10].
Definition status {A : Type} (x : out A) : option (option panic) := match x with Ok _ => None | Er _ => Some None | Pn p => Some (Some p) end.
Lemma status_ok : forall A (x : out A), status x = None -> exists a, x = Ok a. Proof. intros A [a|e|p] E; try discriminate E. exists a. reflexivity. Qed.
Lemma status_pn : forall A (x : out A) p, status x = Some (Some p) -> x = Pn p. Proof. intros A [a|e|q] p E; try discriminate E. injection E as ->. reflexivity. Qed.
(** ... and a data file with an action whose only feature is the name of a namespace of the
    context *)
Lemma release_only_empty : exists rep,
  train_command ex_hash ex_pf cx_rd ex_al false (cx_opts FmtText) cx_src (cx_text FmtText) = Ok rep /\
  train_command ex_hash ex_pf cx_rd ex_al true (cx_opts FmtText) cx_src (cx_text FmtText) = Pn PAssert.
Proof.
  destruct (status_ok _ (train_command ex_hash ex_pf cx_rd ex_al false (cx_opts FmtText) cx_src (cx_text FmtText))) as [rep E];
    [vm_compute; reflexivity|].
  exists rep. split; [exact E|]. apply status_pn. vm_compute. reflexivity.
Qed.
Lemma release_only : exists rep,
  train_command big_hash ex_pf cx_rd ex_al false cx_simple_opts cx_simple anon_line = Ok rep /\
  train_command big_hash ex_pf cx_rd ex_al true cx_simple_opts cx_simple anon_line = Pn POverflow.
Proof.
  assert (K : match train_command big_hash ex_pf cx_rd ex_al false cx_simple_opts cx_simple anon_line with Ok _ => true | _ => false end = true)
    by (vm_compute; reflexivity).
  destruct (train_command big_hash ex_pf cx_rd ex_al false cx_simple_opts cx_simple anon_line) as [rep| |]; try discriminate K.
  exists rep. split; [reflexivity|]. vm_compute. reflexivity.
Qed.

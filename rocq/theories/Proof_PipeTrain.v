(** The pipeline of the train command, with the text parser. *)
From Coq Require Import List NArith Bool PeanoNat Lia.
From Verif Require Import Base FloatOps FloatB32 Model_Hash Model_Features Model_Interactions Model_Types Model_Stack Model_Factory Model_Text
  Model_Metrics Model_Train Model_Pipeline Spec_Features Spec_Stack Spec_Text Spec_Pipeline Proof_Features Proof_StackCong Proof_StackRestore
  Proof_StackProps Proof_TextFeats Proof_TextChunk Proof_Metrics Proof_Loose Proof_Train Proof_Pipeline.
Import ListNotations.
Open Scope nat_scope.

Lemma acc_no_endless : forall A (move : A -> A -> Prop) a, Acc (fun y x => move x y) a -> no_endless move a.
Proof.
  intros A move a AC. induction AC as [a _ IH]. intros run E S.
  apply (IH (run 1) ltac:(rewrite <- E; apply S) (fun k => run (Datatypes.S k)) eq_refl). intros k. apply S.
Qed.

Section P.
Context {O : FOps} (dbg : bool) (md : tmode) (parse : parser O) (need : str -> nat) (n : nat) (OKP : parser_ok parse).
Notation proc := (learner_proc dbg md n).
Notation sst := (seq_step str (sfeats O) (features O * option (label O)) (tstate O n) parse proc).
Notation alone := (one_thread dbg md parse need n).

Definition exsim (u v : features O * option (label O)) : Prop := fl_sim u v /\ pgood (fst u) /\ pgood (fst v).

Lemma back_new : forall f : features O, ftwf f -> Forall looks_new (map sf_clear (fts_objects f)).
Proof.
  intros [a|s x] W; simpl.
  - constructor; [now apply clear_looks_new|constructor].
  - destruct W as (Ws & Wx).
    assert (F : Forall looks_new (map sf_clear x)).
    { induction Wx; simpl; constructor; auto. now apply clear_looks_new. }
    destruct s; simpl; auto. constructor; auto. now apply clear_looks_new.
Qed.

Lemma proc_sim : forall st t t', exsim t t' ->
  orel (fun u v => fst u = fst v /\ Forall looks_new (snd u)) (proc st t) (proc st t').
Proof.
  intros st (f & lb) (g & lb') ((S & L) & G1 & G2). cbn [fst snd] in *. subst lb'. unfold learner_proc. cbn [fst snd].
  eapply orel_bind; [apply process_sim; exact S|]. intros (s1 & f1) (s2 & f2) (E & S1). cbn [fst snd] in *. subst.
  constructor. cbn [fst snd]. split; auto. apply back_new. eapply ftsim_wf_l; eauto.
Qed.

(** the objects are given back in the order of Model_Train *)
Lemma objects_back : forall (f : features O) pool, give_back f pool = rev (map sf_clear (fts_objects f)) ++ pool.
Proof.
  assert (K : forall x pool, fold_left (fun p (a : sfeats O) => pool_return (sf_clear a) p) x pool = rev (map sf_clear x) ++ pool).
  { induction x as [|a x IH]; intros pool; simpl; auto. rewrite IH. now rewrite <- app_assoc. }
  intros [a|s x] pool; cbn [give_back fts_objects]; auto. rewrite K. destruct s; simpl; auto. now rewrite <- app_assoc.
Qed.

(** one chunk after the other with new objects, and the loop of a single thread *)
Lemma seq_is_loop : forall chunks st ds, Forall looks_new ds ->
  orel (fun s u => s = fst u) (foldm sst chunks st) (train_loop dbg md parse need chunks (st, ds)).
Proof.
  intros chunks st ds F. unfold train_loop.
  eapply orel_mono; [apply (orel_foldm str (tstate O n) (tstate O n * list (sfeats O)) (fun (s : tstate O n) (u : tstate O n * list (sfeats O)) => s = fst u /\ Forall looks_new (snd u)))|intros a b (A & _); exact A].
  - split; auto.
  - intros c s (s' & es) _ (E & Fe). cbn [fst snd] in *. subst s'. unfold seq_step, train_chunk. cbn [fst snd].
    pose proof (OKP [] es c (Forall_nil _) Fe) as Q.
    destruct (parse [] c) as [x| |], (parse es c) as [y| |]; inversion Q as [? ? HQ| |]; subst; cbn [unwrap_res bind]; try constructor.
    destruct HQ as ((S & L) & G1 & G2). unfold learner_proc. rewrite L.
    pose proof (process_sim dbg md n s (fst x) (fst y) (snd y) S) as P.
    destruct (process_example dbg md s (fst x) (snd y)) as [(s1 & f1)| |], (process_example dbg md s (fst y) (snd y)) as [(s2 & f2)| |];
      inversion P as [? ? HP| |]; subst; cbn [bind]; try constructor.
    destruct HP as (E1 & S1). cbn [fst snd] in *. subst. split; auto.
    apply give_back_new; [eapply ftsim_wf_l; eapply ftsim_sym; eauto|now apply skipn_new].
Qed.
Lemma seq_alone : forall chunks st, foldm sst chunks st = alone chunks st.
Proof.
  intros chunks st. unfold one_thread. pose proof (seq_is_loop chunks st [] (Forall_nil _)) as Q.
  destruct Q; cbn [bind]; congruence.
Qed.
Lemma alone_one : forall st c, alone [c] st = sst st c.
Proof. intros st c. rewrite <- seq_alone. cbn [foldm]. destruct (sst st c); reflexivity. Qed.

Context (q : nat) (rd_ok : bool).
Notation go := (train_run dbg md parse need n q rd_ok).
Notation mv := (train_step dbg md parse need n q rd_ok).
Notation Inv := (inv str (sfeats O) (features O * option (label O)) (tstate O n) need parse proc q rd_ok looks_new exsim).
Notation rn := (ran str (sfeats O) (features O * option (label O)) (tstate O n) parse proc).

Lemma new_new : looks_new (@sf_new O).
Proof. apply fsim_refl, fwf_nil. Qed.

Lemma go_inv : forall k pool st chunks p, Forall pooled pool -> go k pool st chunks p -> Inv chunks st p.
Proof.
  intros k pool st chunks p F G. eapply steps_inv; [apply new_new|exact OKP|apply proc_sim| |exact G].
  apply inv_init. now apply pooled_Forall.
Qed.
Lemma go_par : forall k pool st chunks p, go k pool st chunks p -> length (pi_par p) = k.
Proof. intros k pool st chunks p G. apply steps_par in G. rewrite G. simpl. apply repeat_length. Qed.
Lemma ran_alone : forall chunks st i s, alone (firstn i chunks) st = Ok s -> rn chunks st i s.
Proof. intros chunks st i s E. unfold ran. now rewrite seq_alone. Qed.

(** C32 *)
Lemma pipe_final : forall k pool st chunks p, Forall pooled pool -> go k pool st chunks p -> pi_learner p = LExit ->
  alone chunks st = Ok (pi_st p).
Proof.
  intros k pool st chunks p F G E. rewrite <- seq_alone. eapply exit_final; [eapply go_inv; eauto|auto].
Qed.
Lemma pipe_prefix : forall k pool st chunks p, Forall pooled pool -> go k pool st chunks p ->
  exists j, j <= length chunks /\ alone (firstn j chunks) st = Ok (pi_st p).
Proof.
  intros k pool st chunks p F G. destruct (learner_ran _ _ _ _ _ _ _ _ _ _ _ _ _ _ (go_inv _ _ _ _ _ F G)) as (j & L & R & _).
  exists j. split; auto. unfold ran in R. now rewrite seq_alone in R.
Qed.
Lemma pipe_pool : forall k pool ds st chunks p, Forall pooled pool -> Forall pooled ds ->
  go k pool st chunks p -> pi_learner p = LExit ->
  exists es, train_loop dbg md parse need chunks (st, ds) = Ok (pi_st p, es).
Proof.
  intros k pool ds st chunks p F Fd G E. pose proof (pipe_final _ _ _ _ _ F G E) as A. rewrite <- seq_alone in A.
  pose proof (seq_is_loop chunks st ds (pooled_Forall ds Fd)) as Q. rewrite A in Q.
  inversion Q as [a (b & es) Q1 Q2 Q3| |]; subst. cbn [fst] in Q1. subst. now exists es.
Qed.

(** C33 *)
Lemma pipe_no_panic : forall k pool st chunks p sN, Forall pooled pool -> alone chunks st = Ok sN -> go k pool st chunks p ->
  pi_learner p <> LDead /\ forall i, ~ In (PDead i) (pi_par p).
Proof.
  intros k pool st chunks p sN F E G. eapply nobody_dead; [eapply go_inv; eauto|]. rewrite seq_alone. exact E.
Qed.
Lemma pipe_progress : forall k pool st chunks p sN, 0 < k -> Forall pooled pool -> alone chunks st = Ok sN -> go k pool st chunks p ->
  (exists p', mv p p') \/
  (pi_inp p = (if rd_ok then IDone else IDead) /\ (forall x, In x (pi_par p) -> x = PExit) /\ pi_learner p = LExit /\ pi_st p = sN).
Proof.
  intros k pool st chunks p sN L F E G. pose proof (go_inv _ _ _ _ _ F G) as I.
  destruct (blocked_or_moves _ _ _ _ sf_new _ _ _ _ _ _ _ _ _ _ I) as [B|B]; [right|left; exact B].
  rewrite <- seq_alone in E. rewrite <- (go_par _ _ _ _ _ G) in L. apply (success _ _ _ _ _ _ _ _ _ _ _ _ _ _ _ I L E B).
Qed.
Lemma pipe_stops : forall k pool st chunks p, Forall pooled pool -> go k pool st chunks p -> no_endless mv p.
Proof.
  intros k pool st chunks p F G. apply acc_no_endless.
  eapply runs_stop; [apply new_new|exact OKP|apply proc_sim|eapply go_inv; eauto].
Qed.
Lemma pipe_finishes : forall k pool st chunks sN, 0 < k -> Forall pooled pool -> alone chunks st = Ok sN ->
  exists p, go k pool st chunks p /\ pi_inp p = (if rd_ok then IDone else IDead) /\ (forall x, In x (pi_par p) -> x = PExit) /\ pi_learner p = LExit /\ pi_st p = sN.
Proof.
  intros k pool st chunks sN L F E.
  assert (I : Inv chunks st (pipe_init k pool st chunks)) by (apply inv_init; now apply pooled_Forall).
  destruct (reaches_stuck _ _ _ _ sf_new _ _ _ _ _ _ _ new_new OKP proc_sim _ _ _ I) as (p & G & B).
  exists p. split; [exact G|]. pose proof (go_inv _ _ _ _ _ F G) as I'. rewrite <- seq_alone in E.
  rewrite <- (go_par _ _ _ _ _ G) in L. destruct (success _ _ _ _ _ _ _ _ _ _ _ _ _ _ _ I' L E B) as (_ & A). exact A.
Qed.

(** C34 *)
Lemma pipe_panic_hangs : forall k pool st chunks p i s c, Forall pooled pool ->
  alone (firstn i chunks) st = Ok s -> nth_error chunks i = Some c -> is_pn (parse [] c) = true ->
  go k pool st chunks p -> ~ all_ended p.
Proof.
  intros k pool st chunks p i s c F E Ec P G (_ & _ & D).
  destruct (panic_hangs _ _ _ _ _ _ _ _ _ _ _ _ _ _ _ _ _ (go_inv _ _ _ _ _ F G) (ran_alone _ _ _ _ E) Ec P) as (D1 & D2). tauto.
Qed.
Lemma pipe_error_hangs : forall k pool st chunks p i s c, Forall pooled pool ->
  alone (firstn i chunks) st = Ok s -> nth_error chunks i = Some c -> is_ok (alone [c] s) = false ->
  S i + q < length chunks -> go k pool st chunks p -> ~ all_ended p.
Proof.
  intros k pool st chunks p i s c F E Ec P L G (D & _). rewrite alone_one in P.
  exact (error_hangs _ _ _ _ _ _ _ _ _ _ _ _ _ _ _ _ _ (go_inv _ _ _ _ _ F G) (ran_alone _ _ _ _ E) Ec P L D).
Qed.
Lemma pipe_error_ends : forall k pool st chunks p i s c, 0 < k -> Forall pooled pool ->
  alone (firstn i chunks) st = Ok s -> nth_error chunks i = Some c -> is_ok (alone [c] s) = false ->
  (forall d, In d chunks -> is_pn (parse [] d) = false) ->
  length chunks <= S i + q -> go k pool st chunks p ->
  (exists p', mv p p') \/ (all_ended p /\ pi_learner p = LDead /\ pi_st p = s).
Proof.
  intros k pool st chunks p i s c L F E Ec P NP Lq G. rewrite alone_one in P. pose proof (go_inv _ _ _ _ _ F G) as I.
  rewrite <- (go_par _ _ _ _ _ G) in L.
  destruct (blocked_or_moves _ _ _ _ sf_new _ _ _ _ _ _ _ _ _ _ I) as [B|B]; [right|left; exact B].
  exact (error_ends _ _ _ _ _ _ _ _ _ _ _ _ _ _ _ _ _ I L (ran_alone _ _ _ _ E) Ec P NP Lq B).
Qed.
Lemma pipe_hang_exists : forall k pool st chunks, Forall pooled pool ->
  (forall p, go k pool st chunks p -> ~ all_ended p) ->
  exists p, go k pool st chunks p /\ stuck sf_new need parse proc q rd_ok p /\ ~ all_ended p.
Proof.
  intros k pool st chunks F N.
  assert (I : Inv chunks st (pipe_init k pool st chunks)) by (apply inv_init; now apply pooled_Forall).
  destruct (reaches_stuck _ _ _ _ sf_new _ _ _ _ _ _ _ new_new OKP proc_sim _ _ _ I) as (p & G & B).
  exists p. split; [exact G|]. split; [now apply blocked_stuck|]. now apply N.
Qed.
End P.

Lemma pipe_command : forall {O : FOps} H pf dbg md seed nb n (r : red O n) q rd_ok k pool names (pd : period O) ds st chunks p,
  Forall pooled pool -> Forall pooled ds -> train_start names pd r = Ok st ->
  train_run dbg md (text_parser H pf dbg seed nb r) (text_need r) n q rd_ok k pool st chunks p -> pi_learner p = LExit ->
  train H pf dbg md seed nb names pd r ds chunks = train_end dbg md (pi_st p).
Proof.
  intros O H pf dbg md seed nb n r q rd_ok k pool names pd ds st chunks p F Fd ES G E.
  destruct (pipe_pool dbg md _ (text_need r) n (text_parser_ok H pf dbg seed nb n r) q rd_ok k pool ds st chunks p F Fd G E) as (es & A).
  unfold train. rewrite ES. cbn [bind]. rewrite A. reflexivity.
Qed.

Lemma text_final : forall {O : FOps} H pf dbg md seed nb n (r : red O n) q rd_ok k pool (st : tstate O n) chunks p,
  Forall pooled pool ->
  train_run dbg md (text_parser H pf dbg seed nb r) (text_need r) n q rd_ok k pool st chunks p -> pi_learner p = LExit ->
  one_thread dbg md (text_parser H pf dbg seed nb r) (text_need r) n chunks st = Ok (pi_st p).
Proof. intros. eapply pipe_final; eauto. apply text_parser_ok. Qed.
Lemma text_prefix : forall {O : FOps} H pf dbg md seed nb n (r : red O n) q rd_ok k pool (st : tstate O n) chunks p,
  Forall pooled pool ->
  train_run dbg md (text_parser H pf dbg seed nb r) (text_need r) n q rd_ok k pool st chunks p ->
  exists j, j <= length chunks /\
    one_thread dbg md (text_parser H pf dbg seed nb r) (text_need r) n (firstn j chunks) st = Ok (pi_st p).
Proof. intros. eapply pipe_prefix; eauto. apply text_parser_ok. Qed.
Lemma text_no_panic : forall {O : FOps} H pf dbg md seed nb n (r : red O n) q rd_ok k pool (st : tstate O n) chunks p sN,
  Forall pooled pool -> one_thread dbg md (text_parser H pf dbg seed nb r) (text_need r) n chunks st = Ok sN ->
  train_run dbg md (text_parser H pf dbg seed nb r) (text_need r) n q rd_ok k pool st chunks p ->
  pi_learner p <> LDead /\ forall i, ~ In (PDead i) (pi_par p).
Proof. intros. eapply pipe_no_panic; eauto. apply text_parser_ok. Qed.
Lemma text_progress : forall {O : FOps} H pf dbg md seed nb n (r : red O n) q rd_ok k pool (st : tstate O n) chunks p sN,
  0 < k -> Forall pooled pool -> one_thread dbg md (text_parser H pf dbg seed nb r) (text_need r) n chunks st = Ok sN ->
  train_run dbg md (text_parser H pf dbg seed nb r) (text_need r) n q rd_ok k pool st chunks p ->
  (exists p', train_step dbg md (text_parser H pf dbg seed nb r) (text_need r) n q rd_ok p p') \/
  (pi_inp p = (if rd_ok then IDone else IDead) /\ (forall x, In x (pi_par p) -> x = PExit) /\ pi_learner p = LExit /\ pi_st p = sN).
Proof. intros. eapply pipe_progress; eauto. apply text_parser_ok. Qed.
Lemma text_stops : forall {O : FOps} H pf dbg md seed nb n (r : red O n) q rd_ok k pool (st : tstate O n) chunks p,
  Forall pooled pool -> train_run dbg md (text_parser H pf dbg seed nb r) (text_need r) n q rd_ok k pool st chunks p ->
  no_endless (train_step dbg md (text_parser H pf dbg seed nb r) (text_need r) n q rd_ok) p.
Proof. intros. eapply pipe_stops; eauto. apply text_parser_ok. Qed.
Lemma text_finishes : forall {O : FOps} H pf dbg md seed nb n (r : red O n) q rd_ok k pool (st : tstate O n) chunks sN,
  0 < k -> Forall pooled pool -> one_thread dbg md (text_parser H pf dbg seed nb r) (text_need r) n chunks st = Ok sN ->
  exists p, train_run dbg md (text_parser H pf dbg seed nb r) (text_need r) n q rd_ok k pool st chunks p /\
    pi_inp p = (if rd_ok then IDone else IDead) /\ (forall x, In x (pi_par p) -> x = PExit) /\ pi_learner p = LExit /\ pi_st p = sN.
Proof. intros. eapply pipe_finishes; eauto. apply text_parser_ok. Qed.
Lemma text_panic_hangs : forall {O : FOps} H pf dbg md seed nb n (r : red O n) q rd_ok k pool (st : tstate O n) chunks p i s c,
  Forall pooled pool ->
  one_thread dbg md (text_parser H pf dbg seed nb r) (text_need r) n (firstn i chunks) st = Ok s ->
  nth_error chunks i = Some c -> is_pn (text_parser H pf dbg seed nb r [] c) = true ->
  train_run dbg md (text_parser H pf dbg seed nb r) (text_need r) n q rd_ok k pool st chunks p -> ~ all_ended p.
Proof. intros. eapply pipe_panic_hangs; eauto. apply text_parser_ok. Qed.
Lemma text_error_hangs : forall {O : FOps} H pf dbg md seed nb n (r : red O n) q rd_ok k pool (st : tstate O n) chunks p i s c,
  Forall pooled pool ->
  one_thread dbg md (text_parser H pf dbg seed nb r) (text_need r) n (firstn i chunks) st = Ok s ->
  nth_error chunks i = Some c -> is_ok (one_thread dbg md (text_parser H pf dbg seed nb r) (text_need r) n [c] s) = false ->
  S i + q < length chunks ->
  train_run dbg md (text_parser H pf dbg seed nb r) (text_need r) n q rd_ok k pool st chunks p -> ~ all_ended p.
Proof. intros. eapply pipe_error_hangs; eauto. apply text_parser_ok. Qed.
Lemma text_error_ends : forall {O : FOps} H pf dbg md seed nb n (r : red O n) q rd_ok k pool (st : tstate O n) chunks p i s c,
  0 < k -> Forall pooled pool ->
  one_thread dbg md (text_parser H pf dbg seed nb r) (text_need r) n (firstn i chunks) st = Ok s ->
  nth_error chunks i = Some c -> is_ok (one_thread dbg md (text_parser H pf dbg seed nb r) (text_need r) n [c] s) = false ->
  (forall d, In d chunks -> is_pn (text_parser H pf dbg seed nb r [] d) = false) ->
  length chunks <= S i + q ->
  train_run dbg md (text_parser H pf dbg seed nb r) (text_need r) n q rd_ok k pool st chunks p ->
  (exists p', train_step dbg md (text_parser H pf dbg seed nb r) (text_need r) n q rd_ok p p') \/
  (all_ended p /\ pi_learner p = LDead /\ pi_st p = s).
Proof. intros. eapply pipe_error_ends; eauto. apply text_parser_ok. Qed.

(** ** Examples *)
(** no label and one action; and a namespace without name *)
Definition ex_unlabelled : str := [32; 124; 98; 32; 122]%N.
Definition ex_bar : str := [124]%N.

(** a check on the workspace of the example, and the state it starts with *)
Definition ex_check (k : forall n (r : red BF0 n), tstate BF0 n -> bool) : bool :=
  match ws_new ex_hash false ex_gc ex_cfg with
  | Ok R => match train_start [] (Additive 1) (projT2 R) with Ok st => k _ (projT2 R) st | _ => false end
  | _ => false
  end.
Lemma ex_check_true : forall k, ex_check k = true -> exists (R : anyred BF0) st, ws_new ex_hash false ex_gc ex_cfg = Ok R /\
  train_start [] (Additive 1) (projT2 R) = Ok st /\ k _ (projT2 R) st = true.
Proof.
  unfold ex_check. intros k E. destruct (ws_new ex_hash false ex_gc ex_cfg) as [R| |]; try discriminate.
  exists R. destruct (train_start [] (Additive 1) (projT2 R)) as [st| |]; try discriminate. now exists st.
Qed.
Definition ex_parse {n} (r : red BF0 n) := text_parser ex_hash ex_pf false 0 4 r.
Definition ex_one {n} (r : red BF0 n) := one_thread false (mkMode true true) (ex_parse r) (text_need r) n.

Lemma ex_pipe : exists (R : anyred BF0) st sN, ws_new ex_hash false ex_gc ex_cfg = Ok R /\
  train_start [] (Additive 1) (projT2 R) = Ok st /\ ex_one (projT2 R) [ex_chunk; ex_chunk; ex_chunk] st = Ok sN.
Proof.
  destruct (ex_check_true (fun n r st => is_ok (ex_one r [ex_chunk; ex_chunk; ex_chunk] st))) as (R & st & E1 & E2 & E3);
    [vm_compute; reflexivity|].
  exists R, st. destruct (ex_one (projT2 R) [ex_chunk; ex_chunk; ex_chunk] st) as [sN| |]; try discriminate. now exists sN.
Qed.

Lemma ex_parallel : exists (R : anyred BF0) st p, ws_new ex_hash false ex_gc ex_cfg = Ok R /\
  train_start [] (Additive 1) (projT2 R) = Ok st /\
  train_run false (mkMode true true) (ex_parse (projT2 R)) (text_need (projT2 R)) _ 1 true 2 [] st [ex_chunk; ex_chunk; ex_chunk] p /\
  pi_learner p = LExit.
Proof.
  destruct ex_pipe as (R & st & sN & E1 & E2 & E3).
  destruct (text_finishes ex_hash ex_pf false (mkMode true true) 0 4 _ (projT2 R) 1 true 2 [] st [ex_chunk; ex_chunk; ex_chunk] sN ltac:(lia)
    (Forall_nil _) E3) as (p & G & _ & _ & L & _).
  exists R, st, p. auto.
Qed.

(** the data set of the example, with a line on which the parser panics *)
Lemma ex_hang : exists (R : anyred BF0) st sN e, ws_new ex_hash false ex_gc ex_cfg = Ok R /\
  train_start [] (Additive 1) (projT2 R) = Ok st /\ ex_one (projT2 R) (firstn 1 [ex_chunk; ex_bar]) st = Ok sN /\
  ex_parse (projT2 R) [] ex_bar = Pn e.
Proof.
  destruct (ex_check_true (fun n r st => is_ok (ex_one r (firstn 1 [ex_chunk; ex_bar]) st) && is_pn (ex_parse r [] ex_bar)))
    as (R & st & E1 & E2 & E3); [vm_compute; reflexivity|].
  exists R, st. apply andb_true_iff in E3. destruct E3 as (E3 & E4).
  destruct (ex_one (projT2 R) (firstn 1 [ex_chunk; ex_bar]) st) as [sN| |]; try discriminate. exists sN.
  destruct (ex_parse (projT2 R) [] ex_bar) as [| |e]; try discriminate. now exists e.
Qed.
(** ... and with an example without label: the parser accepts it, learning panics *)
Lemma ex_learn_panics : exists (R : anyred BF0) st sN x e, ws_new ex_hash false ex_gc ex_cfg = Ok R /\
  train_start [] (Additive 1) (projT2 R) = Ok st /\ ex_one (projT2 R) (firstn 1 [ex_chunk; ex_unlabelled]) st = Ok sN /\
  ex_parse (projT2 R) [] ex_unlabelled = Ok x /\
  (forall d, In d [ex_chunk; ex_unlabelled] -> is_pn (ex_parse (projT2 R) [] d) = false) /\
  ex_one (projT2 R) [ex_unlabelled] sN = Pn e.
Proof.
  destruct (ex_check_true (fun n r st => match ex_one r (firstn 1 [ex_chunk; ex_unlabelled]) st with
      | Ok sN => is_ok (ex_parse r [] ex_unlabelled) && negb (is_pn (ex_parse r [] ex_chunk)) && is_pn (ex_one r [ex_unlabelled] sN)
      | _ => false end)) as (R & st & E1 & E2 & E3); [vm_compute; reflexivity|].
  exists R, st.
  destruct (ex_one (projT2 R) (firstn 1 [ex_chunk; ex_unlabelled]) st) as [sN| |]; try discriminate. exists sN.
  apply andb_true_iff in E3. destruct E3 as (E3 & E5). apply andb_true_iff in E3. destruct E3 as (E3 & E4).
  apply negb_true_iff in E4.
  destruct (ex_parse (projT2 R) [] ex_unlabelled) as [x| |] eqn:EX; try discriminate. exists x.
  destruct (ex_one (projT2 R) [ex_unlabelled] sN) as [| |e]; try discriminate. exists e.
  repeat (split; [solve [auto]|]). split; auto.
  intros d [<-|[<-|[]]]; auto. now rewrite EX.
Qed.

(** C34 as first stated is false *)
Lemma bad_line_hangs : exists (R : anyred BF0) st chunks c e, ws_new ex_hash false ex_gc ex_cfg = Ok R /\
  train_start [] (Additive 1) (projT2 R) = Ok st /\ In c chunks /\ ex_parse (projT2 R) [] c = Pn e /\
  forall q rd_ok k pool p, Forall pooled pool ->
    train_run false (mkMode true true) (ex_parse (projT2 R)) (text_need (projT2 R)) _ q rd_ok k pool st chunks p ->
    ~ all_ended p.
Proof.
  destruct ex_hang as (R & st & sN & e & E1 & E2 & E3 & E4). exists R, st, [ex_chunk; ex_bar], ex_bar, e.
  split; [exact E1|]. split; [exact E2|]. split; [right; left; reflexivity|]. split; [exact E4|]. intros q rd_ok k pool p F G.
  assert (P : is_pn (ex_parse (projT2 R) [] ex_bar) = true) by now rewrite E4.
  exact (text_panic_hangs ex_hash ex_pf false (mkMode true true) 0 4 _ (projT2 R) q rd_ok k pool st [ex_chunk; ex_bar] p 1 sN ex_bar F E3 eq_refl P G).
Qed.

(** Example programs for C74. *)
From Coq Require Import List NArith Bool PeanoNat Lia.
From Verif Require Import Base FloatOps FloatB32 Model_Hash Model_Features Model_Weights Model_Interactions Model_Types Model_Explore Model_Coin Model_Stack Model_Factory
  Model_Text Model_Train Model_Json Model_Config Model_Save Model_Export Model_Python Spec_Features Spec_Json Spec_Stack Spec_Reductions Spec_Total Spec_Progress Spec_Python Spec_Empty Spec_Values Proof_Features Proof_StackProps
  Proof_TextChunk Proof_Train Proof_Release Proof_JsonChunk Proof_JsonTrain Proof_ExportReach Proof_PythonEx.
Import ListNotations.
Open Scope N_scope.

(** ** deciding the hypotheses *)
Definition rawb (k : namespace) : bool := match k with NsRawHash _ => true | _ => false end.
Definition entryb (e : namespace * sfn BF0) : bool :=
  negb (rawb (fst e)) && Bool.eqb (sfn_active (snd e)) (match sfn_iter (snd e) with [] => false | _ => true end).
Definition tidyb (f : features BF0) : bool :=
  match f with
  | FtsSimple a => forallb entryb a
  | FtsCb s x => forallb (forallb entryb) x && match s with Some a => forallb entryb a | None => true end
  end.
Lemma entries_ok : forall (a : sfeats BF0), forallb entryb a = true -> no_composite a /\ forall k, proper_entry k a.
Proof.
  intros a E. rewrite forallb_forall in E. split.
  - intros h s G. apply fm_get_in, E in G. discriminate.
  - intros k s G. apply fm_get_in, E in G. unfold entryb in G. cbn [fst snd] in G. apply andb_true_iff in G as (_ & G). apply Bool.eqb_prop in G. rewrite G.
    destruct (sfn_iter s); split; intros X; congruence.
Qed.
Lemma tidyb_ok : forall f, tidyb f = true -> tidy f.
Proof.
  intros [a|s x] E; cbn in *; [now apply entries_ok|]. apply andb_true_iff in E as (E1 & E2). rewrite forallb_forall in E1.
  split; [intros a Ha; apply entries_ok; auto|]. destruct s as [a|]; auto. split; [now apply entries_ok|].
  intros b Hb. split; intros k _; apply entries_ok; auto.
Qed.
Fixpoint namedb (n : nat) : red BF0 n -> bool :=
  match n with
  | 0%nat => fun _ => true
  | S m => fun r => match snd (fst r) with KElem one two _ _ => negb (rawb one) && negb (rawb two) | _ => true end && namedb m (snd r)
  end.
Lemma namedb_ok : forall n (r : red BF0 n), namedb n r = true -> named_elems n r.
Proof.
  induction n as [|n IH]; intros r E; [exact Logic.I|]. destruct r as ((w & k) & r). cbn [namedb named_elems fst snd] in *.
  apply andb_true_iff in E as (E1 & E2). split; [|now apply IH]. destruct k; auto. apply andb_true_iff in E1 as (A & B).
  split; intros h ->; discriminate.
Qed.
Definition all_tidyb (m : list (option (value BF0))) : bool := forallb (fun v => match v with Some (VFeats x) => tidyb x | _ => true end) m.
Definition all_ws (p : forall n, red BF0 n -> bool) (m : list (option (value BF0))) : bool :=
  forallb (fun v => match v with Some (VWs _ _ R _) => p _ (projT2 R) | _ => true end) m.
Lemma val_in : forall (m : list (option (value BF0))) i v, val m i = Some v -> In (Some v) m.
Proof. intros m i v E. unfold val in E. destruct (nth_error m i) as [w|] eqn:N; [|discriminate]. subst w. eapply nth_error_In; eauto. Qed.
Lemma all_tidyb_ok : forall m, all_tidyb m = true -> all_tidy m.
Proof. intros m E i x V. unfold all_tidyb in E. rewrite forallb_forall in E. apply val_in, E in V. now apply tidyb_ok. Qed.
Lemma namedb_all : forall H dbg m, all_ws namedb m = true -> named_ws H dbg m.
Proof. intros H dbg m E i gc ex R seen V. unfold all_ws in E. rewrite forallb_forall in E. apply val_in, E in V. right. now apply namedb_ok. Qed.
Fixpoint freeb (n : nat) : red BF0 n -> bool :=
  match n with
  | 0%nat => fun _ => true
  | S m => fun r => match snd (fst r) with KElem _ _ _ _ => false | _ => true end && freeb m (snd r)
  end.
Lemma freeb_ok : forall n (r : red BF0 n), freeb n r = true -> elem_free n r.
Proof.
  induction n as [|n IH]; intros r E; [exact Logic.I|]. destruct r as ((w & k) & r). cbn [freeb elem_free fst snd] in *.
  apply andb_true_iff in E as (E1 & E2). split; [|now apply IH]. intros one two keep nb ->. discriminate.
Qed.
Lemma freeb_all : forall m, all_ws freeb m = true -> no_elems m.
Proof. intros m E i gc ex R seen V. unfold all_ws in E. rewrite forallb_forall in E. apply val_in, E in V. now apply freeb_ok. Qed.
Section During.
Context (dbg : bool) (p : list (option (value BF0)) -> bool) (P : list (option (value BF0)) -> Prop) (p_ok : forall m, p m = true -> P m).
Fixpoint duringb (ops : list (pyord BF0 * pyop BF0)) (m : list (option (value BF0))) : bool :=
  match ops with
  | [] => true
  | (ord, op) :: ops =>
      match value_call ex_hash dbg ex_pf ex_rd ex_al ord m op with
      | Some (_, Some m') => p m' && duringb ops m'
      | _ => true
      end
  end.
Lemma duringb_ok : forall ops m, duringb ops m = true -> during ex_hash dbg ex_pf ex_rd ex_al P ops m.
Proof.
  induction ops as [|(ord & op) ops IH]; intros m E; [exact Logic.I|]. cbn [duringb during] in *.
  destruct (value_call _ _ _ _ _ _ _ _) as [(r & [m'|])|]; auto. apply andb_true_iff in E as (E1 & E2). split; auto.
Qed.
End During.

(** shared |a x / 0:1:2 |b y / |b z *)
Definition vx_chunk : str := [115; 104; 97; 114; 101; 100; 32; 124; 97; 32; 120; 10; 48; 58; 49; 58; 50; 32; 124; 98; 32; 121; 10; 32; 124; 98; 32; 122].
(** two workspaces that learn from the same objects, with different histories *)
Definition vx_calls (chunk : str) : list (pyop BF0) :=
  [FromConfig ex_gc py_ex mtr_greedy_cfg; FromConfig ex_gc py_ex mtr_greedy_cfg; ParserOf 0 FVwText; Parse 2 chunk;
   Learn 0 3 4; Predict 1 3; PredictThenLearn 0 3 4; Predict 0 3; Read 5; Read 6; Read 7; Drop 3; Parse 2 chunk; Predict 0 8; Read 10].
Definition vx_prog (chunk : str) : list (pyworld * pyop BF0) := map (pair py_w) (vx_calls chunk).
Definition vx_ords (chunk : str) : list (pyord BF0 * pyop BF0) := map (fun x => (pw_ord (fst x), snd x)) (vx_prog chunk).
Definition score (r : pyres BF0) : option (list (N * BF0)) := match r with RPred (PrProbs l) => Some l | _ => None end.
Notation vx_sees dbg chunk := (map see (fst (py_run ex_hash dbg ex_pf ex_rd (vx_prog chunk) py_start))).
Notation vx_scores dbg chunk := (map score (fst (py_run ex_hash dbg ex_pf ex_rd (vx_prog chunk) py_start))).
Notation vx_all := [Object 0; Object 1; Object 2; Parsed 3 (Some 4%nat); Nothing; Object 5; Object 6; Object 7; Other; Other; Other; Nothing; Parsed 8 (Some 9%nat); Object 10; Other].
Lemma vx_lists : forall chunk, ex_rd chunk = None -> no_string_lists ex_rd (map snd (vx_prog chunk)).
Proof.
  intros chunk K p s v ft IN E. assert (s = chunk) as ->. { repeat (destruct IN as [IN|IN]; [try discriminate; inversion IN; reflexivity|]). contradiction. }
  congruence.
Qed.
Lemma vx_ok : no_string_lists ex_rd (map snd (vx_prog vx_chunk)) /\ during ex_hash false ex_pf ex_rd ex_al (named_ws ex_hash false) (vx_ords vx_chunk) [] /\
  during ex_hash false ex_pf ex_rd ex_al all_tidy (vx_ords vx_chunk) [] /\ vx_sees false vx_chunk = vx_all /\
  let rs := vx_scores false vx_chunk in nth 8 rs None <> nth 9 rs None /\ nth 8 rs None <> None /\ nth 9 rs None <> None.
Proof.
  split; [now apply vx_lists|]. split; [apply (duringb_ok false (all_ws namedb)); [apply namedb_all|vm_compute; reflexivity]|].
  split; [apply (duringb_ok false all_tidyb); [exact all_tidyb_ok|vm_compute; reflexivity]|].
  split; [vm_compute; reflexivity|vm_compute; intuition discriminate].
Qed.

(** shared |a x |b / 0:1:2 |b y |a / |b z: both the shared features and an action have an
    empty namespace the other fills *)
Definition vx_loose : str := [115; 104; 97; 114; 101; 100; 32; 124; 97; 32; 120; 32; 124; 98; 10; 48; 58; 49; 58; 50; 32; 124; 98; 32; 121; 32; 124; 97; 10; 32; 124; 98; 32; 122].
Lemma vx_loose_ok : no_string_lists ex_rd (map snd (vx_prog vx_loose)) /\ during ex_hash false ex_pf ex_rd ex_al (named_ws ex_hash false) (vx_ords vx_loose) [] /\
  during ex_hash false ex_pf ex_rd ex_al no_elems (vx_ords vx_loose) [] /\ vx_sees false vx_loose = vx_all.
Proof.
  split; [now apply vx_lists|]. split; [apply (duringb_ok false (all_ws namedb)); [apply namedb_all|vm_compute; reflexivity]|].
  split; [apply (duringb_ok false (all_ws freeb)); [exact freeb_all|vm_compute; reflexivity]|vm_compute; reflexivity].
Qed.
Lemma vx_debug_ok : no_string_lists ex_rd (map snd (vx_prog vx_chunk)) /\ during ex_hash true ex_pf ex_rd ex_al (named_ws ex_hash true) (vx_ords vx_chunk) [] /\
  vx_sees true vx_chunk = vx_all.
Proof.
  split; [now apply vx_lists|]. split; [apply (duringb_ok true (all_ws namedb)); [apply namedb_all|vm_compute; reflexivity]|vm_compute; reflexivity].
Qed.

(** ** neither tidy nor without element-wise layers, release *)
(** shared |a x |b / 0:1:2 |b y / |c z *)
Definition ux_chunk : str := [115; 104; 97; 114; 101; 100; 32; 124; 97; 32; 120; 32; 124; 98; 10; 48; 58; 49; 58; 50; 32; 124; 98; 32; 121; 10; 32; 124; 99; 32; 122].
Definition ux_cfg : rcfg BF0 := CCbAdf Mtr (CElem (NDName [97]) (NDName [98]) true (CCoin coin_default)).
Definition ux_prog : list (pyworld * pyop BF0) := map (pair py_w) [FromConfig ex_gc py_ex ux_cfg; ParserOf 0 FVwText; Parse 1 ux_chunk; Learn 0 2 3; Predict 0 2].
Definition ux_ords : list (pyord BF0 * pyop BF0) := map (fun x => (pw_ord (fst x), snd x)) ux_prog.
Lemma ux_differ : no_string_lists ex_rd (map snd ux_prog) /\ during ex_hash false ex_pf ex_rd ex_al (named_ws ex_hash false) ux_ords [] /\
  map see (fst (py_run ex_hash false ex_pf ex_rd ux_prog py_start)) = [Object 0; Object 1; Parsed 2 (Some 3%nat); Nothing; Panicked PNone] /\
  map see (value_run ex_hash false ex_pf ex_rd ex_al ux_ords []) = [Object 0; Object 1; Parsed 2 (Some 3%nat); Nothing; Object 4].
Proof.
  split.
  { intros p s v ft IN E. assert (s = ux_chunk) as ->. { repeat (destruct IN as [IN|IN]; [try discriminate; inversion IN; reflexivity|]). contradiction. }
    discriminate. }
  split; [apply (duringb_ok false (all_ws namedb)); [apply namedb_all|vm_compute; reflexivity]|]. split; vm_compute; reflexivity.
Qed.

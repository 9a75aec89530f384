(** Example programs for the Python module. *)
From Coq Require Import List NArith Bool PeanoNat Lia.
From Verif Require Import Base FloatOps FloatB32 Model_Hash Model_Features Model_Weights Model_Interactions Model_Types Model_Explore Model_Coin Model_Stack Model_Factory
  Model_Text Model_Train Model_Json Model_Config Model_Save Model_Export Model_Python Spec_Json Spec_Stack Spec_Reductions Spec_Total Spec_Python Proof_StackProps Proof_TextChunk Proof_Train Proof_Release
  Proof_JsonChunk Proof_JsonTrain Proof_ExportReach.
Import ListNotations.
Open Scope N_scope.

Definition py_ex : nat -> extra BF0 := xp_extra xp_child.
Definition py_w : pyworld := mkWorld (O := BF0) (fun _ => no_caps) ex_al (fun l => l) 0.
Definition bin_cfg : rcfg BF0 := CBinary (CCoin coin_default).
(** parse, drop, parse into the recycled objects, learn, predict *)
Definition py_prog : list (pyworld * pyop BF0) :=
  map (pair py_w) [FromConfig ex_gc py_ex mtr_greedy_cfg; ParserOf 0 FVwText; Parse 1 ex_chunk; Drop 2; Parse 1 ex_chunk; Learn 0 4 5; Predict 0 4; Drop 4; EntryTypes 3].
(** results that carry no floats, as seen in the examples *)
Inductive seen : Type := Nothing | Object (i : nat) | Parsed (f : nat) (l : option nat) | Panicked (p : panic) | WrongType | Other.
Definition see (r : pyres BF0) : seen :=
  match r with RNone => Nothing | RNew i => Object i | RParsed f l => Parsed f l | RPanic p => Panicked p | RTypeError => WrongType | _ => Other end.
Lemma py_prog_runs : map see (fst (py_run ex_hash false ex_pf ex_rd py_prog py_start)) =
    [Object 0; Object 1; Parsed 2 (Some 3%nat); Nothing; Parsed 4 (Some 5%nat); Nothing; Object 6; Nothing; WrongType] /\
  length (py_pool (snd (py_run ex_hash false ex_pf ex_rd (firstn 4 py_prog) py_start))) = 3%nat.
Proof. split; vm_compute; reflexivity. Qed.
Lemma py_prog_new : no_string_lists ex_rd (map snd py_prog).
Proof.
  intros p s v ft IN E.
  assert (s = ex_chunk) as ->. { repeat (destruct IN as [IN|IN]; [try discriminate; inversion IN; reflexivity|]). contradiction. }
  discriminate.
Qed.

(** a recycled object with room for two features, a shorter list of names *)
Definition py_rd (s : str) : option (json BF0) :=
  match s with
  | [1] => Some (JObj [(s_features, JObj [([97], JArr [JStr [120]; JStr [121]])])])
  | [2] => Some (JObj [(s_features, JObj [([97], JArr [JStr [120]])])])
  | _ => None
  end.
Definition py_w2 : pyworld := mkWorld (O := BF0) (fun _ _ => (2, 2)%nat) ex_al (fun l => l) 0.
Definition py_lists : list (pyworld * pyop BF0) :=
  [(py_w, FromConfig ex_gc py_ex (CCoin coin_default)); (py_w, ParserOf 0 FJson); (py_w, Parse 1 [1]); (py_w, Drop 2); (py_w2, Parse 1 [2])].
Lemma py_lists_panic : map see (fst (py_run ex_hash false ex_pf py_rd py_lists py_start)) = [Object 0; Object 1; Parsed 2 None; Nothing; Panicked PAlloc] /\
  map see (new_run ex_hash false ex_pf py_rd ex_al (map (fun x => (pw_ord (fst x), snd x)) py_lists) []) = [Object 0; Object 1; Parsed 2 None; Nothing; Parsed 3 None].
Proof. split; vm_compute; reflexivity. Qed.

(** a workspace with the Binary reduction *)
Definition py_binary : list (pyworld * pyop BF0) :=
  map (pair py_w) [FromConfig ex_gc py_ex bin_cfg; NewSparse; NewSimpleLabel (@f1 BF0) (@f1 BF0)].
Lemma py_binary_state : exists R, let st := snd (py_run ex_hash false ex_pf ex_rd py_binary py_start) in
  py_get (py_heap st) 0 = Some (OWs ex_gc py_ex R) /\ binary_top (projT1 R) (projT2 R) /\
  map see (fst (py_run ex_hash false ex_pf ex_rd [(py_w, Predict 0 1)] st)) = [Panicked PTodo] /\
  map see (fst (py_run ex_hash false ex_pf ex_rd [(py_w, Learn 0 1 2)] st)) = [Panicked PType].
Proof.
  cbv zeta. set (st := snd (py_run _ _ _ _ py_binary py_start)).
  assert (E : exists R, ws_new ex_hash false ex_gc bin_cfg = Ok R /\ binary_top (projT1 R) (projT2 R)).
  { destruct (ws_new ex_hash false ex_gc bin_cfg) as [R|e|e] eqn:E; [|vm_compute in E; discriminate..]. exists R. split; auto. vm_compute in E. inversion E; subst. exact Logic.I. }
  destruct E as (R & E & B). exists R. split.
  - subst st. unfold py_binary, py_run. cbn [map]. unfold py_exec. cbn [py_call option_map]. unfold py_made. rewrite E. reflexivity.
  - split; [exact B|]. split; vm_compute; reflexivity.
Qed.

(** train on a parsed example, then predict on it again *)
Definition no_elemb (st : pystate (O := BF0)) : bool :=
  forallb (fun o => match o with Some (OWs gc ex R) => negb (uses_elem (projT2 R)) | _ => true end) (py_heap st).
Lemma no_elemb_ok : forall st, no_elemb st = true -> no_elem st.
Proof.
  intros st E i gc ex R G. unfold no_elemb in E. rewrite forallb_forall in E. unfold py_get in G. destruct (nth_error (py_heap st) i) as [[o|]|] eqn:N; inversion G; subst.
  apply nth_error_In in N. apply E in N. now apply negb_true_iff in N.
Qed.
Definition good_at (st : pystate (O := BF0)) : bool :=
  match py_get (py_heap st) 2, py_get (py_heap st) 3 with
  | Some (OFeats (FtsCb (Some s) x)), Some (OLabel (LbCb i c p)) => Nat.eqb (length x) 2 && (i =? 0)
  | _, _ => false
  end.
Definition py_check : bool :=
  match py_exec ex_hash false ex_pf ex_rd py_w py_start (FromConfig ex_gc py_ex mtr_greedy_cfg) with
  | Some (RNew 0, Some st1) =>
  match py_exec ex_hash false ex_pf ex_rd py_w st1 (ParserOf 0 FVwText) with
  | Some (RNew 1, Some st3) =>
  match py_exec ex_hash false ex_pf ex_rd py_w st3 (Parse 1 ex_chunk) with
  | Some (RParsed 2 (Some 3%nat), Some st5) =>
  match py_exec ex_hash false ex_pf ex_rd py_w st5 (Learn 0 2 3) with
  | Some (_, Some st6) =>
  match py_exec ex_hash false ex_pf ex_rd py_w st6 NewCb with
  | Some (_, Some st7) =>
     no_elemb st1 && no_elemb st3 && no_elemb st5 && no_elemb st6 && no_elemb st7 && good_at st5 && good_at st7 &&
     negb (Nat.eqb (length (py_heap st7)) (length (py_heap st5)))
  | _ => false end | _ => false end | _ => false end | _ => false end | _ => false end.
Lemma py_checked : py_check = true.
Proof. vm_compute. reflexivity. Qed.
Lemma py_accepted : exists R st1 st3 st5 st6 x lab,
  ws_new ex_hash false ex_gc mtr_greedy_cfg = Ok R /\
  steps ex_hash false ex_pf ex_rd no_elem py_start py_start /\
  py_exec ex_hash false ex_pf ex_rd py_w py_start (FromConfig ex_gc py_ex mtr_greedy_cfg) = Some (RNew 0, Some st1) /\
  steps ex_hash false ex_pf ex_rd no_elem st1 st1 /\
  py_exec ex_hash false ex_pf ex_rd py_w st1 (ParserOf 0 FVwText) = Some (RNew 1, Some st3) /\
  steps ex_hash false ex_pf ex_rd no_elem st3 st3 /\
  py_exec ex_hash false ex_pf ex_rd py_w st3 (Parse 1 ex_chunk) = Some (RParsed 2 (Some 3%nat), Some st5) /\
  steps ex_hash false ex_pf ex_rd no_elem st5 st6 /\ st6 <> st5 /\
  py_get (py_heap st5) 2 = Some (OFeats x) /\ py_get (py_heap st6) 3 = Some (OLabel lab) /\
  can_predict (projT2 R) x /\ can_learn (projT2 R) x lab.
Proof.
  destruct ex_trainable as (R & W & _ & UW & UM & TL & _).
  assert (TP : td_out_pred (red_types (projT2 R)) = PTProbs) by (vm_compute in W; inversion W; subst; reflexivity).
  pose proof py_checked as C. unfold py_check in C.
  destruct (py_exec ex_hash false ex_pf ex_rd py_w py_start (FromConfig ex_gc py_ex mtr_greedy_cfg)) as [([|[|]| | | | | | | | |] & [st1|])|] eqn:E1; try discriminate C.
  destruct (py_exec ex_hash false ex_pf ex_rd py_w st1 (ParserOf 0 FVwText)) as [([|[|[|]]| | | | | | | | |] & [st3|])|] eqn:E3; try discriminate C.
  destruct (py_exec ex_hash false ex_pf ex_rd py_w st3 (Parse 1 ex_chunk)) as [([| |[|[|[|]]] [[|[|[|[|]]]]|]| | | | | | | |] & [st5|])|] eqn:E5; try discriminate C.
  destruct (py_exec ex_hash false ex_pf ex_rd py_w st5 (Learn 0 2 3)) as [(r6 & [st6|])|] eqn:E6; try discriminate C.
  destruct (py_exec ex_hash false ex_pf ex_rd py_w st6 NewCb) as [(r7 & [st7|])|] eqn:E7; try discriminate C.
  repeat (apply andb_true_iff in C; destruct C as (C & ?)).
  unfold good_at in *.
  destruct (py_get (py_heap st5) 2) as [[[|[s|] x]| | | |]|] eqn:Gx; try discriminate.
  destruct (py_get (py_heap st5) 3) as [[|lab0| | |]|]; try discriminate. destruct lab0; try discriminate.
  destruct (py_get (py_heap st7) 2) as [[[|[s7|] x7]| | | |]|]; try discriminate.
  destruct (py_get (py_heap st7) 3) as [[|lab| | |]|] eqn:Gl; try discriminate. destruct lab as [|?|i c q]; try discriminate.
  repeat match goal with H : (_ && _)%bool = true |- _ => apply andb_true_iff in H; destruct H end.
  exists R, st1, st3, st5, st7, (FtsCb (Some s) x), (LbCb i c q).
  split; [exact W|]. split; [constructor; apply no_elemb_ok; reflexivity|]. split; [reflexivity|]. split; [constructor; now apply no_elemb_ok|].
  split; [exact E3|]. split; [constructor; now apply no_elemb_ok|]. split; [exact E5|].
  split; [eapply steps_cons; [now apply no_elemb_ok|exact E6|]; eapply steps_cons; [now apply no_elemb_ok|exact E7|]; constructor; now apply no_elemb_ok|].
  split; [intros ->; match goal with H : negb _ = true |- _ => rewrite Nat.eqb_refl in H; discriminate H end|]. split; [exact Gx|]. split; [exact Gl|].
  assert (L : length x = 2%nat) by now apply Nat.eqb_eq.
  assert (I0 : i = 0) by now apply N.eqb_eq.
  split.
  - split; [rewrite TP; discriminate|]. split; auto. intros _. destruct x; [discriminate L|simpl; discriminate].
  - split; [now rewrite TL|]. intros _. exists s, x, i, c, q. repeat split. rewrite I0, L. simpl. lia.
Qed.
Lemma py_prog_pool :
  length (py_pool (snd (py_run ex_hash false ex_pf ex_rd py_prog py_start))) = 3%nat /\
  map (fun k => held (py_heap (snd (py_run ex_hash false ex_pf ex_rd (firstn k py_prog) py_start)))) (seq 0 10) = [0; 0; 0; 3; 0; 3; 3; 3; 0; 0]%nat.
Proof. split; vm_compute; reflexivity. Qed.

(** An example written in the three formats (C85). *)
From Coq Require Import List NArith PeanoNat Bool Lia.
From Verif Require Import Base FloatOps FloatB32 Model_Hash Model_Features Model_Types Model_Interactions Model_Weights Model_Loss Model_Explore Model_Coin
  Model_Stack Model_Factory Model_Text Model_Metrics Model_Train Model_Json Model_JsonTrain Model_Save Model_Command
  Spec_Features Spec_Stack Spec_Text Spec_Json Spec_JsonLabel Spec_Command Spec_Formats Proof_StackRestore Proof_StackProps
  Proof_TextRead Proof_TextParse Proof_TextChunk Proof_Train Proof_JsonLabel Proof_JsonTrain Proof_Pieces Proof_Command Proof_CommandEx Proof_Formats.
Import ListNotations.
Open Scope N_scope.

Notation nm n := (@f_of_N BF0 n).
(** shared: namespace u with a = 2, b = "x", c; the first action: vector v = [1, 2], cost 3,
    probability 1; the second action: d in the default namespace *)
Definition fx_exam : exam BF0 :=
  EBandit (Some [(Some [117], BNamed [([97], VNum (nm 2)); ([98], VStr [120]); ([99], VFlag)])])
    [[(Some [118], BVector [nm 1; nm 2])]; [(None, BNamed [([100], VFlag)])]] (Some (0, nm 3, nm 1)).
(* "shared |u a:2 b:x c"   "0:3:1 |v :1 :2"   "| d" *)
Definition fx_lines : list (cline BF0) :=
  [mkCline [115; 104; 97; 114; 101; 100; 32] [str_shared] MShared
     [mkTns (Some ([117], None)) [([32], ([97], Some [50])); ([32], ([98], Some [120])); ([32], ([99], None))] []];
   mkCline [48; 58; 51; 58; 49; 32] [[48; 58; 51; 58; 49]] (MLabel 0 (nm 3) (nm 1))
     [mkTns (Some ([118], None)) [([32], ([], Some [49])); ([32], ([], Some [50]))] []];
   mkCline [] [] MNone [mkTns None [([32], ([100], None))] []]].
Definition fx_chunk : str := joined (map cl_text fx_lines).
Definition fx_json : json BF0 :=
  JObj [(s_actions, JArr [JObj [([118], JArr [jn 1; jn 2])]; JObj [(str_default, JObj [([100], JBool true)])]]);
        (s_label, JObj [(s_action, jn 0); (s_cost, jn 3); (s_probability, jn 1)]);
        (str_shared, JObj [([117], JObj [([97], jn 2); ([101], JBool false); ([98], JStr [120]); ([99], JBool true)])])].
Definition fx_ds : json BF0 :=
  JObj [(s_label_cost, jn 3); (s_label_prob, jn 1); (s_label_index, jn 0);
        (s_c, JObj [([117], JObj [([97], jn 2); ([95; 120], JNull); ([98], JStr [120]); ([99], JBool true)]);
                    (s_multi, JArr [JObj [([118], JArr [jn 1; jn 2])]; JObj [([100], JBool true)]])])].
Definition fx_rd (s : str) : option (json BF0) := match s with 49 :: _ => Some fx_json | 50 :: _ => Some fx_ds | _ => None end.
(** two examples in each of the formats *)
Definition fx_text (fmt : format) : str :=
  match fmt with FmtText => fx_chunk ++ [10; 10] ++ fx_chunk ++ [10] | FmtDs => [50; 10; 50; 10] | FmtJson => [49; 10; 49] end.
Definition fx_pieces (fmt : format) : list str :=
  match fmt with FmtText => [fx_chunk; fx_chunk] | FmtDs => [[50; 10]; [50; 10]] | FmtJson => [[49; 10]; [49]] end.

Ltac doc :=
  repeat match goal with
  | |- _ /\ _ => split
  | |- Forall _ [] => constructor
  | |- Forall _ (_ :: _) => constructor
  | |- True => exact Logic.I
  | |- _ <> [] => discriminate
  | |- plain_char _ => repeat split; discriminate
  | |- ex_pf _ <> None => discriminate
  | |- exists r, _ => eexists; reflexivity
  | |- _ = _ => reflexivity
  | _ => progress cbn [tn_head tn_feats tn_trail cl_ns fst snd]
  end.
Lemma fx_lines_ok : Forall (cl_ok ex_pf) fx_lines.
Proof.
  unfold fx_lines. constructor; [|constructor; [|constructor; [|constructor]]]; unfold cl_ok; cbn [cl_initial cl_words cl_mark cl_ns].
  - split; [cbn; intuition discriminate|]. split; [apply label_words_tokens; reflexivity|]. split; [constructor|]. unfold tn_ok, item_ok, word, gap. doc.
  - split; [cbn; intuition discriminate|]. split; [apply label_words_tokens; reflexivity|]. split; [|unfold tn_ok, item_ok, word, gap; doc].
    eapply (mk_label ex_pf _ [] [48] [51] [49] []); [apply cut_split; reflexivity|reflexivity..].
  - split; [intros []|]. split; [apply label_words_tokens; reflexivity|]. split; [constructor|]. unfold tn_ok, item_ok, word, gap. doc.
Qed.
Lemma fx_writes_text : text_exam ex_pf fx_chunk fx_exam.
Proof.
  assert (OK := fx_lines_ok). inversion OK as [|l1 ? K1 OK1]; subst. inversion OK1 as [|l2 ? K2 OK2]; subst. inversion OK2 as [|l3 ? K3 _]; subst.
  assert (TN : forall l n, cl_ok ex_pf l -> cl_ns l = [n] -> tn_ok ex_pf n) by (intros l n (_ & _ & _ & F) E; rewrite E in F; now inversion F).
  eapply (te_bandit ex_pf fx_chunk fx_lines (Some _) _ (Some (0, nm 3, nm 1))); [discriminate|exact OK|reflexivity| | |].
  - constructor; [|constructor; [|constructor; [|constructor]]]; (constructor; [|constructor]).
    + split; [eapply TN; [exact K1|reflexivity]|]. split; [reflexivity|]. apply tb_named. constructor; [|constructor; [|constructor; [|constructor]]].
      * exact (ti_num ex_pf _ 97 [] [50] (nm 2) eq_refl).
      * apply ti_str; reflexivity.
      * apply ti_flag; reflexivity.
    + split; [eapply TN; [exact K2|reflexivity]|]. split; [reflexivity|]. apply (tb_vector ex_pf _ [[49]; [50]]). constructor; [|constructor; [|constructor]].
      * exists (nm 1). split; reflexivity.
      * exists (nm 2). split; reflexivity.
    + split; [eapply TN; [exact K3|reflexivity]|]. split; [reflexivity|]. apply tb_named. constructor; [|constructor]. apply ti_flag; reflexivity.
  - split; [intros _; eexists; reflexivity|discriminate].
  - split; [exists 0; reflexivity|]. intros [|[|j]] m E L; [reflexivity|injection E as <-; destruct L|destruct j; discriminate].
Qed.
Lemma named_some : forall k, str_eqb k str_space = false -> str_eqb k str_default = false -> named k (Some k).
Proof. intros k A B. split; auto. split; intros ->; discriminate. Qed.
Ltac fe := eapply jget_first; [|reflexivity]; discriminate.
Lemma fx_writes_json : json_exam fx_json fx_exam.
Proof.
  eapply je_bandit.
  - eexists. split; [fe|]. eexists. split; [reflexivity|]. constructor; [|constructor]. split; [now apply named_some|]. apply jb_named.
    apply (ji_num [97]). apply ji_false. apply ji_str. apply ji_true. apply ji_nil.
  - fe.
  - constructor; [|constructor; [|constructor]]; (eexists; split; [reflexivity|]); (constructor; [|constructor]); split.
    + now apply named_some.
    + refine (jb_vector [mkNum (nm 1) (nm 1) (Some 1); mkNum (nm 2) (nm 2) (Some 2)] _). discriminate.
    + now right.
    + apply jb_named. apply ji_true, ji_nil.
  - apply json_label_ok. reflexivity.
Qed.
Lemma fx_writes_ds : ds_exam fx_ds fx_exam.
Proof.
  eapply de_bandit; [fe| |fe| |].
  - eexists. split; [reflexivity|]. eapply (dp_object [117] (Some [117])); [reflexivity|now apply named_some| |discriminate|apply dp_skip; [reflexivity|constructor]].
    apply (di_num [97]); [reflexivity|]. apply di_skip; [reflexivity|]. apply di_str; [reflexivity|]. apply di_true; [reflexivity|]. apply di_nil.
  - constructor; [|constructor; [|constructor]]; (eexists; split; [reflexivity|]).
    + refine (dp_vector [118] (Some [118]) [mkNum (nm 1) (nm 1) (Some 1); mkNum (nm 2) (nm 2) (Some 2)] [] [] _ _ _ _); [reflexivity|now apply named_some|discriminate|constructor].
    + refine (dp_direct [([100], JBool true)] [([100], VFlag)] [] [] _ _ _); [apply di_true; [reflexivity|constructor]|discriminate|constructor].
  - eapply (dm_some fx_ds (mkNum (nm 3) (nm 3) (Some 3)) (mkNum (nm 1) (nm 1) (Some 1)) (mkNum (nm 0) (nm 0) (Some 0)) 0); [fe|fe|fe|reflexivity].
Qed.
Lemma fx_writes : forall fmt, Forall2 (writes ex_pf fx_rd fmt) (fx_pieces fmt) [fx_exam; fx_exam].
Proof.
  intros [| |]; (constructor; [|constructor; [|constructor]]); cbn [writes]; try exact fx_writes_text.
  1-2: exists fx_ds; split; [reflexivity|exact fx_writes_ds].
  1-2: exists fx_json; split; [reflexivity|exact fx_writes_json].
Qed.
Lemma fx_fits : exam_fits ex_hash true 0 fx_exam.
Proof.
  unfold exam_fits, fx_exam. cbn [exam_parts]. repeat match goal with |- Forall _ _ => constructor end; intros name b [E|[]] _; injection E as <- <-; vm_compute; reflexivity.
Qed.
Lemma fx_trains : forall fmt, exists gc R rep, open_source ex_hash false cx_src = Ok (gc, R) /\ gc_bits gc < 32 /\
  pieces fmt (is_multiline (fst (types_of (projT2 R))) (snd (types_of (projT2 R)))) (fx_text fmt) (fx_pieces fmt) /\
  Forall2 (writes ex_pf fx_rd fmt) (fx_pieces fmt) [fx_exam; fx_exam] /\
  Forall (fun e => exam_types e = types_of (projT2 R) /\ exam_fits ex_hash false (gc_seed gc) e) [fx_exam; fx_exam] /\
  train_command ex_hash ex_pf fx_rd ex_al false (cx_opts fmt) cx_src (fx_text fmt) = Ok rep /\
  length (rp_preds rep) = 2%nat /\ length (rp_rows rep) = 3%nat.
Proof.
  intros fmt. destruct (open_source ex_hash false cx_src) as [(gc & R)|e|e] eqn:E; [|vm_compute in E; discriminate..].
  destruct (match train_command ex_hash ex_pf fx_rd ex_al false (cx_opts fmt) cx_src (fx_text fmt) with Ok rep => Some (length (rp_preds rep), length (rp_rows rep)) | _ => None end) as [(a & b)|] eqn:ET.
  2: { destruct fmt; vm_compute in ET; discriminate. }
  assert (EV : (a, b) = (2, 3)%nat) by (destruct fmt; vm_compute in ET; congruence).
  destruct (train_command ex_hash ex_pf fx_rd ex_al false (cx_opts fmt) cx_src (fx_text fmt)) as [rep| |]; try discriminate.
  exists gc, R, rep. split; [reflexivity|].
  assert (T : gc = ex_gc /\ types_of (projT2 R) = (FTCb, LTCb)) by (clear ET; vm_compute in E; inversion E; subst; split; reflexivity).
  destruct T as (-> & T). split; [reflexivity|]. split.
  - destruct (pieces_one BF0 _ (projT2 R) fmt (fx_text fmt)) as (cs & EC & P & _).
    assert (X : chunks_of fmt (projT2 R) (fx_text fmt) = Some (fx_pieces fmt)).
    { destruct fmt; cbn [chunks_of]; [|vm_compute; reflexivity..].
      change (all_chunks (S (length (fx_text FmtText))) (is_multiline (fst (types_of (projT2 R))) (snd (types_of (projT2 R)))) (fx_text FmtText) = Some (fx_pieces FmtText)).
      rewrite T. vm_compute. reflexivity. }
    rewrite EC in X. injection X as <-. exact P.
  - split; [apply fx_writes|]. split.
    + assert (F : exam_fits ex_hash false 0 fx_exam).
      { eapply Forall_impl; [|exact fx_fits]. intros p FT name bd I _. apply (FT name bd I). now left. }
      constructor; [|constructor; [|constructor]]; (split; [now rewrite T|exact F]).
    + split; [reflexivity|]. injection EV as E1 E2. injection ET as E3 E4. split; [exact (eq_trans E3 E1)|exact (eq_trans E4 E2)].
Qed.

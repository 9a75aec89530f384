(** How a text is cut into examples, and what happens when a text is continued. *)
From Coq Require Import List NArith Bool Lia PeanoNat.
From Verif Require Import Base FloatOps Model_Hash Model_Features Model_Types Model_Stack Model_Text Model_Command Spec_Text Spec_Command Proof_TextRead.
Import ListNotations.
Open Scope N_scope.

(** ** lines with their newlines *)
Lemma read_line_spec : forall s, (~ In 10 s /\ read_line s = (s, [])) \/
  exists l rest, ~ In 10 l /\ s = l ++ 10 :: rest /\ read_line s = (l ++ [10], rest).
Proof.
  induction s as [|c s IH]; [left; split; auto|]. cbn [read_line]. destruct (c =? 10) eqn:E.
  - apply N.eqb_eq in E. subst. right. exists [], s. repeat split; auto.
  - apply N.eqb_neq in E. destruct IH as [(A & B)|(l & rest & A & B & C)].
    + left. rewrite B. split; auto. intros [X|X]; auto.
    + right. exists (c :: l), rest. rewrite C, B. split; [|split; reflexivity]. intros [X|X]; auto.
Qed.

Lemma line_chunks_spec : forall fuel text, (length text < fuel)%nat ->
  exists cs, line_chunks fuel text = Some cs /\ full_lines text cs.
Proof.
  induction fuel as [|fuel IH]; intros text L; [lia|]. cbn [line_chunks]. unfold next_line.
  destruct (read_line_spec text) as [(A & ->)|(l & rest & A & B & ->)].
  - destruct text as [|c s]; [exists []; split; [reflexivity|constructor]|].
    cbn [line_chunks]. destruct fuel as [|fuel]; [cbn in L; lia|]. cbn [line_chunks next_line read_line].
    exists [c :: s]. split; [reflexivity|]. constructor; [discriminate|exact A].
  - assert (L' : (length rest < fuel)%nat) by (rewrite B, app_length in L; cbn [length] in L; lia).
    destruct (IH rest L') as (cs & E & F). destruct (l ++ [10]) as [|d q] eqn:E0; [destruct l; discriminate|]. rewrite E.
    exists ((d :: q) :: cs). split; [reflexivity|]. rewrite B, <- E0. now constructor.
Qed.

Lemma cut_same : forall (a b x y : str), ~ In 10 a -> ~ In 10 b -> a ++ 10 :: x = b ++ 10 :: y -> a = b /\ x = y.
Proof.
  induction a as [|c a IH]; intros [|d b] x y A B E; cbn [app] in E.
  - inversion E. auto.
  - inversion E; subst. destruct B. now left.
  - inversion E; subst. destruct A. now left.
  - inversion E; subst. destruct (IH b x y) as (-> & ->); auto; intros X; [apply A|apply B]; now right.
Qed.
Lemma full_lines_fun : forall t a, full_lines t a -> forall b, full_lines t b -> a = b.
Proof.
  assert (X : forall (l : str) rest, In 10 (l ++ 10 :: rest)) by (intros; apply in_or_app; right; now left).
  assert (Y : forall (l : str) rest, l ++ 10 :: rest <> []) by (intros [|? ?] ?; discriminate).
  induction 1 as [|l NE NI|l rest ls NI F IH]; intros b Fb; match type of Fb with full_lines ?t _ => remember t as t' eqn:Et in Fb end.
  - destruct Fb; auto; try congruence.
  - destruct Fb; try congruence. subst. now destruct (NI (X _ _)).
  - destruct Fb as [|l' NE' NI'|l' rest' ls' NI' F'].
    + symmetry in Et. now apply Y in Et.
    + subst. now destruct (NI' (X _ _)).
    + apply cut_same in Et; auto. destruct Et as (-> & ->). f_equal. now apply IH.
Qed.
Lemma complete_rest : forall l rest, ~ In 10 l -> complete (l ++ 10 :: rest) -> complete rest.
Proof.
  intros l rest NI [C|(u & C)]; [apply app_eq_nil in C as (_ & C); discriminate|].
  destruct rest as [|c rest] using rev_ind; [now left|]. right. exists rest.
  replace (l ++ 10 :: rest ++ [c]) with ((l ++ 10 :: rest) ++ [c]) in C by now rewrite <- app_assoc.
  apply app_inj_tail in C as (_ & ->). reflexivity.
Qed.
Lemma full_lines_app : forall t1 a, full_lines t1 a -> complete t1 -> forall t2 b, full_lines t2 b -> full_lines (t1 ++ t2) (a ++ b).
Proof.
  induction 1 as [|l NE NI|l rest ls NI F IH]; intros C t2 b Fb; auto.
  - exfalso. destruct C as [->|(u & ->)]; auto. apply NI. apply in_or_app. right. now left.
  - rewrite <- app_assoc. cbn [app]. constructor; auto. apply IH; auto. eapply complete_rest; eauto.
Qed.

(** ** the text format *)
Lemma joined_snoc : forall ls l, ls <> [] -> joined (ls ++ [l]) = joined ls ++ 10 :: l.
Proof.
  induction ls as [|x ls IH]; intros l NE; [congruence|]. destruct ls as [|y ls]; [reflexivity|].
  change (joined (x :: y :: ls)) with (x ++ 10 :: joined (y :: ls)).
  change (joined ((x :: y :: ls) ++ [l])) with (x ++ 10 :: joined ((y :: ls) ++ [l])).
  rewrite IH by discriminate. now rewrite <- app_assoc.
Qed.
Lemma joined_app : forall a b, b <> [] -> joined (a ++ b) = flat_map (fun l => l ++ [10]) a ++ joined b.
Proof.
  induction a as [|x a IH]; intros b NE; [reflexivity|]. cbn [app flat_map]. rewrite <- !app_assoc. cbn [app].
  rewrite <- IH by auto. destruct (a ++ b) as [|y q] eqn:E; [apply app_eq_nil in E as (_ & E); congruence|]. reflexivity.
Qed.
(** the terminated lines of a complete text *)
Lemma complete_lines : forall t, complete t -> exists ls, Forall (fun l => ~ In 10 l) ls /\ t = flat_map (fun l => l ++ [10]) ls.
Proof.
  intros t C. destruct (line_chunks_spec (S (length t)) t) as (cs & _ & F); [lia|]. clear -C F.
  revert C. induction F as [|l NE NI|l rest ls NI F IH]; intros C.
  - exists []. split; [constructor|reflexivity].
  - exfalso. destruct C as [->|(u & ->)]; auto. apply NI. apply in_or_app. right. now left.
  - destruct (IH (complete_rest _ _ NI C)) as (ks & K1 & K2). exists (l :: ks). split; [constructor; auto|].
    cbn [flat_map]. rewrite <- app_assoc. cbn [app]. now rewrite <- K2.
Qed.
Lemma lines_of : forall a b, Forall (fun l => ~ In 10 l) a -> Forall (fun l => ~ In 10 l) b -> b <> [] ->
  lines_are (flat_map (fun l => l ++ [10]) a ++ joined b) (a ++ b).
Proof.
  intros a b A B NE. split; [intros E; apply app_eq_nil in E as (_ & E); exact (NE E)|].
  split; [now apply Forall_app|]. now rewrite joined_app.
Qed.
Lemma lines_exist : forall t, exists ls, lines_are t ls.
Proof. intros t. destruct (proj1 (chunks_multi_all t)) as (ls & bs & L & _). eauto. Qed.
Lemma blocks_exist : forall ls, Forall (fun l => ~ In 10 l) ls -> exists bs, blocks ls bs.
Proof.
  intros ls F. destruct ls as [|l ls]; [exists []; constructor|].
  assert (L : lines_are (joined (l :: ls)) (l :: ls)) by (repeat split; auto; discriminate).
  destruct (proj1 (chunks_multi_all (joined (l :: ls)))) as (ks & bs & K & B). exists bs. now rewrite (lines_unique _ _ _ L K).
Qed.
Lemma non_blank_exist : forall ls, Forall (fun l => ~ In 10 l) ls -> exists bs, non_blank ls bs.
Proof.
  intros ls F. destruct ls as [|l ls]; [exists []; constructor|].
  assert (L : lines_are (joined (l :: ls)) (l :: ls)) by (repeat split; auto; discriminate).
  destruct (proj1 (chunks_single_all (joined (l :: ls)))) as (ks & bs & K & B). exists bs. now rewrite (lines_unique _ _ _ L K).
Qed.
Lemma non_blank_app : forall a x, non_blank a x -> forall b y, non_blank b y -> non_blank (a ++ b) (x ++ y).
Proof. induction 1; intros b y B; cbn [app]; [auto|apply nb_blank; auto|apply nb_line; auto]. Qed.
Lemma blocks_app : forall a x, blocks a x -> (a = [] \/ exists q w, a = q ++ [w] /\ blank w) ->
  forall b y, blocks b y -> blocks (a ++ b) (x ++ y).
Proof.
  induction 1 as [|l ls bs BL F IH|run ls bs NE NB ST F IH]; intros E b y B; auto.
  - cbn [app]. constructor; auto. apply IH; auto. destruct E as [E|(q & w & E & W)]; [discriminate|].
    destruct q as [|z q]; cbn [app] in E; inversion E; subst; [now left|right; eauto].
  - rewrite <- app_assoc. cbn [app]. destruct ST as [->|(l & r & -> & BL)].
    + exfalso. rewrite app_nil_r in E. destruct E as [E|(q & w & E & W)]; [congruence|]. subst run.
      apply Forall_app in NB as (_ & NB). inversion NB; auto.
    + constructor; auto; [right; exists l, (r ++ b); split; auto|]. apply IH; auto. right.
      destruct E as [E|(q & w & E & W)]; [apply app_eq_nil in E as (_ & E); discriminate|].
      destruct (@exists_last _ (l :: r) ltac:(discriminate)) as (r' & z & Er). rewrite Er in E. rewrite app_assoc in E.
      apply app_inj_tail in E as (_ & ->). exists r', w. split; auto.
Qed.
Lemma chunk_of_fun : forall bs a, Forall2 chunk_of bs a -> forall b, Forall2 chunk_of bs b -> a = b.
Proof.
  induction 1 as [|run c bs a C F IH]; intros b Fb; inversion Fb; subst; auto. f_equal; [|now apply IH].
  destruct C as (ts & T & -> & _), H1 as (ts' & T' & -> & _). f_equal. clear -T T'. revert ts' T'.
  induction T as [|l t run ts HT T IH]; intros ts' T'; inversion T'; subst; auto. f_equal; [eapply trimmed_unique; eauto|now apply IH].
Qed.
Lemma trimmed_fun : forall bs a, Forall2 trimmed bs a -> forall b, Forall2 trimmed bs b -> a = b.
Proof.
  induction 1 as [|l t run ts HT T IH]; intros ts' T'; inversion T'; subst; auto. f_equal; [eapply trimmed_unique; eauto|now apply IH].
Qed.

(** ** all formats *)
Lemma pieces_fun : forall fmt multi t a b, pieces fmt multi t a -> pieces fmt multi t b -> a = b.
Proof.
  intros fmt multi t a b A B. destruct fmt; cbn [pieces] in *; try (eapply full_lines_fun; eauto; fail).
  destruct A as (ls & L & A), B as (ls' & L' & B). rewrite (lines_unique _ _ _ L' L) in B. destruct multi.
  - destruct A as (bs & A1 & A2), B as (bs' & B1 & B2). rewrite (blocks_unique _ _ B1 _ A1) in B2. eapply chunk_of_fun; eauto.
  - destruct A as (bs & A1 & A2), B as (bs' & B1 & B2). rewrite (non_blank_unique _ _ B1 _ A1) in B2. eapply trimmed_fun; eauto.
Qed.
Lemma chunks_pieces : forall (O : FOps) fmt n (r : red O n) text,
  exists cs, chunks_of fmt r text = Some cs /\ pieces fmt (is_multiline (td_in_feats (red_types r)) (td_in_label (red_types r))) text cs.
Proof.
  intros O fmt n r text. destruct fmt; cbn [chunks_of pieces]; try (apply line_chunks_spec; lia).
  destruct (is_multiline _ _).
  - destruct (chunks_multi_all text) as ((ls & bs & L & B) & K). destruct (K ls bs L B) as (cs & E & F). exists cs. split; auto.
    exists ls. split; auto. exists bs. auto.
  - destruct (chunks_single_all text) as ((ls & bs & L & B) & K). destruct (K ls bs L B) as (cs & E & F). exists cs. split; auto.
    exists ls. split; auto. exists bs. auto.
Qed.

Lemma pieces_app : forall fmt multi t1 t2 a b, closed fmt multi t1 -> pieces fmt multi t1 a -> pieces fmt multi t2 b ->
  pieces fmt multi (t1 ++ t2) (a ++ b).
Proof.
  intros fmt multi t1 t2 a b (C & CM) A B.
  destruct fmt; cbn [pieces] in *; try (now apply full_lines_app; auto).
  specialize (CM eq_refl).
  assert (Q : exists ls1, Forall (fun l => ~ In 10 l) ls1 /\ t1 = flat_map (fun l => l ++ [10]) ls1 /\
            (multi = true -> ls1 = [] \/ exists q w, ls1 = q ++ [w] /\ blank w)).
  { destruct multi.
    - destruct (CM eq_refl) as [->|(u & w & Cu & Bw & Nw & ->)]; [exists []; repeat split; auto|].
      destruct (complete_lines u Cu) as (q & Q1 & ->). exists (q ++ [w]). split; [apply Forall_app; split; auto|].
      split; [rewrite flat_map_app; cbn [flat_map]; now rewrite app_nil_r|]. intros _. right. eauto.
    - destruct (complete_lines t1 C) as (q & Q1 & Q2). exists q. repeat split; auto. discriminate. }
  destruct Q as (ls1 & N1 & -> & LB). clear C CM.
  destruct B as (ls2 & L2 & B).
  assert (L1 : lines_are (flat_map (fun l => l ++ [10]) ls1) (ls1 ++ [[]])).
  { rewrite <- (app_nil_r (flat_map _ _)). apply (lines_of ls1 [[]]); auto. discriminate. }
  assert (L12 : lines_are (flat_map (fun l => l ++ [10]) ls1 ++ t2) (ls1 ++ ls2)).
  { destruct L2 as (X & Y & ->). now apply lines_of. }
  destruct A as (ls & L & A). rewrite (lines_unique _ _ _ L L1) in A. exists (ls1 ++ ls2). split; auto. destruct multi.
  - destruct A as (bs1 & A1 & A2), B as (bs2 & B1 & B2).
    destruct (blocks_exist ls1 N1) as (bs & Q). specialize (LB eq_refl).
    assert (Q' : blocks (ls1 ++ [[]]) (bs ++ [])) by (apply blocks_app; auto; constructor; constructor).
    rewrite app_nil_r in Q'. rewrite (blocks_unique _ _ A1 _ Q') in A2. exists (bs ++ bs2). split; [now apply blocks_app|now apply Forall2_app].
  - destruct A as (bs1 & A1 & A2), B as (bs2 & B1 & B2).
    destruct (non_blank_exist ls1 N1) as (bs & Q).
    assert (Q' : non_blank (ls1 ++ [[]]) (bs ++ [])) by (apply non_blank_app; auto; constructor; constructor).
    rewrite app_nil_r in Q'. rewrite (non_blank_unique _ _ A1 _ Q') in A2. exists (bs ++ bs2). split; [now apply non_blank_app|now apply Forall2_app].
Qed.

(** Cutting a stream into chunks (C26). *)
From Coq Require Import List NArith Bool Lia Arith.
From Verif Require Import Base Model_Hash Model_Types Model_Text Spec_Text.
Import ListNotations.
Open Scope N_scope.

Lemma trim_end_blank : forall s, trim_end s = [] <-> blank s.
Proof.
  induction s as [|c r IH]; cbn [trim_end].
  - split; [constructor|reflexivity].
  - destruct (trim_end r) as [|x t] eqn:E.
    + destruct (is_ws c) eqn:Ec; split; intros Hx; try discriminate; try reflexivity.
      * constructor; [exact Ec|apply IH; reflexivity].
      * inversion Hx; subst. congruence.
    + split; [discriminate|]. intros Hx. inversion Hx; subst. apply IH in H2. discriminate.
Qed.
Lemma trim_end_trimmed : forall s, trimmed s (trim_end s).
Proof.
  induction s as [|c r IH]; cbn [trim_end].
  - split; [exists []; split; [constructor|reflexivity]|left; reflexivity].
  - destruct IH as [(w & Hw & Ew) Hl].
    destruct (trim_end r) as [|x t] eqn:E.
    + destruct (is_ws c) eqn:Ec.
      * split; [|left; reflexivity]. exists (c :: r). split; [|reflexivity].
        constructor; [exact Ec|]. apply trim_end_blank. exact E.
      * split; [|right; exists [], c; split; [reflexivity|exact Ec]].
        exists w. split; [exact Hw|]. rewrite Ew at 1. reflexivity.
    + split.
      * exists w. split; [exact Hw|]. rewrite Ew at 1. reflexivity.
      * destruct Hl as [Hl|(u & d & Eu & Hd)]; [discriminate|]. right. exists (c :: u), d.
        split; [rewrite Eu; reflexivity|exact Hd].
Qed.
Lemma trim_end_app : forall a b, trim_end (a ++ b) = match trim_end b with [] => trim_end a | t => a ++ t end.
Proof.
  induction a as [|c r IH]; intros b; cbn [app trim_end].
  - destruct (trim_end b); reflexivity.
  - rewrite IH. destruct (trim_end b) as [|x t]; [reflexivity|].
    destruct (r ++ x :: t) eqn:E; [destruct r; discriminate|reflexivity].
Qed.
Lemma trim_end_id : forall s, (s = [] \/ exists u c, s = u ++ [c] /\ is_ws c = false) -> trim_end s = s.
Proof.
  intros s [->|(u & c & -> & Hc)]; [reflexivity|]. rewrite trim_end_app. cbn. rewrite Hc. reflexivity.
Qed.
Lemma trim_end_idem : forall s, trim_end (trim_end s) = trim_end s.
Proof. intros s. apply trim_end_id. apply (trim_end_trimmed s). Qed.
Lemma trim_end_In : forall s c, In c (trim_end s) -> In c s.
Proof.
  intros s c Hc. destruct (trim_end_trimmed s) as [(w & _ & E) _]. rewrite E. apply in_or_app. left. exact Hc.
Qed.
Lemma trim_end_nl : forall s, trim_end (s ++ [10]) = trim_end s.
Proof. intros s. rewrite trim_end_app. reflexivity. Qed.

Lemma read_line_last : forall l, ~ In 10 l -> read_line l = (l, []).
Proof.
  induction l as [|c r IH]; intros Hn; [reflexivity|]. cbn [read_line].
  destruct (c =? 10) eqn:E; [apply N.eqb_eq in E; subst; destruct Hn; left; reflexivity|].
  rewrite IH; [reflexivity|]. intros Hx. apply Hn. right. exact Hx.
Qed.
Lemma read_line_nl : forall l r, ~ In 10 l -> read_line (l ++ 10 :: r) = (l ++ [10], r).
Proof.
  induction l as [|c r IH]; intros r' Hn; [reflexivity|]. cbn [read_line app].
  destruct (c =? 10) eqn:E; [apply N.eqb_eq in E; subst; destruct Hn; left; reflexivity|].
  rewrite IH; [reflexivity|]. intros Hx. apply Hn. right. exact Hx.
Qed.
(** one line read: the text read and the rest *)
Lemma read_line_joined : forall l ls, ~ In 10 l ->
  exists nl, read_line (joined (l :: ls)) = (l ++ nl, joined ls) /\ (nl = [] /\ ls = [] \/ nl = [10] /\ ls <> []).
Proof.
  intros l ls Hn. destruct ls as [|l2 ls].
  - exists []. cbn [joined]. rewrite read_line_last by exact Hn. rewrite app_nil_r. split; [reflexivity|left; auto].
  - exists [10]. change (joined (l :: l2 :: ls)) with (l ++ 10 :: joined (l2 :: ls)).
    rewrite read_line_nl by exact Hn. split; [reflexivity|right; split; [reflexivity|discriminate]].
Qed.
Lemma joined_app : forall ts l, ts <> [] -> joined (ts ++ [l]) = joined ts ++ 10 :: l.
Proof.
  induction ts as [|t r IH]; intros l Hn; [destruct Hn; reflexivity|]. destruct r as [|t2 r]; [reflexivity|].
  change (t ++ 10 :: joined ((t2 :: r) ++ [l]) = (t ++ 10 :: joined (t2 :: r)) ++ 10 :: l).
  rewrite IH by discriminate. rewrite <- app_assoc. reflexivity.
Qed.
Lemma joined_last : forall ts, ts <> [] -> Forall (fun t => t <> [] /\ trim_end t = t) ts ->
  joined ts <> [] /\ trim_end (joined ts) = joined ts.
Proof.
  intros ts Hn Hf. destruct (exists_last Hn) as (r & t & ->). apply Forall_app in Hf. destruct Hf as [_ Hf].
  inversion Hf as [|? ? [H1 H2] _]; subst. destruct r as [|r0 r].
  - cbn [app joined]. split; assumption.
  - rewrite joined_app by discriminate. split; [intros E; apply app_eq_nil in E; destruct E; discriminate|].
    rewrite trim_end_app. change (10 :: t) with ([10] ++ t). rewrite trim_end_app, H2.
    destruct t; [destruct H1; reflexivity|reflexivity].
Qed.

Definition isblank (l : str) : bool := match trim_end l with [] => true | _ => false end.
Lemma isblank_true : forall l, isblank l = true <-> blank l.
Proof.
  intros l. rewrite <- trim_end_blank. unfold isblank. destruct (trim_end l); split; intros E; congruence || reflexivity || discriminate.
Qed.
(** the lines up to the first blank one, and those after it *)
Fixpoint take_run (ls : list str) : list str * list str :=
  match ls with
  | [] => ([], [])
  | l :: r => if isblank l then ([], r) else let '(a, b) := take_run r in (l :: a, b)
  end.

Lemma read_multi_run : forall ls fuel ts,
  Forall (fun l => ~ In 10 l) ls ->
  ts <> [] -> Forall (fun t => t <> [] /\ trim_end t = t) ts ->
  (length ls < fuel)%nat ->
  read_multi fuel (joined ls) (joined ts) =
  Some (Some (joined (ts ++ map trim_end (fst (take_run ls)))), joined (snd (take_run ls))).
Proof.
  induction ls as [|l ls IH]; intros fuel ts Hnl Hn Ht Hf; (destruct fuel as [|fuel]; [inversion Hf|]);
    destruct (joined_last ts Hn Ht) as [Hj Hjt]; destruct (joined ts) as [|j0 j] eqn:Ej; try (destruct Hj; reflexivity).
  - cbn [joined read_multi read_line]. rewrite app_nil_r.
    destruct ((j0 :: j) ++ [10]) as [|k0 k] eqn:Ek; [discriminate|]. rewrite <- Ek. rewrite trim_end_nl, Hjt.
    cbn [nonempty negb andb length Nat.eqb]. rewrite Nat.eqb_refl. cbn [map fst snd take_run]. rewrite app_nil_r.
    rewrite Ej. reflexivity.
  - inversion Hnl as [|? ? Hl Hnl']; subst.
    destruct (read_line_joined l ls Hl) as (nl & Er & Hnlc).
    cbn [read_multi]. rewrite Er.
    assert (Htr : trim_end (((j0 :: j) ++ [10]) ++ l ++ nl) = if isblank l then j0 :: j else ((j0 :: j) ++ [10]) ++ trim_end l).
    { replace (trim_end (((j0 :: j) ++ [10]) ++ l ++ nl)) with (trim_end (((j0 :: j) ++ [10]) ++ l)).
      - rewrite trim_end_app. unfold isblank. destruct (trim_end l); [rewrite trim_end_nl; exact Hjt|reflexivity].
      - destruct Hnlc as [[-> _]|[-> _]]; [rewrite app_nil_r; reflexivity|].
        rewrite (app_assoc _ l), trim_end_nl. reflexivity. }
    rewrite Htr.
    assert (Hm : forall X Y : option (option str * str),
      match l ++ nl with [] => match ((j0 :: j) ++ [10]) ++ l ++ nl with [] => X | _ => Y end | _ => Y end = Y).
    { intros X Y. destruct (l ++ nl); [|reflexivity]. rewrite app_nil_r. reflexivity. }
    cbn zeta. rewrite Hm. clear Hm. cbn [take_run]. destruct (isblank l) eqn:Eb.
    + cbn [nonempty negb andb length Nat.eqb]. rewrite Nat.eqb_refl. cbn [map fst snd]. rewrite app_nil_r, Ej. reflexivity.
    + assert (Hne : trim_end l <> []) by (unfold isblank in Eb; destruct (trim_end l); congruence).
      replace (nonempty (((j0 :: j) ++ [10]) ++ trim_end l)) with true by reflexivity.
      replace (Nat.eqb (length (((j0 :: j) ++ [10]) ++ trim_end l)) (length (j0 :: j))) with false.
      2:{ symmetry. apply Nat.eqb_neq. rewrite !app_length. cbn. lia. }
      cbn [negb andb]. rewrite andb_false_r.
      replace (((j0 :: j) ++ [10]) ++ trim_end l) with (joined (ts ++ [trim_end l])).
      2:{ rewrite joined_app by exact Hn. rewrite Ej, <- app_assoc. reflexivity. }
      rewrite IH; [|exact Hnl'| | |cbn in Hf; lia].
      * destruct (take_run ls) as [a b]. cbn [fst snd map]. rewrite <- app_assoc. reflexivity.
      * destruct ts; discriminate.
      * apply Forall_app. split; [exact Ht|]. constructor; [|constructor]. split; [exact Hne|apply trim_end_idem].
Qed.

(** skipping blank lines *)
Fixpoint skip_blank (ls : list str) : list str :=
  match ls with
  | [] => []
  | l :: r => if isblank l then skip_blank r else ls
  end.
Lemma read_multi_start : forall ls fuel,
  Forall (fun l => ~ In 10 l) ls -> (length ls < fuel)%nat ->
  read_multi fuel (joined ls) [] =
  match skip_blank ls with
  | [] => Some (None, [])
  | l :: r => Some (Some (joined (map trim_end (l :: fst (take_run r)))), joined (snd (take_run r)))
  end.
Proof.
  induction ls as [|l ls IH]; intros fuel Hnl Hf; (destruct fuel as [|fuel]; [inversion Hf|]); [reflexivity|].
  inversion Hnl as [|? ? Hl Hnl']; subst.
  destruct (read_line_joined l ls Hl) as (nl & Er & Hnlc).
  cbn [read_multi]. rewrite Er. cbn [app skip_blank].
  assert (Ht : trim_end (l ++ nl) = trim_end l).
  { destruct Hnlc as [[-> _]|[-> _]]; [rewrite app_nil_r; reflexivity|apply trim_end_nl]. }
  destruct (l ++ nl) as [|x0 x] eqn:El.
  - apply app_eq_nil in El. destruct El as [-> ->]. destruct Hnlc as [[_ ->]|[E _]]; [reflexivity|discriminate].
  - rewrite Ht. unfold isblank. destruct (trim_end l) as [|y0 y] eqn:Ey.
    + cbn [nonempty negb andb length Nat.eqb]. rewrite IH by (assumption || cbn in Hf; lia). reflexivity.
    + cbn [nonempty negb andb length Nat.eqb].
      change (y0 :: y) with (joined [y0 :: y]). rewrite read_multi_run; [|exact Hnl'|discriminate| |cbn in Hf; lia].
      * rewrite <- Ey. reflexivity.
      * constructor; [|constructor]. split; [discriminate|]. rewrite <- Ey. apply trim_end_idem.
Qed.

Lemma read_single_start : forall ls fuel,
  Forall (fun l => ~ In 10 l) ls -> (length ls < fuel)%nat ->
  read_single fuel (joined ls) [] =
  match skip_blank ls with
  | [] => Some (None, [])
  | l :: r => Some (Some (trim_end l), joined r)
  end.
Proof.
  induction ls as [|l ls IH]; intros fuel Hnl Hf; (destruct fuel as [|fuel]; [inversion Hf|]); [reflexivity|].
  inversion Hnl as [|? ? Hl Hnl']; subst.
  destruct (read_line_joined l ls Hl) as (nl & Er & Hnlc).
  cbn [read_single]. rewrite Er. cbn [app skip_blank].
  assert (Ht : trim_end (l ++ nl) = trim_end l).
  { destruct Hnlc as [[-> _]|[-> _]]; [rewrite app_nil_r; reflexivity|apply trim_end_nl]. }
  destruct (l ++ nl) as [|x0 x] eqn:El.
  - apply app_eq_nil in El. destruct El as [-> ->]. destruct Hnlc as [[_ ->]|[E _]]; [reflexivity|discriminate].
  - rewrite Ht. unfold isblank. destruct (trim_end l) as [|y0 y] eqn:Ey.
    + cbn [nonempty negb]. rewrite IH by (assumption || cbn in Hf; lia). reflexivity.
    + cbn [nonempty negb]. rewrite <- Ey. reflexivity.
Qed.

Lemma take_run_split : forall ls, exists tail,
  ls = fst (take_run ls) ++ tail /\ Forall (fun l => isblank l = false) (fst (take_run ls)) /\
  (tail = [] /\ snd (take_run ls) = [] \/ exists l, isblank l = true /\ tail = l :: snd (take_run ls)).
Proof.
  induction ls as [|l r IH]; cbn [take_run].
  - exists []. repeat split; [constructor|left; auto].
  - destruct (isblank l) eqn:E.
    + exists (l :: r). repeat split; [constructor|]. right. exists l. auto.
    + destruct IH as (tail & E1 & E2 & E3). destruct (take_run r) as [a b]. cbn [fst snd] in *. exists tail.
      repeat split; [rewrite E1; reflexivity|constructor; assumption|exact E3].
Qed.
Lemma skip_blank_split : forall ls, exists pre, ls = pre ++ skip_blank ls /\ Forall (fun l => isblank l = true) pre /\
  match skip_blank ls with [] => True | l :: _ => isblank l = false end.
Proof.
  induction ls as [|l r IH]; cbn [skip_blank].
  - exists []. repeat split. constructor.
  - destruct (isblank l) eqn:E.
    + destruct IH as (pre & E1 & E2 & E3). exists (l :: pre). repeat split; [cbn; f_equal; exact E1|constructor; assumption|exact E3].
    + exists []. repeat split; [constructor|exact E].
Qed.
Lemma joined_length : forall ls, (length ls <= S (length (joined ls)))%nat.
Proof.
  induction ls as [|l [|l2 r] IH]; cbn [joined length] in *; try lia. rewrite app_length. cbn [length]. lia.
Qed.
Lemma joined_shorter : forall pre l r, l <> [] -> (length (joined r) < length (joined (pre ++ l :: r)))%nat.
Proof.
  induction pre as [|p pre IH]; intros l r Hl; cbn [app].
  - destruct r as [|l2 r]; cbn [joined].
    + destruct l; [destruct Hl; reflexivity|cbn; lia].
    + rewrite app_length. cbn [length]. destruct l; [destruct Hl; reflexivity|cbn; lia].
  - specialize (IH l r Hl). destruct (pre ++ l :: r) as [|q qs] eqn:E; [destruct pre; discriminate|].
    change (joined (p :: q :: qs)) with (p ++ 10 :: joined (q :: qs)). rewrite app_length. cbn [length]. lia.
Qed.
Lemma isblank_nonempty : forall l, isblank l = false -> l <> [].
Proof. intros l E ->. discriminate. Qed.

(** C26, multi-line *)
Lemma suffix_shorter : forall run tail, (length (joined tail) <= length (joined (run ++ tail)))%nat.
Proof.
  induction run as [|a run IH]; intros tail; cbn [app]; [lia|]. specialize (IH tail).
  destruct (run ++ tail) as [|q qs] eqn:E.
  - apply app_eq_nil in E. destruct E as [-> ->]. cbn. lia.
  - change (joined (a :: q :: qs)) with (a ++ 10 :: joined (q :: qs)). rewrite app_length. cbn [length]. lia.
Qed.

Lemma chunks_multi : forall fuel ls,
  Forall (fun l => ~ In 10 l) ls -> (length (joined ls) < fuel)%nat ->
  exists bs, blocks ls bs /\ all_chunks fuel true (joined ls) = Some (map (fun b => joined (map trim_end b)) bs).
Proof.
  induction fuel as [|fuel IH]; intros ls Hnl Hf; [lia|].
  cbn [all_chunks get_next_chunk]. unfold get_next_chunk.
  rewrite read_multi_start by (assumption || apply (proj2 (Nat.lt_succ_r _ _)), joined_length).
  destruct (skip_blank_split ls) as (pre & E & Hpre & Hhd).
  destruct (skip_blank ls) as [|l r] eqn:Es.
  - exists []. split; [|reflexivity]. rewrite E. rewrite app_nil_r. clear - Hpre.
    induction Hpre; [constructor|]. constructor; [apply isblank_true; assumption|assumption].
  - destruct (take_run_split r) as (tail & Et & Hrun & Htail).
    destruct (take_run r) as [run rest]. cbn [fst snd] in *.
    assert (Hnl' : Forall (fun l => ~ In 10 l) rest).
    { rewrite E in Hnl. apply Forall_app in Hnl. destruct Hnl as [_ Hnl]. apply Forall_inv_tail in Hnl. pose proof Hnl as Hr.
      rewrite Et in Hr. apply Forall_app in Hr. destruct Hr as [_ Hr].
      destruct Htail as [[_ ->]|(b & _ & ->)]; [constructor|inversion Hr; assumption]. }
    assert (Hlen : (length (joined rest) < length (joined ls))%nat).
    { assert (Hs : (length (joined r) < length (joined ls))%nat) by (rewrite E; apply joined_shorter, isblank_nonempty, Hhd).
      assert ((length (joined rest) <= length (joined r))%nat); [|lia].
      rewrite Et. eapply Nat.le_trans; [|apply suffix_shorter].
      destruct Htail as [[_ ->]|(b & _ & ->)]; [cbn; lia|].
      apply (suffix_shorter [b] rest). }
    destruct (IH rest Hnl' ltac:(lia)) as (bs & Hbs & Hall). rewrite Hall.
    exists ((l :: run) :: bs). split; [|reflexivity].
    assert (Hb : blocks ((l :: run) ++ tail) ((l :: run) :: bs)).
    { apply blocks_run; [discriminate| | |].
      - constructor; [intros Hb; apply isblank_true in Hb; congruence|].
        eapply Forall_impl; [|exact Hrun]. intros a Ha Hb. apply isblank_true in Hb. cbn in Ha. congruence.
      - destruct Htail as [[-> _]|(b & Hb & ->)]; [left; reflexivity|right; exists b, rest; split; [reflexivity|apply isblank_true; exact Hb]].
      - destruct Htail as [[-> Er]|(b & Hb & ->)]; [rewrite Er in Hbs; exact Hbs|].
        apply blocks_blank; [apply isblank_true; exact Hb|exact Hbs]. }
    rewrite E, Et. clear - Hpre Hb. change (l :: run ++ tail) with ((l :: run) ++ tail).
    induction Hpre; [exact Hb|]. cbn [app]. apply blocks_blank; [apply isblank_true; assumption|assumption].
Qed.

Lemma chunks_single : forall fuel ls,
  Forall (fun l => ~ In 10 l) ls -> (length (joined ls) < fuel)%nat ->
  exists bs, non_blank ls bs /\ all_chunks fuel false (joined ls) = Some (map trim_end bs).
Proof.
  induction fuel as [|fuel IH]; intros ls Hnl Hf; [lia|].
  cbn [all_chunks get_next_chunk]. unfold get_next_chunk.
  rewrite read_single_start by (assumption || apply (proj2 (Nat.lt_succ_r _ _)), joined_length).
  destruct (skip_blank_split ls) as (pre & E & Hpre & Hhd).
  destruct (skip_blank ls) as [|l r] eqn:Es.
  - exists []. split; [|reflexivity]. rewrite E. rewrite app_nil_r. clear - Hpre.
    induction Hpre; [constructor|]. constructor; [apply isblank_true; assumption|assumption].
  - assert (Hnl' : Forall (fun l => ~ In 10 l) r).
    { rewrite E in Hnl. apply Forall_app in Hnl. destruct Hnl as [_ Hnl]. inversion Hnl; assumption. }
    assert (Hs : (length (joined r) < length (joined ls))%nat) by (rewrite E; apply joined_shorter, isblank_nonempty, Hhd).
    destruct (IH r Hnl' ltac:(lia)) as (bs & Hbs & Hall). rewrite Hall.
    exists (l :: bs). split; [|reflexivity].
    assert (Hb : non_blank (l :: r) (l :: bs)).
    { apply nb_line; [intros Hb; apply isblank_true in Hb; congruence|exact Hbs]. }
    rewrite E. clear - Hpre Hb.
    induction Hpre; [exact Hb|]. cbn [app]. apply nb_blank; [apply isblank_true; assumption|assumption].
Qed.

(** every text has lines *)
Lemma split_char_joined : forall c s, c = 10 -> joined (split_char c s) = s.
Proof.
  intros c s ->. unfold split_char. induction s as [|x r IH]; [reflexivity|]. cbn [split_by].
  destruct (10 =? x) eqn:E.
  - apply N.eqb_eq in E. subst x. destruct (split_by (N.eqb 10) r) as [|t ts] eqn:Es.
    + destruct r; cbn in Es; [discriminate|]. destruct (10 =? n); [discriminate|]. destruct (split_by (N.eqb 10) r); discriminate.
    + change (joined ([] :: t :: ts)) with (10 :: joined (t :: ts)). rewrite IH. reflexivity.
  - destruct (split_by (N.eqb 10) r) as [|t ts] eqn:Es.
    + cbn in IH. subst r. reflexivity.
    + destruct ts as [|t2 ts].
      * cbn [joined] in *. rewrite IH. reflexivity.
      * change (joined ((x :: t) :: t2 :: ts)) with (x :: joined (t :: t2 :: ts)). rewrite IH. reflexivity.
Qed.
Lemma split_by_ne : forall p s, split_by p s <> [].
Proof. intros p s. destruct s as [|x r]; cbn; [discriminate|]. destruct (p x); [discriminate|]. destruct (split_by p r); discriminate. Qed.
Lemma split_by_free : forall p s, Forall (Forall (fun c => p c = false)) (split_by p s).
Proof.
  intros p s. induction s as [|x r IH]; cbn [split_by]; [repeat constructor|].
  destruct (p x) eqn:E; [constructor; [constructor|exact IH]|].
  destruct (split_by p r) as [|t ts]; [repeat constructor; exact E|].
  inversion IH; subst. constructor; [constructor; assumption|assumption].
Qed.
Lemma lines_exist : forall s, lines_are s (split_char 10 s).
Proof.
  intros s. split; [apply split_by_ne|]. split; [|symmetry; apply split_char_joined; reflexivity].
  eapply Forall_impl; [|apply split_by_free]. intros l Hl Hin. cbn in Hl. rewrite Forall_forall in Hl.
  specialize (Hl _ Hin). vm_compute in Hl. discriminate.
Qed.
(** and only one way to cut it *)
Lemma split_joined : forall ls, ls <> [] -> Forall (fun l => ~ In 10 l) ls -> split_char 10 (joined ls) = ls.
Proof.
  assert (Ha : forall l r, ~ In 10 l -> split_by (N.eqb 10) (l ++ 10 :: r) = l :: split_by (N.eqb 10) r).
  { induction l as [|c l IH]; intros r Hn; [reflexivity|]. cbn [app split_by].
    destruct (10 =? c) eqn:E; [apply N.eqb_eq in E; subst; destruct Hn; left; reflexivity|].
    rewrite IH by (intros Hx; apply Hn; right; exact Hx). reflexivity. }
  assert (Hb : forall l, ~ In 10 l -> split_by (N.eqb 10) l = [l]).
  { induction l as [|c l IH]; intros Hn; [reflexivity|]. cbn [split_by].
    destruct (10 =? c) eqn:E; [apply N.eqb_eq in E; subst; destruct Hn; left; reflexivity|].
    rewrite IH by (intros Hx; apply Hn; right; exact Hx). reflexivity. }
  induction ls as [|l [|l2 r] IH]; intros Hn Hf; [destruct Hn; reflexivity| |].
  - inversion Hf; subst. apply Hb. assumption.
  - inversion Hf; subst. change (joined (l :: l2 :: r)) with (l ++ 10 :: joined (l2 :: r)).
    unfold split_char in *. rewrite Ha by assumption. f_equal. apply IH; [discriminate|assumption].
Qed.

(** the lines the parser sees in a chunk are the trimmed lines *)
Lemma strip_cr_id : forall l, (l = [] \/ exists u c, l = u ++ [c] /\ is_ws c = false) -> strip_cr l = l.
Proof.
  intros l [->|(u & c & -> & Hc)]; [reflexivity|]. unfold strip_cr. rewrite rev_app_distr. cbn.
  destruct (c =? 13) eqn:E; [apply N.eqb_eq in E; subst c; discriminate|reflexivity].
Qed.
Lemma str_lines_joined : forall ts, ts <> [] ->
  Forall (fun l => ~ In 10 l) ts -> Forall (fun t => t <> [] /\ trim_end t = t) ts -> str_lines (joined ts) = ts.
Proof.
  intros ts Hn Hnl Ht. unfold str_lines. rewrite split_joined by assumption. clear Hn Hnl.
  induction Ht as [|t ts [H1 H2] Hr IH]; [reflexivity|].
  assert (Es : strip_cr t = t) by (apply strip_cr_id; rewrite <- H2; apply (trim_end_trimmed t)).
  destruct ts as [|t2 ts]; [destruct t; [destruct H1|]; reflexivity|].
  cbn [lines_of_pieces] in *. rewrite Es. f_equal. exact IH.
Qed.

Lemma blocks_nl : forall ls bs, blocks ls bs -> Forall (fun l => ~ In 10 l) ls ->
  Forall (fun b => b <> [] /\ Forall (fun l => ~ In 10 l /\ ~ blank l) b) bs.
Proof.
  induction 1 as [|l ls bs Hb Hbs IH|run ls bs Hne Hnb Hnext Hbs IH]; intros Hn.
  - constructor.
  - inversion Hn; subst. apply IH. assumption.
  - apply Forall_app in Hn. destruct Hn as [H1 H2]. constructor; [|apply IH; exact H2]. split; [exact Hne|].
    rewrite Forall_forall in *. intros x Hx. split; [apply H1|apply Hnb]; exact Hx.
Qed.

Lemma chunks_multi_spec : forall text, exists ls bs cs,
  lines_are text ls /\ blocks ls bs /\ all_chunks (S (length text)) true text = Some cs /\ Forall2 chunk_of bs cs.
Proof.
  intros text. destruct (lines_exist text) as (Hn & Hnl & E).
  set (ls := split_char 10 text) in *.
  destruct (chunks_multi (S (length text)) ls Hnl) as (bs & Hb & Hall); [rewrite <- E; lia|].
  exists ls, bs, (map (fun b => joined (map trim_end b)) bs).
  split; [split; [exact Hn|split; [exact Hnl|exact E]]|]. split; [exact Hb|]. split; [rewrite E at 2; exact Hall|].
  pose proof (blocks_nl _ _ Hb Hnl) as Hbn. clear - Hbn. induction Hbn as [|b bs [Hb1 Hb2] _ IH]; [constructor|].
  cbn [map]. constructor; [|exact IH]. exists (map trim_end b). split; [|split; [reflexivity|]].
  - clear. induction b; constructor; [apply trim_end_trimmed|assumption].
  - apply str_lines_joined.
    + destruct b; [destruct Hb1; reflexivity|discriminate].
    + rewrite Forall_map. eapply Forall_impl; [|exact Hb2]. intros l [Hl _] Hin. apply Hl. apply trim_end_In. exact Hin.
    + rewrite Forall_map. eapply Forall_impl; [|exact Hb2]. intros l [_ Hl]. split; [|apply trim_end_idem].
      intros E. apply Hl. apply trim_end_blank. exact E.
Qed.
Lemma chunks_single_spec : forall text, exists ls bs cs,
  lines_are text ls /\ non_blank ls bs /\ all_chunks (S (length text)) false text = Some cs /\ Forall2 trimmed bs cs.
Proof.
  intros text. destruct (lines_exist text) as (Hn & Hnl & E).
  set (ls := split_char 10 text) in *.
  destruct (chunks_single (S (length text)) ls Hnl) as (bs & Hb & Hall); [rewrite <- E; lia|].
  exists ls, bs, (map trim_end bs).
  split; [split; [exact Hn|split; [exact Hnl|exact E]]|]. split; [exact Hb|]. split; [rewrite E at 2; exact Hall|].
  clear. induction bs; constructor; [apply trim_end_trimmed|assumption].
Qed.
(** the lines of a text, the runs and the trimmed form of a line are unique *)
Lemma lines_unique : forall text ls1 ls2, lines_are text ls1 -> lines_are text ls2 -> ls1 = ls2.
Proof.
  intros text ls1 ls2 (A1 & A2 & A3) (B1 & B2 & B3). rewrite <- (split_joined ls1) by assumption.
  rewrite <- (split_joined ls2) by assumption. congruence.
Qed.
Lemma app_run_inv : forall (r1 r2 l1 l2 : list str),
  Forall (fun l => ~ blank l) r1 -> Forall (fun l => ~ blank l) r2 ->
  (l1 = [] \/ exists l r, l1 = l :: r /\ blank l) -> (l2 = [] \/ exists l r, l2 = l :: r /\ blank l) ->
  r1 ++ l1 = r2 ++ l2 -> r1 = r2 /\ l1 = l2.
Proof.
  induction r1 as [|a r1 IH]; intros r2 l1 l2 F1 F2 H1 H2 E; destruct r2 as [|b r2]; cbn [app] in E.
  - auto.
  - subst l1. destruct H1 as [H1|(l & r & H1 & Hb)]; [discriminate|]. inversion H1; subst. inversion F2; subst. contradiction.
  - subst l2. destruct H2 as [H2|(l & r & H2 & Hb)]; [discriminate|]. inversion H2; subst. inversion F1; subst. contradiction.
  - inversion E; subst. inversion F1; subst. inversion F2; subst. destruct (IH r2 l1 l2) as [-> ->]; auto.
Qed.
Lemma blocks_unique : forall ls bs1, blocks ls bs1 -> forall bs2, blocks ls bs2 -> bs1 = bs2.
Proof.
  induction 1 as [|l ls bs Hb Hbs IH|run ls bs Hne Hnb Hnext Hbs IH]; intros bs2 H2.
  - remember (@nil str) as l0 eqn:El in H2. destruct H2 as [| |run ls bs Hne Hnb Hnext Hbs]; [reflexivity|discriminate|].
    apply app_eq_nil in El. destruct El as [El _]. destruct (Hne El).
  - inversion H2 as [|l' ls' bs' Hb' Hbs'|run ls' bs' Hne Hnb Hnext Hbs' E]; subst.
    + apply IH. assumption.
    + destruct run as [|x run]; [destruct Hne; reflexivity|]. inversion E; subst. inversion Hnb; subst. contradiction.
  - inversion H2 as [E|l' ls' bs' Hb' Hbs' E|run' ls' bs' Hne' Hnb' Hnext' Hbs' E]; subst.
    + symmetry in E. apply app_eq_nil in E. destruct E as [E _]. destruct (Hne E).
    + destruct run as [|x run]; [destruct Hne; reflexivity|]. inversion E; subst. inversion Hnb; subst. contradiction.
    + destruct (app_run_inv run' run ls' ls) as [-> ->]; try assumption. f_equal. apply IH. assumption.
Qed.
Lemma non_blank_unique : forall ls bs1, non_blank ls bs1 -> forall bs2, non_blank ls bs2 -> bs1 = bs2.
Proof.
  induction 1; intros bs2 H2; inversion H2; subst; try contradiction; try reflexivity.
  - apply IHnon_blank. assumption.
  - f_equal. apply IHnon_blank. assumption.
Qed.
Lemma trimmed_unique : forall l t1 t2, trimmed l t1 -> trimmed l t2 -> t1 = t2.
Proof.
  assert (Hx : forall l t, trimmed l t -> t = trim_end l).
  { intros l t [(w & Hw & ->) Hl]. rewrite trim_end_app. apply trim_end_blank in Hw. rewrite Hw. symmetry. apply trim_end_id. exact Hl. }
  intros l t1 t2 H1 H2. rewrite (Hx _ _ H1), (Hx _ _ H2). reflexivity.
Qed.

Lemma chunks_multi_all : forall text,
  (exists ls bs, lines_are text ls /\ blocks ls bs) /\
  forall ls bs, lines_are text ls -> blocks ls bs ->
  exists cs, all_chunks (S (length text)) true text = Some cs /\ Forall2 chunk_of bs cs.
Proof.
  intros text. destruct (chunks_multi_spec text) as (ls0 & bs0 & cs & H1 & H2 & H3 & H4). split; [exists ls0, bs0; auto|].
  intros ls bs K1 K2. exists cs. split; [exact H3|].
  rewrite (lines_unique _ _ _ K1 H1) in K2. rewrite (blocks_unique _ _ K2 _ H2). exact H4.
Qed.
Lemma chunks_single_all : forall text,
  (exists ls bs, lines_are text ls /\ non_blank ls bs) /\
  forall ls bs, lines_are text ls -> non_blank ls bs ->
  exists cs, all_chunks (S (length text)) false text = Some cs /\ Forall2 trimmed bs cs.
Proof.
  intros text. destruct (chunks_single_spec text) as (ls0 & bs0 & cs & H1 & H2 & H3 & H4). split; [exists ls0, bs0; auto|].
  intros ls bs K1 K2. exists cs. split; [exact H3|].
  rewrite (lines_unique _ _ _ K1 H1) in K2. rewrite (non_blank_unique _ _ K2 _ H2). exact H4.
Qed.

(** Proofs about the pipeline of threads, for any parser and learner. *)
From Coq Require Import List Bool PeanoNat Compare_dec Lia Wf_nat.
From Verif Require Import Base Model_Pipeline.
Import ListNotations.
Open Scope nat_scope.

(** ** lists *)
Lemma in_upd : forall A k (x y : A) l, In y (upd k x l) -> y = x \/ In y l.
Proof.
  induction k as [|k IH]; intros x y [|a l]; simpl; auto; intros [Q|Q]; auto.
  apply IH in Q. tauto.
Qed.
Lemma in_upd_keep : forall A k (x y a : A) l, nth_error l k = Some a -> In y l -> y <> a -> In y (upd k x l).
Proof.
  induction k as [|k IH]; intros x y a [|b l]; simpl; try discriminate; intros E I N.
  - inversion E; subst. destruct I; [congruence|auto].
  - destruct I as [I|I]; auto. right. eapply IH; eauto.
Qed.
Lemma in_upd_new : forall A k (x a : A) l, nth_error l k = Some a -> In x (upd k x l).
Proof. induction k as [|k IH]; intros x a [|b l]; simpl; try discriminate; eauto. Qed.
Lemma nth_upd_inv : forall A k j (x y : A) l, nth_error (upd k x l) j = Some y -> (j = k /\ y = x) \/ (j <> k /\ nth_error l j = Some y).
Proof.
  intros A k j x y l E. destruct (Nat.eq_dec j k) as [->|N].
  - left. split; auto. assert (L : k < length l).
    { rewrite <- (upd_length A k x). apply nth_error_Some. congruence. }
    rewrite nth_error_upd_eq in E by auto. congruence.
  - right. split; auto. now rewrite nth_error_upd_ne in E by auto.
Qed.
Lemma nth_lt : forall A (l : list A) k x, nth_error l k = Some x -> k < length l.
Proof. intros. apply nth_error_Some. congruence. Qed.
Lemma firstn_S : forall A k (l : list A) c, nth_error l k = Some c -> firstn (S k) l = firstn k l ++ [c].
Proof. induction k as [|k IH]; intros [|a l] c; simpl; try discriminate; intros E; [congruence|]. now rewrite <- IH. Qed.
Lemma skipn_cons : forall A k (l : list A) c u, c :: u = skipn k l -> nth_error l k = Some c /\ u = skipn (S k) l /\ k < length l.
Proof.
  induction k as [|k IH]; intros [|a l] c u E; simpl in *; try discriminate.
  - inversion E; subst. repeat split; auto. lia.
  - apply IH in E. destruct E as (A1 & A2 & A3). repeat split; auto. lia.
Qed.
Lemma seq_cons_inv : forall i l a n, i :: l = seq a n -> i = a /\ exists m, n = S m /\ l = seq (S a) m.
Proof. intros i l a [|n] E; simpl in E; [discriminate|]. inversion E; subst. eauto. Qed.

Section P.
Context (C Obj T St : Type).
Context (fresh : Obj) (need : C -> nat) (parse : list Obj -> C -> out T) (proc : St -> T -> out (St * list Obj))
  (q : nat) (rd_ok : bool).
Context (new : Obj -> Prop) (tsim : T -> T -> Prop).
Context (Hfresh : new fresh).
Context (Hparse : forall ds es c, Forall new ds -> Forall new es -> orel tsim (parse ds c) (parse es c)).
Context (Hproc : forall s t t', tsim t t' -> orel (fun u v => fst u = fst v /\ Forall new (snd u)) (proc s t) (proc s t')).
Context (chunks : list C) (s0 : St).

Notation pst := (pipe C Obj T St).
Notation stp := (step fresh need parse proc q rd_ok).
Notation stps := (steps fresh need parse proc q rd_ok).

(** one chunk after the other, with new objects *)
Definition seq_step (s : St) (c : C) : out St :=
  let* t := unwrap_res (parse [] c) in let* y := proc s t in Ok (fst y).
Definition ran (k : nat) (s : St) : Prop := foldm seq_step (firstn k chunks) s0 = Ok s.

Lemma ran_0 : ran 0 s0.
Proof. reflexivity. Qed.
Lemma ran_S : forall k s c s', ran k s -> nth_error chunks k = Some c -> seq_step s c = Ok s' -> ran (S k) s'.
Proof.
  intros k s c s' R E Q. unfold ran in *. rewrite (firstn_S _ _ _ _ E), foldm_app, R. cbn [bind foldm]. now rewrite Q.
Qed.

(** ** invariant *)
Definition sp (inp : iphase) (nr : nat) : nat := match inp with ISendP _ => pred nr | _ => nr end.
Definition sl (inp : iphase) (nr : nat) : nat := match inp with ISendP _ | ISendL _ => pred nr | _ => nr end.
Definition sentp (p : pst) : nat := sp (pi_inp p) (length (pi_cells p)).
Definition sentl (p : pst) : nat := sl (pi_inp p) (length (pi_cells p)).
Definition gotp (p : pst) : nat := sentp p - length (pi_pq p).
Definition gotl (p : pst) : nat := sentl p - length (pi_lq p).
Definition taken (p : pst) : nat := match pi_learner p with LAwait i => i | _ => gotl p end.

Definition inp_ok (inp : iphase) (u : list C) (nr : nat) : Prop :=
  match inp with
  | IRead => True
  | ISendP i | ISendL i => S i = nr
  | IDone => u = [] /\ rd_ok = true
  | IDead => u = [] /\ rd_ok = false
  end.
Definition learner_ok (inp : iphase) (gl : nat) (lq : list nat) (s : St) (l : lphase Obj T) : Prop :=
  match l with
  | LWait => ran gl s
  | LGive objs => ran gl s /\ Forall new objs
  | LExit => ran gl s /\ closed inp /\ lq = []
  | LAwait i => S i = gl /\ ran i s
  | LGot t => exists k c, S k = gl /\ ran k s /\ nth_error chunks k = Some c /\ orel tsim (Ok t) (parse [] c)
  | LDead => exists k c, S k = gl /\ ran k s /\ nth_error chunks k = Some c /\ is_ok (seq_step s c) = false /\ is_pn (parse [] c) = false
  end.
Definition cell_ok (gp tk : nat) (ps : list (pphase C Obj)) (j : nat) (c : C) (x : cell C T) : Prop :=
  (x = mkCell false None (Some c) /\ (gp <= j \/ In (PGot j) ps) /\ tk <= j) \/
  (x = mkCell false None None /\ ((exists objs, In (PWork j c objs) ps) \/ In (PDead j) ps) /\ tk <= j) \/
  (exists r, x = mkCell true (Some r) None /\ orel tsim r (parse [] c) /\ is_pn r = false /\ tk <= j /\ j < gp) \/
  (x = mkCell true None None /\ j < tk /\ j < gp).
Definition par_ok (gp : nat) (cs : list (cell C T)) (fin : Prop) (p : pphase C Obj) : Prop :=
  match p with
  | PWait => True
  | PGot j => j < gp /\ exists c, nth_error chunks j = Some c /\ nth_error cs j = Some (mkCell false None (Some c))
  | PWork j c objs => j < gp /\ nth_error chunks j = Some c /\ nth_error cs j = Some (mkCell false None None) /\ Forall new objs /\ length objs <= need c
  | PDead j => j < gp /\ exists c, nth_error chunks j = Some c /\ nth_error cs j = Some (mkCell false None None) /\ is_pn (parse [] c) = true
  | PExit => fin
  end.
Definition holds (p : pphase C Obj) : option nat :=
  match p with PGot j | PWork j _ _ | PDead j => Some j | _ => None end.

Record inv (p : pst) : Prop := {
  v_unread : pi_unread p = skipn (length (pi_cells p)) chunks;
  v_len : length (pi_cells p) <= length chunks;
  v_inp : inp_ok (pi_inp p) (pi_unread p) (length (pi_cells p));
  v_pq : pi_pq p = seq (gotp p) (length (pi_pq p));
  v_pql : length (pi_pq p) <= sentp p;
  v_pqq : length (pi_pq p) <= q;
  v_lq : pi_lq p = seq (gotl p) (length (pi_lq p));
  v_lql : length (pi_lq p) <= sentl p;
  v_lqq : length (pi_lq p) <= q;
  v_learner : learner_ok (pi_inp p) (gotl p) (pi_lq p) (pi_st p) (pi_learner p);
  v_pool : Forall new (pi_pool p);
  v_cell : forall j x c, nth_error (pi_cells p) j = Some x -> nth_error chunks j = Some c ->
    cell_ok (gotp p) (taken p) (pi_par p) j c x;
  v_par : forall k x, nth_error (pi_par p) k = Some x ->
    par_ok (gotp p) (pi_cells p) (closed (pi_inp p) /\ pi_pq p = []) x;
  v_one : forall k k' x x' j, nth_error (pi_par p) k = Some x -> nth_error (pi_par p) k' = Some x' ->
    holds x = Some j -> holds x' = Some j -> k = k'
}.

Lemma inv_init : forall n pool, Forall new pool -> inv (pipe_init n pool s0 chunks).
Proof.
  intros n pool F.
  assert (W : forall k x, nth_error (repeat (@PWait C Obj) n) k = Some x -> x = PWait).
  { intros k x E. apply nth_error_In, repeat_spec in E. auto. }
  constructor; simpl; auto; try lia.
  - reflexivity.
  - intros [|j]; discriminate.
  - intros k x E. apply W in E; subst. exact I.
  - intros k k' x x' j E E' Q. apply W in E; subst. discriminate.
Qed.

(** changing one parser *)
Lemma one_upd : forall (ps : list (pphase C Obj)) k a b,
  (forall k k' x x' j, nth_error ps k = Some x -> nth_error ps k' = Some x' -> holds x = Some j -> holds x' = Some j -> k = k') ->
  nth_error ps k = Some a ->
  (forall j, holds b = Some j -> holds a = Some j \/ (forall k' x', nth_error ps k' = Some x' -> holds x' <> Some j)) ->
  (forall k1 k2 x x' j, nth_error (upd k b ps) k1 = Some x -> nth_error (upd k b ps) k2 = Some x' -> holds x = Some j -> holds x' = Some j -> k1 = k2).
Proof.
  intros ps k a b ON E Hb k1 k2 x x' j E1 E2 Q1 Q2.
  apply nth_upd_inv in E1, E2. destruct E1 as [(-> & ->)|(N1 & E1)], E2 as [(-> & ->)|(N2 & E2)]; auto.
  - destruct (Hb _ Q1) as [Ha|Hn]; [eapply ON; eauto|exfalso; eapply Hn; eauto].
  - destruct (Hb _ Q2) as [Ha|Hn]; [eapply ON; eauto|exfalso; eapply Hn; eauto].
  - eapply ON; eauto.
Qed.

Ltac ucells := unfold taken, gotp, gotl, sentp, sentl in *; cbn [pi_unread pi_cells pi_inp pi_pq pi_lq pi_par pi_learner pi_pool pi_st] in *.

Lemma par_ok_mono : forall gp gp' cs (fin fin' : Prop) x, gp <= gp' -> (fin -> fin') -> par_ok gp cs fin x -> par_ok gp' cs fin' x.
Proof.
  intros gp gp' cs fin fin' [|j|j c o| |j] L F; simpl; auto.
  - intros (A & B). split; auto. lia.
  - intros (A & B). split; auto. lia.
  - intros (A & B). split; auto. lia.
Qed.
(** a cell that a parser holds is changed by that parser only *)
Lemma par_ok_cell : forall gp cs fin k i y ps a x,
  (forall k k' x x' j, nth_error ps k = Some x -> nth_error ps k' = Some x' -> holds x = Some j -> holds x' = Some j -> k = k') ->
  nth_error ps k = Some a -> holds a = Some i ->
  forall k', k' <> k -> nth_error ps k' = Some x -> par_ok gp cs fin x -> par_ok gp (upd i y cs) fin x.
Proof.
  intros gp cs fin k i y ps a x ON E Ha k' N E' P.
  assert (Q : forall j, holds x = Some j -> i <> j) by (intros j Hj ->; apply N; eapply ON; eauto).
  destruct x as [|j|j c o| |j]; simpl in *; auto.
  - destruct P as (A & c & B & D). split; auto. exists c. split; auto. rewrite nth_error_upd_ne; auto.
  - destruct P as (A & B & D & F & G). repeat split; auto. rewrite nth_error_upd_ne; auto.
  - destruct P as (A & c & B & D & F). split; auto. exists c. repeat split; auto. rewrite nth_error_upd_ne; auto.
Qed.

Lemma cell_ok_par : forall gp tk ps k a b j c x, nth_error ps k = Some a -> holds a <> Some j ->
  cell_ok gp tk ps j c x -> cell_ok gp tk (upd k b ps) j c x.
Proof.
  intros gp tk ps k a b j c x E Ha Q. unfold cell_ok in *.
  assert (K : forall y, In y ps -> holds y = Some j -> In y (upd k b ps)).
  { intros y Y Hy. eapply in_upd_keep; eauto. congruence. }
  destruct Q as [(A & B & D)|[(A & B & D)|Q]]; [| |right; right; exact Q].
  - left. split; [exact A|]. split; [|exact D]. destruct B as [B|B]; [now left|]. right. apply K; auto.
  - right. left. split; [exact A|]. split; [|exact D]. destruct B as [(o & B)|B]; [left; exists o; apply K; auto|right; apply K; auto].
Qed.

Lemma fresh_cell : forall gp cs fin ps i, (forall k x, nth_error ps k = Some x -> par_ok gp cs fin x) -> gp <= i ->
  forall k (x : pphase C Obj), nth_error ps k = Some x -> holds x <> Some i.
Proof.
  intros gp cs fin ps i V L k x E. apply V in E. intros Hx. destruct x; simpl in *; inversion Hx; subst; destruct E; lia.
Qed.


(** the cell of the chunk a parser is given *)
Lemma next_cell : forall gp tk cs fin (ps : list (pphase C Obj)) i,
  (forall k x, nth_error ps k = Some x -> par_ok gp cs fin x) ->
  (forall j x c, nth_error cs j = Some x -> nth_error chunks j = Some c -> cell_ok gp tk ps j c x) ->
  gp <= i -> i < length cs -> length cs <= length chunks ->
  exists c, nth_error chunks i = Some c /\ nth_error cs i = Some (mkCell false None (Some c)).
Proof.
  intros gp tk cs fin ps i VR VC G L1 L2.
  destruct (nth_error chunks i) as [c|] eqn:Ec; [|apply nth_error_None in Ec; lia].
  destruct (nth_error cs i) as [x|] eqn:Ex; [|apply nth_error_None in Ex; lia].
  exists c. split; auto. f_equal. destruct (VC i x c Ex Ec) as [(A & B & D)|[(A & B & D)|[(r & A & B)|(A & B)]]]; auto.
  - exfalso. destruct B as [(objs & B)|B]; apply In_nth_error in B; destruct B as (k' & B); apply VR in B; simpl in B; destruct B; lia.
  - exfalso. destruct B as (B1 & B2 & B3 & B4). lia.
  - exfalso. lia.
Qed.

Lemma unready : forall gp tk ps j c x, c_ready x = false -> cell_ok gp tk ps j c x -> tk <= j.
Proof.
  intros gp tk ps j c x E [(A & B & D)|[(A & B & D)|[(r & A & B)|(A & B)]]]; subst; auto; discriminate.
Qed.

(** a parser that waits gets the next chunk *)
Lemma give_cell : forall gp tk ps k j c x, nth_error ps k = Some PWait ->
  cell_ok gp tk ps j c x -> cell_ok (S gp) tk (upd k (PGot gp) ps) j c x.
Proof.
  intros gp tk ps k j c x E Q. apply (cell_ok_par _ _ _ _ _ (PGot gp) _ _ _ E) in Q; [|discriminate].
  destruct Q as [(A & B & D)|[Q|[(r & A & B & D & F & G)|(A & B & D)]]].
  - left. split; [exact A|]. split; [|exact D]. destruct B as [B|B]; [|now right].
    destruct (Nat.eq_dec j gp) as [->|N]; [right; eapply in_upd_new; eauto|left; lia].
  - right; left; exact Q.
  - right; right; left. exists r. repeat split; auto.
  - right; right; right. repeat split; auto.
Qed.
Lemma give_par : forall gp tk cs (fin fin' : Prop) (ps : list (pphase C Obj)) k, (fin -> fin') ->
  nth_error ps k = Some PWait ->
  (forall k x, nth_error ps k = Some x -> par_ok gp cs fin x) ->
  (forall j x c, nth_error cs j = Some x -> nth_error chunks j = Some c -> cell_ok gp tk ps j c x) ->
  gp < length cs -> length cs <= length chunks ->
  forall k' x, nth_error (upd k (PGot gp) ps) k' = Some x -> par_ok (S gp) cs fin' x.
Proof.
  intros gp tk cs fin fin' ps k F E VR VC L1 L2 k' x E'. apply nth_upd_inv in E'. destruct E' as [(-> & ->)|(N & E')].
  - simpl. split; [lia|]. eapply next_cell; eauto.
  - eapply par_ok_mono; [| |apply (VR _ _ E')]; [lia|auto].
Qed.

Lemma learner_open : forall inp inp' gl lq lq' s l, ~ closed inp -> learner_ok inp gl lq s l -> learner_ok inp' gl lq' s l.
Proof. intros inp inp' gl lq lq' s [| | | | |] N; simpl; auto. tauto. Qed.

Lemma step_inv : forall p p', inv p -> stp p p' -> inv p'.
Proof.
  intros p p' I ST. destruct ST; destruct I as [V1 V2 V3 V4 V5 V6 V7 V8 V9 VL VP VC VR VO]; ucells.
  - (* read *)
    apply skipn_cons in V1. destruct V1 as (Ec & Eu & Lc).
    constructor; ucells; rewrite ?app_length; simpl; try rewrite Nat.add_1_r; simpl in *; auto.
    + eapply learner_open; [|exact VL]. intros [A|A]; discriminate.
    + intros j x c' E Ec'. destruct (Nat.eq_dec j (length cs)) as [->|N].
      * rewrite nth_error_app2, Nat.sub_diag in E by lia. simpl in E. inversion E; subst. left.
        rewrite Ec in Ec'. inversion Ec'; subst. split; [reflexivity|]. split; [left; lia|]. destruct l; simpl in VL |- *; lia.
      * assert (Lj : j < length (cs ++ [mkCell false None (Some c)])) by (apply nth_error_Some; congruence).
        rewrite app_length in Lj. simpl in Lj. rewrite nth_error_app1 in E by lia. apply VC; auto.
    + intros k x E. specialize (VR k x E).
      assert (K : forall j y, nth_error cs j = Some y -> nth_error (cs ++ [mkCell false None (Some c)]) j = Some y).
      { intros j y Ej. rewrite nth_error_app1; auto. eapply nth_lt; eauto. }
      destruct x as [|j|j d objs| |j]; simpl in *; auto.
      * destruct VR as (A & d & B & D). split; auto. exists d. auto.
      * destruct VR as (A & B & D & F). auto.
      * destruct VR as ([A|A] & B); discriminate.
      * destruct VR as (A & d & B & D & F). split; auto. exists d. auto.
  - (* end of the data *)
    destruct rd_ok eqn:RD; (constructor; ucells; simpl in *; rewrite ?RD; auto;
      [eapply learner_open; [|exact VL]; intros [A|A]; discriminate
      |intros k x E; specialize (VR k x E); destruct x; simpl in *; auto; destruct VR as ([A|A] & B); discriminate]).
  - (* send to the parsers *)
    assert (L : length cs = S i) by (symmetry; exact V3). simpl sp in *; simpl sl in *. rewrite L in *. simpl pred in *.
    assert (G : S i - length (pq ++ [i]) = i - length pq) by (rewrite app_length; cbn [length]; lia).
    constructor; ucells; simpl sp; simpl sl; rewrite ?L, ?G; simpl pred; auto; try (rewrite app_length; cbn [length]; lia).
    + rewrite app_length. cbn [length]. rewrite V4 at 1. rewrite Nat.add_1_r, seq_S. f_equal. f_equal. lia.
    + eapply learner_open; [|exact VL]. intros [A|A]; discriminate.
    + intros k x E. specialize (VR k x E). destruct x; simpl in *; auto. destruct VR as ([A|A] & B); discriminate.
  - (* handed to a parser *)
    assert (L : length cs = S i) by (symmetry; exact V3). simpl sp in *; simpl sl in *. rewrite L in *. simpl pred in *.
    simpl length in *. rewrite Nat.sub_0_r in *.
    constructor; ucells; simpl sp; simpl sl; rewrite ?L; simpl pred; simpl length; rewrite ?Nat.sub_0_r; auto; try lia.
    + eapply learner_open; [|exact VL]. intros [A|A]; discriminate.
    + intros j x c E Ec. apply give_cell; auto.
    + refine (give_par _ _ _ _ _ _ _ _ H VR VC _ _); [intros ([A|A] & B); discriminate|lia|lia].
    + eapply one_upd; eauto. intros j Hj. inversion Hj; subst j. right. eapply fresh_cell; eauto.
  - (* send to the learner *)
    assert (L : length cs = S i) by (symmetry; exact V3). simpl sp in *; simpl sl in *. rewrite L in *. simpl pred in *.
    assert (G : S i - length (lq ++ [i]) = i - length lq) by (rewrite app_length; cbn [length]; lia).
    constructor; ucells; simpl sp; simpl sl; rewrite ?L, ?G; simpl pred; auto; try (rewrite app_length; cbn [length]; lia).
    + exact I.
    + rewrite app_length. cbn [length]. rewrite V7 at 1. rewrite Nat.add_1_r, seq_S. f_equal. f_equal. lia.
    + eapply learner_open; [|exact VL]. intros [A|A]; discriminate.
    + intros k x E. specialize (VR k x E). destruct x; simpl in *; auto. destruct VR as ([A|A] & B); discriminate.
  - (* handed to the learner *)
    assert (L : length cs = S i) by (symmetry; exact V3). simpl sp in *; simpl sl in *. rewrite L in *. simpl pred in *.
    simpl length in *. rewrite Nat.sub_0_r in *.
    constructor; ucells; simpl sp; simpl sl; rewrite ?L; simpl pred; simpl length; rewrite ?Nat.sub_0_r; auto; try lia.
    + exact I.
    + split; auto.
    + intros k x E. specialize (VR k x E). destruct x; simpl in *; auto. destruct VR as ([A|A] & B); discriminate.
  - (* received by a parser *)
    simpl length in *. apply seq_cons_inv in V4. destruct V4 as (-> & m & Em & V4). inversion Em; subst m. clear Em.
    set (g := sp inp (length cs) - S (length pq)) in *.
    assert (G : sp inp (length cs) - length pq = S g) by (subst g; lia).
    assert (Lg : g < length cs) by (subst g; destruct inp; simpl in *; lia).
    constructor; ucells; rewrite ?G; auto; try lia.
    + intros j x c E Ec. apply give_cell; auto.
    + refine (give_par _ _ _ _ _ _ _ _ H VR VC Lg V2). intros (A & B); discriminate.
    + eapply one_upd; eauto. intros j Hj. inversion Hj; subst j. right. eapply fresh_cell; eauto.
  - (* input taken *)
    pose proof (VR _ _ H) as (Lg & c' & Ec & Ecell). rewrite Ecell in H0. inversion H0; subst r c'. clear H0.
    constructor; ucells; rewrite ?upd_length; auto.
    + intros j x d E Ed. apply nth_upd_inv in E. destruct E as [(-> & ->)|(N & E)].
      * right; left. split; [reflexivity|]. split; [left; rewrite Ec in Ed; inversion Ed; subst; exists []; eapply in_upd_new; eauto|].
        (eapply unready; [|apply VC; eauto]; reflexivity).
      * eapply cell_ok_par; eauto. simpl. congruence.
    + intros k' x E. apply nth_upd_inv in E. destruct E as [(-> & ->)|(N & E)].
      * simpl. repeat split; auto; [|lia]. apply nth_error_upd_eq. eapply nth_lt; eauto.
      * refine (par_ok_cell _ _ _ _ _ _ _ _ _ VO H _ k' N E (VR _ _ E)). reflexivity.
    + eapply one_upd; eauto.
  - (* cannot happen *)
    exfalso. pose proof (VR _ _ H) as (Lg & c' & Ec & Ecell). rewrite Ecell in H0. inversion H0; subst x.
    simpl in H1. destruct H1; discriminate.
  - (* object taken *)
    pose proof (VR _ _ H) as (Lg & Ec & Ecell & Fo & Ln).
    assert (N1 : new (fst (Model_Train.pool_get fresh o)) /\ Forall new (snd (Model_Train.pool_get fresh o))).
    { destruct o as [|x o]; simpl; auto. inversion VP; auto. }
    constructor; ucells; auto.
    + apply N1.
    + intros j x d E Ed. destruct (Nat.eq_dec j i) as [->|N].
      * rewrite Ecell in E. inversion E; subst x. rewrite Ec in Ed. inversion Ed; subst d.
        right; left. split; [reflexivity|]. split; [left; eexists; eapply in_upd_new; eauto|]. (eapply unready; [|apply VC; eauto]; reflexivity).
      * eapply cell_ok_par; eauto. simpl. congruence.
    + intros k' x E. apply nth_upd_inv in E. destruct E as [(-> & ->)|(N & E)]; [|exact (VR _ _ E)].
      simpl. split; [exact Lg|]. split; [exact Ec|]. split; [exact Ecell|].
      rewrite app_length. simpl length. split; [|lia]. apply Forall_app. split; [exact Fo|]. constructor; [apply N1|constructor].
    + eapply one_upd; eauto.
  - (* result set *)
    pose proof (VR _ _ H) as (Lg & Ec & Ecell & Fo & Ln). rewrite Ecell in H3. inversion H3; subst r. clear H3. simpl.
    constructor; ucells; rewrite ?upd_length; auto.
    + intros j y d E Ed. apply nth_upd_inv in E. destruct E as [(-> & ->)|(N & E)].
      * rewrite Ec in Ed. inversion Ed; subst d. right; right; left. exists x. repeat split; auto.
        -- subst x. apply Hparse; auto.
        -- (eapply unready; [|apply VC; eauto]; reflexivity).
      * eapply cell_ok_par; eauto. simpl. congruence.
    + intros k' y E. apply nth_upd_inv in E. destruct E as [(-> & ->)|(N & E)].
      * exact Logic.I.
      * refine (par_ok_cell _ _ _ _ _ _ _ _ _ VO H _ k' N E (VR _ _ E)). reflexivity.
    + eapply one_upd; eauto; discriminate.
  - (* cannot happen *)
    exfalso. pose proof (VR _ _ H) as (Lg & Ec & Ecell & Fo & Ln). rewrite Ecell in H1. inversion H1; subst r. discriminate.
  - (* the parse panics *)
    pose proof (VR _ _ H) as (Lg & Ec & Ecell & Fo & Ln).
    assert (Q : is_pn (parse [] c) = true).
    { pose proof (Hparse objs [] c Fo (Forall_nil _)) as Q. destruct (parse objs c); try discriminate. inversion Q; reflexivity. }
    constructor; ucells; auto.
    + intros j x d E Ed. destruct (Nat.eq_dec j i) as [->|N].
      * rewrite Ecell in E. inversion E; subst x.
        right; left. split; [reflexivity|]. split; [right; eapply in_upd_new; eauto|]. eapply unready; [|apply VC; eauto]; reflexivity.
      * eapply cell_ok_par; eauto. simpl. congruence.
    + intros k' x E. apply nth_upd_inv in E. destruct E as [(-> & ->)|(N & E)]; [|exact (VR _ _ E)].
      simpl. split; [exact Lg|]. exists c. auto.
    + eapply one_upd; eauto.
  - (* a parser leaves *)
    constructor; ucells; auto.
    + intros j x d E Ed. eapply cell_ok_par; eauto. discriminate.
    + intros k' x E. apply nth_upd_inv in E. destruct E as [(-> & ->)|(N & E)]; [simpl; auto|exact (VR _ _ E)].
    + eapply one_upd; eauto; discriminate.
  - (* the learner gets the next cell *)
    simpl length in *. apply seq_cons_inv in V7. destruct V7 as (-> & m & Em & V7). inversion Em; subst m. clear Em.
    set (g := sl inp (length cs) - S (length lq)) in *.
    assert (G : sl inp (length cs) - length lq = S g) by (subst g; lia).
    constructor; ucells; rewrite ?G; auto; try lia. exact (conj eq_refl VL).
  - (* the learner gets the example *)
    destruct VL as (Gl & R).
    assert (Li : i < length cs) by (eapply nth_lt; eauto).
    destruct (nth_error chunks i) as [c|] eqn:Ec; [|apply nth_error_None in Ec; lia].
    pose proof (VC _ _ _ H Ec) as [(A & B & D)|[(A & B & D)|[(r & A & B & D & F & G)|(A & B)]]]; try discriminate.
    inversion A; subst r inpt. clear A.
    assert (NH : forall k x, nth_error ps k = Some x -> holds x <> Some i).
    { intros k x E Hx. apply VR in E. destruct x; simpl in *; inversion Hx; subst.
      - destruct E as (_ & c' & _ & E). congruence.
      - destruct E as (_ & _ & E & _). congruence.
      - destruct E as (_ & c' & _ & E & _). congruence. }
    constructor; ucells; rewrite ?upd_length; auto.
    + exists i, c. auto.
    + intros j x d E Ed. apply nth_upd_inv in E. destruct E as [(-> & ->)|(N & E)].
      * right; right; right. split; [reflexivity|]. lia.
      * rewrite <- Gl. destruct (VC j x d E Ed) as [(A & B' & D')|[(A & B' & D')|[(r & A & B' & D' & F' & G')|(A & B')]]].
        -- left. repeat split; auto. lia.
        -- right; left. repeat split; auto. lia.
        -- right; right; left. exists r. repeat split; auto. lia.
        -- right; right; right. split; [auto|lia].
    + intros k x E. specialize (VR k x E). specialize (NH k x E).
      destruct x as [|j|j c' o'| |j]; simpl in *; auto.
      * destruct VR as (A & c' & A1 & A2). split; auto. exists c'. split; auto. rewrite nth_error_upd_ne; auto; congruence.
      * destruct VR as (A & A1 & A2 & A3 & A4). repeat split; auto. rewrite nth_error_upd_ne; auto; congruence.
      * destruct VR as (A & c' & A1 & A2 & A3). split; auto. exists c'. repeat split; auto. rewrite nth_error_upd_ne; auto; congruence.
  - (* the learner gets an error *)
    destruct VL as (Gl & R).
    assert (Li : i < length cs) by (eapply nth_lt; eauto).
    destruct (nth_error chunks i) as [c|] eqn:Ec; [|apply nth_error_None in Ec; lia].
    pose proof (VC _ _ _ H Ec) as [(A & B & D)|[(A & B & D)|[(r & A & B & D & F & G)|(A & B)]]]; subst x; simpl in *; try discriminate; [|lia].
    assert (NH : forall k x, nth_error ps k = Some x -> holds x <> Some i).
    { intros k x E Hx. apply VR in E. destruct x; simpl in *; inversion Hx; subst.
      - destruct E as (_ & c' & _ & E). congruence.
      - destruct E as (_ & _ & E & _). congruence.
      - destruct E as (_ & c' & _ & E & _). congruence. }
    assert (Q : is_ok (seq_step s c) = false /\ is_pn (parse [] c) = false).
    { unfold seq_step. destruct r as [t|e|e]; [now exfalso; apply (H1 t)| |discriminate].
      destruct (parse [] c); inversion B; subst; auto. }
    constructor; ucells; rewrite ?upd_length; auto.
    + exists i, c. tauto.
    + intros j x d E Ed. apply nth_upd_inv in E. destruct E as [(-> & ->)|(N & E)].
      * right; right; right. split; [reflexivity|]. lia.
      * rewrite <- Gl. destruct (VC j x d E Ed) as [(A & B' & D')|[(A & B' & D')|[(r' & A & B' & D' & F' & G')|(A & B')]]].
        -- left. repeat split; auto. lia.
        -- right; left. repeat split; auto. lia.
        -- right; right; left. exists r'. repeat split; auto. lia.
        -- right; right; right. split; [auto|lia].
    + intros k x E. specialize (VR k x E). specialize (NH k x E).
      destruct x as [|j|j c' o'| |j]; simpl in *; auto.
      * destruct VR as (A & c' & A1 & A2). split; auto. exists c'. split; auto. rewrite nth_error_upd_ne; auto; congruence.
      * destruct VR as (A & A1 & A2 & A3 & A4). repeat split; auto. rewrite nth_error_upd_ne; auto; congruence.
      * destruct VR as (A & c' & A1 & A2 & A3). split; auto. exists c'. repeat split; auto. rewrite nth_error_upd_ne; auto; congruence.
  - (* learning *)
    destruct VL as (k & c & Gl & R & Ec & Sim). inversion Sim as [? t' Ht E1 E2| |]; subst.
    pose proof (Hproc s t t' Ht) as Q. rewrite H in Q. inversion Q as [? y (E & F) E1 E3| |]; subst. simpl in *.
    assert (R' : ran (S k) s').
    { eapply ran_S; eauto. unfold seq_step. rewrite <- E2. cbn [unwrap_res bind]. rewrite <- E3. cbn [bind]. now rewrite <- E. }
    constructor; ucells; auto. simpl. rewrite <- Gl. auto.
  - (* learning panics *)
    destruct VL as (k & c & Gl & R & Ec & Sim). inversion Sim as [? t' Ht E1 E2| |]; subst.
    pose proof (Hproc s t t' Ht) as Q.
    constructor; ucells; auto. exists k, c. repeat split; auto; rewrite <- ?E2; auto.
    unfold seq_step. rewrite <- E2. cbn [unwrap_res bind]. destruct (proc s t); [discriminate| |]; inversion Q; reflexivity.
  - destruct VL as (R & F). inversion F; subst. constructor; ucells; auto; try (split; assumption); constructor; assumption.
  - destruct VL as (R & F). constructor; ucells; auto.
  - constructor; ucells; auto. simpl. auto.
Qed.

Lemma steps_inv : forall p p', inv p -> stps p p' -> inv p'.
Proof.
  intros p p' I ST. induction ST as [p|p p1 p2 ST IH ST1]; [exact I|]. exact (step_inv _ _ (IH I) ST1).
Qed.

(** ** states where no thread can move *)
Definition parked (p : pst) (x : pphase C Obj) : Prop :=
  x = PExit \/ (exists i, x = PDead i) \/
  (x = PWait /\ pi_pq p = [] /\ ~ closed (pi_inp p) /\ forall i, pi_inp p <> ISendP i).
Definition lparked (p : pst) : Prop :=
  match pi_learner p with
  | LExit | LDead => True
  | LWait => pi_lq p = [] /\ ~ closed (pi_inp p)
  | LAwait i => forall x, nth_error (pi_cells p) i = Some x -> c_ready x = false
  | _ => False
  end.
Definition iparked (p : pst) : Prop :=
  match pi_inp p with
  | IRead => False
  | ISendP _ => q <= length (pi_pq p)
  | ISendL _ => q <= length (pi_lq p) /\ ~ (pi_lq p = [] /\ pi_learner p = LWait)
  | _ => True
  end.
Definition blocked (p : pst) : Prop := iparked p /\ lparked p /\ forall x, In x (pi_par p) -> parked p x.

Lemma blocked_stuck : forall p, blocked p -> stuck fresh need parse proc q rd_ok p.
Proof.
  intros p (BI & BL & BP) p' ST. unfold iparked, lparked, parked in *.
  assert (K : forall k x, nth_error (pi_par p) k = Some x -> x = PExit \/ (exists i, x = PDead i) \/
    (x = PWait /\ pi_pq p = [] /\ ~ closed (pi_inp p) /\ forall i, pi_inp p <> ISendP i)).
  { intros k x E. apply BP. eapply nth_error_In; eauto. }
  destruct ST; simpl in *; try contradiction; try lia;
    try match goal with E : nth_error _ ?k = Some ?x |- _ =>
      destruct (K k x E) as [Q|[(i' & Q)|(Q & Q1 & Q2 & Q3)]]; try discriminate; try contradiction; try (now apply (Q3 i)) end.
  - destruct BI as (B1 & B2). apply B2. auto.
  - destruct BL. discriminate.
  - specialize (BL _ H). discriminate.
  - specialize (BL _ H). congruence.
  - destruct BL. contradiction.
Qed.

(** a parser is parked or some thread can move *)
Lemma parser_moves : forall p x, inv p -> In x (pi_par p) -> parked p x \/ exists p', stp p p'.
Proof.
  intros [u cs inp pq lq ps l o s] x I Ix. destruct I as [V1 V2 V3 V4 V5 V6 V7 V8 V9 VL VP VC VR VO]; ucells.
  apply In_nth_error in Ix. destruct Ix as (k & E). pose proof (VR _ _ E) as Q. destruct x as [|i|i c objs| |i].
  - destruct pq as [|i pq]; [|right; eexists; eapply s_recv; eauto].
    destruct inp; try (right; eexists; eapply s_leave; eauto; unfold closed; tauto).
    + left. right. right. unfold closed. repeat split; simpl; auto; try discriminate. intros [A|A]; discriminate.
    + right. eexists. eapply s_handp; eauto.
    + left. right. right. unfold closed. repeat split; simpl; auto; try discriminate. intros [A|A]; discriminate.
  - right. destruct Q as (A & c & B & D). eexists. eapply s_input; eauto.
  - right. destruct Q as (A & B & D & F & L).
    destruct (is_pn (parse objs c)) eqn:Pn; [eexists; eapply s_panic; eauto|].
    destruct (is_ok (parse objs c)) eqn:Po.
    + destruct (Nat.eq_dec (length objs) (need c)) as [Eq|N]; [|eexists; eapply s_take; eauto; lia].
      eexists. eapply s_set; eauto.
    + eexists. eapply s_set; eauto. congruence.
  - left. left. reflexivity.
  - left. right. left. eauto.
Qed.

Lemma learner_moves : forall p, inv p -> lparked p \/ exists p', stp p p'.
Proof.
  intros [u cs inp pq lq ps l o s] I. destruct I as [V1 V2 V3 V4 V5 V6 V7 V8 V9 VL VP VC VR VO]; ucells. unfold lparked; simpl.
  destruct l as [|i|t|objs| |]; auto.
  - destruct lq as [|i lq]; [|right; eexists; apply s_next].
    destruct inp; try (left; split; [reflexivity|intros [A|A]; discriminate]); right; eexists; apply s_stop; unfold closed; tauto.
  - destruct (nth_error cs i) as [x|] eqn:E; [|left; discriminate]. destruct (c_ready x) eqn:R.
    + right. destruct x as [b r inpt]; simpl in R; subst b.
      destruct r as [[t|e|e]|]; [eexists; eapply s_await; eauto|eexists; eapply s_await_fails; eauto; simpl; intros; congruence..].
    + left. intros y Ey. congruence.
  - right. destruct (proc s t) as [(s' & objs)|e|e] eqn:E; [eexists; eapply s_proc; eauto|eexists; eapply s_proc_fails; now rewrite E..].
  - right. destruct objs; eexists; [apply s_given|apply s_give].
Qed.

Lemma input_moves : forall p, inv p -> iparked p \/ exists p', stp p p'.
Proof.
  intros [u cs inp pq lq ps l o s] I. unfold iparked; simpl. destruct inp as [|i|i| |]; auto.
  - right. destruct u; eexists; [apply s_end|apply s_read].
  - destruct (le_lt_dec q (length pq)); auto. right. eexists. now apply s_sendp.
  - destruct (le_lt_dec q (length lq)); [|right; eexists; now apply s_sendl].
    destruct lq as [|j lq]; [|left; split; auto; intros (A & _); discriminate].
    destruct l; try (left; split; auto; intros (_ & A); discriminate). right. eexists. apply s_handl.
Qed.

Lemma all_or_move : forall p (l : list (pphase C Obj)), inv p -> (forall x, In x l -> In x (pi_par p)) ->
  (forall x, In x l -> parked p x) \/ exists p', stp p p'.
Proof.
  intros p l I. induction l as [|a l IH]; intros S; [left; intros x []|].
  destruct IH as [IH|IH]; [intros x Ix; apply S; simpl; auto| |auto].
  destruct (parser_moves p a I) as [A|A]; [apply S; simpl; auto| |auto].
  left. intros x [->|Ix]; auto.
Qed.

Lemma blocked_or_moves : forall p, inv p -> blocked p \/ exists p', stp p p'.
Proof.
  intros p I. destruct (input_moves p I) as [A|A]; auto. destruct (learner_moves p I) as [B|B]; auto.
  destruct (all_or_move p (pi_par p) I (fun x H => H)) as [D|D]; auto. left. repeat split; auto.
Qed.
Lemma stuck_blocked : forall p, inv p -> stuck fresh need parse proc q rd_ok p -> blocked p.
Proof. intros p I S. destruct (blocked_or_moves p I) as [B|(p' & ST)]; auto. now apply S in ST. Qed.

(** ** what a blocked state looks like *)
Definition all_dead (p : pst) : Prop := forall x, In x (pi_par p) -> exists i, x = PDead i.

Lemma closed_all : forall p, inv p -> closed (pi_inp p) -> length (pi_cells p) = length chunks /\ sentl p = length chunks.
Proof.
  intros p I K. assert (E : pi_unread p = []) by (pose proof (v_inp _ I) as V; destruct K as [K|K]; rewrite K in V; apply V).
  rewrite (v_unread _ I) in E. pose proof (v_len _ I).
  assert (L : length (pi_cells p) = length chunks).
  { assert (Z : length (skipn (length (pi_cells p)) chunks) = 0) by now rewrite E. rewrite skipn_length in Z. lia. }
  split; auto. unfold sentl, sl. destruct K as [-> | ->]; auto.
Qed.

Lemma pq_dead : forall p, inv p -> blocked p -> pi_pq p <> [] -> all_dead p.
Proof.
  intros p I (_ & _ & B) N x Ix. destruct (B x Ix) as [->|[D|(_ & D & _)]]; [|auto|contradiction].
  apply In_nth_error in Ix. destruct Ix as (k & E). apply (v_par _ I) in E. simpl in E. tauto.
Qed.
Lemma sendp_dead : forall p i, inv p -> blocked p -> pi_inp p = ISendP i -> all_dead p.
Proof.
  intros p i I (_ & _ & B) E x Ix. destruct (B x Ix) as [->|[D|(_ & _ & _ & D)]]; [|auto|now apply D in E].
  apply In_nth_error in Ix. destruct Ix as (k & Ek). apply (v_par _ I) in Ek. simpl in Ek.
  destruct Ek as ([A|A] & _); congruence.
Qed.
Lemma gotl_sent : forall p, gotl p <= sentl p.
Proof. intros. unfold gotl. lia. Qed.
Lemma sentl_sentp : forall p, sentl p <= sentp p.
Proof. intros. unfold sentl, sentp, sl, sp. destruct (pi_inp p); lia. Qed.
Lemma sentl_cells : forall p, sentl p <= length (pi_cells p).
Proof. intros. unfold sentl, sl. destruct (pi_inp p); lia. Qed.

Lemma blocked_learner : forall p, inv p -> blocked p ->
  pi_learner p = LExit \/ pi_learner p = LDead \/ (pi_learner p = LWait /\ all_dead p) \/
  (exists i, pi_learner p = LAwait i /\ (all_dead p \/ In (PDead i) (pi_par p))).
Proof.
  intros p I B. pose proof B as (BI & BL & BP). unfold lparked in BL.
  destruct (pi_learner p) as [|i|t|objs| |] eqn:El; try tauto.
  - right; right; left. split; auto. destruct BL as (L1 & L2). unfold iparked in BI.
    destruct (pi_inp p) as [|i|i| |] eqn:Ei; try tauto.
    + eapply sendp_dead; eauto.
    + exfalso. apply L2. unfold closed; auto.
    + exfalso. apply L2. unfold closed; auto.
  - right; right; right. exists i. split; auto. pose proof (v_learner _ I) as VL. rewrite El in VL. simpl in VL. destruct VL as (G & R).
    pose proof (gotl_sent p). pose proof (sentl_sentp p). pose proof (sentl_cells p). pose proof (v_len _ I).
    destruct (nth_error (pi_cells p) i) as [x|] eqn:Ex; [|apply nth_error_None in Ex; lia].
    destruct (nth_error chunks i) as [c|] eqn:Ec; [|apply nth_error_None in Ec; lia].
    specialize (BL x eq_refl). destruct (v_cell _ I _ _ _ Ex Ec) as [(A & D & F)|[(A & D & F)|[(r & A & _)|(A & _)]]]; subst x; try discriminate.
    + destruct D as [D|D].
      * left. apply pq_dead; auto. intros E. unfold gotp in D. rewrite E in D. simpl in D. lia.
      * exfalso. destruct (BP _ D) as [Q|[(j & Q)|(Q & _)]]; discriminate.
    + destruct D as [(objs & D)|D]; [|auto]. exfalso. destruct (BP _ D) as [Q|[(j & Q)|(Q & _)]]; discriminate.
Qed.

(** ** runs stop *)
Definition nd (i : nat) : nat := match nth_error chunks i with Some c => need c | None => 0 end.
Definition sum {A} (f : A -> nat) (l : list A) : nat := fold_right (fun x n => f x + n) 0 l.
Definition mu_i (x : iphase) : nat := match x with IRead => 1 | ISendP i => 13 + nd i | ISendL _ => 7 | _ => 0 end.
Definition mu_p (x : pphase C Obj) : nat :=
  match x with PWait => 1 | PGot i => 4 + nd i | PWork _ c objs => 3 + (need c - length objs) | _ => 0 end.
Definition mu_l (x : lphase Obj T) : nat :=
  match x with LAwait _ => 5 | LGot _ => 4 | LGive _ => 2 | LWait => 1 | _ => 0 end.
Definition mu (p : pst) : nat :=
  sum (fun c => 20 + need c) (pi_unread p) + mu_i (pi_inp p) + sum (fun i => 5 + nd i) (pi_pq p) + sum (fun _ => 5) (pi_lq p) +
  sum mu_p (pi_par p) + mu_l (pi_learner p).
Definition mu2 (p : pst) : nat := match pi_learner p with LGive objs => length objs | _ => 0 end.

Lemma sum_app : forall A (f : A -> nat) l1 l2, sum f (l1 ++ l2) = sum f l1 + sum f l2.
Proof. intros A f l1 l2. induction l1; simpl; auto. rewrite IHl1. lia. Qed.
Lemma sum_cons : forall A (f : A -> nat) x l, sum f (x :: l) = f x + sum f l.
Proof. reflexivity. Qed.
Lemma sum_nil : forall A (f : A -> nat), sum f [] = 0.
Proof. reflexivity. Qed.
Lemma sum_upd : forall A (f : A -> nat) k a b l, nth_error l k = Some a -> sum f (upd k b l) + f a = sum f l + f b.
Proof.
  intros A f. induction k as [|k IH]; intros a b [|x l]; simpl; try discriminate; intros E.
  - inversion E; subst. lia.
  - specialize (IH a b l E). lia.
Qed.

Lemma mu_dec : forall p p', inv p -> stp p p' -> mu p' < mu p \/ (mu p' = mu p /\ mu2 p' < mu2 p).
Proof.
  intros p p' I ST. destruct ST; destruct I as [V1 V2 V3 V4 V5 V6 V7 V8 V9 VL VP VC VR VO]; ucells;
    unfold mu, mu2; cbn [pi_unread pi_cells pi_inp pi_pq pi_lq pi_par pi_learner pi_pool pi_st];
    try match goal with E : nth_error ?ps ?k = Some ?a |- context [upd ?k ?b ?ps] => pose proof (sum_upd _ mu_p _ _ b _ E) end;
    rewrite ?sum_app, ?sum_cons, ?sum_nil; cbn [mu_i mu_l length] in *; try lia.
  - left. apply skipn_cons in V1. destruct V1 as (Ec & _). unfold nd. rewrite Ec. lia.
  - left. destruct rd_ok; simpl; lia.
  - cbn [mu_p] in *. lia.
  - cbn [mu_p] in *. lia.
  - pose proof (VR _ _ H) as (Lg & c' & Ec & Ecell). rewrite Ecell in H0. inversion H0; subst.
    cbn [mu_p length] in *. unfold nd in *. rewrite Ec in *. left. lia.
  - cbn [mu_p] in *. lia.
  - cbn [mu_p] in *. rewrite app_length in *. cbn [length] in *. left. lia.
  - cbn [mu_p] in *. lia.
  - cbn [mu_p] in *. lia.
  - cbn [mu_p] in *. lia.
  - cbn [mu_p] in *. lia.
Qed.

Lemma runs_stop : forall p, inv p -> Acc (fun b a => stp a b) p.
Proof.
  assert (K : forall m m2 p, mu p < m \/ (mu p = m /\ mu2 p < m2) -> inv p -> Acc (fun b a => stp a b) p).
  { intros m. induction m as [m IHm] using lt_wf_ind. intros m2. induction m2 as [m2 IH2] using lt_wf_ind.
    intros p L I. constructor. intros p' ST. pose proof (step_inv _ _ I ST) as I'.
    destruct L as [L|(L & L2)].
    - apply (IHm (mu p) L (S (mu2 p))); auto. destruct (mu_dec _ _ I ST) as [D|(D & D2)]; [left|right]; lia.
    - destruct (mu_dec _ _ I ST) as [D|(D & D2)].
      + apply (IHm (mu p') ltac:(lia) (S (mu2 p'))); auto.
      + apply (IH2 (mu2 p) L2); auto. right. lia. }
  intros p I. apply (K (S (mu p)) 0); auto.
Qed.

Lemma reaches_stuck : forall p, inv p -> exists p', stps p p' /\ blocked p'.
Proof.
  intros p I. induction (runs_stop p I) as [p _ IH].
  destruct (blocked_or_moves p I) as [B|(p1 & ST)]; [exists p; split; [constructor|auto]|].
  destruct (IH p1 ST (step_inv _ _ I ST)) as (p' & S1 & B). exists p'. split; auto.
  clear - ST S1. induction S1; [econstructor; [constructor|auto]|econstructor; eauto].
Qed.

(** ** conclusions *)
Lemma steps_par : forall p p', stps p p' -> length (pi_par p') = length (pi_par p).
Proof.
  intros p p' ST. induction ST as [p|p p1 p2 ST IH ST1]; auto. rewrite <- IH. destruct ST1; simpl; auto using upd_length.
Qed.

Lemma ran_det : forall k s s', ran k s -> ran k s' -> s = s'.
Proof. unfold ran. intros. congruence. Qed.
Lemma ran_le : forall k j s, ran k s -> j <= k -> exists s', ran j s'.
Proof.
  intros k j s R L. unfold ran in *. rewrite <- (firstn_skipn j (firstn k chunks)) in R.
  rewrite firstn_firstn, Nat.min_l, foldm_app in R by lia.
  destruct (foldm seq_step (firstn j chunks) s0) as [s'| |]; [eauto|discriminate..].
Qed.
Lemma ran_all : forall k s, ran k s -> length chunks <= k -> foldm seq_step chunks s0 = Ok s.
Proof. intros k s R L. unfold ran in R. now rewrite firstn_all2 in R by lia. Qed.
(** nothing runs past a chunk that fails *)
Lemma ran_fail : forall i s c k s', ran i s -> nth_error chunks i = Some c -> is_ok (seq_step s c) = false ->
  ran k s' -> k <= i.
Proof.
  intros i s c k s' R E F R'. destruct (le_lt_dec k i) as [|L]; auto. exfalso.
  destruct (ran_le _ (S i) _ R' L) as (s1 & R1). unfold ran in *. rewrite (firstn_S _ _ _ _ E), foldm_app, R in R1. cbn [bind foldm] in R1.
  destruct (seq_step s c); discriminate.
Qed.
Lemma panic_fails : forall s c, is_pn (parse [] c) = true -> is_ok (seq_step s c) = false.
Proof. intros s c E. unfold seq_step. destruct (parse [] c); try discriminate. reflexivity. Qed.

Lemma learner_ran : forall p, inv p -> exists k, k <= length chunks /\ ran k (pi_st p) /\ (gotl p = k \/ gotl p = S k).
Proof.
  intros p I. pose proof (v_learner _ I) as V. pose proof (gotl_sent p). pose proof (sentl_cells p). pose proof (v_len _ I).
  destruct (pi_learner p); simpl in V.
  - exists (gotl p). repeat split; auto. lia.
  - destruct V as (G & R). exists i. repeat split; auto; lia.
  - destruct V as (k & c & G & R & _). exists k. repeat split; auto; lia.
  - destruct V as (R & _). exists (gotl p). repeat split; auto. lia.
  - destruct V as (R & _). exists (gotl p). repeat split; auto. lia.
  - destruct V as (k & c & G & R & _). exists k. repeat split; auto; lia.
Qed.

Lemma exit_final : forall p, inv p -> pi_learner p = LExit -> foldm seq_step chunks s0 = Ok (pi_st p).
Proof.
  intros p I E. pose proof (v_learner _ I) as V. rewrite E in V. simpl in V. destruct V as (R & K & L).
  destruct (closed_all p I K) as (_ & S). eapply ran_all; eauto. unfold gotl. rewrite L, S. simpl. lia.
Qed.

Lemma nobody_dead : forall p sN, inv p -> foldm seq_step chunks s0 = Ok sN ->
  pi_learner p <> LDead /\ forall i, ~ In (PDead i) (pi_par p).
Proof.
  intros p sN I E. assert (RN : ran (length chunks) sN) by (unfold ran; now rewrite firstn_all).
  split.
  - intros D. pose proof (v_learner _ I) as V. rewrite D in V. destruct V as (k & c & G & R & Ec & F & _).
    pose proof (ran_fail _ _ _ _ _ R Ec F RN). apply nth_lt in Ec. lia.
  - intros i D. apply In_nth_error in D. destruct D as (k & D). apply (v_par _ I) in D. destruct D as (_ & c & Ec & _ & F).
    destruct (ran_le _ i _ RN) as (s & R); [apply nth_lt in Ec; lia|].
    pose proof (ran_fail _ _ _ _ _ R Ec (panic_fails _ _ F) RN). apply nth_lt in Ec. lia.
Qed.

Lemma not_all_dead : forall p, 0 < length (pi_par p) -> (forall i, ~ In (PDead i) (pi_par p)) -> ~ all_dead p.
Proof.
  intros p L N A. destruct (pi_par p) as [|x l] eqn:E; simpl in L; [lia|].
  destruct (A x) as (i & ->); [rewrite E; simpl; auto|]. apply (N i). simpl; auto.
Qed.

Lemma blocked_closed_par : forall p, blocked p -> closed (pi_inp p) -> forall x, In x (pi_par p) -> x = PExit \/ exists i, x = PDead i.
Proof. intros p (_ & _ & B) K x Ix. destruct (B x Ix) as [->|[D|(_ & _ & D & _)]]; auto. contradiction. Qed.

Lemma success : forall p sN, inv p -> 0 < length (pi_par p) -> foldm seq_step chunks s0 = Ok sN -> blocked p ->
  all_ended p /\ pi_inp p = (if rd_ok then IDone else IDead) /\ (forall x, In x (pi_par p) -> x = PExit) /\ pi_learner p = LExit /\ pi_st p = sN.
Proof.
  intros p sN I L E B. destruct (nobody_dead p sN I E) as (D1 & D2). pose proof (not_all_dead p L D2) as ND.
  destruct (blocked_learner p I B) as [Q|[Q|[(Q & A)|(i & Q & [A|A])]]]; try contradiction; [|now apply D2 in A].
  pose proof (v_learner _ I) as V. rewrite Q in V. simpl in V. destruct V as (R & K & LQ).
  assert (X : forall x, In x (pi_par p) -> x = PExit).
  { intros x Ix. destruct (blocked_closed_par p B K x Ix) as [|(i & ->)]; auto. now apply D2 in Ix. }
  repeat split; auto.
  - pose proof (v_inp _ I) as V. destruct K as [K|K]; rewrite K in V |- *; destruct V as (_ & ->); auto.
  - pose proof (exit_final p I Q). congruence.
Qed.

(** a chunk whose parse panics, after chunks that are fine: the threads never all end *)
Lemma panic_hangs : forall p i s c, inv p -> ran i s -> nth_error chunks i = Some c -> is_pn (parse [] c) = true ->
  pi_learner p <> LExit /\ pi_learner p <> LDead.
Proof.
  intros p i s c I R Ec F. pose proof (panic_fails s c F) as Fs. split; intros E.
  - pose proof (exit_final p I E) as X. assert (RN : ran (length chunks) (pi_st p)) by (unfold ran; now rewrite firstn_all).
    pose proof (ran_fail _ _ _ _ _ R Ec Fs RN). apply nth_lt in Ec. lia.
  - pose proof (v_learner _ I) as V. rewrite E in V. destruct V as (k & c' & G & R' & Ec' & F' & Np).
    pose proof (ran_fail _ _ _ _ _ R Ec Fs R'). pose proof (ran_fail _ _ _ _ _ R' Ec' F' R).
    assert (k = i) by lia. subst k. congruence.
Qed.

(** a chunk that gives an error, or on which learning panics *)
Lemma error_learner : forall p i s c, inv p -> ran i s -> nth_error chunks i = Some c -> is_ok (seq_step s c) = false ->
  gotl p <= S i.
Proof.
  intros p i s c I R Ec F. destruct (learner_ran p I) as (k & Lk & Rk & G). pose proof (ran_fail _ _ _ _ _ R Ec F Rk). lia.
Qed.
Lemma error_hangs : forall p i s c, inv p -> ran i s -> nth_error chunks i = Some c -> is_ok (seq_step s c) = false ->
  S i + q < length chunks -> ~ closed (pi_inp p).
Proof.
  intros p i s c I R Ec F L K. pose proof (error_learner p i s c I R Ec F). destruct (closed_all p I K) as (_ & S).
  unfold gotl in H. rewrite S in H. pose proof (v_lqq _ I). lia.
Qed.
Lemma error_ends : forall p i s c, inv p -> 0 < length (pi_par p) -> ran i s -> nth_error chunks i = Some c -> is_ok (seq_step s c) = false ->
  (forall d, In d chunks -> is_pn (parse [] d) = false) ->
  length chunks <= S i + q -> blocked p -> all_ended p /\ pi_learner p = LDead /\ pi_st p = s.
Proof.
  intros p i s c I Lp R Ec F NP L B.
  assert (D2 : forall j, ~ In (PDead j) (pi_par p)).
  { intros j D. apply In_nth_error in D. destruct D as (k & D). apply (v_par _ I) in D. destruct D as (_ & d & Ed & _ & Fd).
    apply nth_error_In, NP in Ed. congruence. }
  pose proof (not_all_dead p Lp D2) as ND.
  assert (Q : pi_learner p = LDead).
  { destruct (blocked_learner p I B) as [Q|[Q|[(Q & A)|(j & Q & [A|A])]]]; auto; try contradiction; [|now apply D2 in A].
    exfalso. pose proof (exit_final p I Q) as X. assert (RN : ran (length chunks) (pi_st p)) by (unfold ran; now rewrite firstn_all).
    pose proof (ran_fail _ _ _ _ _ R Ec F RN). apply nth_lt in Ec. lia. }
  pose proof (v_learner _ I) as V. rewrite Q in V. destruct V as (k & c' & G & R' & Ec' & F' & Np).
  pose proof (ran_fail _ _ _ _ _ R Ec F R'). pose proof (ran_fail _ _ _ _ _ R' Ec' F' R).
  assert (k = i) by lia. subst k.
  assert (K : closed (pi_inp p)).
  { destruct B as (BI & BL & BP). unfold iparked in BI. destruct (pi_inp p) as [|j|j| |] eqn:Ei; unfold closed; auto; try contradiction.
    - exfalso. apply ND. eapply sendp_dead; eauto. repeat split; auto. unfold iparked. now rewrite Ei.
    - exfalso. destruct BI as (BI & _). pose proof (v_lqq _ I). pose proof (v_inp _ I) as VI. rewrite Ei in VI. simpl in VI.
      pose proof (v_len _ I). unfold gotl, sentl, sl in G. rewrite Ei in G. lia. }
  split; [|split; auto; eapply ran_det; eauto]. split; auto. split; [|auto]. apply blocked_closed_par; auto.
Qed.
End P.

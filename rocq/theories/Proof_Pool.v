(** Proofs about the object pool. *)
From Coq Require Import List Bool PeanoNat Lia.
From Verif Require Import Model_Pool Spec_Pool.
Import ListNotations.

(** ** the last event of an object *)
Definition ev1 (x : obj) (a : option bool) (e : pevent) : option bool :=
  match e with
  | Handed _ y => if y =? x then Some false else a
  | Returned _ y => if y =? x then Some true else a
  | _ => a
  end.
Definition lastev (tr : list pevent) (x : obj) : option bool := fold_left (ev1 x) tr None.

Lemma lastev_app : forall tr e x, lastev (tr ++ e) x = fold_left (ev1 x) e (lastev tr x).
Proof. intros. unfold lastev. apply fold_left_app. Qed.

Lemma fold_keep : forall x e a, (forall d, ~ In (Handed d x) e) -> (forall d, ~ In (Returned d x) e) ->
  fold_left (ev1 x) e a = a.
Proof.
  induction e as [|y e IH]; intros a N1 N2; simpl; auto.
  rewrite IH; [|intros d X; apply (N1 d); simpl; auto|intros d X; apply (N2 d); simpl; auto].
  destruct y as [c z|c z|c z|c z|c d z|c z]; simpl; auto.
  - destruct (z =? x) eqn:E; auto. apply Nat.eqb_eq in E; subst. exfalso. apply (N1 c). simpl; auto.
  - destruct (z =? x) eqn:E; auto. apply Nat.eqb_eq in E; subst. exfalso. apply (N2 c). simpl; auto.
Qed.
Lemma fold_no_handed : forall x e a, (forall d, ~ In (Handed d x) e) -> a = Some true -> fold_left (ev1 x) e a = Some true.
Proof.
  induction e as [|y e IH]; intros a N1 A; simpl; auto. apply IH; [intros d X; apply (N1 d); simpl; auto|].
  destruct y as [c z|c z|c z|c z|c d z|c z]; simpl; auto.
  - destruct (z =? x) eqn:E; auto. apply Nat.eqb_eq in E; subst. exfalso. apply (N1 c). simpl; auto.
  - destruct (z =? x); auto.
Qed.
Lemma fold_no_returned : forall x e a, (forall d, ~ In (Returned d x) e) -> a = Some false -> fold_left (ev1 x) e a = Some false.
Proof.
  induction e as [|y e IH]; intros a N1 A; simpl; auto. apply IH; [intros d X; apply (N1 d); simpl; auto|].
  destruct y as [c z|c z|c z|c z|c d z|c z]; simpl; auto.
  - destruct (z =? x); auto.
  - destruct (z =? x) eqn:E; auto. apply Nat.eqb_eq in E; subst. exfalso. apply (N1 c). simpl; auto.
Qed.

Lemma lastev_true : forall tr x, lastev tr x = Some true <-> available tr x.
Proof.
  intros tr x. split.
  - induction tr as [|e tr IH] using rev_ind; [discriminate|]. rewrite lastev_app. simpl.
    assert (K : lastev tr x = Some true -> (forall d, e <> Handed d x) -> available (tr ++ [e]) x).
    { intros L N. destruct (IH L) as (t1 & c & t2 & -> & Q). exists t1, c, (t2 ++ [e]). split; [now rewrite <- app_assoc|].
      intros d X. apply in_app_or in X. destruct X as [X|[X|[]]]; [now apply (Q d)|now apply (N d)]. }
    destruct e as [c z|c z|c z|c z|c d z|c z]; simpl; try (intros L; apply K; auto; intros; discriminate).
    + destruct (z =? x) eqn:E; [discriminate|]. intros L. apply K; auto. intros d X. inversion X; subst.
      rewrite Nat.eqb_refl in E. discriminate.
    + destruct (z =? x) eqn:E.
      * apply Nat.eqb_eq in E; subst. intros _. exists tr, c, []. split; auto.
      * intros L. apply K; auto. intros d X. discriminate.
  - intros (t1 & c & t2 & -> & Q). rewrite lastev_app. simpl. apply fold_no_handed; auto. now rewrite Nat.eqb_refl.
Qed.

(** ** invariant *)
Definition in_cs (p : cphase) : bool :=
  match p with CGetLocked | CGetRead _ | CRetLocked _ | CRetRead _ _ | CLenLocked | CUnlock => true | _ => false end.
Definition returning (p : cphase) : option obj :=
  match p with CRetWant x | CRetLocked x | CRetRead x _ => Some x | _ => None end.
Definition read (p : cphase) : option (list obj) :=
  match p with CGetRead v | CRetRead _ v => Some v | _ => None end.

Inductive place : Type := InVec | Owned (c : client) | Giving (c : client).
Definition at_place (s : plstate) (x : obj) (p : place) : Prop :=
  match p with
  | InVec => In x (pl_vec s)
  | Owned c => In x (pl_owned s c)
  | Giving c => returning (pl_phase s c) = Some x
  end.

Record pinv (tr : list pevent) (s : plstate) : Prop := {
  pi_cs : forall c, in_cs (pl_phase s c) = true <-> pl_lock s = Some c;
  pi_read : forall c v, read (pl_phase s c) = Some v -> v = pl_vec s;
  pi_replay : replay tr [] = Some (pl_vec s);
  pi_nd_vec : NoDup (pl_vec s);
  pi_nd_own : forall c, NoDup (pl_owned s c);
  pi_one : forall x p q, at_place s x p -> at_place s x q -> p = q;
  pi_made : forall x p, at_place s x p -> x < pl_made s;
  pi_last : forall x, In x (pl_vec s) <-> lastev tr x = Some true;
  pi_seen : forall x, lastev tr x <> None -> x < pl_made s
}.

Lemma set_same : forall A c (x : A) f, set_at c x f c = x.
Proof. intros. unfold set_at. now rewrite Nat.eqb_refl. Qed.
Lemma set_other : forall A c d (x : A) f, d <> c -> set_at c x f d = f d.
Proof. intros. unfold set_at. apply Nat.eqb_neq in H. now rewrite H. Qed.

Lemma replay_app : forall t1 t2 st, replay (t1 ++ t2) st = match replay t1 st with Some r => replay t2 r | None => None end.
Proof.
  induction t1 as [|e t1 IH]; intros t2 st; simpl; auto.
  destruct e as [c z|c z|c z|c z|c d z|c z]; auto.
  - destruct st as [|y st]; auto. destruct (z =? y); auto.
  - destruct (z =? length st); auto.
Qed.

Lemma init_inv : pinv [] pl_init.
Proof.
  constructor; simpl; try constructor; try discriminate; try tauto.
  all: try (intros x [|c|c] [|d|d]; simpl; (tauto || discriminate)).
  all: try (intros x [|c|c]; simpl; (tauto || discriminate)).
Qed.

(** moves that only change phases, not what is returned or read *)
Lemma quiet_move : forall tr s c p l,
  pinv tr s -> returning p = returning (pl_phase s c) -> (forall v, read p = Some v -> v = pl_vec s) ->
  (forall d, in_cs (set_at c p (pl_phase s) d) = true <-> l = Some d) ->
  pinv tr (to_phase c p (with_lock l s)).
Proof.
  intros tr s c p l I R V L. destruct I. constructor; simpl; auto.
  - intros d v. destruct (Nat.eq_dec d c) as [->|N]; [rewrite set_same|rewrite set_other by auto]; auto. apply pi_read0.
  - intros x q1 q2 A B. apply (pi_one0 x); [destruct q1 as [|d|d]|destruct q2 as [|d|d]]; simpl in *; auto;
      (destruct (Nat.eq_dec d c) as [->|N]; [rewrite set_same in *|rewrite set_other in * by auto]; congruence).
  - intros x q A. apply (pi_made0 x q). destruct q as [|d|d]; simpl in *; auto.
    destruct (Nat.eq_dec d c) as [->|N]; [rewrite set_same in *|rewrite set_other in * by auto]; congruence.
Qed.

Lemma cs_enter : forall tr s c p, pinv tr s -> pl_lock s = None -> in_cs p = true ->
  forall d, in_cs (set_at c p (pl_phase s) d) = true <-> Some c = Some d.
Proof.
  intros tr s c p I L P d. destruct (Nat.eq_dec d c) as [->|N]; [rewrite set_same|rewrite set_other by auto].
  - rewrite P. tauto.
  - rewrite (pi_cs _ _ I). rewrite L. split; intros X; inversion X; subst; congruence.
Qed.
Lemma cs_leave : forall tr s c p, pinv tr s -> in_cs (pl_phase s c) = true -> in_cs p = false ->
  forall d, in_cs (set_at c p (pl_phase s) d) = true <-> None = Some d.
Proof.
  intros tr s c p I L P d. destruct (Nat.eq_dec d c) as [->|N]; [rewrite set_same|rewrite set_other by auto].
  - rewrite P. split; discriminate.
  - apply (pi_cs _ _ I) in L. rewrite (pi_cs _ _ I). rewrite L. split; intros X; inversion X; subst; congruence.
Qed.
Lemma cs_stay : forall tr s c p, pinv tr s -> in_cs p = in_cs (pl_phase s c) ->
  forall d, in_cs (set_at c p (pl_phase s) d) = true <-> pl_lock s = Some d.
Proof.
  intros tr s c p I P d. destruct (Nat.eq_dec d c) as [->|N]; [rewrite set_same|rewrite set_other by auto].
  - rewrite P. apply (pi_cs _ _ I).
  - apply (pi_cs _ _ I).
Qed.
Lemma with_lock_id : forall s, with_lock (pl_lock s) s = s.
Proof. intros []; reflexivity. Qed.
Lemma stay_move : forall tr s c p,
  pinv tr s -> returning p = returning (pl_phase s c) -> (forall v, read p = Some v -> v = pl_vec s) ->
  in_cs p = in_cs (pl_phase s c) -> pinv tr (to_phase c p s).
Proof.
  intros tr s c p I R V C. rewrite <- (with_lock_id s). apply quiet_move; auto. eapply cs_stay; eauto.
Qed.

(** the only client between lock and unlock *)
Lemma alone : forall tr s c d, pinv tr s -> in_cs (pl_phase s c) = true -> in_cs (pl_phase s d) = true -> c = d.
Proof. intros tr s c d I A B. apply (pi_cs _ _ I) in A, B. congruence. Qed.
Lemma read_alone : forall tr s c d v, pinv tr s -> in_cs (pl_phase s c) = true -> d <> c -> read (pl_phase s d) = Some v -> False.
Proof.
  intros tr s c d v I A N R. apply N. symmetry. eapply alone; eauto. destruct (pl_phase s d); simpl in *; auto; discriminate.
Qed.

Ltac at_c d c := destruct (Nat.eq_dec d c) as [->|?]; [rewrite ?set_same in *|rewrite ?set_other in * by auto].

(** an owned object leaves its owner *)
Lemma own_split : forall tr s c x l1 l2, pinv tr s -> pl_owned s c = l1 ++ x :: l2 ->
  NoDup (l1 ++ l2) /\ ~ In x (l1 ++ l2) /\ (forall y, In y (l1 ++ l2) -> In y (pl_owned s c)) /\ In x (pl_owned s c).
Proof.
  intros tr s c x l1 l2 I E. pose proof (pi_nd_own _ _ I c) as N. rewrite E in *.
  pose proof (NoDup_remove_1 _ _ _ N). pose proof (NoDup_remove_2 _ _ _ N). repeat split; auto.
  - intros y Y. apply in_or_app. apply in_app_or in Y. simpl. tauto.
  - apply in_or_app. simpl. auto.
Qed.

Lemma drop_inv : forall tr s c x l1 l2, pinv tr s -> pl_owned s c = l1 ++ x :: l2 -> pinv tr (own c (l1 ++ l2) s).
Proof.
  intros tr s c x l1 l2 I E. destruct (own_split _ _ _ _ _ _ I E) as (N & X & S & Ix).
  assert (A : forall y p, at_place (own c (l1 ++ l2) s) y p -> at_place s y p).
  { intros y [|d|d]; simpl; auto. at_c d c; auto. }
  destruct I. constructor; simpl; auto.
  - intros d. at_c d c; auto.
  - intros y p q P Q. eapply pi_one0; eauto.
  - intros y p P. eapply pi_made0; eauto.
Qed.

(** an object that is nowhere gets an owner *)
Lemma gain_inv : forall tr s c x, pinv tr s -> (forall p, ~ at_place s x p) -> x < pl_made s ->
  pinv tr (own c (x :: pl_owned s c) s).
Proof.
  intros tr s c x I N M.
  assert (A : forall y p, at_place (own c (x :: pl_owned s c) s) y p -> at_place s y p \/ (y = x /\ p = Owned c)).
  { intros y [|d|d]; simpl; auto. at_c d c; auto. simpl. intros [->|Q]; auto. }
  assert (Hone : forall y p q, at_place (own c (x :: pl_owned s c) s) y p -> at_place (own c (x :: pl_owned s c) s) y q -> p = q).
  { intros y p q P Q. destruct (A _ _ P) as [P'|(-> & ->)], (A _ _ Q) as [Q'|(? & ->)]; subst; auto.
    - eapply (pi_one _ _ I); eauto.
    - exfalso. eapply N; eauto.
    - exfalso. eapply N; eauto. }
  assert (Hmade : forall y p, at_place (own c (x :: pl_owned s c) s) y p -> y < pl_made s).
  { intros y p P. destruct (A _ _ P) as [P'|(-> & _)]; auto. eapply (pi_made _ _ I); eauto. }
  destruct I. constructor; auto.
  intros d. simpl. at_c d c; auto. constructor; auto. intros Q. exact (N (Owned c) Q).
Qed.

Lemma made_inv : forall tr s, pinv tr s -> pinv tr (with_made (S (pl_made s)) s).
Proof.
  intros tr s I. destruct I. constructor; simpl; auto.
  - intros x p P. assert (x < pl_made s) by (apply (pi_made0 x p); destruct p; exact P). lia.
  - intros x L. apply pi_seen0 in L. lia.
Qed.
Lemma fresh : forall tr s p, pinv tr s -> ~ at_place s (pl_made s) p.
Proof. intros tr s p I A. apply (pi_made _ _ I) in A. lia. Qed.

(** events that do not concern the pool *)
Definition silent (e : pevent) : Prop := match e with Handed _ _ | Returned _ _ | Length _ _ => False | _ => True end.
Lemma silent_inv : forall tr e s, silent e -> pinv tr s -> pinv (tr ++ [e]) s.
Proof.
  intros tr e s S I. assert (L : forall x, lastev (tr ++ [e]) x = lastev tr x).
  { intros x. rewrite lastev_app. destruct e; simpl in *; tauto. }
  destruct I. constructor; auto.
  - rewrite replay_app, pi_replay0. destruct e; simpl in *; tauto.
  - intros x. rewrite L. auto.
  - intros x. rewrite L. auto.
Qed.

Lemma own_with_vec : forall c l v s, own c l (with_vec v s) = with_vec v (own c l s).
Proof. reflexivity. Qed.

Lemma step_inv : forall tr s e s', pinv tr s -> pl_step s e s' -> pinv (tr ++ e) s'.
Proof.
  intros tr s e s' I ST. destruct ST; try rewrite app_nil_r.
  - apply stay_move; auto; rewrite ?H; simpl; auto; discriminate.
  - (* return called *)
    pose proof (drop_inv _ _ _ _ _ _ I H0) as J. destruct (own_split _ _ _ _ _ _ I H0) as (N & X & S & Ix).
    set (t := own c (l1 ++ l2) s) in *.
    assert (Fx : forall p, ~ at_place t x p).
    { intros p P. assert (Q : at_place s x p).
      { destruct p as [|d|d]; simpl in *; auto. at_c d c; auto. }
      pose proof (pi_one _ _ I x p (Owned c) Q Ix) as Z; subst p. simpl in P. rewrite set_same in P. auto. }
    assert (Mx : x < pl_made t) by (exact (pi_made _ _ I x (Owned c) Ix)).
    assert (Pc : pl_phase t c = CIdle) by exact H.
    clearbody t. clear I H0 N X S Ix.
    assert (A : forall y p, at_place (to_phase c (CRetWant x) t) y p -> at_place t y p \/ (y = x /\ p = Giving c)).
    { intros y [|d|d]; simpl; auto. at_c d c; auto. simpl. intros Q; inversion Q; auto. }
    assert (Hone : forall y p q, at_place (to_phase c (CRetWant x) t) y p -> at_place (to_phase c (CRetWant x) t) y q -> p = q).
    { intros y p q P Q. destruct (A _ _ P) as [P'|(-> & ->)], (A _ _ Q) as [Q'|(? & ->)]; subst; auto.
      - eapply (pi_one _ _ J); eauto.
      - exfalso. eapply Fx; eauto.
      - exfalso. eapply Fx; eauto. }
    assert (Hmade : forall y p, at_place (to_phase c (CRetWant x) t) y p -> y < pl_made t).
    { intros y p P. destruct (A _ _ P) as [P'|(-> & _)]; auto. eapply (pi_made _ _ J); eauto. }
    pose proof (cs_stay _ _ c (CRetWant x) J) as CS. rewrite Pc in CS. specialize (CS eq_refl).
    destruct J. constructor; auto.
    intros d v. simpl. at_c d c; [discriminate|apply pi_read0].
  - apply stay_move; auto; rewrite ?H; simpl; auto; discriminate.
  - apply quiet_move; auto; rewrite ?H; simpl; auto; try discriminate. eapply cs_enter; eauto.
  - apply quiet_move; auto; rewrite ?H; simpl; auto; try discriminate. eapply cs_enter; eauto.
  - apply quiet_move; auto; rewrite ?H; simpl; auto; try discriminate. eapply cs_enter; eauto.
  - apply stay_move; auto; rewrite ?H; simpl; auto. intros v E; inversion E; auto.
  - (* pop *)
    pose proof (pi_read _ _ I c (x :: v)) as R. rewrite H in R. specialize (R eq_refl).
    assert (Cc : in_cs (pl_phase s c) = true) by now rewrite H.
    pose proof (pi_nd_vec _ _ I) as ND. rewrite <- R in ND. inversion ND as [|? ? Nx Nv]; subst.
    assert (Vx : In x (pl_vec s)) by (rewrite <- R; simpl; auto).
    set (t := to_phase c CUnlock (own c (x :: pl_owned s c) (with_vec v s))).
    assert (A : forall y p, at_place t y p -> (y <> x /\ at_place s y p) \/ (y = x /\ p = Owned c)).
    { intros y p P. destruct (Nat.eq_dec y x) as [->|Ny].
      - right. split; auto. assert (Z : forall q, at_place s x q -> q = InVec) by (intros; eapply (pi_one _ _ I); eauto).
        destruct p as [|d|d]; simpl in P; [contradiction| |].
        + at_c d c; auto. specialize (Z (Owned d) P). discriminate.
        + at_c d c; [discriminate|]. specialize (Z (Giving d) P). discriminate.
      - left. split; auto. destruct p as [|d|d]; simpl in *.
        + rewrite <- R. simpl; auto.
        + at_c d c; auto. destruct P; [congruence|auto].
        + at_c d c; [discriminate|auto]. }
    assert (L : forall y, lastev (tr ++ [Handed c x]) y = if x =? y then Some false else lastev tr y).
    { intros y. rewrite lastev_app. reflexivity. }
    constructor.
    + intros d. subst t. simpl. apply (cs_stay _ _ c CUnlock I). now rewrite H.
    + intros d w. subst t. simpl. at_c d c; [discriminate|]. intros Q. exfalso. eapply read_alone; eauto.
    + rewrite replay_app, (pi_replay _ _ I), <- R. simpl. now rewrite Nat.eqb_refl.
    + exact Nv.
    + intros d. subst t. simpl. at_c d c; [|apply (pi_nd_own _ _ I)]. constructor; [|apply (pi_nd_own _ _ I)].
      intros Q. pose proof (pi_one _ _ I x InVec (Owned c) Vx Q). discriminate.
    + intros y p q P Q. destruct (A _ _ P) as [(N1 & P')|(-> & ->)], (A _ _ Q) as [(N2 & Q')|(? & ->)]; subst; auto; try congruence.
      eapply (pi_one _ _ I); eauto.
    + intros y p P. destruct (A _ _ P) as [(_ & P')|(-> & _)].
      * eapply (pi_made _ _ I); eauto.
      * exact (pi_made _ _ I x InVec Vx).
    + intros y. rewrite L. subst t. simpl. destruct (x =? y) eqn:E.
      * apply Nat.eqb_eq in E; subst y. split; [contradiction|discriminate].
      * rewrite <- (pi_last _ _ I), <- R. simpl. apply Nat.eqb_neq in E. intuition.
    + intros y. rewrite L. subst t. simpl. destruct (x =? y) eqn:E.
      * apply Nat.eqb_eq in E; subst y. intros _. exact (pi_made _ _ I x InVec Vx).
      * apply (pi_seen _ _ I).
  - (* new object *)
    pose proof (pi_read _ _ I c []) as R. rewrite H in R. specialize (R eq_refl).
    pose proof (made_inv _ _ I) as J.
    assert (F : forall p, ~ at_place (with_made (S (pl_made s)) s) (pl_made s) p).
    { intros p P. apply (fresh _ _ p I). destruct p; exact P. }
    assert (J1 := gain_inv _ _ c (pl_made s) J F (Nat.lt_succ_diag_r _)).
    assert (J2 : pinv tr (to_phase c CUnlock (own c (pl_made s :: pl_owned s c) (with_made (S (pl_made s)) s)))).
    { apply stay_move; auto; simpl; rewrite ?H; auto. discriminate. }
    assert (L : forall y, lastev (tr ++ [Handed c (pl_made s)]) y = if pl_made s =? y then Some false else lastev tr y).
    { intros y. rewrite lastev_app. reflexivity. }
    pose proof (pi_last _ _ I) as LA. pose proof (pi_seen _ _ I) as SE.
    destruct J2. constructor; auto.
    + rewrite replay_app, pi_replay0. simpl. rewrite <- R. reflexivity.
    + intros y. rewrite L. simpl. destruct (pl_made s =? y) eqn:E; [|apply LA].
      rewrite <- R. split; [intros []|discriminate].
    + intros y. rewrite L. simpl. destruct (pl_made s =? y) eqn:E; [apply Nat.eqb_eq in E; lia|].
      intros Q. apply SE in Q. lia.
  - apply stay_move; auto; rewrite ?H; simpl; auto. intros v E; inversion E; auto.
  - (* push *)
    pose proof (pi_read _ _ I c v) as R. rewrite H in R. specialize (R eq_refl). subst v.
    assert (Gx : at_place s x (Giving c)) by (simpl; now rewrite H).
    assert (Nx : ~ In x (pl_vec s)) by (intros Q; pose proof (pi_one _ _ I x InVec (Giving c) Q Gx); discriminate).
    assert (Cc : in_cs (pl_phase s c) = true) by now rewrite H.
    set (t := to_phase c CUnlock (with_vec (x :: pl_vec s) s)).
    assert (A : forall y p, at_place t y p -> (y <> x /\ at_place s y p) \/ (y = x /\ p = InVec)).
    { intros y p P. destruct (Nat.eq_dec y x) as [->|Ny].
      - right. split; auto. assert (Z : forall q, at_place s x q -> q = Giving c) by (intros; eapply (pi_one _ _ I); eauto).
        destruct p as [|d|d]; simpl in P; auto.
        + specialize (Z (Owned d) P). discriminate.
        + at_c d c; [discriminate|]. specialize (Z (Giving d) P). congruence.
      - left. split; auto. destruct p as [|d|d]; simpl in *; auto.
        + destruct P; [congruence|auto].
        + at_c d c; [discriminate|auto]. }
    assert (L : forall y, lastev (tr ++ [Returned c x]) y = if x =? y then Some true else lastev tr y).
    { intros y. rewrite lastev_app. reflexivity. }
    constructor.
    + intros d. subst t. simpl. apply (cs_stay _ _ c CUnlock I). now rewrite H.
    + intros d w. subst t. simpl. at_c d c; [discriminate|]. intros Q. exfalso. eapply read_alone; eauto.
    + rewrite replay_app, (pi_replay _ _ I). reflexivity.
    + constructor; auto. apply (pi_nd_vec _ _ I).
    + exact (pi_nd_own _ _ I).
    + intros y p q P Q. destruct (A _ _ P) as [(N1 & P')|(-> & ->)], (A _ _ Q) as [(N2 & Q')|(? & ->)]; subst; auto; try congruence.
      eapply (pi_one _ _ I); eauto.
    + intros y p P. destruct (A _ _ P) as [(_ & P')|(-> & _)].
      * eapply (pi_made _ _ I); eauto.
      * exact (pi_made _ _ I x _ Gx).
    + intros y. rewrite L. subst t. simpl. destruct (x =? y) eqn:E.
      * apply Nat.eqb_eq in E; subst y. tauto.
      * rewrite <- (pi_last _ _ I). apply Nat.eqb_neq in E. intuition.
    + intros y. rewrite L. subst t. simpl. destruct (x =? y) eqn:E.
      * apply Nat.eqb_eq in E; subst y. intros _. exact (pi_made _ _ I x _ Gx).
      * apply (pi_seen _ _ I).
  - (* length *)
    assert (J : pinv tr (to_phase c CUnlock s)) by (apply stay_move; auto; rewrite ?H; simpl; auto; discriminate).
    assert (L : forall y, lastev (tr ++ [Length c (length (pl_vec s))]) y = lastev tr y) by (intros; rewrite lastev_app; reflexivity).
    destruct J. constructor; auto.
    + rewrite replay_app, pi_replay0. simpl. now rewrite Nat.eqb_refl.
    + intros y. rewrite L. apply pi_last0.
    + intros y. rewrite L. apply pi_seen0.
  - apply quiet_move; auto; rewrite ?H; simpl; auto; try discriminate. eapply cs_leave; eauto. now rewrite H.
  - (* created outside *)
    apply silent_inv; [exact Logic.I|].
    assert (F : forall p, ~ at_place (with_made (S (pl_made s)) s) (pl_made s) p).
    { intros p P. apply (fresh _ _ p I). destruct p; exact P. }
    exact (gain_inv _ _ c (pl_made s) (made_inv _ _ I) F (Nat.lt_succ_diag_r _)).
  - apply silent_inv; [exact Logic.I|]. eapply drop_inv; eauto.
  - (* passed on *)
    apply silent_inv; [exact Logic.I|]. destruct (own_split _ _ _ _ _ _ I H1) as (N & X & S & Ix).
    pose proof (drop_inv _ _ _ _ _ _ I H1) as J. replace (pl_owned s d) with (pl_owned (own c (l1 ++ l2) s) d).
    + apply gain_inv; auto; [|exact (pi_made _ _ I x (Owned c) Ix)].
      intros p P. assert (Q : at_place s x p).
      { destruct p as [|d'|d']; simpl in *; auto. at_c d' c; auto. }
      pose proof (pi_one _ _ I x p (Owned c) Q Ix) as Z; subst p. simpl in P. rewrite set_same in P. auto.
    + simpl. rewrite set_other; auto.
Qed.

Lemma run_inv : forall tr s, pl_run tr s -> pinv tr s.
Proof. induction 1; [apply init_inv|eapply step_inv; eauto]. Qed.

(** ** properties *)
Lemma pool_contents : forall tr s, pl_run tr s ->
  NoDup (pl_vec s) /\ (forall x, In x (pl_vec s) <-> available tr x) /\ replay tr [] = Some (pl_vec s).
Proof.
  intros tr s R. apply run_inv in R. split; [apply (pi_nd_vec _ _ R)|]. split; [|apply (pi_replay _ _ R)].
  intros x. rewrite (pi_last _ _ R). apply lastev_true.
Qed.

Lemma app_last : forall A (l1 l2 : list A) x y, l1 ++ [x] = l2 ++ [y] -> l1 = l2 /\ x = y.
Proof. intros. apply app_inj_tail; auto. Qed.

Lemma step_handed : forall tr s e s' c x, pinv tr s -> pl_step s e s' -> In (Handed c x) e -> lastev tr x <> Some false.
Proof.
  intros tr s e s' c x I ST Q. destruct ST; simpl in Q; try tauto; destruct Q as [Q|[]]; inversion Q; subst.
  - pose proof (pi_read _ _ I c (x :: v)) as R. rewrite H in R. specialize (R eq_refl).
    assert (V : In x (pl_vec s)) by (rewrite <- R; simpl; auto). apply (pi_last _ _ I) in V. congruence.
  - intros Q1. assert (lastev tr (pl_made s) <> None) as Q2 by congruence. apply (pi_seen _ _ I) in Q2. lia.
Qed.

Lemma step_one : forall s e s', pl_step s e s' -> e = [] \/ exists a, e = [a].
Proof. intros s e s' ST. destruct ST; eauto. Qed.

Lemma pool_never_twice : forall tr s, pl_run tr s -> never_twice tr.
Proof.
  intros tr s R. induction R as [|tr s e s' R IH ST].
  - intros t1 c x t2 d t3 E. destruct t1; discriminate.
  - intros t1 c x t2 d t3 E. destruct (step_one _ _ _ ST) as [->|(a & ->)]; [rewrite app_nil_r in E; eapply IH; eauto|].
    destruct (rev_ind (fun t3 => t3 = [] \/ exists t y, t3 = t ++ [y])
      (or_introl eq_refl) (fun y t _ => or_intror (ex_intro _ t (ex_intro _ y eq_refl))) t3) as [->|(t & y & ->)].
    + replace (t1 ++ Handed c x :: t2 ++ [Handed d x]) with ((t1 ++ Handed c x :: t2) ++ [Handed d x]) in E
        by (rewrite <- app_assoc; reflexivity).
      apply app_last in E. destruct E as (-> & ->).
      destruct (List.Forall_Exists_dec (fun e => match e with Returned _ y => y <> x | _ => True end)) with (l := t2) as [F|F].
      * intros [c0 z|c0 z|c0 z|c0 z|c0 d0 z|c0 z]; auto. destruct (Nat.eq_dec z x); auto.
      * exfalso. apply run_inv in R. apply (step_handed _ _ _ _ d x R ST); simpl; auto.
        rewrite lastev_app. cbn [fold_left ev1]. rewrite Nat.eqb_refl. apply fold_no_returned; auto.
        intros f Q. rewrite Forall_forall in F. apply F in Q. congruence.
      * apply Exists_exists in F. destruct F as (e & Q & N). destruct e as [c0 z|c0 z|c0 z|c0 z|c0 d0 z|c0 z]; try tauto.
        destruct (Nat.eq_dec z x) as [->|Nz]; [eauto|tauto].
    + replace (t1 ++ Handed c x :: t2 ++ Handed d x :: t ++ [y]) with ((t1 ++ Handed c x :: t2 ++ Handed d x :: t) ++ [y]) in E
        by (rewrite <- app_assoc; simpl; rewrite <- app_assoc; reflexivity).
      apply app_last in E. destruct E as (E & _). eapply IH; eauto.
Qed.

Lemma pool_exclusive : forall tr s c d x, pl_run tr s -> In x (pl_owned s c) ->
  ~ In x (pl_vec s) /\ (In x (pl_owned s d) -> c = d) /\ NoDup (pl_owned s c).
Proof.
  intros tr s c d x R A. apply run_inv in R. split; [|split; [|apply (pi_nd_own _ _ R)]].
  - intros B. pose proof (pi_one _ _ R x (Owned c) InVec A B). discriminate.
  - intros B. pose proof (pi_one _ _ R x (Owned c) (Owned d) A B). congruence.
Qed.

(** a client that is inside a call can move, or another one that holds the lock can *)
Lemma pool_progress : forall tr s c, pl_run tr s -> pl_phase s c <> CIdle ->
  exists d e s', pl_step s e s' /\ pl_phase s' d <> pl_phase s d /\ (d = c \/ pl_lock s = Some d).
Proof.
  intros tr s c R N. apply run_inv in R.
  assert (K : forall d, in_cs (pl_phase s d) = true -> exists e s', pl_step s e s' /\ pl_phase s' d <> pl_phase s d).
  { intros d D. destruct (pl_phase s d) eqn:P; try discriminate.
    - eexists _, _. split; [apply pl_get_read; eauto|]. simpl. rewrite set_same. discriminate.
    - destruct v as [|x v]; eexists _, _; (split; [(apply pl_get_new + eapply pl_get_pop); eauto|]); simpl; rewrite set_same; discriminate.
    - eexists _, _. split; [eapply pl_ret_read; eauto|]. simpl. rewrite set_same. discriminate.
    - eexists _, _. split; [eapply pl_ret_push; eauto|]. simpl. rewrite set_same. discriminate.
    - eexists _, _. split; [eapply pl_len_read; eauto|]. simpl. rewrite set_same. discriminate.
    - eexists _, _. split; [eapply pl_unlock; eauto|]. simpl. rewrite set_same. discriminate. }
  destruct (pl_lock s) as [d|] eqn:L.
  - assert (D : in_cs (pl_phase s d) = true) by now apply (pi_cs _ _ R). destruct (K d D) as (e & s' & ST & Q). eauto 8.
  - destruct (in_cs (pl_phase s c)) eqn:D; [apply (pi_cs _ _ R) in D; congruence|].
    destruct (pl_phase s c) eqn:P; try discriminate; try congruence.
    + exists c, [], (to_phase c CGetLocked (with_lock (Some c) s)). split; [now apply pl_get_lock|]. split; auto. simpl. rewrite set_same, P. discriminate.
    + exists c, [], (to_phase c (CRetLocked x) (with_lock (Some c) s)). split; [now apply pl_ret_lock|]. split; auto. simpl. rewrite set_same, P. discriminate.
    + exists c, [], (to_phase c CLenLocked (with_lock (Some c) s)). split; [now apply pl_len_lock|]. split; auto. simpl. rewrite set_same, P. discriminate.
Qed.

(** ** example: two clients, their calls overlapping *)
Ltac nx R k := eapply plr_step in R; [|k; reflexivity].
Lemma ex_pool_run : exists s, pl_run [Handed 0 0; Handed 1 1; Returned 0 0; Handed 1 0; Length 0 0] s /\
  pl_owned s 0 = [] /\ pl_owned s 1 = [0; 1] /\ pl_vec s = [].
Proof.
  pose proof plr_start as R.
  nx R ltac:(eapply (pl_get _ 0)).
  nx R ltac:(eapply (pl_get _ 1)).
  nx R ltac:(eapply (pl_get_lock _ 0)).
  nx R ltac:(eapply (pl_get_read _ 0)).
  nx R ltac:(eapply (pl_get_new _ 0)).
  nx R ltac:(eapply (pl_unlock _ 0)).
  nx R ltac:(eapply (pl_get_lock _ 1)).
  nx R ltac:(eapply (pl_ret _ 0 0 [] [])).
  nx R ltac:(eapply (pl_get_read _ 1)).
  nx R ltac:(eapply (pl_get_new _ 1)).
  nx R ltac:(eapply (pl_unlock _ 1)).
  nx R ltac:(eapply (pl_ret_lock _ 0 0)).
  nx R ltac:(eapply (pl_get _ 1)).
  nx R ltac:(eapply (pl_ret_read _ 0 0)).
  nx R ltac:(eapply (pl_ret_push _ 0 0 [])).
  nx R ltac:(eapply (pl_unlock _ 0)).
  nx R ltac:(eapply (pl_get_lock _ 1)).
  nx R ltac:(eapply (pl_get_read _ 1)).
  nx R ltac:(eapply (pl_get_pop _ 1 0 [])).
  nx R ltac:(eapply (pl_unlock _ 1)).
  nx R ltac:(eapply (pl_len _ 0)).
  nx R ltac:(eapply (pl_len_lock _ 0)).
  nx R ltac:(eapply (pl_len_read _ 0)).
  eexists. split; [exact R|]. repeat split; reflexivity.
Qed.

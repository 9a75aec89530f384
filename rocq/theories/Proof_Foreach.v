(** C09, C10, C11: the enumeration of features and interactions. *)
From Coq Require Import List NArith ZArith Bool Lia.
From Verif Require Import Base FloatOps FloatB32 Model_Hash Model_Features Model_Weights Spec_Foreach
  Proof_Features Proof_Hash Proof_Weights Proof_WeightsProps.
Import ListNotations.
Open Scope N_scope.

(** positions allowed: a pair list for "skip the first [sk i]" loops *)
Definition pos2 (sk : nat -> nat) (na nb : nat) : list (nat * nat) :=
  flat_map (fun i => map (fun j => (i, j)) (seq (sk i) (nb - sk i))) (seq 0 na).

Lemma in_pos2 : forall sk na nb i j,
  In (i, j) (pos2 sk na nb) <-> (i < na /\ sk i <= j < nb)%nat.
Proof.
  intros. unfold pos2. rewrite in_flat_map. split.
  - intros (x & Hx & H). apply in_map_iff in H. destruct H as (y & E & H). inversion E; subst.
    apply in_seq in Hx. apply in_seq in H. lia.
  - intros (Hi & Hj). exists i. split; [apply in_seq; lia|]. apply in_map_iff. exists j. split; auto.
    apply in_seq. lia.
Qed.

Lemma NoDup_flat_map : forall A B (f : A -> list B) l, NoDup l ->
  (forall a, In a l -> NoDup (f a)) ->
  (forall a b x, In a l -> In b l -> In x (f a) -> In x (f b) -> a = b) ->
  NoDup (flat_map f l).
Proof.
  induction l as [|a l IH]; intros ND H1 H2; simpl; [constructor|]. inversion ND; subst.
  assert (N1 : NoDup (f a)) by (apply H1; left; auto).
  assert (N2 : NoDup (flat_map f l)).
  { apply IH; auto. - intros; apply H1; right; auto.
    - intros; eapply H2; eauto; right; auto. }
  assert (D : forall x, In x (f a) -> ~ In x (flat_map f l)).
  { intros x Hx C. apply in_flat_map in C. destruct C as (b & Hb & C).
    assert (a = b) by (eapply H2; eauto; [left|right]; auto). subst. contradiction. }
  clear - N1 N2 D. induction (f a) as [|y r IH]; simpl; auto. inversion N1; subst. constructor.
  - intros C. apply in_app_iff in C. destruct C; [contradiction|]. apply (D y); auto. left; auto.
  - apply IH; auto. intros x Hx. apply D. right; auto.
Qed.

Lemma NoDup_map_inj : forall A B (f : A -> B) l, (forall a b, f a = f b -> a = b) -> NoDup l -> NoDup (map f l).
Proof. intros. now apply FinFun.Injective_map_NoDup. Qed.

Lemma NoDup_pos2 : forall sk na nb, NoDup (pos2 sk na nb).
Proof.
  intros. unfold pos2. apply NoDup_flat_map.
  - apply seq_NoDup.
  - intros a _. apply NoDup_map_inj; [|apply seq_NoDup]. intros x y E; now inversion E.
  - intros a b x _ _ Ha Hb. apply in_map_iff in Ha. apply in_map_iff in Hb.
    destruct Ha as (? & <- & _). destruct Hb as (? & E & _). now inversion E.
Qed.

Definition pos3 (sk sk2 : nat -> nat) (na nb nc : nat) : list (nat * nat * nat) :=
  flat_map (fun i => flat_map (fun j => map (fun k => (i, j, k)) (seq (sk2 i) (nc - sk2 i)))
                              (seq (sk i) (nb - sk i))) (seq 0 na).

Lemma in_pos3 : forall sk sk2 na nb nc i j k,
  In (i, j, k) (pos3 sk sk2 na nb nc) <-> (i < na /\ sk i <= j < nb /\ sk2 i <= k < nc)%nat.
Proof.
  intros. unfold pos3. rewrite in_flat_map. split.
  - intros (x & Hx & H). apply in_flat_map in H. destruct H as (y & Hy & H).
    apply in_map_iff in H. destruct H as (z & E & Hz). inversion E; subst.
    apply in_seq in Hx. apply in_seq in Hy. apply in_seq in Hz. lia.
  - intros (Hi & Hj & Hk). exists i. split; [apply in_seq; lia|]. apply in_flat_map. exists j.
    split; [apply in_seq; lia|]. apply in_map_iff. exists k. split; auto. apply in_seq. lia.
Qed.

Lemma NoDup_pos3 : forall sk sk2 na nb nc, NoDup (pos3 sk sk2 na nb nc).
Proof.
  intros. unfold pos3. apply NoDup_flat_map.
  - apply seq_NoDup.
  - intros a _. apply NoDup_flat_map.
    + apply seq_NoDup.
    + intros b _. apply NoDup_map_inj; [|apply seq_NoDup]. intros x y E; now inversion E.
    + intros b c x _ _ Hb Hc. apply in_map_iff in Hb. apply in_map_iff in Hc.
      destruct Hb as (? & <- & _). destruct Hc as (? & E & _). now inversion E.
  - intros a b x _ _ Ha Hb. apply in_flat_map in Ha. apply in_flat_map in Hb.
    destruct Ha as (? & _ & Ha). destruct Hb as (? & _ & Hb).
    apply in_map_iff in Ha. apply in_map_iff in Hb.
    destruct Ha as (? & <- & _). destruct Hb as (? & E & _). now inversion E.
Qed.

Lemma map_skipn_seq : forall A B (d : A) (f : A -> B) l n,
  map f (skipn n l) = map (fun j => f (nth j l d)) (seq n (length l - n)).
Proof.
  intros A B d f l n. revert n. induction l as [|a l IH]; intros n.
  - rewrite skipn_nil. reflexivity.
  - destruct n; simpl.
    + f_equal. specialize (IH 0%nat). rewrite Nat.sub_0_r in IH. simpl in IH. rewrite IH.
      rewrite <- seq_shift, map_map. reflexivity.
    + rewrite IH. rewrite <- seq_shift, map_map. reflexivity.
Qed.

Lemma flat_map_enum_seq : forall A B (d : A) (f : N * A -> list B) l,
  flat_map f (enum_from 0 l) = flat_map (fun i => f (N.of_nat i, nth i l d)) (seq 0 (length l)).
Proof.
  intros A B d f l.
  assert (Q : forall l a, flat_map f (enum_from (N.of_nat a) l)
     = flat_map (fun i => f (N.of_nat i, nth (i - a) l d)) (seq a (length l))).
  { induction l0 as [|x l0 IH]; intros a; simpl; auto. rewrite Nat.sub_diag. f_equal.
    replace (N.succ (N.of_nat a)) with (N.of_nat (S a)) by lia. rewrite IH.
    apply flat_map_ext_in.
    intros i Hi. apply in_seq in Hi. do 3 f_equal. replace (i - a)%nat with (S (i - S a)) by lia. reflexivity. }
  etransitivity; [exact (Q l 0%nat)|]. apply flat_map_ext. intros i. now rewrite Nat.sub_0_r.
Qed.

Lemma flat_map_skipn_seq : forall A B (d : A) (f : A -> list B) l n,
  flat_map f (skipn n l) = flat_map (fun j => f (nth j l d)) (seq n (length l - n)).
Proof.
  intros. rewrite !flat_map_concat_map. f_equal. apply map_skipn_seq.
Qed.

Section FE.
Context {O : FOps}.
Implicit Types m : sfeats O.

Lemma fe_quadratic_pos : forall mk m n1 n2,
  fe_quadratic mk m (n1, n2) =
  map (fun p => (mask mk (quadratic_feature_hash (fidx (feats_of n1 m) (fst p)) (fidx (feats_of n2 m) (snd p))),
                 f_mul O (fval (feats_of n1 m) (fst p)) (fval (feats_of n2 m) (snd p))))
      (pos2 (fun i => if ns_eqb n1 n2 then i else 0%nat)
            (length (feats_of n1 m)) (length (feats_of n2 m))).
Proof.
  intros mk m n1 n2. unfold fe_quadratic. unfold feats_of at 1 3 5. destruct (sf_get n1 m) as [a|]; [|reflexivity].
  rewrite (flat_map_enum_seq _ _ (0, f0)). unfold pos2. rewrite map_flat_map.
  apply flat_map_ext. intros i. unfold feats_of, fidx, fval.
  destruct (nth i (sfn_iter a) (0, f0)) as [idx1 v1] eqn:E1.
  destruct (sf_get n2 m) as [b|].
  - rewrite (map_skipn_seq _ _ (0, f0)). rewrite map_map.
    destruct (ns_eqb n1 n2); rewrite ?Nat2N.id; simpl; rewrite ?E1; reflexivity.
  - reflexivity.
Qed.

Lemma fe_cubic_pos : forall mk m n1 n2 n3,
  fe_cubic mk m (n1, n2, n3) =
  map (fun p => let '(i, j, k) := p in
        (mask mk (cubic_feature_hash (fidx (feats_of n1 m) i) (fidx (feats_of n2 m) j) (fidx (feats_of n3 m) k)),
         f_mul O (f_mul O (fval (feats_of n1 m) i) (fval (feats_of n2 m) j)) (fval (feats_of n3 m) k)))
      (pos3 (fun i => if ns_eqb n1 n2 then i else 0%nat)
            (fun i => if ns_eqb n2 n3 then i else 0%nat)
            (length (feats_of n1 m)) (length (feats_of n2 m)) (length (feats_of n3 m))).
Proof.
  intros mk m n1 n2 n3. unfold fe_cubic. unfold feats_of at 1 4 7. destruct (sf_get n1 m) as [a|]; [|reflexivity].
  rewrite (flat_map_enum_seq _ _ (0, f0)). unfold pos3. rewrite map_flat_map.
  apply flat_map_ext. intros i. unfold feats_of, fidx, fval.
  destruct (nth i (sfn_iter a) (0, f0)) as [idx1 v1] eqn:E1.
  destruct (sf_get n2 m) as [b|]; [|reflexivity].
  rewrite (flat_map_skipn_seq _ _ (0, f0)). rewrite map_flat_map.
  replace (if ns_eqb n1 n2 then N.to_nat (N.of_nat i) else 0%nat) with (if ns_eqb n1 n2 then i else 0%nat)
    by (rewrite Nat2N.id; reflexivity).
  apply flat_map_ext. intros j.
  destruct (sf_get n3 m) as [c|]; [|reflexivity].
  rewrite (map_skipn_seq _ _ (0, f0)). rewrite map_map.
  replace (if ns_eqb n2 n3 then N.to_nat (N.of_nat i) else 0%nat) with (if ns_eqb n2 n3 then i else 0%nat)
    by (rewrite Nat2N.id; reflexivity).
  simpl. rewrite ?E1. reflexivity.
Qed.

Lemma pairs_once : forall mk m n1 n2,
  exists ps : list (nat * nat), NoDup ps /\
    (forall i j, In (i, j) ps <->
       (i < length (feats_of n1 m) /\ j < length (feats_of n2 m) /\ (n1 = n2 -> i <= j))%nat) /\
    fe_quadratic mk m (n1, n2) =
    map (fun p => (mask mk (quadratic_feature_hash (fidx (feats_of n1 m) (fst p)) (fidx (feats_of n2 m) (snd p))),
                   f_mul O (fval (feats_of n1 m) (fst p)) (fval (feats_of n2 m) (snd p)))) ps.
Proof.
  intros. eexists. split; [apply NoDup_pos2|]. split; [|apply fe_quadratic_pos].
  intros i j. rewrite in_pos2. destruct (ns_eqb n1 n2) eqn:E.
  - apply ns_eqb_eq in E. subst. split.
    + intros (? & ?). repeat split; try lia.
    + intros (? & ? & A). specialize (A eq_refl). lia.
  - apply ns_eqb_neq in E. split.
    + intros (? & ?). repeat split; try lia; intros; congruence.
    + intros (? & ? & A). lia.
Qed.

(** for a namespace with itself, each unordered pair of positions occurs once *)
Lemma pairs_unordered : forall (ps : list (nat * nat)) n,
  (forall i j, In (i, j) ps <-> (i < n /\ j < n /\ i <= j)%nat) ->
  forall i j, (i < n)%nat -> (j < n)%nat ->
    (In (i, j) ps \/ In (j, i) ps) /\ (In (i, j) ps -> In (j, i) ps -> i = j).
Proof.
  intros ps n H i j Hi Hj. rewrite !H. lia.
Qed.

Lemma triples_visited : forall mk m n1 n2 n3,
  exists ps : list (nat * nat * nat), NoDup ps /\
    (forall i j k, In (i, j, k) ps <->
       (i < length (feats_of n1 m) /\ j < length (feats_of n2 m) /\ k < length (feats_of n3 m)
        /\ (n1 = n2 -> i <= j) /\ (n2 = n3 -> i <= k))%nat) /\
    fe_cubic mk m (n1, n2, n3) =
    map (fun p => let '(i, j, k) := p in
        (mask mk (cubic_feature_hash (fidx (feats_of n1 m) i) (fidx (feats_of n2 m) j) (fidx (feats_of n3 m) k)),
         f_mul O (f_mul O (fval (feats_of n1 m) i) (fval (feats_of n2 m) j)) (fval (feats_of n3 m) k))) ps.
Proof.
  intros. eexists. split; [apply NoDup_pos3|]. split; [|apply fe_cubic_pos].
  intros i j k. rewrite in_pos3.
  destruct (ns_dec n1 n2) as [E|E]; [rewrite (proj2 (ns_eqb_eq n1 n2) E)|rewrite (proj2 (ns_eqb_neq n1 n2) E)];
  (destruct (ns_dec n2 n3) as [E2|E2]; [rewrite (proj2 (ns_eqb_eq n2 n3) E2)|rewrite (proj2 (ns_eqb_neq n2 n3) E2)]);
    try subst n2; try subst n3;
    (split; [intros (? & ? & ?); repeat split; try lia; intros; (congruence || lia)
            |intros (? & ? & ? & A & B); try specialize (A eq_refl); try specialize (B eq_refl); lia]).
Qed.

(** ** C11 *)
Lemma in_feats_all : forall n m p, In p (feats_of n m) -> In p (sf_all m).
Proof.
  intros n m p H. unfold feats_of in H. destruct (sf_get n m) as [s|] eqn:E; [|contradiction].
  apply fm_get_active in E. destruct E as (E & _). apply fm_get_in in E.
  unfold sf_all. apply in_flat_map. exists (n, s). auto.
Qed.

Lemma fe_list_in : forall dbg m pairs triples nb const l,
  fe_list dbg m pairs triples nb const = Ok l ->
  exists b, b <= 31 /\ bits_to_max_feature_index dbg nb = Ok (2 ^ b) /\
    forall i v, In (i, v) l -> In (i, v) (sf_all m) \/ i < 2 ^ b.
Proof.
  intros dbg m pairs triples nb const l H. unfold fe_list in H.
  apply bind_ok in H. destruct H as (mk & Hmk & H).
  destruct (mask_from_bits_ok _ _ _ Hmk) as (b & Hb & -> & _ & Hbits).
  exists b. split; auto. split; auto.
  assert (Mlt : forall h, mask (N.ones b) h < 2 ^ b) by (intros; rewrite mask_mod; apply mod_pow_lt).
  apply bind_ok in H. destruct H as (c & Hc & H). inversion H; subst; clear H.
  intros i v Hin. apply in_app_iff in Hin. destruct Hin as [Hin|Hin]; [now left|right].
  apply in_app_iff in Hin. destruct Hin as [Hin|Hin].
  - apply in_flat_map in Hin. destruct Hin as ((n1 & n2) & _ & Hin).
    rewrite fe_quadratic_pos in Hin. apply in_map_iff in Hin. destruct Hin as (p & E & _).
    inversion E; subst. apply Mlt.
  - apply in_app_iff in Hin. destruct Hin as [Hin|Hin].
    + apply in_flat_map in Hin. destruct Hin as (((n1 & n2) & n3) & _ & Hin).
      rewrite fe_cubic_pos in Hin. apply in_map_iff in Hin. destruct Hin as (((x & y) & z) & E & _).
      inversion E; subst. apply Mlt.
    + destruct const; [|inversion Hc; subst; contradiction].
      unfold constant_feature_index in Hc. rewrite Hbits in Hc. cbn [bind] in Hc. inversion Hc; subst.
      destruct Hin as [E|[]]. inversion E; subst.
      apply N.div_lt; [|lia]. assert (2 ^ b <> 0) by (apply N.pow_nonzero; lia). lia.
Qed.

Lemma indices_in_table : forall dbg m pairs triples nb const mk fsize msize ssize w,
  mask_from_bits dbg nb = Ok mk -> bits_to_max_feature_index dbg nb = Ok fsize ->
  0 < msize < 2 ^ 8 -> 0 < ssize < 2 ^ 8 ->
  dw_new O dbg fsize msize ssize = Ok w ->
  (forall i v, In (i, v) (sf_all m) -> exists h, i = mask mk h) ->
  exists l, fe_list dbg m pairs triples nb const = Ok l /\
    forall i v, In (i, v) l ->
      i < fsize /\
      forall mi, mi < msize -> exists st, dw_state_at dbg w i mi = Ok st /\ length st = N.to_nat ssize.
Proof.
  intros dbg m pairs triples nb const mk fsize msize ssize w Hmk Hbits Hm Hs Hw Hall.
  destruct (mask_from_bits_ok _ _ _ Hmk) as (b & Hb & Emk & _ & Hbits').
  rewrite Hbits in Hbits'. inversion Hbits'; subst fsize; clear Hbits'.
  assert (exists l, fe_list dbg m pairs triples nb const = Ok l) as (l & Hl).
  { unfold fe_list. rewrite Hmk. cbn [bind]. unfold constant_feature_index. rewrite Hbits. cbn [bind].
    destruct const; cbn [bind]; eauto. }
  exists l. split; auto. intros i v Hin.
  destruct (fe_list_in _ _ _ _ _ _ _ Hl) as (b' & _ & Hbits' & K).
  rewrite Hbits in Hbits'. inversion Hbits' as [E]. 
  assert (Hi : i < 2 ^ b).
  { rewrite E. destruct (K i v Hin) as [H|H]; auto.
    destruct (Hall i v H) as (h & ->). rewrite <- E, Emk, mask_mod. apply mod_pow_lt. }
  split; auto. intros mi Hmi.
  destruct (dw_new_inv dbg (2 ^ b) msize ssize w) as (W & F0 & M0 & S0); auto; try lia.
  { apply N.pow_lt_mono_r; lia. }
  destruct (dw_state_ok dbg w i mi W) as (st & Est & L & _); [lia|lia|].
  exists st. split; auto. now rewrite L, S0.
Qed.

End FE.

(** ** C10 refutations *)
Definition c10_ns1 := NsNamed 1.
Definition c10_ns2 := NsNamed 2.
Definition bv (z : Z) : BF0 := fl z.
Definition c10_m : sfeats BF0 :=
  [(c10_ns1, mkSfn c10_ns1 [10; 11] [bv 2; bv 3] true);
   (c10_ns2, mkSfn c10_ns2 [20; 21] [bv 5; bv 7] true)].

(** second and third equal: the combination (second feature of 1) x (first of 2)
    with itself is missing: of the 2*3 = 6 unordered combinations the values
    3*5*5 = 75 do not occur. *)
Lemma triples_missing : forall mk,
  length (fe_cubic mk c10_m (c10_ns1, c10_ns2, c10_ns2)) = 6%nat /\
  existsb (fun p => f_eqb BF0 (snd p) (bv 75)) (fe_cubic mk c10_m (c10_ns1, c10_ns2, c10_ns2)) = false.
Proof. intros; split; vm_compute; reflexivity. Qed.

(** all equal: 2 features have 4 unordered triples, but 5 are used *)
Lemma triples_repeated : forall mk,
  length (fe_cubic mk c10_m (c10_ns1, c10_ns1, c10_ns1)) = 5%nat.
Proof. intros; reflexivity. Qed.

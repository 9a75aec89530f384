(** The order of floats: the laws used, and that exact arithmetic and binary32 have them. *)
From Coq Require Import List NArith ZArith Bool Lia Reals Lra.
From Coq Require Import Floats.SpecFloat.
From Verif Require Import Base FloatOps FloatR FloatB32.

Record ford (O : FOps) : Prop := mkFord {
  fo_nan : forall a b : O, f_leb O a b = true -> f_isnan O a = false /\ f_isnan O b = false;
  fo_refl : forall a : O, f_isnan O a = false -> f_leb O a a = true;
  fo_trans : forall a b c : O, f_leb O a b = true -> f_leb O b c = true -> f_leb O a c = true;
  fo_lt : forall a b : O, f_isnan O a = false -> f_isnan O b = false -> f_ltb O a b = negb (f_leb O b a);
  fo_total : forall a b : O, f_isnan O a = false -> f_isnan O b = false -> f_leb O a b = false -> f_leb O b a = true;
  fo_lt_nan : forall a b : O, f_ltb O a b = true -> f_isnan O a = false /\ f_isnan O b = false;
  fo_lits : f_isnan O (@f0 O) = false /\ f_leb O (f_neg O (@fl O 50)) (@fl O 50) = true
}.

Lemma RF_ford : ford RF.
Proof.
  constructor; cbn [f_leb f_ltb f_isnan f_neg RF]; intros; auto.
  - destruct (Rleb_spec a a); auto. lra.
  - destruct (Rleb_spec a b), (Rleb_spec b c), (Rleb_spec a c); auto; try discriminate. lra.
  - destruct (Rltb_spec a b), (Rleb_spec b a); auto; lra.
  - destruct (Rleb_spec a b), (Rleb_spec b a); auto; try discriminate. lra.
  - split; auto. rewrite RF_fl. destruct (Rleb_spec (- IZR 50) (IZR 50)); auto. lra.
Qed.

(** a float as a triple compared lexicographically *)
Definition bkey (a : spec_float) : Z * Z * Z :=
  match a with
  | S754_infinity true => (-2, 0, 0)
  | S754_finite true m e => (-1, - e, Z.neg m)
  | S754_zero _ | S754_nan => (0, 0, 0)
  | S754_finite false m e => (1, e, Z.pos m)
  | S754_infinity false => (2, 0, 0)
  end%Z.
Definition lexcmp (x y : Z * Z * Z) : comparison :=
  match Z.compare (fst (fst x)) (fst (fst y)) with
  | Eq => match Z.compare (snd (fst x)) (snd (fst y)) with
          | Eq => Z.compare (snd x) (snd y)
          | c => c
          end
  | c => c
  end.
Definition lexlt (x y : Z * Z * Z) : Prop :=
  (fst (fst x) < fst (fst y) \/ fst (fst x) = fst (fst y) /\
    (snd (fst x) < snd (fst y) \/ snd (fst x) = snd (fst y) /\ snd x < snd y))%Z.

Lemma lexcmp_spec : forall x y, CompareSpec (x = y) (lexlt x y) (lexlt y x) (lexcmp x y).
Proof.
  intros [[a b] c] [[a' b'] c']. unfold lexcmp, lexlt. simpl.
  destruct (Z.compare_spec a a'); [destruct (Z.compare_spec b b'); [destruct (Z.compare_spec c c')|..]|..];
  constructor; subst; auto; lia.
Qed.

Lemma SFcompare_key : forall a b, b_isnan a = false -> b_isnan b = false ->
  SFcompare a b = Some (lexcmp (bkey a) (bkey b)).
Proof.
  intros [s|s| |s m e] [s'|s'| |s' m' e'] H K; try discriminate; unfold SFcompare, lexcmp, bkey;
  try destruct s; try destruct s'; simpl; auto;
  try (rewrite Z.compare_opp; destruct (Z.compare e e') eqn:E;
       try (rewrite Z.compare_antisym, E); try reflexivity); try reflexivity.
  all: try (rewrite <- Z.compare_antisym; reflexivity).
Qed.

Lemma SFcompare_nan : forall a b, SFcompare a b <> None -> b_isnan a = false /\ b_isnan b = false.
Proof. intros [| | |] [| | |] H; simpl in *; auto; congruence. Qed.

Lemma SFleb_lex : forall a b, SFleb a b = true <->
  b_isnan a = false /\ b_isnan b = false /\ ~ lexlt (bkey b) (bkey a).
Proof.
  intros a b. split.
  - intros H. assert (N : SFcompare a b <> None) by (unfold SFleb in H; destruct (SFcompare a b); congruence).
    apply SFcompare_nan in N. destruct N as (Na & Nb). split; auto. split; auto.
    unfold SFleb in H. rewrite SFcompare_key in H by auto.
    destruct (lexcmp_spec (bkey a) (bkey b)) as [E|L|L]; try discriminate; unfold lexlt in *;
    try rewrite E; lia.
  - intros (Na & Nb & L). unfold SFleb. rewrite SFcompare_key by auto.
    destruct (lexcmp_spec (bkey a) (bkey b)) as [E|G|G]; auto; contradiction.
Qed.

Lemma SFltb_lex : forall a b, SFltb a b = true <->
  b_isnan a = false /\ b_isnan b = false /\ lexlt (bkey a) (bkey b).
Proof.
  intros a b. split.
  - intros H. assert (N : SFcompare a b <> None) by (unfold SFltb in H; destruct (SFcompare a b); congruence).
    apply SFcompare_nan in N. destruct N as (Na & Nb). split; auto. split; auto.
    unfold SFltb in H. rewrite SFcompare_key in H by auto.
    destruct (lexcmp_spec (bkey a) (bkey b)) as [E|L|L]; try discriminate; auto.
  - intros (Na & Nb & L). unfold SFltb. rewrite SFcompare_key by auto.
    destruct (lexcmp_spec (bkey a) (bkey b)) as [E|G|G]; auto;
    unfold lexlt in *; try rewrite E in L; lia.
Qed.

Lemma lexlt_dec : forall x y, lexlt x y \/ ~ lexlt x y.
Proof. intros x y. unfold lexlt. lia. Qed.

Lemma bool_iff : forall a b : bool, (a = true <-> b = true) -> a = b.
Proof. intros [|] [|] H; auto; [symmetry; now apply H|now apply H]. Qed.

Lemma BF_ford : forall e l p, ford (BF e l p).
Proof.
  intros e l p. constructor; cbn [f_leb f_ltb f_isnan BF].
  - intros a b H. apply SFleb_lex in H. tauto.
  - intros a H. apply SFleb_lex. split; auto. split; auto. unfold lexlt. lia.
  - intros a b c H K. apply SFleb_lex in H. apply SFleb_lex in K. apply SFleb_lex.
    destruct H as (? & ? & H). destruct K as (? & ? & K). split; auto. split; auto.
    unfold lexlt in *. lia.
  - intros a b Na Nb. apply bool_iff. rewrite SFltb_lex, negb_true_iff.
    split.
    + intros (_ & _ & L). apply not_true_is_false. rewrite SFleb_lex. intros (_ & _ & K). contradiction.
    + intros H. split; auto. split; auto. apply not_true_iff_false in H. rewrite SFleb_lex in H.
      destruct (lexlt_dec (bkey a) (bkey b)); tauto.
  - intros a b Na Nb H. apply SFleb_lex. split; auto. split; auto.
    apply not_true_iff_false in H. rewrite SFleb_lex in H.
    destruct (lexlt_dec (bkey b) (bkey a)) as [L|L]; [|tauto]. unfold lexlt in *. lia.
  - intros a b H. apply SFltb_lex in H. tauto.
  - split; vm_compute; reflexivity.
Qed.

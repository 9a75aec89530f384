(** Exploring stacks over their lifetime: examples and a counterexample. *)
From Coq Require Import List NArith ZArith Bool Lia Reals Lra SpecFloat.
From Verif Require Import Base FloatOps FloatB32 FloatV32 Model_Hash Model_Features Model_Weights Model_Interactions Model_Types Model_Explore Model_Coin Model_Stack Model_Factory
  Spec_Features Spec_Coin Spec_Stack Spec_Reductions Spec_Total Spec_Explore Spec_FloatReal Proof_StackRestore Proof_StackProps Proof_Types Proof_FloatRound Proof_FloatSum Spec_Lifetime.
Import ListNotations.
Open Scope N_scope.

(** the largest float *)
Definition vtop : v32 := exist _ (S754_finite false 16777215 104) eq_refl.
Definition two_hist (x : v32) : list (fop VF0) := [FAdd 1 NsDefault 5 (x : VF0); FAdd 1 NsDefault 6 (x : VF0)].
Definition two_store (x : v32) : fstore VF0 := match fops_run false (two_hist x) fstore0 with Ok st => st | _ => fstore0 end.
(** empty shared features and two equal actions with two features of value [x] *)
Definition twins (x : v32) : features VF0 := FtsCb (Some (two_store x 0%nat)) [two_store x 1%nat; two_store x 1%nat].
Definition sq_cfg : rcfg VF0 := CDebug (CSquareCb (@f_lit VF0 1 10) f1 f1 (CCbAdf Mtr (CCoin coin_default))).
Definition sq_lb : label VF0 := LbCb 0 (@fl VF0 (-30)) f1.

Fixpoint train (k : nat) {n} (f : features VF0) (lb : label VF0) (r : red VF0 n) : out (red VF0 n) :=
  match k with
  | O => Ok r
  | S k => let* r1 := train k f lb r in let* x := ws_learn false r1 f lb in Ok (fst x)
  end.
Lemma train_reach : forall k n f lb (r0 r : red VF0 n), train k f lb r0 = Ok r -> reach false r0 r.
Proof.
  induction k as [|k IH]; intros n f lb r0 r E; cbn [train] in E; [inversion E; apply reach_refl|].
  binv E. binv E. destruct v0 as (r2 & f2). cbn [fst] in E. inversion E; subst. eapply reach_learn; [eapply IH; eauto|eauto].
Qed.
Lemma twins_built : forall x, built_fts (twins x).
Proof.
  intros x. assert (B : forall i, built (two_store x i)) by (intros i; exists false, (two_hist x), (two_store x), i; split; reflexivity).
  split; [intros a [<-|[<-|[]]]; apply B|apply B].
Qed.
Lemma twins_below : forall x, all_below 16 (twins x).
Proof.
  intros x a Ha i v Hin. cbn in Ha. destruct Ha as [<-|[<-|[<-|[]]]]; cbn in Hin; try contradiction;
    destruct Hin as [K|[K|[]]]; inversion K; reflexivity.
Qed.
Lemma twins_values : forall x, all_values (fun v : VF0 => v = x) (twins x).
Proof.
  intros x a i v Ha Hin. cbn in Ha. destruct Ha as [<-|[<-|[<-|[]]]]; cbn in Hin; try contradiction;
    destruct Hin as [K|[K|[]]]; inversion K; reflexivity.
Qed.
Lemma tenth_rate : rate (b_lit 1 10).
Proof.
  replace (b_lit 1 10) with (S754_finite false 13421773 (-27)) by (vm_compute; reflexivity).
  split; [split; reflexivity|]. cbn [bval bsgn]. unfold p2. cbn [powerRZ].
  replace (2 ^ Pos.to_nat 27)%R with 134217728%R by (rewrite pow_IZR; f_equal; reflexivity). lra.
Qed.

Definition fine (R : anyred VF0) : bool :=
  negb (uses_elem (projT2 R)) && pred_type_eqb (td_out_pred (red_types (projT2 R))) PTProbs.
Definition nan_check : bool :=
  match ws_new ex_hash false ex_gc sq_cfg with
  | Ok R => fine R && match train 7 (twins (v_lit 1 1)) sq_lb (projT2 R) with
            | Ok r => match ws_predict false r (twins vtop) with Pn PNaN => true | _ => false end
            | _ => false end
  | _ => false end.
Lemma nan_checked : nan_check = true. Proof. vm_compute. reflexivity. Qed.

Lemma overflow_panics : exists (c : rcfg VF0) R r (f : features VF0) ueps gs ge,
  ws_new ex_hash false ex_gc c = Ok R /\ reach false (projT2 R) r /\ uses_elem (projT2 R) = false /\
  bits_to_max_feature_index false (gc_bits ex_gc) = Ok 16 /\ built_fts f /\ all_below 16 f /\ feat_type_of f = FTCb /\
  td_out_pred (red_types (projT2 R)) = PTProbs /\ num_actions f = 2 /\
  all_values (fun v : VF0 => bfin (un v) = true) f /\
  explorer_of c = Some (KSquareCb ueps gs ge 0) /\ rate (un ueps) /\ gs = f1 /\ ge = f1 /\
  ws_predict false r f = Pn PNaN.
Proof.
  pose proof nan_checked as C. unfold nan_check in C.
  destruct (ws_new ex_hash false ex_gc sq_cfg) as [R|?|?] eqn:E; try discriminate. apply andb_true_iff in C. destruct C as (C1 & C2).
  destruct (train 7 _ _ (projT2 R)) as [r|?|?] eqn:Er; try discriminate.
  unfold fine in C1. apply andb_true_iff in C1. destruct C1 as (U & P). apply negb_true_iff in U. apply pt_eqb in P.
  exists sq_cfg, R, r, (twins vtop), (@f_lit VF0 1 10), f1, f1.
  split; [exact E|]. split; [eapply train_reach; exact Er|]. split; [exact U|]. split; [reflexivity|]. split; [apply twins_built|].
  split; [apply twins_below|]. split; [reflexivity|]. split; [exact P|]. split; [reflexivity|].
  split; [intros a i v Ha Hin; rewrite (twins_values vtop a i v Ha Hin); reflexivity|].
  split; [reflexivity|]. split; [exact tenth_rate|]. split; [reflexivity|]. split; [reflexivity|].
  destruct (ws_predict false r (twins vtop)) as [?|?|[]]; try discriminate; reflexivity.
Qed.

(** the same stack with ordinary values *)
Fixpoint top_of (n : nat) : red VF0 n -> option { m : nat & (kind VF0 * red VF0 m)%type } :=
  match n with
  | 0%nat => fun _ => None
  | S m => fun r => match snd (fst r) with KDebug => top_of m (snd r) | k => Some (existT _ m (k, snd r)) end
  end.
Lemma top_of_ok : forall n r m k ch, top_of n r = Some (existT _ m (k, ch)) -> topmost n r k m ch.
Proof.
  induction n as [|n IH]; intros r m k ch E; [discriminate|]. destruct r as ((w & k1) & c1).
  destruct k1; cbn [top_of fst snd] in E;
    try (assert (K : projT1 (existT (fun m => (kind VF0 * red VF0 m)%type) n (k, c1)) = m) by (now inversion E); cbn in K; subst m;
         inversion E as [[K1 K2]]; apply (Eqdep_dec.inj_pair2_eq_dec _ PeanoNat.Nat.eq_dec) in K2; inversion K2; subst; apply top_here).
  apply top_debug. auto.
Qed.
Definition pos_fin (x : b32) : bool := match x with S754_finite false _ _ => true | _ => false end.
Definition top_check {n} (r : red VF0 n) : bool :=
  match top_of n r with
  | Some (existT _ m (KSquareCb u gs ge c, ch)) =>
      match un u with S754_finite false 13421773 (-27) => true | _ => false end &&
      pos_fin (un (v_mul gs ((fun x _ : v32 => x) (v_lit (Z.of_N c) 1) ge))) &&
      match ws_predict false ch (twins (v_lit 1 1)) with
      | Ok (PrScores sc, _) => forallb (fun e => negb (b_isinf (un (snd e)))) sc && existsb (fun e => negb (SFeqb (un (snd e)) (b_of_Z 0))) sc
      | _ => false
      end
  | _ => false
  end.
Definition ok_check : bool :=
  match ws_new ex_hash false ex_gc sq_cfg with
  | Ok R => fine R && match train 7 (twins (v_lit 1 1)) sq_lb (projT2 R) with Ok r => top_check r | _ => false end
  | _ => false end.
Lemma ok_checked : ok_check = true. Proof. vm_compute. reflexivity. Qed.
Lemma lifetime_ex : exists R r, ws_new ex_hash false ex_gc sq_cfg = Ok R /\ reach false (projT2 R) r /\ uses_elem (projT2 R) = false /\
  bits_to_max_feature_index false (gc_bits ex_gc) = Ok 16 /\ built_fts (twins (v_lit 1 1)) /\ all_below 16 (twins (v_lit 1 1)) /\
  feat_type_of (twins (v_lit 1 1)) = FTCb /\ td_out_pred (red_types (projT2 R)) = PTProbs /\ 0 < num_actions (twins (v_lit 1 1)) <= 3000 /\
  exists k m (ch : red VF0 m) (sc : list (N * v32)) f1, topmost _ r k m ch /\ ws_predict false ch (twins (v_lit 1 1)) = Ok (@PrScores VF0 sc, f1) /\
    settled _ _ _ k sc.
Proof.
  pose proof ok_checked as C. unfold ok_check in C.
  destruct (ws_new ex_hash false ex_gc sq_cfg) as [R|?|?] eqn:E; try discriminate. apply andb_true_iff in C. destruct C as (C1 & C2).
  destruct (train 7 _ _ (projT2 R)) as [r|?|?] eqn:Er; try discriminate.
  unfold fine in C1. apply andb_true_iff in C1. destruct C1 as (U & P). apply negb_true_iff in U. apply pt_eqb in P.
  exists R, r. split; [reflexivity|]. split; [eapply train_reach; exact Er|]. split; [exact U|]. split; [reflexivity|]. split; [apply twins_built|].
  split; [apply twins_below|]. split; [reflexivity|]. split; [exact P|]. split; [cbn [num_actions twins length N.of_nat]; lia|].
  unfold top_check in C2. destruct (top_of (projT1 R) r) as [(m & (k & ch))|] eqn:T; [|discriminate]. apply top_of_ok in T.
  destruct k; try discriminate. apply andb_true_iff in C2. destruct C2 as (C2 & C3). apply andb_true_iff in C2. destruct C2 as (C1 & C2).
  destruct (ws_predict false ch (twins (v_lit 1 1))) as [([?|?|sc|?] & f1)|?|?] eqn:Ep; try discriminate. apply andb_true_iff in C3. destruct C3 as (C3 & _).
  eexists _, m, ch, sc, f1. split; [exact T|]. split; [exact Ep|]. cbn [settled]. split; [|split].
  - assert (EU : un ueps = b_lit 1 10).
    { replace (b_lit 1 10) with (S754_finite false 13421773 (-27)) by (vm_compute; reflexivity).
      destruct (un ueps) as [?|?| |[] q e] eqn:Q; try discriminate C1.
      destruct (Pos.eq_dec q 13421773) as [->|Nq].
      - destruct (Z.eq_dec e (-27)) as [->|Ne]; [reflexivity|]. exfalso. clear - C1 Ne.
        destruct e as [|e|e]; try discriminate. do 5 (destruct e as [e|e|]; try discriminate). congruence.
      - exfalso. clear - C1 Nq. repeat (destruct q as [q|q|]; try discriminate). congruence. }
    rewrite EU. exact tenth_rate.
  - match goal with |- factor ?g _ => set (ga := g) in *; assert (Bk : bok ga) by (exact (proj2_sig _)); assert (Pf : pos_fin ga = true) by exact C2 end.
    clearbody ga. destruct ga as [?|?| |[] q e]; try discriminate. assert (0 < bval (S754_finite false q e))%R.
    { cbn [bval bsgn]. pose proof (p2_pos e). assert (0 < IZR (Zpos q))%R by (apply IZR_lt; lia). assert (0 < IZR (Zpos q) * p2 e)%R by (apply Rmult_lt_0_compat; lra). lra. }
    split; [split; [exact Bk|reflexivity]|]. split; [lra|]. now left.
  - intros a s I. rewrite forallb_forall in C3. specialize (C3 _ I). cbn [snd] in C3. now apply negb_true_iff in C3.
Qed.

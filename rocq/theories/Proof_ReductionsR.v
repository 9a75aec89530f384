(** C47 with the logistic link, C16 witnesses. *)
From Coq Require Import List NArith ZArith Bool Lia Reals Lra SpecFloat.
From Verif Require Import Base FloatOps FloatR FloatB32 Model_Hash Model_Features Model_Weights Model_Loss Model_Types Model_Explore
  Model_Coin Model_Stack Model_Factory Spec_Reductions Proof_StackRestore Proof_StackShape Proof_StackPtl Proof_StackProps Proof_Reductions.
Import ListNotations.
Open Scope R_scope.

Lemma link_logistic_pos : forall v : R, 0 < @link_fun RF LinkLogistic v.
Proof.
  intros v. unfold link_fun. cbn [f_div f_add f_exp f_neg RF]. rewrite RF_f1. pose proof (exp_pos (- v)).
  apply Rdiv_lt_0_compat; lra.
Qed.

Lemma predict_scalar_pos : forall dbg n (r : red RF n) f d mo v raw f' d',
  cc_link (co_cfg (bottom n r)) = LinkLogistic ->
  predict dbg n r f d mo = Ok (PrScalar v raw, f', d') -> 0 < v.
Proof.
  induction n as [|n IH]; intros r f d mo v raw f' d' L H.
  - cbn [predict] in H. apply wrap_ok in H. destruct H as (d1 & d2 & H). unfold coin_predict_body in H.
    binv H. binv H. inversion H; subst. unfold coin_predict in B0. binv B0. binv B0. binv B0.
    cbn [bottom] in L. rewrite L in B0. inversion B0. apply link_logistic_pos.
  - cbn [predict] in H. destruct r as ((w & k) & ch). apply wrap_ok in H. destruct H as (d1 & d2 & H).
    destruct k; cbn [kind_predict] in H.
    + binv H. destruct v0 as ((p & g) & e). binv H. discriminate.
    + binv H. binv H. destruct v1 as ((scs & acs) & d3). discriminate.
    + binv H. destruct v0 as ((p & g) & e). binv H. binv H. discriminate.
    + binv H. destruct v0 as ((p & g) & e). binv H. binv H. discriminate.
    + binv H. destruct v0 as ((p & g) & e). binv H. binv H. discriminate.
    + apply elem_frame_inv in H. destruct H as (g & g' & H). eapply IH; [|exact H]. exact L.
    + eapply IH; [|exact H]. exact L.
Qed.

Lemma logistic_always_true : forall dbg n w (ch : red RF n) f p f',
  cc_link (co_cfg (bottom n ch)) = LinkLogistic ->
  ws_predict dbg ((w, KBinary, ch) : red RF (S n)) f = Ok (p, f') -> p = PrBinary true.
Proof.
  intros dbg n w ch f p f' L H. apply binary_predict in H. destruct H as (v & raw & H & ->).
  apply ws_predict_ok in H. pose proof (predict_scalar_pos _ _ _ _ _ _ _ _ _ _ L H) as Hp. f_equal.
  unfold f_gtb. cbn [f_ltb RF]. rewrite RF_f0. destruct (Rltb_spec 0 v); auto; contradiction.
Qed.

Lemma link_underflow : forall bexp bln bpow (v : spec_float),
  bexp (SFopp v) = S754_infinity false ->
  @f_gtb (BF bexp bln bpow) (@link_fun (BF bexp bln bpow) LinkLogistic v) f0 = false.
Proof.
  intros bexp bln bpow v H. unfold link_fun. cbn [f_neg f_exp f_div f_add BF].
  rewrite H. vm_compute. reflexivity.
Qed.

Lemma negative_exponent : forall dbg bexp bln bpow (ge : spec_float),
  bpow (@f_of_N (BF bexp bln bpow) 0) ge = S754_infinity false ->
  @squarecb_probs (BF bexp bln bpow) dbg f0 (@squarecb_gamma (BF bexp bln bpow) f1 ge 0) [(0%N, f1); (1%N, f1)]
  = Ok [(0%N, S754_nan); (1%N, S754_nan)].
Proof.
  intros dbg bexp bln bpow ge H. unfold squarecb_gamma. cbn [f_pow BF].
  match goal with |- context [f_mul _ _ ?z] => replace z with (S754_infinity false) by (symmetry; exact H) end.
  destruct dbg; vm_compute; reflexivity.
Qed.

(** ** concrete stacks for the examples (binary32) *)
Definition ex_mtr_cfg : rcfg BF0 := CCbAdf Mtr (CCoin coin_default).
Definition ex_ips_cfg : rcfg BF0 := CCbAdf Ips (CCoin coin_default).
Definition ex_bin_cfg : rcfg BF0 := CBinary (CCoin coin_default).
Definition top1 (x : out (anyred BF0)) : option (winfo * kind BF0 * red BF0 0) :=
  match x with Ok (existT _ 1%nat r) => Some r | _ => None end.
Lemma top1_ok : forall x r, top1 x = Some r -> x = Ok (existT (red BF0) 1%nat r).
Proof. intros [[[|[|n]] r0]|e|e] r H; simpl in H; try discriminate. now inversion H. Qed.

Lemma ex_mtr : exists w (ch : red BF0 0) r1 f1 r2 f2,
  ws_new ex_hash false ex_gc ex_mtr_cfg = Ok (existT (red BF0) 1%nat (w, KCbAdf Mtr 0 0, ch)) /\
  ws_learn false ((w, KCbAdf Mtr 0 0, ch) : red BF0 1) ex_fts ex_lb = Ok (r1, f1) /\
  ws_learn false r1 ex_fts ex_lb = Ok (r2, f2).
Proof.
  destruct (top1 (ws_new ex_hash false ex_gc ex_mtr_cfg)) as [[[w k] ch]|] eqn:E; [|vm_compute in E; discriminate].
  assert (k = KCbAdf Mtr 0 0) by (vm_compute in E; inversion E; reflexivity). subst k.
  assert (C : match ws_learn false ((w, KCbAdf Mtr 0 0, ch) : red BF0 1) ex_fts ex_lb with
              | Ok (r1, _) => ok_of (ws_learn false r1 ex_fts ex_lb) | _ => false end = true).
  { vm_compute in E. inversion E; subst. vm_compute. reflexivity. }
  apply top1_ok in E.
  destruct (ws_learn false ((w, KCbAdf Mtr 0 0, ch) : red BF0 1) ex_fts ex_lb) as [[r1 g1]|e|e] eqn:E1; try discriminate.
  destruct (ws_learn false r1 ex_fts ex_lb) as [[r2 g2]|e|e] eqn:E2; try discriminate.
  exists w, ch, r1, g1, r2, g2. auto.
Qed.
Lemma ex_ips : exists w (ch : red BF0 0) r1 f1 p f2,
  ws_new ex_hash false ex_gc ex_ips_cfg = Ok (existT (red BF0) 1%nat (w, KCbAdf Ips 0 0, ch)) /\
  ws_learn false ((w, KCbAdf Ips 0 0, ch) : red BF0 1) ex_fts ex_lb = Ok (r1, f1) /\
  ws_predict false ((w, KCbAdf Ips 0 0, ch) : red BF0 1) ex_fts = Ok (p, f2).
Proof.
  destruct (top1 (ws_new ex_hash false ex_gc ex_ips_cfg)) as [[[w k] ch]|] eqn:E; [|vm_compute in E; discriminate].
  assert (k = KCbAdf Ips 0 0) by (vm_compute in E; inversion E; reflexivity). subst k.
  assert (C : ok_of (ws_learn false ((w, KCbAdf Ips 0 0, ch) : red BF0 1) ex_fts ex_lb) &&
              ok_of (ws_predict false ((w, KCbAdf Ips 0 0, ch) : red BF0 1) ex_fts) = true).
  { vm_compute in E. inversion E; subst. vm_compute. reflexivity. }
  apply top1_ok in E. apply andb_prop in C. destruct C as (C1 & C2).
  destruct (ws_learn false ((w, KCbAdf Ips 0 0, ch) : red BF0 1) ex_fts ex_lb) as [[r1 g1]|e|e] eqn:E1; try discriminate.
  destruct (ws_predict false ((w, KCbAdf Ips 0 0, ch) : red BF0 1) ex_fts) as [[r2 g2]|e|e] eqn:E2; try discriminate.
  exists w, ch, r1, g1, r2, g2. auto.
Qed.
Lemma ex_bin : exists w (ch : red BF0 0) r1 f1 f2,
  ws_new ex_hash false ex_gc ex_bin_cfg = Ok (existT (red BF0) 1%nat (w, KBinary, ch)) /\
  ws_learn false ((w, KBinary, ch) : red BF0 1) (FtsSimple (ex_store 1%nat)) (LbBinary true) = Ok (r1, f1) /\
  ws_predict false r1 (FtsSimple (ex_store 1%nat)) = Ok (PrBinary true, f2).
Proof.
  destruct (top1 (ws_new ex_hash false ex_gc ex_bin_cfg)) as [[[w k] ch]|] eqn:E; [|vm_compute in E; discriminate].
  assert (k = KBinary) by (vm_compute in E; inversion E; reflexivity). subst k.
  assert (C : match ws_learn false ((w, KBinary, ch) : red BF0 1) (FtsSimple (ex_store 1%nat)) (LbBinary true) with
              | Ok (r1, _) => match ws_predict false r1 (FtsSimple (ex_store 1%nat)) with Ok (PrBinary true, _) => true | _ => false end
              | _ => false end = true).
  { vm_compute in E. inversion E; subst. vm_compute. reflexivity. }
  apply top1_ok in E.
  destruct (ws_learn false ((w, KBinary, ch) : red BF0 1) (FtsSimple (ex_store 1%nat)) (LbBinary true)) as [[r1 g1]|e|e] eqn:E1; try discriminate.
  destruct (ws_predict false r1 (FtsSimple (ex_store 1%nat))) as [[p g2]|e|e] eqn:E2; try discriminate.
  destruct p as [|[|]| |]; try discriminate.
  exists w, ch, r1, g1, g2. auto.
Qed.
Definition top3 (x : out (anyred BF0)) : option (winfo * kind BF0 * red BF0 2) :=
  match x with Ok (existT _ 3%nat r) => Some r | _ => None end.
Lemma top3_ok : forall x r, top3 x = Some r -> x = Ok (existT (red BF0) 3%nat r).
Proof. intros [[[|[|[|[|n]]]] r0]|e|e] r H; simpl in H; try discriminate. now inversion H. Qed.
Lemma ex_explore : exists w eps (ch : red BF0 2) p f',
  ws_new ex_hash false ex_gc ex_cfg = Ok (existT (red BF0) 3%nat (w, KGreedy eps, ch)) /\
  ws_predict false ((w, KGreedy eps, ch) : red BF0 3) ex_fts = Ok (p, f').
Proof.
  destruct (top3 (ws_new ex_hash false ex_gc ex_cfg)) as [[[w k] ch]|] eqn:E; [|vm_compute in E; discriminate].
  assert (K : exists eps, k = KGreedy eps) by (vm_compute in E; inversion E; eauto). destruct K as (eps & ->).
  assert (C : ok_of (ws_predict false ((w, KGreedy eps, ch) : red BF0 3) ex_fts) = true).
  { vm_compute in E. inversion E; subst. vm_compute. reflexivity. }
  apply top3_ok in E.
  destruct (ws_predict false ((w, KGreedy eps, ch) : red BF0 3) ex_fts) as [[p g]|e|e] eqn:E2; try discriminate.
  exists w, eps, ch, p, g. auto.
Qed.

(** a logistic stack in exact arithmetic, on an example without features *)
Definition ex_log_coin : coin R :=
  @mkCoin R (@mkDw R [] 16 1 6 3 3) (@mkCoinCfg R 4 1 0 0 LossSquared LinkLogistic) [(0, 0)] 0 0 0 LossSquared [] [] 4 false.
Definition ex_log : red RF 1 :=
  (mkW (mkTd LTBinary (Some LTSimple) FTSimple (Some FTSimple) (Some PTScalar) PTBinary) 1, KBinary,
   (mkW (mkTd LTSimple None FTSimple None None PTScalar) 1, ex_log_coin)).
Lemma ex_log_ok : exists p f', ws_predict false ex_log (FtsSimple []) = Ok (p, f').
Proof.
  assert (C : @f_clamp RF 0 0 0 = Ok 0).
  { unfold f_clamp. cbn [f_leb f_ltb RF]. destruct (Rleb_spec 0 0); [|lra]. destruct (Rltb_spec 0 0); destruct (Rltb 0 0); reflexivity. }
  assert (P : exists v, coin_predict false (ex_log_coin : coin RF) [] = Ok (PrScalar v 0)).
  { unfold coin_predict. replace (coin_feats false (ex_log_coin : coin RF) []) with (Ok ([] : list (N * RF))) by reflexivity.
    cbn [bind]. unfold coin_dot. cbn [foldm bind f_isnan RF]. rewrite RF_f0.
    change (co_min (ex_log_coin : coin RF)) with 0. change (co_max (ex_log_coin : coin RF)) with 0. rewrite C. cbn [bind]. eauto. }
  destruct P as (v & P). do 2 eexists. apply binary_intro with (raw := 0). apply coin_intro. exact P.
Qed.

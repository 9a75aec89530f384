(** The text the command-line program reads and writes (C76). *)
From Coq Require Import String List NArith ZArith Bool Lia PeanoNat.
From Verif Require Import Base FloatOps FloatB32 Model_Hash Model_Features Model_Interactions Model_Weights Model_Loss Model_Explore Model_Coin Model_Types
  Model_Stack Model_Factory Model_Text Model_Metrics Model_Train Model_Json Model_Config Model_JsonTrain Model_Save Model_Export Model_Command Model_Cli
  Spec_Features Spec_Stack Spec_Text Spec_Metrics Spec_Progress Spec_Save Spec_Export Spec_Command Spec_Cli
  Proof_StackRestore Proof_StackPtl Proof_StackShape Proof_StackProps Proof_Types Proof_Progress Proof_Export Proof_Command.
Import ListNotations.
Open Scope N_scope.

(** ** numbers *)
Lemma decimal_undec : forall s n, decimal s n -> s <> [] /\ forallb is_digit s = true /\ undec s = n.
Proof.
  induction 1 as [d L|s n d D (IH1 & IH2 & IH3) L].
  - split; [discriminate|]. split.
    + unfold forallb, is_digit. rewrite (proj2 (N.leb_le _ _)), (proj2 (N.leb_le _ _)) by lia. reflexivity.
    + unfold undec. cbn [fold_left]. lia.
  - split; [now destruct s|]. split.
    + rewrite forallb_app, IH2. cbn [forallb andb]. unfold is_digit. rewrite (proj2 (N.leb_le _ _)), (proj2 (N.leb_le _ _)) by lia. reflexivity.
    + rewrite undec_snoc, IH3. lia.
Qed.
Lemma undec_decimal : forall s, s <> [] -> forallb is_digit s = true -> decimal s (undec s).
Proof.
  induction s as [|c s IH] using rev_ind; intros NE D; [congruence|].
  rewrite forallb_app in D. apply andb_true_iff in D. destruct D as (D1 & D2). cbn [forallb] in D2. rewrite andb_true_r in D2.
  unfold is_digit in D2. apply andb_true_iff in D2. destruct D2 as (A & B). apply N.leb_le in A, B.
  rewrite undec_snoc. replace [c] with [48 + (c - 48)] by (f_equal; lia). destruct s as [|c0 s].
  - cbn [app undec fold_left]. replace (10 * 0 + (c - 48)) with (c - 48) by lia. constructor; lia.
  - constructor; [apply IH; [discriminate|exact D1]|lia].
Qed.
Lemma parse_u32_digits : forall s n, (match s with [] => None | _ => if forallb is_digit s && (undec s <? 2 ^ 32) then Some (undec s) else None end = Some n)
  <-> decimal s n /\ n < 2 ^ 32.
Proof.
  intros s n. split.
  - intro E. destruct s as [|c s]; [discriminate|]. destruct (forallb is_digit (c :: s)) eqn:D; [|discriminate].
    destruct (undec (c :: s) <? 2 ^ 32) eqn:L; [|discriminate]. apply N.ltb_lt in L. cbn [andb] in E. injection E as <-.
    split; [|exact L]. apply undec_decimal; [discriminate|exact D].
  - intros (D & L). destruct (decimal_undec _ _ D) as (NE & F & U). rewrite F, U, (proj2 (N.ltb_lt _ _) L). now destruct s.
Qed.
Lemma decimal_no_plus : forall s n, decimal s n -> ~ In 43 s.
Proof.
  intros s n D I. destruct (decimal_undec _ _ D) as (_ & F & _). rewrite forallb_forall in F. specialize (F _ I). discriminate F.
Qed.
Lemma parse_u32_iff : forall s n, parse_u32 s = Some n <-> number s n.
Proof.
  intros s n. unfold parse_u32. split.
  - intro E. destruct s as [|c [|c2 s]].
    + discriminate E.
    + apply (parse_u32_digits [c] n) in E. destruct E. now constructor.
    + destruct (c =? 43) eqn:C.
      * apply N.eqb_eq in C. subst c. apply (parse_u32_digits (c2 :: s) n) in E. destruct E. now constructor.
      * apply (parse_u32_digits (c :: c2 :: s) n) in E. destruct E. now constructor.
  - intro K. destruct K as [s n D L|s' n D L].
    + destruct s as [|c [|c2 s]]; [now apply (parse_u32_digits [] n)|now apply (parse_u32_digits [c] n)|].
      destruct (c =? 43) eqn:C; [|apply (parse_u32_digits (c :: c2 :: s) n); auto].
      apply N.eqb_eq in C. subst c. destruct (decimal_no_plus _ _ D). now left.
    + destruct s' as [|c2 s']; [destruct (decimal_undec _ _ D); congruence|]. rewrite N.eqb_refl. apply (parse_u32_digits (c2 :: s') n). auto.
Qed.
Lemma number_nil : forall n, ~ number [] n.
Proof. intros n K. inversion K as [? ? D|]; subst. destruct (decimal_undec _ _ D); congruence. Qed.
Lemma period_iff : forall A lower (pf : str -> option A) s p, parse_period lower pf s = Some p <-> period_text pf (lower s) p.
Proof.
  intros A lower pf s p. unfold parse_period. set (v := lower s). clearbody v. clear s lower.
  assert (M : forall (o : option N), option_map (@Additive A) o = Some p <-> exists n, o = Some n /\ p = Additive n).
  { intros [n|]; cbn; split; [intros [= <-]; eauto|intros (m & [= ->] & ->); reflexivity|discriminate|intros (m & K & _); discriminate]. }
  destruct v as [|c rest].
  - rewrite M. split.
    + intros (n & E & ->). discriminate E.
    + intro K. inversion K as [? n N0| |]; subst. now apply number_nil in N0.
  - destruct (c =? 43) eqn:C1; [apply N.eqb_eq in C1; subst c|].
    + rewrite M. split.
      * intros (n & E & ->). apply parse_u32_iff in E. now constructor.
      * intro K. inversion K as [? n N0|? n N0|]; subst.
        -- exists n. split; auto. apply parse_u32_iff. inversion N0 as [? ? D L|? ? D L]; subst; [|now constructor].
           destruct (decimal_no_plus _ _ D). now left.
        -- exists n. split; auto. now apply parse_u32_iff.
    + destruct (c =? 42) eqn:C2; [apply N.eqb_eq in C2; subst c|].
      * split.
        -- intro E. destruct (pf rest) as [x|] eqn:X; [|discriminate]. injection E as <-. now constructor.
        -- intro K. inversion K as [? n N0|? n N0|? x X]; subst; [|now rewrite X].
           apply parse_u32_iff in N0. unfold parse_u32 in N0. destruct rest; cbn in N0; discriminate.
      * rewrite M. split.
        -- intros (n & E & ->). apply parse_u32_iff in E. now constructor.
        -- intro K. inversion K as [? n N0|? n N0|? x X]; subst; [|rewrite N.eqb_refl in C1; discriminate|rewrite N.eqb_refl in C2; discriminate].
           exists n. split; auto. now apply parse_u32_iff.
Qed.

(** ** the predictions file *)
Section Text.
Context {O : FOps} (pr : O -> str) (PR : prints pr).

(** cutting a text where a class of characters ends *)
Lemma span_one : forall (P : N -> Prop) a a' c c' r r', Forall P a -> Forall P a' -> ~ P c -> ~ P c' ->
  a ++ c :: r = a' ++ c' :: r' -> a = a' /\ c = c' /\ r = r'.
Proof.
  intros P. induction a as [|x a IH]; intros a' c c' r r' F F' N0 N' E; destruct a' as [|y a']; cbn [app] in E.
  - injection E as -> ->. auto.
  - injection E as -> _. inversion F'; subst. contradiction.
  - injection E as <- _. inversion F; subst. contradiction.
  - injection E as -> E. inversion F; inversion F'; subst. destruct (IH a' c c' r r') as (-> & -> & ->); auto.
Qed.
Lemma dec_facts : forall n, undec (dec n) = n /\ forallb (fun c => (48 <=? c) && (c <=? 57)) (dec n) = true.
Proof.
  intro n. apply digits_ok. rewrite Nat2N.inj_succ, N2Nat.id. destruct n as [|p]; [cbn; lia|]. apply N.log2_spec. lia.
Qed.
Lemma dec_inj : forall n m, dec n = dec m -> n = m.
Proof. intros n m E. rewrite <- (proj1 (dec_facts n)), <- (proj1 (dec_facts m)), E. reflexivity. Qed.
Lemma dec_chars : forall n, Forall number_char (dec n).
Proof.
  intro n. apply Forall_forall. intros c I. pose proof (proj2 (dec_facts n)) as D. rewrite forallb_forall in D. specialize (D c I).
  apply andb_true_iff in D. destruct D as (A & B). apply N.leb_le in A, B. left. lia.
Qed.
Lemma num_chars : forall x, finite x -> Forall number_char (num_text pr x).
Proof. intros x F. unfold num_text. pose proof F as (A & B). rewrite A, B. cbn [orb]. now apply PR. Qed.
Lemma num_inj : forall x y, finite x -> finite y -> num_text pr x = num_text pr y -> x = y.
Proof. intros x y Fx Fy. unfold num_text. pose proof Fx as (A & B). pose proof Fy as (A' & B'). rewrite A, B, A', B'. cbn [orb]. now apply PR. Qed.
Lemma not_num : forall c, In c [10; 44; 93; 125] -> ~ number_char c.
Proof. intros c I [K|K]; cbn in *; intuition (subst; try lia; discriminate). Qed.

Lemma pair_inj : forall x y r r', finite (snd x) -> finite (snd y) -> pair_text pr x ++ r = pair_text pr y ++ r' -> x = y /\ r = r'.
Proof.
  intros (n & x) (m & y) r r' Fx Fy E. cbn [fst snd] in *. unfold pair_text in E. cbn [fst snd] in E. rewrite <- !app_assoc in E. apply app_inv_head in E.
  change (lit ",") with [44] in E. change (lit "]") with [93] in E. cbn [app] in E.
  apply (span_one number_char) in E; auto using dec_chars; try (apply not_num; cbn; tauto). destruct E as (E1 & _ & E).
  apply (span_one number_char) in E; auto using num_chars; try (apply not_num; cbn; tauto). destruct E as (E2 & _ & E).
  apply dec_inj in E1. apply num_inj in E2; auto. now subst.
Qed.
Lemma pair_head : forall x : N * O, exists t, pair_text pr x = 91 :: t.
Proof. intros x. unfold pair_text. change (lit "[") with [91]. cbn [app]. eauto. Qed.
Lemma commas_head : forall l, commas (map (pair_text pr) l) = [] \/ exists t, commas (map (pair_text pr) l) = 91 :: t.
Proof.
  intros [|x [|y l]]; [left; reflexivity|right; cbn [map commas]; apply pair_head|]. right. destruct (pair_head x) as (t & E).
  cbn [map commas]. rewrite E. cbn [app]. eauto.
Qed.
Definition all_finite (l : list (N * O)) : Prop := forall a x, In (a, x) l -> finite x.
Lemma commas_inj : forall l l', all_finite l -> all_finite l' ->
  commas (map (pair_text pr) l) ++ [93] = commas (map (pair_text pr) l') ++ [93] -> l = l'.
Proof.
  induction l as [|x l IH]; intros l' F F' E; destruct l' as [|y l']; auto.
  - exfalso. destruct (pair_head y) as (t & ET). destruct l'; cbn [map commas] in E; rewrite ET in E; cbn in E; discriminate.
  - exfalso. destruct (pair_head x) as (t & ET). destruct l; cbn [map commas] in E; rewrite ET in E; cbn in E; discriminate.
  - assert (Fx : finite (snd x)) by (destruct x; eapply F; now left).
    assert (Fy : finite (snd y)) by (destruct y; eapply F'; now left).
    assert (Fl : all_finite l) by (intros a z I; eapply F; right; exact I).
    assert (Fl' : all_finite l') by (intros a z I; eapply F'; right; exact I).
    assert (C : forall z q, commas (map (pair_text pr) (z :: q)) ++ [93] =
                pair_text pr z ++ match q with [] => [93] | _ => 44 :: commas (map (pair_text pr) q) ++ [93] end).
    { intros z [|z2 q]; [reflexivity|]. cbn [map commas]. now rewrite <- app_assoc. }
    rewrite !C in E. apply pair_inj in E; auto. destruct E as (-> & E). f_equal. apply IH; auto.
    destruct l as [|x2 l], l' as [|y2 l']; auto; try discriminate E. now injection E.
Qed.
Lemma line_inj : forall p q, finite_pred p -> finite_pred q -> pred_type_of p = pred_type_of q -> pred_text pr p = pred_text pr q -> p = q.
Proof.
  intros [a b|x|l|l] [a' b'|x'|l'|l'] F F' T E; try discriminate T; cbn [pred_text finite_pred] in *.
  - destruct F as (Fa & Fb), F' as (Fa' & Fb'). apply app_inv_head in E.
    change (lit ",""raw_prediction"":") with (44 :: lit """raw_prediction"":") in E. change (lit "}") with [125] in E. cbn [app] in E.
    apply (span_one number_char) in E; auto using num_chars; try (apply not_num; cbn; tauto). destruct E as (E1 & _ & E). apply app_inv_head in E.
    apply (span_one number_char) in E; auto using num_chars; try (apply not_num; cbn; tauto). destruct E as (E2 & _ & _).
    apply num_inj in E1, E2; auto. now subst.
  - destruct x, x'; auto; discriminate E.
  - apply app_inv_head in E. change (lit "]") with [93] in E. apply commas_inj in E; auto. now subst.
  - apply app_inv_head in E. change (lit "]") with [93] in E. apply commas_inj in E; auto. now subst.
Qed.

(** no newline inside a line *)
Definition safe (s : str) : Prop := Forall (fun c => c <> 10) s.
Lemma safe_app : forall a b, safe a -> safe b -> safe (a ++ b).
Proof. intros. now apply Forall_app. Qed.
Lemma safe_num : forall s, Forall number_char s -> safe s.
Proof. intros s F. eapply Forall_impl; [|exact F]. intros c K ->. revert K. apply not_num. cbn. tauto. Qed.
Lemma safe_lit : forall s, forallb (fun c => negb (c =? 10)) s = true -> safe s.
Proof. intros s F. apply Forall_forall. intros c I ->. rewrite forallb_forall in F. specialize (F _ I). discriminate F. Qed.
Lemma safe_value : forall x, (finite x -> Forall number_char (pr x)) -> safe (num_text pr x).
Proof.
  intros x K. unfold num_text. destruct (f_isnan O x) eqn:A; [now apply safe_lit|]. destruct (f_isinf O x) eqn:B; [now apply safe_lit|].
  cbn [orb]. apply safe_num, K. now split.
Qed.
Lemma safe_line : forall p, safe (pred_text pr p).
Proof.
  destruct PR as (PC & _).
  assert (S1 : forall l, safe (commas (map (pair_text pr) l))).
  { assert (S0 : forall x, safe (pair_text pr x)).
    { intros x. unfold pair_text. apply safe_app; [apply safe_lit; reflexivity|]. apply safe_app; [apply safe_num, dec_chars|].
      apply safe_app; [apply safe_lit; reflexivity|]. apply safe_app; [apply safe_value; auto|apply safe_lit; reflexivity]. }
    induction l as [|x [|y l] IH]; [constructor|apply S0|]. cbn [map commas] in *. apply safe_app; auto. apply safe_app; auto. apply safe_lit; reflexivity. }
  intros [a b|[]|l|l]; cbn [pred_text]; repeat apply safe_app; auto; try (apply safe_lit; reflexivity); apply safe_value; auto.
Qed.
Lemma safe_in : forall s, safe s -> ~ In 10 s.
Proof. intros s F I. unfold safe in F. rewrite Forall_forall in F. now apply (F 10). Qed.
Lemma file_lines : forall ps, full_lines (predictions_file pr ps) (map (fun p => pred_text pr p ++ [10]) ps).
Proof.
  induction ps as [|p ps IH]; [constructor|]. unfold predictions_file. cbn [map concat]. rewrite <- app_assoc. cbn [app].
  constructor; [apply safe_in, safe_line|exact IH].
Qed.
Lemma file_inj : forall t ps qs, Forall finite_pred ps -> Forall finite_pred qs ->
  Forall (fun p => pred_type_of p = t) ps -> Forall (fun p => pred_type_of p = t) qs ->
  predictions_file pr ps = predictions_file pr qs -> ps = qs.
Proof.
  intro t. induction ps as [|p ps IH]; intros [|q qs] F F' T T' E; auto; unfold predictions_file in E; cbn [map concat] in E;
    try (rewrite <- app_assoc in E; symmetry in E; apply app_eq_nil in E; destruct E as (_ & E); discriminate E);
    try (rewrite <- app_assoc in E; apply app_eq_nil in E; destruct E as (_ & E); discriminate E).
  rewrite <- !app_assoc in E. cbn [app] in E.
  apply (span_one (fun c => c <> 10)) in E; try apply safe_line; try lia. destruct E as (E & _ & E').
  inversion F; inversion F'; inversion T; inversion T'; subst. f_equal; [apply line_inj; auto; congruence|]. apply IH; auto.
Qed.
End Text.

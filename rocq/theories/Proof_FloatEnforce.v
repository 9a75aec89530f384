(** The minimum probability in single precision. *)
From Coq Require Import List NArith ZArith Bool Lia Reals Lra Permutation Sorted.
From Coq Require Import Floats.SpecFloat.
From Verif Require Import Base FloatOps FloatB32 Model_Explore Spec_Explore Spec_FloatReal Proof_FloatOrder Proof_FloatRound Proof_FloatSum
  Proof_Explore Proof_ExploreProps Proof_FloatExplore.
Import ListNotations.
Open Scope R_scope.

Section Enforce.
Context (bexp bln : b32 -> b32) (bpow : b32 -> b32 -> b32).
Notation B := (BF bexp bln bpow).

Definition nn (x : b32) : Prop := bnum x /\ 0 <= bval x.
(** how far a computed running sum may be off *)
Definition serr (A : list b32) (r : b32) : Prop :=
  nn r /\ Rabs (bval r - rsum (map bval A)) <= INR (length A) * (5 / 4 * u * (rsum (map bval A) + / 4)).
(** the exact threshold of a prefix *)
Definition thrb (k m : R) (A : list b32) : R := thr k m (map bval A).

(** the computed threshold is close to the exact one *)
Definition thr_f (D minp r J : b32) : b32 := b_div (b_sub (b_add (b_mul D minp) r) (b_of_Z 1)) J.
Lemma thr_err : forall (k : R) (A : list b32) D minp r J, A <> [] -> INR (length A) <= k -> k <= 1048576 -> nn minp -> k * bval minp <= 1 ->
  rsum (map bval A) <= 3 / 2 -> 0 <= rsum (map bval A) -> serr A r ->
  bnum D -> bval D = k - INR (length A) -> bnum J -> bval J = INR (length A) ->
  bnum (thr_f D minp r J) /\ Rabs (bval (thr_f D minp r J) - thrb k (bval minp) A) <= 13 * u /\ Rabs (bval (thr_f D minp r J)) <= 3.
Proof.
  intros k A D minp r J NA Lk Uk (Vm & Pm) Km S1 S0 ((Vr & Pr) & Er) VD ED VJ EJ. unfold thr_f, thrb, thr. rewrite map_length.
  set (m := bval minp) in *. set (j := INR (length A)) in *. set (S := rsum (map bval A)) in *.
  assert (J1 : 1 <= j) by (change 1 with (INR 1); apply le_INR; destruct A; [congruence|cbn; lia]).
  pose proof eta_val as EV. pose proof u_val as UV.
  assert (Er2 : Rabs (bval r - S) <= 35 / 16 * (j * u)).
  { eapply Rle_trans; [exact Er|]. replace (j * (5 / 4 * u * (S + / 4))) with (5 / 4 * ((j * u) * (S + / 4))) by ring.
    assert ((j * u) * (S + / 4) <= (j * u) * (7 / 4)). { apply Rmult_le_compat_l; [apply Rmult_le_pos; rewrite ?UV; lra|lra]. } lra. }
  apply Rabs_le_inv in Er2. assert (Ju : u <= j * u <= / 16) by (rewrite UV; lra).
  assert (Dm : 0 <= bval D * m <= 1). { rewrite ED. split; [apply Rmult_le_pos; lra|]. apply Rle_trans with (k * m); [apply Rmult_le_compat_r; lra|auto]. }
  pose proof (nmul D minp VD Vm) as K1. fold m in K1. destruct (near_le _ _ 1 K1) as (V1 & E1); [rewrite Rabs_pos_eq; lra|lra|].
  pose proof (near_nn _ _ K1 ltac:(lra)) as P1. set (x1 := b_mul D minp) in *. apply Rabs_le_inv in E1.
  pose proof (nadd x1 r V1 Vr) as K2. destruct (near_le _ _ 3 K2) as (V2 & E2); [rewrite Rabs_pos_eq; rewrite UV in *; lra|lra|].
  pose proof (near_nn _ _ K2 ltac:(lra)) as P2. set (x2 := b_add x1 r) in *. apply Rabs_le_inv in E2.
  destruct one_num as (Vo & Eo). pose proof (nsub x2 (b_of_Z 1) V2 Vo) as K3. rewrite Eo in K3.
  destruct (near_le _ _ 2 K3) as (V3 & E3); [apply Rabs_le; rewrite UV in *; lra|lra|]. set (x3 := b_sub x2 (b_of_Z 1)) in *. apply Rabs_le_inv in E3.
  set (ex := (k - j) * m + S - 1) in *. rewrite ED in E1, Dm.
  assert (E4 : - (9 * (j * u)) <= bval x3 - ex <= 9 * (j * u)) by (unfold ex; rewrite UV in *; lra).
  assert (B3 : Rabs (bval x3) <= 5 / 2) by (apply Rabs_le; unfold ex in E4; rewrite UV in *; lra).
  assert (Ij : 0 < / j <= 1) by (split; [apply Rinv_0_lt_compat; lra|rewrite <- Rinv_1; apply Rinv_le_contravar; lra]).
  assert (B4 : Rabs (bval x3 / j) <= 5 / 2).
  { unfold Rdiv. rewrite Rabs_mult, (Rabs_pos_eq (/ j)) by lra. pose proof (Rabs_pos (bval x3)). apply Rle_trans with (5 / 2 * 1); [apply Rmult_le_compat; lra|lra]. }
  pose proof (ndiv x3 J V3 VJ ltac:(lra)) as K4. rewrite EJ in K4. destruct (near_le _ _ (5 / 2) K4) as (V4 & E5); [auto|lra|].
  split; auto. assert (Q : - (9 * u) <= bval x3 / j - ex / j <= 9 * u).
  { replace (bval x3 / j - ex / j) with ((bval x3 - ex) * / j) by (field; lra).
    replace (9 * u) with (9 * (j * u) * / j) by (field; lra). rewrite Ropp_mult_distr_l. split; apply Rmult_le_compat_r; lra. }
  apply Rabs_le_inv in E5. apply Rabs_le_inv in B4. split; apply Rabs_le; rewrite UV in *; lra.
Qed.

(** the computed bound of the loop *)
Lemma bound_err : forall (k : R) (A : list b32) D minp r J, A <> [] -> INR (length A) <= k -> k <= 1048576 -> nn minp -> k * bval minp <= 1 ->
  rsum (map bval A) <= 3 / 2 -> 0 <= rsum (map bval A) -> serr A r ->
  bnum D -> bval D = k - INR (length A) -> bnum J -> bval J = INR (length A) ->
  bnum (b_add (thr_f D minp r J) minp) /\ Rabs (bval (b_add (thr_f D minp r J) minp) - (thrb k (bval minp) A + bval minp)) <= 18 * u.
Proof.
  intros k A D minp r J NA Lk Uk Hm Km S1 S0 Hr VD ED VJ EJ.
  destruct (thr_err k A D minp r J NA Lk Uk Hm Km S1 S0 Hr VD ED VJ EJ) as (V & E & BD). destruct Hm as (Vm & Pm).
  assert (J1 : 1 <= INR (length A)) by (change 1 with (INR 1); apply le_INR; destruct A; [congruence|cbn; lia]).
  assert (m1 : bval minp <= 1). { apply Rle_trans with (k * bval minp); auto. replace (bval minp) with (1 * bval minp) at 1 by ring. apply Rmult_le_compat_r; lra. }
  pose proof (nadd _ _ V Vm) as K. apply Rabs_le_inv in BD. destruct (near_le _ _ 4 K) as (V2 & E2); [apply Rabs_le; lra|lra|]. split; auto.
  apply Rabs_le_inv in E. apply Rabs_le_inv in E2. pose proof eta_val as EV. pose proof u_val as UV. apply Rabs_le. rewrite UV in *. lra.
Qed.

(** ** the loop *)
Definition ds (a b : b32) : Prop := bval b <= bval a.
Definition fsplit (k m : R) (pre : list b32) (rho : N * b32) : Prop :=
  exists A C, pre = A ++ C /\ A <> [] /\ N.to_nat (fst rho) = (length A - 1)%nat /\ serr A (snd rho) /\
    (forall x, In x A -> thrb k m A + m - 18 * u <= bval x) /\
    match C with [] => True | c :: _ => bval c <= thrb k m A + m + 36 * u end.

Lemma serr_step : forall A r p, serr A r -> nn p -> (forall x, In x A -> nn x) -> INR (length (A ++ [p])) <= 1048576 -> rsum (map bval (A ++ [p])) <= 3 / 2 ->
  serr (A ++ [p]) (b_add r p).
Proof.
  intros A r p ((Vr & Pr) & Er) Hp HA L S. rewrite app_length, plus_INR in L. rewrite map_app, rsum_app in S. cbn [map rsum fold_right length INR] in L, S.
  assert (S0 : 0 <= rsum (map bval A)). { apply rsum_nonneg. intros x Hx. apply in_map_iff in Hx. destruct Hx as (y & <- & Hy). apply HA; auto. }
  destruct (fold_sum [p] r (rsum (map bval A)) (INR (length A))) as (V & P & E); auto.
  - apply pos_INR.
  - intros x [<-|[]]. exact Hp.
  - cbn [map rsum fold_right]. lra.
  - split; [split; auto|]. rewrite map_app, rsum_app, app_length, plus_INR. exact E.
Qed.
Lemma rsum_prefix : forall a c, (forall x, In x c -> nn x) -> rsum (map bval a) <= rsum (map bval (a ++ c)).
Proof.
  intros a c H. rewrite map_app, rsum_app. assert (0 <= rsum (map bval c)); [|lra]. apply rsum_nonneg. intros x Hx. apply in_map_iff in Hx. destruct Hx as (y & <- & Hy). apply H; auto.
Qed.
Lemma sorted_before : forall pre p l x, StronglySorted ds (pre ++ p :: l) -> In x pre -> bval p <= bval x.
Proof.
  induction pre as [|y pre IH]; intros p l x S Hx; [contradiction|]. cbn [app] in S. inversion S as [|? ? S' F]; subst. destruct Hx as [<-|Hx]; eauto.
  rewrite Forall_forall in F. apply F. apply in_app_iff. right. now left.
Qed.

Lemma rho_loop_float : forall dbg consider support (minp : b32) (l : list (N * b32)) z idx running rho pre,
  let k := INR (N.to_nat support) in
  (forall e, In e l -> (negb consider && SFeqb (snd e) (S754_zero false))%bool = false) ->
  match z with [] => True | e :: _ => (negb consider && SFeqb (snd e) (S754_zero false))%bool = true end ->
  idx = N.of_nat (length pre) -> (length pre + length l = N.to_nat support)%nat -> k <= 1048576 ->
  nn minp -> k * bval minp <= 1 -> (forall x, In x (pre ++ map snd l) -> nn x) -> rsum (map bval (pre ++ map snd l)) <= 3 / 2 ->
  StronglySorted ds (pre ++ map snd l) -> pre <> [] -> serr pre running -> fsplit k (bval minp) pre rho ->
  exists rho', @rho_loop B dbg consider support minp (l ++ z) idx running rho = Ok rho' /\ fsplit k (bval minp) (pre ++ map snd l) rho'.
Proof.
  intros dbg consider support minp l z. induction l as [|[a p] l IH]; intros idx running rho pre k Hl Hz Ei Hlen Hk Hm Km Hnn HS Hsort NP Hr Hrho.
  - cbn [app map] in *. rewrite app_nil_r. exists rho. split; auto. destruct z as [|[c q] z]; [reflexivity|]. cbn [rho_loop].
    change (f_eqb B q f0) with (SFeqb q (S754_zero false)). cbn [snd] in Hz. now rewrite Hz.
  - cbn [app map snd length] in *. cbn [rho_loop]. change (f_eqb B p f0) with (SFeqb p (S754_zero false)). pose proof (Hl (a, p) (or_introl eq_refl)) as Hl0. cbn [snd] in Hl0. rewrite Hl0. clear Hl0.
    unfold usub at 1. rewrite (proj2 (N.leb_le _ _)) by lia. cbn [bind]. unfold usub at 1. rewrite (proj2 (N.leb_le _ _)) by lia. cbn [bind].
    set (pre' := pre ++ [p]). assert (EA : pre ++ p :: map snd l = pre' ++ map snd l) by (unfold pre'; now rewrite <- app_assoc). rewrite EA in *.
    change (f_add B running p) with (b_add running p). set (run := b_add running p).
    assert (Lp : length pre' = S (length pre)) by (unfold pre'; rewrite app_length; cbn; lia).
    assert (Hp : nn p) by (apply Hnn; unfold pre'; apply in_app_iff; left; apply in_app_iff; right; now left).
    assert (Hpre : forall x, In x pre -> nn x) by (intros x Hx; apply Hnn; unfold pre'; apply in_app_iff; left; apply in_app_iff; now left).
    assert (Hpre' : forall x, In x pre' -> nn x) by (intros x Hx; apply Hnn; apply in_app_iff; now left).
    assert (Hrest : forall x, In x (map snd l) -> nn x) by (intros x Hx; apply Hnn; apply in_app_iff; now right).
    assert (S1 : rsum (map bval pre') <= 3 / 2) by (eapply Rle_trans; [apply (rsum_prefix pre' (map snd l)); auto|exact HS]).
    assert (S0 : 0 <= rsum (map bval pre')) by (apply rsum_nonneg; intros x Hx; apply in_map_iff in Hx; destruct Hx as (y & <- & Hy); apply Hpre'; auto).
    assert (Lk : INR (length pre') <= k) by (apply le_INR; lia).
    assert (Hrun : serr pre' run) by (apply serr_step; auto; fold pre'; lra).
    destruct (of_N_int bexp bln bpow (support - idx - 1)) as (VD & ED). { eapply Rle_trans; [apply le_INR|exact Hk]. lia. }
    destruct (of_N_int bexp bln bpow idx) as (VI & EI). { eapply Rle_trans; [apply le_INR|exact Hk]. lia. }
    set (D := @f_of_N B (support - idx - 1)) in *. set (I := @f_of_N B idx) in *.
    assert (ED' : bval D = k - INR (length pre')). { rewrite ED. unfold k. rewrite <- minus_INR by lia. f_equal. lia. }
    destruct one_num as (Vo & Eo).
    assert (HJ : bnum (b_add I (b_of_Z 1)) /\ bval (b_add I (b_of_Z 1)) = INR (length pre')).
    { rewrite INR_IZR_INZ in EI. destruct (add_int I (b_of_Z 1) (Z.of_nat (N.to_nat idx)) 1 VI Vo EI Eo) as (V & E).
      - assert (KK : (Z.of_nat (length pre') <= 1048576)%Z) by (apply le_IZR; rewrite <- INR_IZR_INZ; lra). change (2 ^ 24)%Z with 16777216%Z. lia.
      - split; auto. rewrite E, INR_IZR_INZ. f_equal. lia. }
    destruct HJ as (VJ & EJ).
    change (f_add B (f_div B (f_sub B (f_add B (f_mul B D minp) run) f1) (f_add B I f1)) minp) with (b_add (thr_f D minp run (b_add I (b_of_Z 1))) minp).
    destruct (bound_err k pre' D minp run (b_add I (b_of_Z 1))) as (VB & EB); auto. { unfold pre'. destruct pre; discriminate. }
    set (bound := b_add (thr_f D minp run (b_add I (b_of_Z 1))) minp) in *. apply Rabs_le_inv in EB.
    unfold f_gtb. change (f_ltb B bound p) with (SFltb bound p).
    apply (IH (idx + 1)%N run _ pre'); auto.
    + intros e He. apply Hl. now right.
    + lia.
    + lia.
    + unfold pre'. destruct pre; discriminate.
    + destruct (SFltb bound p) eqn:LT.
      * apply nltb in LT; [|auto|apply Hp]. exists pre', []. rewrite app_nil_r. split; auto. split; [unfold pre'; destruct pre; discriminate|].
        split; [cbn [fst]; lia|]. split; [exact Hrun|]. split; auto. intros x Hx. unfold pre' in Hx. apply in_app_iff in Hx.
        assert (PX : bval p <= bval x). { destruct Hx as [Hx|[<-|[]]]; [|lra]. rewrite <- EA in Hsort. eapply sorted_before; eauto. } fold k. lra.
      * apply nltb_f in LT; [|auto|apply Hp]. destruct Hrho as (A & C & E & NA & Hi & Hs & HA & HC). destruct C as [|c C].
        -- rewrite app_nil_r in E. subst A. exists pre, [p]. split; auto. split; auto. split; auto. split; auto. split; auto.
           fold k. assert (X : bval p <= thrb k (bval minp) pre' + bval minp + 18 * u) by lra. clear - X NP.
           assert (J1 : 1 <= INR (length pre)) by (change 1 with (INR 1); apply le_INR; destruct pre; [congruence|cbn; lia]).
           unfold thrb, thr, pre' in *. rewrite map_length in *. rewrite app_length, plus_INR in X. rewrite map_app, rsum_app in X. cbn [length INR map rsum fold_right] in X.
           set (j := INR (length pre)) in *. set (S := rsum (map bval pre)) in *. set (m := bval minp) in *. set (x := bval p) in *.
           assert (U0 : 0 < u) by apply p2_pos.
           apply (Rmult_le_compat_r (j + 1)) in X; [|lra].
           replace ((((k - (j + 1)) * m + (S + (x + 0)) - 1) / (j + 1) + m + 18 * u) * (j + 1)) with ((k - (j + 1)) * m + S + x - 1 + (m + 18 * u) * (j + 1)) in X by (field; lra).
           apply (Rmult_le_reg_r j); [lra|]. replace ((((k - j) * m + S - 1) / j + m + 36 * u) * j) with ((k - j) * m + S - 1 + (m + 36 * u) * j) by (field; lra). nra.
        -- exists A, ((c :: C) ++ [p]). unfold pre'. subst pre. rewrite <- app_assoc. split; auto.
Qed.

Lemma rho_first_float : forall dbg consider support (minp : b32) a p (l z : list (N * b32)),
  let k := INR (N.to_nat support) in
  (forall e, In e ((a, p) :: l) -> (negb consider && SFeqb (snd e) (S754_zero false))%bool = false) ->
  match z with [] => True | e :: _ => (negb consider && SFeqb (snd e) (S754_zero false))%bool = true end ->
  (S (length l) = N.to_nat support)%nat -> k <= 1048576 ->
  nn minp -> k * bval minp <= 1 -> (forall x, In x (p :: map snd l) -> nn x) -> rsum (map bval (p :: map snd l)) <= 3 / 2 ->
  StronglySorted ds (p :: map snd l) ->
  exists rho, @rho_loop B dbg consider support minp (((a, p) :: l) ++ z) 0 (S754_zero false) (0%N, p) = Ok rho /\ fsplit k (bval minp) (p :: map snd l) rho.
Proof.
  intros dbg consider support minp a p l z k Hl Hz Hlen Hk Hm Km Hnn HS Hsort.
  cbn [app rho_loop]. change (f_eqb B p f0) with (SFeqb p (S754_zero false)). pose proof (Hl (a, p) (or_introl eq_refl)) as Hl0. cbn [snd] in Hl0. rewrite Hl0. clear Hl0.
  unfold usub at 1. rewrite (proj2 (N.leb_le _ _)) by lia. cbn [bind]. unfold usub at 1. rewrite (proj2 (N.leb_le _ _)) by lia. cbn [bind].
  change (f_add B (S754_zero false) p) with (b_add (S754_zero false) p).
  assert (Hp : nn p) by (apply Hnn; now left). pose proof u_val as UV.
  assert (Sp : bval p <= 3 / 2). { cbn [map rsum fold_right] in HS. fold (rsum (map bval (map snd l))) in HS.
    assert (0 <= rsum (map bval (map snd l))); [|lra]. apply rsum_nonneg. intros x Hx. apply in_map_iff in Hx. destruct Hx as (y & <- & Hy). apply Hnn. now right. }
  assert (R0 : serr [] (S754_zero false)). { split; [split; [apply zero_num|cbn; lra]|]. cbn. rewrite Rminus_0_r, Rabs_R0. lra. }
  assert (R1 : serr [p] (b_add (S754_zero false) p)).
  { apply (serr_step [] (S754_zero false) p R0 Hp); [intros x []|cbn; lra|cbn; lra]. }
  assert (R2 : serr [p] p). { split; auto. cbn [map rsum fold_right length INR]. destruct Hp as (_ & Pp). replace (bval p - (bval p + 0)) with 0 by ring. rewrite Rabs_R0, UV. lra. }
  assert (FS : forall r, serr [p] r -> fsplit k (bval minp) [p] (0%N, r)).
  { intros r Hr. exists [p], []. split; auto. split; [discriminate|]. split; auto. split; auto. split; auto. intros x [<-|[]].
    unfold thrb, thr. cbn [map length INR rsum fold_right]. replace (((k - 1) * bval minp + (bval p + 0) - 1) / 1 + bval minp - 18 * u) with (k * bval minp + bval p - 1 - 18 * u) by field. rewrite UV. lra. }
  apply (rho_loop_float dbg consider support minp l z 1%N _ _ [p]); auto.
  - intros e He. apply Hl. now right.
  - discriminate.
  - match goal with |- context [if ?c then _ else _] => destruct c end; apply FS; auto.
Qed.

(** ** sorting *)
Lemma sort_sorted : forall (l : list (N * b32)), fnumbers l -> StronglySorted ds (map snd (sort_by (fun x y : N * b32 => SFltb (snd x) (snd y)) l)).
Proof.
  intros l H. set (b := fun x y : N * b32 => SFltb (snd x) (snd y)).
  induction l as [|x l IH]; [constructor|]. cbn [sort_by fold_right]. specialize (IH (fun a p I => H a p (or_intror I))). change (fold_right (insert_by b) [] l) with (sort_by b l).
  assert (Hx : bnum (snd x)) by (destruct x as (a, p); apply (H a p); now left).
  assert (Hs : forall y, In y (sort_by b l) -> bnum (snd y)).
  { intros (a, p) Hy. apply (Permutation_in _ (sort_by_perm _ b l)) in Hy. apply (H a p). now right. }
  fold b in IH. revert IH Hs. generalize (sort_by b l) as s. induction s as [|y s IHs]; intros S Hs; cbn [insert_by map].
  - repeat constructor.
  - cbn [map] in S. inversion S as [|? ? S' F]; subst. unfold b at 1. pose proof (Hs y (or_introl eq_refl)) as Hy. rewrite Forall_forall in F. destruct (SFltb (snd x) (snd y)) eqn:E.
    + apply nltb in E; auto. cbn [map]. constructor; [apply IHs; auto; intros z Hz; apply Hs; now right|]. rewrite Forall_forall. intros z Hz.
      apply in_map_iff in Hz. destruct Hz as (w & <- & Hw). apply (Permutation_in _ (insert_by_perm _ b x s)) in Hw. destruct Hw as [<-|Hw]; [unfold ds; lra|]. apply F. now apply in_map.
    + apply nltb_f in E; auto. cbn [map]. constructor; [constructor; auto; now rewrite Forall_forall|]. rewrite Forall_forall. intros z [<-|Hz]; [exact E|]. specialize (F z Hz). unfold ds in *. lra.
Qed.
Definition cnt (consider : bool) (e : N * b32) : bool := (consider || negb (SFeqb (snd e) (S754_zero false)))%bool.
Lemma cnt_neg : forall consider e, (negb consider && SFeqb (snd e) (S754_zero false))%bool = negb (cnt consider e).
Proof. intros [] e; unfold cnt; cbn; auto. now rewrite negb_involutive. Qed.
Lemma zero_eqb : forall x, bnum x -> SFeqb x (S754_zero false) = true <-> bval x = 0.
Proof. intros x V. rewrite (neqb x (S754_zero false) V (zero_num false)). reflexivity. Qed.
Lemma sorted_parts : forall consider (s : list (N * b32)), (forall e, In e s -> nn (snd e)) -> StronglySorted ds (map snd s) ->
  exists z, s = filter (cnt consider) s ++ z /\ match z with [] => True | e :: _ => cnt consider e = false end.
Proof.
  intros consider s. induction s as [|e s IH]; intros H S; [now exists []|]. cbn [map] in S. inversion S as [|? ? S' F]; subst.
  destruct IH as (z & E & Z); auto. { intros; apply H; now right. }
  cbn [filter]. destruct (cnt consider e) eqn:C; [exists z; cbn [app]; now rewrite <- E|].
  exists (e :: s). rewrite filter_none; [split; auto|]. intros y Hy. unfold cnt in *. apply orb_false_iff in C. destruct C as (-> & C). cbn [orb]. apply negb_false_iff in C. apply negb_false_iff.
  assert (He : nn (snd e)) by (apply H; now left). assert (Hn : nn (snd y)) by (apply H; now right). apply zero_eqb in C; [|apply He]. apply zero_eqb; [apply Hn|].
  rewrite Forall_forall in F. specialize (F (snd y) (in_map snd _ _ Hy)). unfold ds in F. destruct Hn. lra.
Qed.
Lemma counts_cnt : forall consider (e : N * b32), nn (snd e) -> @counts B consider (snd e) = cnt consider e.
Proof.
  intros consider e (V & P). unfold counts, cnt, f_gtb. destruct consider; auto. cbn [orb]. change (f_ltb B f0 (snd e)) with (SFltb (S754_zero false) (snd e)).
  destruct (SFeqb (snd e) (S754_zero false)) eqn:E; cbn [negb].
  - apply zero_eqb in E; auto. apply nltb_f; auto; [apply zero_num|]. cbn [bval]. lra.
  - apply nltb; auto; [apply zero_num|]. apply (neqb_f _ _ V (zero_num false)) in E. cbn [bval] in *. lra.
Qed.

(** ** the values written *)
Lemma sum_map_cnt : forall consider (g : b32 -> b32) (els : list (N * b32)), (forall e, In e els -> nn (snd e)) ->
  fsum (map (fun e => if @counts B consider (snd e) then (fst e, g (snd e)) else e) els) = rsum (map (fun p => bval (g p)) (map snd (filter (cnt consider) els))).
Proof.
  intros consider g. induction els as [|e els IH]; intros H; auto. cbn [map filter]. pose proof (counts_cnt consider e (H e (or_introl eq_refl))) as Q.
  match goal with |- context [if ?c then (_, _) else e] => replace c with (cnt consider e) by (symmetry; exact Q) end.
  specialize (IH (fun x Hx => H x (or_intror Hx))). destruct (cnt consider e) eqn:C; [cbn [map rsum fold_right]; rewrite fsum_cons, IH; reflexivity|].
  destruct e as (a, p). rewrite fsum_cons, IH. unfold cnt in C. apply orb_false_iff in C. destruct C as (_ & C). apply negb_false_iff in C. apply zero_eqb in C; [|apply (H (a, p)); now left].
  cbn [snd] in C. rewrite C. ring.
Qed.
Lemma rsum_const : forall A (l : list A) x, rsum (map (fun _ => x) l) = INR (length l) * x.
Proof. intros A l x. induction l as [|y l IH]; [cbn; ring|]. cbn [map rsum fold_right]. fold (rsum (map (fun _ : A => x) l)). rewrite IH. change (length (y :: l)) with (S (length l)). rewrite S_INR. ring. Qed.
Lemma rsum_near : forall (f g : b32 -> R) l d, (forall x, In x l -> Rabs (f x - g x) <= d) -> Rabs (rsum (map f l) - rsum (map g l)) <= INR (length l) * d.
Proof.
  intros f g l d. induction l as [|x l IH]; intros H; [cbn; rewrite Rminus_0_r, Rabs_R0; lra|]. cbn [map rsum fold_right]. fold (rsum (map f l)). fold (rsum (map g l)).
  change (length (x :: l)) with (S (length l)). rewrite S_INR. specialize (IH (fun y Hy => H y (or_intror Hy))). specialize (H x (or_introl eq_refl)).
  replace (f x + rsum (map f l) - (g x + rsum (map g l))) with ((f x - g x) + (rsum (map f l) - rsum (map g l))) by ring. eapply Rle_trans; [apply Rabs_triang|]. lra.
Qed.
Lemma fmax_val : forall x y, bnum x -> bnum y -> bnum (@f_max B x y) /\ bval (@f_max B x y) = Rmax (bval x) (bval y).
Proof.
  intros x y Vx Vy. unfold f_max. change (f_isnan B x) with (b_isnan x). change (f_isnan B y) with (b_isnan y). rewrite !nnan by auto. change (f_ltb B x y) with (SFltb x y).
  destruct (SFltb x y) eqn:E; split; auto; [apply nltb in E; auto; rewrite Rmax_right; lra|apply nltb_f in E; auto; rewrite Rmax_left; lra].
Qed.
(** the exact sum, for a split that is right up to rounding *)
Lemma fsplit_sum : forall m L A C, L = A ++ C -> A <> [] -> let k := INR (length L) in let t := thrb k m A in
  StronglySorted ds L ->
  (forall x, In x A -> t + m - 18 * u <= bval x) -> match C with [] => True | c :: _ => bval c <= t + m + 36 * u end ->
  Rabs (rsum (map (fun p => Rmax (bval p - t) m) L) - 1) <= k * (36 * u).
Proof.
  intros m L A C E NA k t S HA HC. assert (U0 : 0 < u) by apply p2_pos.
  assert (J1 : 1 <= INR (length A)) by (change 1 with (INR 1); apply le_INR; destruct A; [congruence|cbn; lia]).
  assert (HC' : forall x, In x C -> bval x <= t + m + 36 * u).
  { destruct C as [|c C]; [intros x []|]. subst L. assert (SC : StronglySorted ds (c :: C)). { clear - S. induction A; cbn [app] in S; auto. inversion S; auto. }
    inversion SC as [|? ? _ F]; subst. rewrite Forall_forall in F. intros x [<-|Hx]; auto. specialize (F x Hx). unfold ds in F. lra. }
  assert (SA : Rabs (rsum (map (fun p => Rmax (bval p - t) m) A) - rsum (map (fun p => bval p - t) A)) <= INR (length A) * (36 * u)).
  { apply rsum_near. intros x Hx. specialize (HA x Hx). apply Rabs_le. unfold Rmax. destruct (Rle_dec (bval x - t) m); lra. }
  assert (SC : Rabs (rsum (map (fun p => Rmax (bval p - t) m) C) - rsum (map (fun _ => m) C)) <= INR (length C) * (36 * u)).
  { apply rsum_near. intros x Hx. specialize (HC' x Hx). apply Rabs_le. unfold Rmax. destruct (Rle_dec (bval x - t) m); lra. }
  rewrite rsum_const in SC. assert (EA : forall l, rsum (map (fun p => bval p - t) l) = rsum (map bval l) - INR (length l) * t).
  { induction l as [|y l IH]; [cbn; ring|]. cbn [map rsum fold_right]. fold (rsum (map bval l)). fold (rsum (map (fun p => bval p - t) l)). rewrite IH. change (length (y :: l)) with (Datatypes.S (length l)). rewrite S_INR. ring. }
  rewrite EA in SA. rewrite E, map_app, rsum_app. assert (K : k = INR (length A) + INR (length C)) by (unfold k; now rewrite E, app_length, plus_INR).
  assert (T : INR (length A) * t = (k - INR (length A)) * m + rsum (map bval A) - 1). { unfold t, thrb, thr. rewrite map_length. field. lra. }
  apply Rabs_le_inv in SA. apply Rabs_le_inv in SC. apply Rabs_le. rewrite T in SA. rewrite K in *. lra.
Qed.

Lemma lit_val : bnum (b_lit 999 1000) /\ bval (b_lit 999 1000) = 16760439 / 16777216.
Proof.
  assert (E : b_lit 999 1000 = S754_finite false 16760439 (-24)) by (vm_compute; reflexivity). rewrite E. split; [split; reflexivity|].
  cbn [bval bsgn]. pose proof u_val as UV. unfold u in UV. rewrite UV. field.
Qed.
Lemma counting_cnt : forall consider e, nn (snd e) -> cnt consider e = true <-> counting consider (bval (snd e)).
Proof.
  intros consider e (V & P). unfold cnt, counting. destruct consider; [cbn; tauto|]. cbn [orb]. rewrite negb_true_iff, (neqb_f _ _ V (zero_num false)). cbn [bval].
  split; [intros H; right; lra|intros [H|H]; [discriminate|lra]].
Qed.
Lemma ncount_cnt : forall consider (els : list (N * b32)) n, (forall e, In e els -> nn (snd e)) -> ncount consider (vals els) n -> length (filter (cnt consider) els) = n.
Proof.
  intros consider. induction els as [|e els IH]; intros n H K; cbn [vals map filter] in *; [now inversion K|].
  pose proof (counting_cnt consider e (H e (or_introl eq_refl))) as Q. specialize (IH) with (1 := fun x Hx => H x (or_intror Hx)).
  inversion K as [|? ? ? ? C K'|? ? ? ? C K']; subst; destruct (cnt consider e) eqn:E; cbn [length]; try (f_equal; now apply IH); try (now apply IH); exfalso.
  - apply Q in C. congruence.
  - apply C. now apply Q.
Qed.

Definition fcond (dbg consider : bool) (eps : b32) (els r : list (N * b32)) : Prop :=
  map fst r = map fst els /\ fnonneg r /\ (0 < bval eps -> Rabs (fsum r - 1) <= INR (length els) * p2 (-18)) /\
  (forall n, ncount consider (vals els) n -> forall i a p b q, nth_error els i = Some (a, p) -> nth_error r i = Some (b, q) ->
     (counting consider (bval p) -> 0 < bval eps -> bval eps / INR n * (1 - p2 (-24)) - p2 (-150) <= bval q) /\ (~ counting consider (bval p) -> q = p)).
Lemma enforce_float : forall dbg (eps : b32) consider (els : list (N * b32)),
  INR (length els) <= 1048576 -> bnum eps -> 0 <= bval eps <= 1 -> fnonneg els -> fsum els <= 3 / 2 ->
  (exists a p, In (a, p) els /\ counting consider (bval p)) ->
  exists r, @enforce_min_prob B dbg eps consider els = Ok r /\ fcond dbg consider eps els r /\ (bval eps = 0 -> r = els).
Proof.
  intros dbg eps consider els L Ve He Hnn HS (a0 & p0 & I0 & C0).
  assert (H : forall e, In e els -> nn (snd e)) by (intros (a, p) I; apply (Hnn a p I)).
  assert (Ne : els <> []) by (intros ->; contradiction).
  set (e := bval eps) in *. pose proof u_val as UV. pose proof eta_val as EV.
  unfold enforce_min_prob. destruct els as [|e0 els0] eqn:Eels; [congruence|]. rewrite <- Eels in *. clear Eels e0 els0.
  change (f_eqb B eps f0) with (SFeqb eps (S754_zero false)). destruct (SFeqb eps (S754_zero false)) eqn:Ez.
  { apply zero_eqb in Ez; auto. exists els. split; auto. split; auto. split; auto. split; auto. split; [fold e in Ez; fold e; intros; lra|].
    intros n Hn i a p b q Hi Hj. rewrite Hi in Hj. inversion Hj; subst. split; [fold e; fold e in Ez; intros; lra|auto]. }
  assert (Pe : 0 < e). { apply (neqb_f _ _ Ve (zero_num false)) in Ez. cbn [bval] in Ez. fold e in Ez. lra. }
  destruct one_num as (Vo & Eo).
  assert (B1 : (f_ltb B eps f0 || @f_gtb B eps (@f1 B))%bool = false).
  { unfold f_gtb. change (f_ltb B eps f0) with (SFltb eps (S754_zero false)). change (f_ltb B f1 eps) with (SFltb (b_of_Z 1) eps).
    rewrite (proj2 (nltb_f _ _ Ve (zero_num false))) by (cbn [bval]; fold e; lra). rewrite (proj2 (nltb_f _ _ Vo Ve)) by (fold e; lra). reflexivity. }
  rewrite B1. clear B1. set (sup := @support_size B consider els). set (fl := filter (cnt consider) els).
  assert (Es : N.to_nat sup = length fl) by apply (support_filter B consider els).
  assert (Lf : (length fl <= length els)%nat). { unfold fl. clear. induction els as [|x els IH]; [auto|]. cbn [filter]. destruct (cnt consider x); cbn [length]; lia. }
  set (k := INR (length fl)). assert (Hk : k <= 1048576) by (unfold k; eapply Rle_trans; [apply le_INR; exact Lf|auto]).
  assert (Nf : fl <> []). { intros E. assert (I : In (a0, p0) fl); [|rewrite E in I; contradiction]. apply filter_In. split; auto. apply (counting_cnt consider (a0, p0) (H (a0, p0) I0)). exact C0. }
  assert (K1 : 1 <= k). { unfold k. change 1 with (INR 1). apply le_INR. destruct fl; [congruence|cbn; lia]. }
  assert (Kl : k <= INR (length els)) by (apply le_INR; auto).
  destruct (of_N_int bexp bln bpow sup) as (Vs & Esv). { rewrite Es. fold k. auto. } rewrite Es in Esv. fold k in Esv. set (supf := @f_of_N B sup) in *.
  assert (Ik : 0 < / k <= 1) by (split; [apply Rinv_0_lt_compat; lra|rewrite <- Rinv_1; apply Rinv_le_contravar; lra]).
  assert (P18 : p2 (-18) = 64 * u). { change (-18)%Z with (6 + -24)%Z. rewrite p2_add. fold u. rewrite (p2_Z 6) by lia. reflexivity. }
  change (p2 (-24)) with u. change (p2 (-150)) with eta.
  (* what has to be shown about the new value of an action that counts *)
  assert (GEN : forall g : b32 -> b32, (forall x, In x els -> cnt consider x = true -> nn (g (snd x)) /\ e / k * (1 - u) - eta <= bval (g (snd x))) ->
     Rabs (rsum (map (fun p => bval (g p)) (map snd fl)) - 1) <= k * (64 * u) ->
     exists r : list (N * b32), @Ok (list (N * b32)) (map (fun x : N * b32 => if @counts B consider (snd x) then (fst x, g (snd x)) else x) els) = Ok r /\ fcond dbg consider eps els r /\ (e = 0 -> r = els)).
  { intros g G1 G2. eexists. split; [reflexivity|]. split; [|intros; lra]. split; [rewrite map_map; apply map_ext; intros x; now destruct (@counts B consider (snd x))|]. split; [|split].
    - intros a p I. apply in_map_iff in I. destruct I as (x & E & I). destruct (@counts B consider (snd x)) eqn:C.
      + inversion E; subst. apply (G1 x I). rewrite <- counts_cnt; auto.
      + subst x. apply (H _ I).
    - intros _. pose proof (sum_map_cnt consider g els H) as SM. fold fl in SM.
      match goal with |- Rabs (?x - 1) <= _ => replace x with (rsum (map (fun p => bval (g p)) (map snd fl))) by (symmetry; exact SM) end. rewrite P18. eapply Rle_trans; [exact G2|]. apply Rmult_le_compat_r; [rewrite UV; lra|auto].
    - intros n Hn i a p b q Hi Hj. rewrite nth_error_map, Hi in Hj. cbn [option_map snd fst] in Hj. pose proof (nth_error_In _ _ Hi) as I.
      pose proof (counts_cnt consider (a, p) (H _ I)) as CC. cbn [snd] in CC. pose proof (counting_cnt consider (a, p) (H _ I)) as CT. cbn [snd] in CT.
      pose proof (ncount_cnt consider els n H Hn) as Nk. fold fl in Nk. split.
      + intros C _. apply CT in C. rewrite <- Nk. fold k. destruct (@counts B consider p) eqn:CP; [|congruence]. inversion Hj; subst. apply (G1 _ I C).
      + intros C. destruct (@counts B consider p) eqn:CP; [exfalso; apply C, CT; congruence|]. now inversion Hj. }
  fold fl. unfold f_gtb at 1. change (f_ltb B (lit_0999 B) eps) with (SFltb (b_lit 999 1000) eps). destruct lit_val as (Vl & El).
  destruct (SFltb (b_lit 999 1000) eps) eqn:E999.
  - (* uniform *)
    apply (GEN (fun _ => b_div (b_of_Z 1) supf)).
    + intros x _ _. pose proof (ndiv (b_of_Z 1) supf Vo Vs ltac:(lra)) as K. rewrite Eo, Esv in K.
      assert (Q : 0 < 1 / k <= 1) by (unfold Rdiv; lra). destruct (near_rel _ _ K) as (V & E); [rewrite Rabs_pos_eq by lra; pose proof big_val; lra|]. rewrite (Rabs_pos_eq (1 / k)) in E by lra.
      split; [split; auto; apply (near_nn _ _ K); lra|]. apply Rabs_le_inv in E. assert (e / k <= 1 / k) by (apply Rmult_le_compat_r; lra).
      assert (e / k * (1 - u) <= 1 / k * (1 - u)) by (apply Rmult_le_compat_r; rewrite ?UV; lra). lra.
    + rewrite rsum_const, map_length. fold k. pose proof (ndiv (b_of_Z 1) supf Vo Vs ltac:(lra)) as K. rewrite Eo, Esv in K.
      assert (Q : 0 < 1 / k <= 1) by (unfold Rdiv; lra). destruct (near_le _ _ 1 K) as (V & E); [rewrite Rabs_pos_eq; lra|lra|].
      replace (k * bval (b_div (b_of_Z 1) supf) - 1) with (k * (bval (b_div (b_of_Z 1) supf) - 1 / k)) by (field; lra). rewrite Rabs_mult, (Rabs_pos_eq k) by lra.
      apply Rmult_le_compat_l; [lra|]. rewrite UV in *. lra.
  - (* the threshold *)
    apply nltb_f in E999; auto. rewrite El in E999. fold e in E999.
    change (f_div B eps supf) with (b_div eps supf). set (minp := b_div eps supf).
    pose proof (ndiv eps supf Ve Vs ltac:(lra)) as KM. rewrite Esv in KM. fold e minp in KM.
    assert (Qm : 0 < e / k <= 1). { split; [apply Rdiv_lt_0_compat; lra|]. unfold Rdiv. apply Rle_trans with (1 * 1); [apply Rmult_le_compat; lra|lra]. }
    destruct (near_rel _ _ KM) as (Vm & Em); [rewrite Rabs_pos_eq by lra; pose proof big_val; lra|]. rewrite (Rabs_pos_eq (e / k)) in Em by lra. apply Rabs_le_inv in Em.
    assert (Nm : nn minp) by (split; auto; apply (near_nn _ _ KM); lra). set (m := bval minp) in *.
    assert (Km : k * m <= 1). { assert (k * m <= k * (e / k + u * (e / k) + eta)) by (apply Rmult_le_compat_l; lra).
      replace (k * (e / k + u * (e / k) + eta)) with (e + u * e + k * eta) in * by (field; lra). assert (k * eta <= 1048576 * eta) by (apply Rmult_le_compat_r; lra). rewrite UV in *. lra. }
    assert (M1 : m <= 1). { apply Rle_trans with (k * m); auto. destruct Nm as (_ & Pm). fold m in Pm. replace m with (1 * m) at 1 by ring. apply Rmult_le_compat_r; lra. }
    assert (Hs : fnumbers els) by (intros a p I; apply (Hnn a p I)).
    set (s := sort_by (fun x y : N * b32 => SFltb (snd x) (snd y)) els).
    assert (ES : @sort_desc B els = Ok s).
    { unfold sort_desc. replace (existsb (fun e1 : N * B => f_isnan B (snd e1)) els) with false; [now rewrite andb_false_r|]. symmetry. apply not_true_is_false. intros X.
      apply existsb_exists in X. destruct X as ((a, p) & I & X). cbn [snd] in X. change (f_isnan B p) with (b_isnan p) in X. rewrite nnan in X; [discriminate|apply (Hs a p I)]. }
    change (F B) with b32 in *. rewrite ES. cbn [bind].
    assert (Ps : Permutation s els) by apply sort_by_perm. pose proof (sort_sorted els Hs) as SS. fold s in SS.
    assert (Hs' : forall x, In x s -> nn (snd x)) by (intros x Hx; apply H; now apply (Permutation_in _ Ps)).
    destruct (sorted_parts consider s Hs' SS) as (z & E & Z).
    assert (Pl : Permutation (filter (cnt consider) s) fl) by (apply filter_perm, Ps). remember (filter (cnt consider) s) as l0 eqn:El0.
    assert (Ll : length l0 = length fl) by now apply Permutation_length. destruct l0 as [|(a1, p1) l]; [destruct fl; [congruence|discriminate]|].
    match goal with |- context [@hd_error ?A ?X] => replace (@hd_error A X) with (Some (a1, p1)) by (change (Some (a1, p1) = hd_error s); rewrite E; reflexivity) end.
    cbn [opt_or bind snd]. set (Lv := p1 :: map snd l). assert (ELv : map snd ((a1, p1) :: l) = Lv) by reflexivity.
    assert (PLv : Permutation Lv (map snd fl)) by (rewrite <- ELv; now apply Permutation_map).
    assert (NLv : forall x, In x Lv -> nn x). { intros x Hx. rewrite <- ELv in Hx. apply in_map_iff in Hx. destruct Hx as (y & <- & Hy). apply Hs'. rewrite E. apply in_app_iff. now left. }
    assert (SLv : StronglySorted ds Lv). { rewrite E, map_app in SS. rewrite ELv in SS. clear - SS. induction Lv as [|x Lv IH]; constructor; cbn [app] in SS; inversion SS as [|? ? S' F]; subst; auto. rewrite Forall_forall in *. intros y Hy. apply F. apply in_app_iff. now left. }
    assert (RLv : rsum (map bval Lv) <= 3 / 2).
    { eapply Rle_trans; [|exact HS]. rewrite fsum_rsum. rewrite (rsum_perm _ _ (Permutation_map bval (Permutation_map snd (Permutation_sym Ps)))), E, map_app, ELv. apply rsum_prefix.
      intros x Hx. apply in_map_iff in Hx. destruct Hx as (y & <- & Hy). apply Hs'. rewrite E. apply in_app_iff. now right. }
    assert (LLv : length Lv = length fl) by (rewrite <- Ll; unfold Lv; cbn [length]; now rewrite map_length).
    destruct (rho_first_float dbg consider sup minp a1 p1 l z) as (rho & ER & FSP).
    { intros x Hx. rewrite cnt_neg. replace (cnt consider x) with true; auto. symmetry. assert (Ix : In x (filter (cnt consider) s)) by (rewrite <- El0; exact Hx). apply filter_In in Ix. tauto. }
    { destruct z as [|x z]; auto. rewrite cnt_neg, Z. reflexivity. }
    { rewrite Es, <- Ll. reflexivity. } { rewrite Es. fold k. auto. } { auto. } { rewrite Es. fold k m. auto. } { auto. } { auto. } { auto. }
    rewrite Es in FSP. fold k m in FSP. fold Lv in FSP.
    match goal with |- context [@rho_loop ?A ?X1 ?X2 ?X3 ?X4 ?X5 ?X6 ?X7 ?X8] => replace (@rho_loop A X1 X2 X3 X4 X5 X6 X7 X8) with (Ok rho) by (symmetry; rewrite E; exact ER) end.
    cbn [bind]. destruct FSP as (A & C & EL & NA & Hi & Hr & HA & HC).
    destruct rho as (ri, rs). cbn [fst snd] in *.
    assert (NAn : forall x, In x A -> nn x) by (intros x Hx; apply NLv; rewrite EL; apply in_app_iff; now left).
    assert (LA : (1 <= length A <= length fl)%nat). { rewrite <- LLv, EL, app_length. destruct A; [congruence|cbn [length]; lia]. }
    destruct (of_N_int bexp bln bpow ri) as (VI & EI). { rewrite Hi. eapply Rle_trans; [apply le_INR|exact Hk]. lia. }
    set (If := @f_of_N B ri) in *. rewrite Hi, INR_IZR_INZ in EI.
    assert (BZ : (Z.of_nat (length fl) <= 1048576)%Z) by (apply le_IZR; rewrite <- INR_IZR_INZ; exact Hk).
    assert (Esz : bval supf = IZR (Z.of_nat (length fl))) by (rewrite Esv; apply INR_IZR_INZ).
    change (2 ^ 24)%Z with 16777216%Z in *.
    destruct (sub_int supf If _ _ Vs VI Esz EI) as (VD1 & ED1). { change (2 ^ 24)%Z with 16777216%Z. lia. }
    destruct (sub_int (b_sub supf If) (b_of_Z 1) _ 1 VD1 Vo ED1 Eo) as (VD & ED). { change (2 ^ 24)%Z with 16777216%Z. lia. }
    destruct (add_int If (b_of_Z 1) _ 1 VI Vo EI Eo) as (VJ & EJ). { change (2 ^ 24)%Z with 16777216%Z. lia. }
    change (f_sub B (f_sub B supf If) f1) with (b_sub (b_sub supf If) (b_of_Z 1)). change (f_add B If f1) with (b_add If (b_of_Z 1)).
    set (D := b_sub (b_sub supf If) (b_of_Z 1)) in *. set (J := b_add If (b_of_Z 1)) in *.
    change (f_div B (f_sub B (f_add B (f_mul B D minp) rs) f1) J) with (thr_f D minp rs J).
    set (tau := thr_f D minp rs J) in *.
    assert (SA : 0 <= rsum (map bval A) <= 3 / 2).
    { split; [apply rsum_nonneg; intros x Hx; apply in_map_iff in Hx; destruct Hx as (y & <- & Hy); apply NAn; auto|]. eapply Rle_trans; [|exact RLv]. rewrite EL. apply rsum_prefix. intros x Hx. apply NLv. rewrite EL. apply in_app_iff. now right. }
    destruct (thr_err k A D minp rs J) as (Vt & Et & Bt); auto; try lra.
    { apply le_INR. lia. } { rewrite ED. unfold k. rewrite !INR_IZR_INZ, <- minus_IZR. f_equal. lia. } { rewrite EJ, INR_IZR_INZ. f_equal. lia. }
    fold tau in Vt, Et, Bt. fold m in Et. set (t := thrb k m A) in *. apply Rabs_le_inv in Et. apply Rabs_le_inv in Bt.
    assert (PV : forall x, In x els -> nn (snd x) /\ bval (snd x) <= 3 / 2).
    { intros x Hx. split; auto. eapply Rle_trans; [|exact HS]. rewrite fsum_rsum. clear - H Hx. induction els as [|y els IH]; [contradiction|]. cbn [map rsum fold_right]. fold (rsum (map bval (map snd els))).
      assert (0 <= rsum (map bval (map snd els))). { apply rsum_nonneg. intros v Hv. rewrite map_map in Hv. apply in_map_iff in Hv. destruct Hv as (w & <- & Hw). apply H. now right. }
      assert (0 <= bval (snd y)) by (apply H; now left). destruct Hx as [->|Hx]; [lra|]. specialize (IH (fun v Hv => H v (or_intror Hv)) Hx). lra. }
    assert (GV : forall p, nn p -> bval p <= 3 / 2 -> nn (@f_max B (b_sub p tau) minp) /\ m <= bval (@f_max B (b_sub p tau) minp) /\ Rabs (bval (@f_max B (b_sub p tau) minp) - Rmax (bval p - t) m) <= 20 * u).
    { intros p (Vp & Pp) Up. pose proof (nsub p tau Vp Vt) as K. destruct (near_le _ _ 5 K) as (V & EE); [apply Rabs_le; lra|lra|]. apply Rabs_le_inv in EE.
      destruct (fmax_val (b_sub p tau) minp V Vm) as (VX & EX). fold m in EX. rewrite EX. destruct Nm as (_ & Pm). fold m in Pm. pose proof (Rmax_r (bval (b_sub p tau)) m).
      split; [split; auto; rewrite EX; lra|]. split; auto. apply Rabs_le. rewrite UV in *. unfold Rmax. destruct (Rle_dec (bval (b_sub p tau)) m), (Rle_dec (bval p - t) m); lra. }
    apply (GEN (fun p => @f_max B (b_sub p tau) minp)).
    + intros x Hx _. destruct (PV x Hx) as (A1 & A2). destruct (GV _ A1 A2) as (G1 & G2 & _). split; auto. eapply Rle_trans; [|exact G2]. lra.
    + rewrite <- (rsum_perm _ _ (Permutation_map (fun p => bval (@f_max B (b_sub p tau) minp)) PLv)).
      assert (X1 : Rabs (rsum (map (fun p => bval (@f_max B (b_sub p tau) minp)) Lv) - rsum (map (fun p => Rmax (bval p - t) m) Lv)) <= INR (length Lv) * (20 * u)).
      { apply rsum_near. intros x Hx. assert (Ix : exists y, In y els /\ snd y = x). { rewrite <- ELv in Hx. apply in_map_iff in Hx. destruct Hx as (y & <- & Hy). exists y. split; auto. apply (Permutation_in _ Ps). rewrite E. apply in_app_iff. now left. }
        destruct Ix as (y & Iy & <-). destruct (PV y Iy) as (A1 & A2). apply (GV _ A1 A2). }
      assert (X2 : Rabs (rsum (map (fun p => Rmax (bval p - t) m) Lv) - 1) <= INR (length Lv) * (36 * u)).
      { pose proof (fsplit_sum m Lv A C EL NA SLv) as Q. cbv zeta in Q. rewrite LLv in Q |- *. fold k t in Q. apply Q; auto. }
      rewrite LLv in X1, X2. fold k in X1, X2. apply Rabs_le_inv in X1. apply Rabs_le_inv in X2. assert (0 < u) by apply p2_pos. assert (0 <= k * u) by (apply Rmult_le_pos; lra). apply Rabs_le. lra.
Qed.
End Enforce.

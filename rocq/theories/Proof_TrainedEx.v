(** C90: the stack of the documentation of the element-wise interaction, and examples. *)
From Coq Require Import List NArith ZArith Bool Lia PeanoNat Sorted.
From Verif Require Import Base FloatOps FloatB32 Model_Hash Model_Features Model_Weights Model_Loss
  Model_Interactions Model_Types Model_Explore Model_Coin Model_Stack Model_Factory
  Spec_Features Spec_Weights Proof_Weights Proof_WeightsProps Proof_Features Proof_FloatOrder Spec_Coin Proof_Coin Spec_Stack Spec_Reductions Spec_Total
  Spec_Delegate Spec_Inter Proof_StackCong Proof_StackRestore Proof_StackPtl Proof_StackShape Proof_StackProps Proof_StackRel Proof_Types Proof_Total Proof_CliRuns Proof_Release
  Proof_Inter Spec_Elem Proof_Elem Spec_ElemStack Proof_ElemStack Proof_ElemStackEx Spec_Trained Proof_Trained.
Import ListNotations.
Open Scope N_scope.

Section Docs.
Context {O : FOps} (FO : ford O) (zz : f_eqb O f0 f0 = true).
Implicit Types (a b s t u : sfeats O).

Lemma ns_eqb_spec : forall a b : namespace, reflect (a = b) (ns_eqb a b).
Proof. intros a b. apply iff_reflect. symmetry. apply ns_eqb_eq. Qed.
Lemma joined_ex : forall a b, fwf a -> fwf b -> exists u, joined a b u /\ fwf u.
Proof.
  intros a b Wa Wb. destruct (append_get a b Wa Wb) as (u & E & W & G). exists u. split; auto.
  split; [apply W|]. intros k. rewrite G. unfold sf_get. destruct (fm_get k b) as [y|]; [|reflexivity]. destruct (sfn_active y); [|reflexivity].
  unfold sfn_cat, item. destruct (fm_get k a) as [x|] eqn:Ea; [|reflexivity]. destruct Wa as (_ & Wa). destruct (Wa _ _ Ea) as (-> & _). reflexivity.
Qed.
Definition within (base d : N) t : Prop := forall i v, In (i, v) (sf_all t) -> base <= i < base + d.

Lemma docs_view : forall nb one two d sh a, nb < 32 -> nameable one -> nameable two -> one <> two ->
  ns_hash (composite one two) mod 2 ^ nb + d <= 2 ^ nb ->
  one_vector nb a one d -> one_vector nb sh two d ->
  exists s v w u, joined sh a s /\ vectors nb s one two false v w /\ in_order u /\
    (forall k, fm_get k u = view nb s one two false v w k) /\ within (ns_hash (composite one two) mod 2 ^ nb) d u.
Proof.
  intros nb one two d sh a Hb N1 N2 Ne Fit (Ba & Oa & v & (x & Gx & Ix) & Iv & Dv) (Bs & Os & w & (y & Gy & Iy) & Iw & Dw).
  apply built_wf in Ba, Bs. destruct (joined_ex sh a Bs Ba) as (s & J & Ws).
  assert (C1 : composite one two <> one) by (intros K; unfold composite in K; rewrite <- K in N1; exact N1).
  assert (C2 : composite one two <> two) by (intros K; unfold composite in K; rewrite <- K in N2; exact N2).
  pose proof J as (So & Gs).
  assert (P : 2 ^ nb <= 2 ^ 32) by (apply N.pow_le_mono_r; lia).
  assert (V : vectors nb s one two false v w).
  { split; [auto|]. split; [|split; [|split; [|split; [|split]]]]; auto.
    - eexists. split.
      + unfold sf_get at 1. rewrite Gs, Gx, (Os one Ne). reflexivity.
      + unfold sfn_iter in *. exact Ix.
    - exists y. split; auto. unfold sf_get at 1. rewrite Gs. unfold sf_get. rewrite (Oa two) by congruence. unfold sf_get in Gy. exact Gy.
    - eapply Forall_impl; [|exact Dv]. cbn beta. intros p Hp. lia.
    - rewrite Gs. unfold sf_get. rewrite Oa, Os by assumption. reflexivity. }
  destruct (frame2 false nb s one two false v w So Hb N1 N2 V) as (u & Su & Gu & _).
  exists s, v, w, u. do 4 (split; [assumption|]).
  intros i z Hin. apply in_all' in Hin; auto. destruct Hin as (k & q & E & Hin). rewrite Gu in E. unfold view in E.
  destruct (ns_eqb_spec k (composite one two)) as [Q|Q].
  - inversion E; subst q. rewrite iter_prod in Hin. apply in_map_iff in Hin. destruct Hin as ((p & b) & Q1 & Hin). assert (Ei : i = ns_hash (composite one two) mod 2 ^ nb + p) by exact (eq_sym (f_equal fst Q1)). rewrite Ei. clear Ei Q1.
    unfold products in Hin. apply in_flat_map in Hin. destruct Hin as ((p' & c) & H1 & H2). cbn [fst snd] in *.
    destruct (at_pos p' w); [|contradiction]. destruct H2 as [H2|[]]. inversion H2; subst.
    rewrite Forall_forall in Dv. apply Dv in H1. cbn [fst] in H1. clear -H1. generalize dependent (ns_hash (composite one two) mod 2 ^ nb). intros base. lia.
  - cbn [negb andb] in E. destruct (ns_eqb_spec k one) as [Q1|Q1]; [discriminate|]. destruct (ns_eqb_spec k two) as [Q2|Q2]; [discriminate|]. cbn [orb] in E.
    rewrite Gs in E. unfold sf_get in E. rewrite Oa, Os in E by assumption. discriminate.
Qed.

Lemma bounded_length : forall base d (l : list N), NoDup l -> (forall i, In i l -> base <= i < base + d) -> (length l <= N.to_nat d)%nat.
Proof.
  intros base d l ND B. rewrite <- (seq_length (N.to_nat d) 0), <- (map_length (fun k => base + N.of_nat k)). apply NoDup_incl_length; auto.
  intros i Hi. apply B in Hi. apply in_map_iff. exists (N.to_nat (i - base)). split; [lia|]. apply in_seq. lia.
Qed.

Lemma docs_weights : forall H gc d1 d2 cc R h d dd,
  ws_new H false gc (CCbAdf Mtr (CElem d1 d2 false (CCoin cc))) = Ok R -> gc_bits gc < 32 -> gc_const gc = false -> gc_inter gc = [] ->
  let one := nsdef_namespace H (gc_seed gc) d1 in let two := nsdef_namespace H (gc_seed gc) d2 in
  let base := ns_hash (composite one two) mod 2 ^ gc_bits gc in
  one <> two -> base + d <= 2 ^ gc_bits gc -> Forall (@two_vectors O (gc_bits gc) one two d) h ->
  exists r nd, learn_all false (projT2 R) h = Ok r /\ nd_from_dense dd (co_w (bottom _ r)) = Ok nd /\
    (forall i, In i (entries nd) -> base <= i < base + d) /\ (length (nd_map nd) <= N.to_nat d)%nat.
Proof.
  intros H gc d1 d2 cc R h d dd E Hb Hc Hi one two base Ne Fit F.
  assert (N1 : nameable one) by (destruct d1; exact Logic.I). assert (N2 : nameable two) by (destruct d2; exact Logic.I).
  assert (S : forall e, two_vectors (gc_bits gc) one two d e -> exists u, shows (projT2 R) e [u] /\ below (2 ^ gc_bits gc) u /\ within base d u /\
      feat_type_of (fst e) = td_in_feats (red_types (projT2 R)) /\ label_type_of (snd e) = td_in_label (red_types (projT2 R))).
  { intros e (sh & xs & act & cost & prob & a & -> & Bx & Ea & Va & Vs).
    destruct (docs_view (gc_bits gc) one two d sh a Hb N1 N2 Ne Fit Va Vs) as (s & v & w & u & J & V & Su & Gu & Wi).
    pose proof E as E0. unfold ws_new in E0. cbn [create] in E0. binv E0. binv B. binv B0. inversion B0; subst v1. clear B0.
    apply add_level_ok in B. destruct B as (-> & _). apply add_level_ok in E0. destruct E0 as (-> & _). cbn [projT1 projT2] in *.
    exists u. split; [|split; [|split; [exact Wi|split; reflexivity]]].
    - split; [split; [exact Bx|apply Vs]|]. cbn [fst snd labelled]. cbn [meets finds fst snd].
      exists sh, xs, a, s. split; [reflexivity|]. split; [exact Ea|]. split; [exact J|].
      exists s, v, w, u. split; [reflexivity|]. split; [exact V|]. split; [exact Su|]. split; [exact Gu|]. exists u. split; reflexivity.
    - intros i z Hin. apply Wi in Hin. unfold base in Hin. lia. }
  assert (L : exists us r, Forall2 (shows (projT2 R)) h (map (fun u => [u]) us) /\ Forall (within base d) us /\ learn_all false (projT2 R) h = Ok r).
  { assert (G : forall h, Forall (two_vectors (gc_bits gc) one two d) h -> forall r0, reach false (projT2 R) r0 ->
      exists us r, Forall2 (shows (projT2 R)) h (map (fun u => [u]) us) /\ Forall (within base d) us /\ learn_all false r0 h = Ok r).
    { clear h F. induction h as [|e h IH]; intros F r0 Q.
      - exists [], r0. split; [constructor|]. split; [constructor|reflexivity].
      - inversion F as [|? ? Fe Fh]; subst. destruct (S e Fe) as (u & Sh & Bl & Wi & Tf & Tl). destruct e as (f & lb). cbn [fst snd] in *.
        destruct (proj1 (elem_learn FO H gc _ R r0 f lb [u] E Q Hb (proj1 Sh) Tf Tl (proj2 Sh))) as (r1 & f' & Er); [constructor; auto|].
        destruct (IH Fh r1) as (us & r & F2 & Fw & Lr). { eapply reach_learn; eauto. }
        exists (u :: us), r. split; [cbn [map]; constructor; auto|]. split; [constructor; auto|]. cbn [learn_all]. rewrite Er. cbn [bind fst]. exact Lr. }
    apply (G h F (projT2 R)). apply reach_refl. }
  destruct L as (us & r & F2 & Fw & Lr).
  destruct (trained_entries FO zz H gc _ R h _ r dd E Hb F2 Lr) as (nd & En & ND & K).
  assert (K' : forall i, In i (entries nd) -> base <= i < base + d).
  { intros i Hin. destruct (K i Hin) as (_ & t & Ht & l & z & El & Hz).
    destruct (create_inter _ _ _ _ _ _ E) as (Si & _ & Ct). rewrite Hc in Ct. rewrite Hi in Si. inversion Si as [P0 P1 P2| |]. rewrite Ct in El.
    rewrite <- P1, <- P2 in El. unfold fe_list in El. binv El. cbn [bind flat_map app] in El. inversion El; subst l. rewrite app_nil_r in Hz.
    rewrite Forall_forall in Fw. apply (Fw t) with (v := z); auto. clear -Ht. induction us as [|u us IH]; simpl in *; auto. destruct Ht; auto. }
  exists r, nd. split; auto. split; auto. split; auto.
  rewrite <- (map_length fst). apply (bounded_length base); auto.
Qed.
End Docs.

(** ** the example of the documentation, in a table of 16 entries *)
Definition tr_gc : gconfig := mkGc 4 0 false [].
Definition tr_cfg : rcfg BF0 := CCbAdf Mtr (CElem (NDName es_b) (NDName es_e) false (CCoin coin_default)).
Definition tr_adds (r : nat) (h base : N) (vs : list Z) : fop BF0 :=
  FAdds r (NsNamed h) [base; base + 1; base + 2] (map (fun z => fl z) vs).
Definition tr_hist : list (fop BF0) := [tr_adds 0 101 5 [1; 2; 3]%Z; tr_adds 1 98 2 [1; 2; 3]%Z; tr_adds 2 98 2 [4; 5; 6]%Z].
Definition tr_store : fstore BF0 := match fops_run false tr_hist fstore0 with Ok st => st | _ => fstore0 end.
Definition tr_ex : features BF0 * label BF0 :=
  (FtsCb (Some (tr_store 0%nat)) [tr_store 1%nat; tr_store 2%nat], LbCb 1 (fl 1) (f_div BF0 (fl 7) (fl 10))).
Lemma tr_built : forall i, built (tr_store i).
Proof. intros i. exists false, tr_hist, tr_store, i. split; reflexivity. Qed.
Definition tr_vec (vs : list Z) : vec BF0 := combine [0; 1; 2] (map (fun z => fl z) vs).
Lemma tr_one : forall i h vs, h < 2 ^ 32 -> (forall k, fm_get k (tr_store i) = if ns_eqb k (NsNamed h) then
    Some (mkSfn (NsNamed h) [h mod 2 ^ 4; h mod 2 ^ 4 + 1; h mod 2 ^ 4 + 2] (map (fun z => fl z) vs) true) else None) -> length vs = 3%nat ->
  one_vector 4 (tr_store i) (NsNamed h) 3.
Proof.
  intros i h vs Hh G L. split; [apply tr_built|]. split.
  - intros k K. rewrite G. apply ns_eqb_neq in K. now rewrite K.
  - exists (tr_vec vs). destruct vs as [|a [|b [|c [|]]]]; try discriminate. split; [|split].
    + eexists. unfold sf_get. rewrite G, ns_eqb_refl. split; [reflexivity|]. unfold sfn_iter, laid_out, tr_vec. cbn [sfn_idx sfn_val map combine fst snd ns_hash].
      rewrite N.add_0_r. reflexivity.
    + repeat (constructor; [|repeat constructor]). constructor.
    + repeat constructor.
Qed.
Lemma tr_get : forall k, fm_get k (tr_store 0%nat) = (if ns_eqb k (NsNamed 101) then Some (mkSfn (NsNamed 101) [5; 6; 7] [fl 1; fl 2; fl 3] true) else None) /\
  fm_get k (tr_store 1%nat) = (if ns_eqb k (NsNamed 98) then Some (mkSfn (NsNamed 98) [2; 3; 4] [fl 1; fl 2; fl 3] true) else None) /\
  fm_get k (tr_store 2%nat) = (if ns_eqb k (NsNamed 98) then Some (mkSfn (NsNamed 98) [2; 3; 4] [fl 4; fl 5; fl 6] true) else None).
Proof.
  intros k.
  replace (tr_store 0%nat) with [(NsNamed 101, mkSfn (NsNamed 101) [5; 6; 7] [fl (O:=BF0) 1; fl 2; fl 3] true)] by (vm_compute; reflexivity).
  replace (tr_store 1%nat) with [(NsNamed 98, mkSfn (NsNamed 98) [2; 3; 4] [fl (O:=BF0) 1; fl 2; fl 3] true)] by (vm_compute; reflexivity).
  replace (tr_store 2%nat) with [(NsNamed 98, mkSfn (NsNamed 98) [2; 3; 4] [fl (O:=BF0) 4; fl 5; fl 6] true)] by (vm_compute; reflexivity).
  cbn [fm_get fst snd]. rewrite ?(ns_eqb_sym k). repeat split; destruct (ns_eqb _ _); reflexivity.
Qed.
Definition tr_count : option nat :=
  match ws_new ex_hash false tr_gc tr_cfg with
  | Ok R => match learn_all false (projT2 R) [tr_ex] with
            | Ok r => match nd_from_dense false (co_w (bottom _ r)) with Ok nd => Some (length (nd_map nd)) | _ => None end
            | _ => None
            end
  | _ => None
  end.
Lemma tr_docs : exists R, ws_new ex_hash false tr_gc tr_cfg = Ok R /\ gc_bits tr_gc < 32 /\
  (let one := nsdef_namespace ex_hash 0 (NDName es_b) in let two := nsdef_namespace ex_hash 0 (NDName es_e) in
   one <> two /\ ns_hash (composite one two) mod 2 ^ 4 + 3 <= 2 ^ 4 /\ Forall (two_vectors 4 one two 3) [tr_ex]) /\
  exists r nd, learn_all false (projT2 R) [tr_ex] = Ok r /\ nd_from_dense false (co_w (bottom _ r)) = Ok nd /\ length (nd_map nd) = 3%nat.
Proof.
  assert (C : tr_count = Some 3%nat) by (vm_compute; reflexivity). unfold tr_count in C.
  destruct (ws_new ex_hash false tr_gc tr_cfg) as [R|x|x] eqn:E; try discriminate. exists R. split; auto. split; [reflexivity|]. split.
  - change (nsdef_namespace ex_hash 0 (NDName es_b)) with (NsNamed 98). change (nsdef_namespace ex_hash 0 (NDName es_e)) with (NsNamed 101).
    cbv zeta. split; [discriminate|]. split; [vm_compute; discriminate|]. constructor; [|constructor].
    do 6 eexists. split; [reflexivity|]. split; [intros x [<- | [<- | []]]; apply tr_built|]. split; [reflexivity|]. split.
    + apply (tr_one 2 98 [4; 5; 6]%Z); [reflexivity| |reflexivity]. intros k. apply tr_get.
    + apply (tr_one 0 101 [1; 2; 3]%Z); [reflexivity| |reflexivity]. intros k. apply tr_get.
  - destruct (learn_all false (projT2 R) [tr_ex]) as [r|x|x] eqn:L; try discriminate.
    destruct (nd_from_dense false (co_w (bottom _ r))) as [nd|x|x] eqn:En; try discriminate. exists r, nd. split; auto. split; auto. congruence.
Qed.
Lemma tr_shown : exists R ts r, ws_new ex_hash false ex_gc es_cb = Ok R /\ gc_bits ex_gc < 32 /\
  Forall2 (shows (projT2 R)) [(es_ftr [3; 4]%nat, LbCb 0 (fl 1) (fl 1))] [ts] /\ ts <> [] /\
  learn_all false (projT2 R) [(es_ftr [3; 4]%nat, LbCb 0 (fl 1) (fl 1))] = Ok r.
Proof.
  destruct es_bandit as (R & _ & us & E & Hb & _ & Bf & _ & Tf & Tl & _ & _ & _ & M & Lu & Bl). exists R, us.
  destruct (proj1 (elem_learn (BF_ford _ _ _) ex_hash ex_gc _ R (projT2 R) _ _ us E (reach_refl _ _) Hb Bf Tf Tl M) Bl) as (r & f' & Er).
  exists r. split; auto. split; auto. split; [constructor; [split; assumption|constructor]|].
  split; [intros K; rewrite K in Lu; discriminate|]. cbn [learn_all]. match goal with |- bind ?x _ = _ => replace x with (Ok (r, f')) by (symmetry; exact Er) end. reflexivity.
Qed.

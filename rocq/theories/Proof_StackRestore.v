(** Calls on a reduction stack give the caller's features back, and do not depend on
    the model offset counter. *)
From Coq Require Import List NArith ZArith Bool Lia.
From Verif Require Import Base FloatOps Model_Hash Model_Features Model_Weights Model_Types Model_Explore
  Model_Coin Model_Stack Proof_Features Proof_StackCong.
Import ListNotations.

Ltac binv H :=
  let a := fresh "v" in let E := fresh "B" in
  apply bind_ok in H; destruct H as (a & E & H).

Section Restore.
Context {O : FOps}.
Implicit Types (a b : sfeats O) (f g : features O).

Definition israw (k : namespace) : Prop := match k with NsRawHash _ => True | _ => False end.
Definition noraw a : Prop := forall k, israw k -> vget k a = None.

(** only composite namespaces may have disappeared *)
Definition rr a a' : Prop :=
  fwf a' /\ forall k, vget k a' = vget k a \/ (israw k /\ vget k a' = None).

Definition cbok (s : option (sfeats O)) (x : list (sfeats O)) : Prop :=
  Forall (fun a => fwf a /\ noraw a) x /\
  match s with
  | None => True
  | Some sh => fwf sh /\ noraw sh /\
      forall a, In a x ->
        (forall k t, fm_get k sh = Some t -> sfn_active t = true -> restorable k a) /\
        (forall k t, fm_get k a = Some t -> sfn_active t = true -> restorable k sh)
  end.
Definition good f : Prop := match f with FtsSimple a => fwf a | FtsCb s x => cbok s x end.
Definition fr f f' : Prop :=
  match f, f' with
  | FtsSimple a, FtsSimple a' => rr a a'
  | FtsCb _ _, FtsCb _ _ => ftsim f f'
  | _, _ => False
  end.

Lemma rr_refl : forall a, fwf a -> rr a a.
Proof. intros a W; split; auto. Qed.

Lemma rr_fsim : forall a a', fwf a -> noraw a -> rr a a' -> fsim a a'.
Proof.
  intros a a' W N (W' & R). split; auto. split; auto. intros k.
  destruct (R k) as [E|(K & E)]; auto. rewrite E. now apply N.
Qed.

Lemma good_wf : forall f, good f -> ftwf f.
Proof.
  intros [a|s x]; simpl; auto. intros (F & S). split.
  - destruct s; tauto.
  - eapply Forall_impl; [|exact F]. simpl; tauto.
Qed.
Lemma fr_refl : forall f, good f -> fr f f.
Proof.
  intros [a|s x] G; [now apply rr_refl|]. simpl. apply (ftsim_refl (FtsCb s x)). now apply good_wf.
Qed.

Lemma append_noraw : forall a b r, fwf a -> fwf b -> noraw a -> noraw b -> sf_append a b = Ok r -> noraw r.
Proof.
  intros a b r Wa Wb Na Nb H k K. destruct (append_get a b Wa Wb) as (r0 & E & W & G).
  rewrite H in E; inversion E; subst r0. unfold vget. rewrite G.
  specialize (Na k K). specialize (Nb k K). unfold vget in Na, Nb.
  destruct (fm_get k b) as [t|]; auto. destruct (sfn_active t) eqn:At; auto.
  unfold svis in Nb. rewrite At in Nb. discriminate.
Qed.

Lemma append_wf : forall a b r, fwf a -> fwf b -> sf_append a b = Ok r -> fwf r.
Proof.
  intros a b r Wa Wb H. destruct (append_get a b Wa Wb) as (r0 & E & W & G). congruence.
Qed.

(** append, call, remove *)
Lemma around_restore : forall dbg a b a1 a' a2, fwf a -> fwf b -> noraw a -> noraw b ->
  (forall k t, fm_get k b = Some t -> sfn_active t = true -> restorable k a) ->
  sf_append a b = Ok a1 -> rr a1 a' -> sf_remove dbg a' b = Ok a2 -> fsim a a2.
Proof.
  intros dbg a b a1 a' a2 Wa Wb Na Nb R H1 H2 H3.
  destruct (append_remove_sim dbg a b Wa Wb) as (r & r' & E1 & E2 & W1 & W2 & I).
  rewrite H1 in E1; inversion E1; subst r.
  assert (S : fsim a1 a') by (apply rr_fsim; auto; apply (append_noraw a b); auto).
  pose proof (fsim_remove2 dbg a1 a' b b S (fsim_refl b Wb)) as Q. rewrite E2, H3 in Q.
  inversion Q; subst. eapply fsim_trans; [apply fsim_sym; apply I; auto|auto].
Qed.

Definition elem_ok (k : kind O) : Prop :=
  match k with KElem one two _ _ => ~ israw one /\ ~ israw two | _ => True end.
Fixpoint elems_ok (n : nat) : red O n -> Prop :=
  match n with
  | 0%nat => fun _ => True
  | S m => fun r => elem_ok (snd (fst r)) /\ elems_ok m (snd r)
  end.

Lemma elem_frame_restore : forall X dbg one two keep nb (call : features O -> out (pres O X)) f x f' d',
  ~ israw one -> ~ israw two -> good f ->
  (forall s x f' d', fwf s -> call (FtsSimple s) = Ok (x, f', d') -> fr (FtsSimple s) f') ->
  elem_frame dbg one two keep nb call f = Ok (x, f', d') -> fr f f'.
Proof.
  intros X dbg one two keep nb call f x f' d' N1 N2 G HC H. unfold elem_frame in H.
  destruct f as [s|? ?]; simpl as_simple in H; cbn [bind] in H; [|discriminate]. simpl in G.
  binv H. rename v into dest. destruct (elem_multiply_wf _ _ _ _ _ _ B) as (Wd & G1 & G2).
  set (cns := elem_ns one two) in *. assert (RC : israw cns) by exact I.
  assert (C1 : one <> cns) by (intros E; apply N1; now rewrite E).
  assert (C2 : two <> cns) by (intros E; apply N2; now rewrite E).
  assert (W1 : fwf (sf_set_ns cns dest s)) by now apply fwf_set.
  destruct keep.
  - binv H. destruct v as ((y & g) & e). inversion H; subst. clear H.
    apply HC in B0; auto. destruct g as [g|]; [|now simpl in B0]. simpl in B0 |- *.
    destruct B0 as (Wg & R). split; [now apply fwf_del|]. intros k.
    rewrite vget_del by apply Wg. destruct (ns_eqb k cns) eqn:E.
    + apply ns_eqb_eq in E; subst k. auto.
    + destruct (R k) as [Q|Q]; auto. left. rewrite Q. unfold sf_set_ns. now rewrite vget_set, E.
  - unfold sf_remove_ns in H at 1. binv H. rename v into n1.
    unfold sf_remove_ns in H at 1. binv H. rename v into n2.
    unfold opt_or in B0, B1.
    destruct (fm_get one (sf_set_ns cns dest s)) as [m1|] eqn:E1; [|discriminate]. inversion B0; subst m1. clear B0.
    destruct (fm_get two (fm_del one (sf_set_ns cns dest s))) as [m2|] eqn:E2; [|discriminate]. inversion B1; subst m2. clear B1.
    binv H. destruct v as ((y & g) & e). inversion H; subst. clear H.
    assert (W2 : fwf (fm_del one (sf_set_ns cns dest s))) by now apply fwf_del.
    apply HC in B0; [|now apply fwf_del]. destruct g as [g|]; [|now simpl in B0]. simpl in B0 |- *.
    destruct B0 as (Wg & R).
    assert (Wn1 : sfn_wf one n1) by (eapply W1; eauto).
    assert (Wn2 : sfn_wf two n2) by (eapply W2; eauto).
    split. { unfold sf_set_ns. apply fwf_set; auto. apply fwf_set; auto. now apply fwf_del. }
    intros k. unfold sf_set_ns. rewrite !vget_set.
    rewrite vget_del by apply Wg.
    unfold sf_set_ns in E1, E2. rewrite fm_get_set in E1. rewrite fm_get_del, fm_get_set in E2 by apply W1.
    apply ns_eqb_neq in C1. apply ns_eqb_neq in C2. rewrite C1 in E1.
    destruct (ns_eqb two one) eqn:T; [discriminate|]. rewrite C2 in E2.
    destruct (ns_eqb k two) eqn:K2.
    { apply ns_eqb_eq in K2; subst k. left. unfold vget. now rewrite E2. }
    destruct (ns_eqb k one) eqn:K1.
    { apply ns_eqb_eq in K1; subst k. left. unfold vget. now rewrite E1. }
    destruct (ns_eqb k cns) eqn:KC.
    { apply ns_eqb_eq in KC; subst k. auto. }
    destruct (R k) as [Q|Q]; auto. left. rewrite Q.
    rewrite vget_del by apply W2. rewrite K2. rewrite vget_del by apply W1. rewrite K1.
    unfold sf_set_ns. now rewrite vget_set, KC.
Qed.

Lemma cb_predict_loop_restore : forall dbg child s x i d sc acts d',
  (forall s d mo x f' d', fwf s -> child (FtsSimple s) d mo = Ok (x, f', d') -> fr (FtsSimple s) f') ->
  cbok s x -> cb_predict_loop dbg child s x i d = Ok (sc, acts, d') -> Forall2 fsim x acts.
Proof.
  intros dbg child s x i d sc acts d' HC. revert i d sc acts d'.
  induction x as [|a x IH]; intros i d sc acts d' G H; simpl in H.
  - inversion H; subst. constructor.
  - binv H. rename v into a1. binv H. destruct v as ((p & f') & d1). binv H. binv H. rename v0 into a2.
    binv H. destruct v0 as ((scs & acs) & d2). inversion H; subst. clear H.
    destruct G as (F & GS). inversion F as [|? ? (Wa & Na) F']; subst.
    constructor.
    + destruct s as [sh|]; simpl in B, B2.
      * destruct GS as (Wsh & Nsh & R). destruct (R a (or_introl eq_refl)) as (R1 & _).
        assert (W1 : fwf a1) by (eapply (append_wf a sh); eauto).
        apply HC in B0; auto. destruct f' as [f'|]; [|now simpl in B0]. simpl in B0, B2.
        apply (around_restore dbg a sh a1 f' a2); auto.
      * inversion B; subst a1. apply HC in B0; auto. destruct f' as [f'|]; [|now simpl in B0]. simpl in B0, B2.
        inversion B2; subst. now apply rr_fsim.
    + eapply IH; [|exact B3]. split; auto. destruct s; auto. destruct GS as (? & ? & R).
      split; auto. split; auto. intros b Hb. apply R. now right.
Qed.

Lemma cb_ips_loop_restore : forall X dbg learn act cost prob s x i (ch : X) d ch' acts d' (P : X -> Prop),
  (forall ch s lb d mo x f' d', P ch -> fwf s -> learn ch (FtsSimple s) lb d mo = Ok (x, f', d') ->
     P x /\ fr (FtsSimple s) f') ->
  P ch -> cbok s x -> cb_ips_loop dbg learn act cost prob s x i ch d = Ok (ch', acts, d') ->
  P ch' /\ Forall2 fsim x acts.
Proof.
  intros X dbg learn act cost prob s x i ch d ch' acts d' P HC. revert i ch d ch' acts d'.
  induction x as [|a x IH]; intros i ch d ch' acts d' HP G H; simpl in H.
  - inversion H; subst. split; auto.
  - binv H. rename v into a1. binv H. binv H. destruct v0 as ((p & f') & d1). binv H. rename v0 into a2.
    binv H. destruct v0 as ((scs & acs) & d2). inversion H; subst. clear H.
    destruct G as (F & GS). inversion F as [|? ? (Wa & Na) F']; subst.
    assert (W1 : fwf a1).
    { destruct s as [sh|]; simpl in B; [|inversion B; now subst]. destruct GS as (Wsh & _).
      eapply (append_wf a sh); eauto. }
    apply HC in B1; auto. destruct B1 as (HP' & B1). destruct f' as [f'|]; [|now simpl in B1].
    simpl in B1, B2.
    assert (Q : P ch' /\ Forall2 fsim x acs).
    { eapply IH; [exact HP'| |exact B3]. split; auto. destruct s; auto. destruct GS as (? & ? & R).
      split; auto. split; auto. intros b Hb. apply R. now right. }
    split; [apply Q|]. constructor; [|apply Q].
    destruct s as [sh|]; simpl in B, B2.
    + destruct GS as (Wsh & Nsh & R). destruct (R a (or_introl eq_refl)) as (R1 & _).
      apply (around_restore dbg a sh a1 f' a2); auto.
    + inversion B; subst a1. inversion B2; subst. now apply rr_fsim.
Qed.

Lemma wrap_ok : forall X dbg nmb mo f d (body : features O -> N -> out (pres O X)) x f' d',
  wrap dbg nmb mo f d body = Ok (x, f', d') -> exists d1 d2, body f d1 = Ok (x, f', d2).
Proof.
  intros X dbg nmb mo f d body x f' d' H. unfold wrap in H. binv H. binv H. destruct v0 as ((y & g) & e).
  binv H. destruct (_ && _); [discriminate|]. inversion H; subst. eauto.
Qed.

Lemma kind_predict_restore : forall dbg k child f d mo p f' d', elem_ok k -> good f ->
  (forall f d mo p f' d', good f -> child f d mo = Ok (p, f', d') -> fr f f') ->
  kind_predict dbg k child f d mo = Ok (p, f', d') -> fr f f'.
Proof.
  intros dbg k child f d mo p f' d' K1 G IH H.
  destruct k; cbn [kind_predict] in H.
  + binv H. destruct v as ((q & g) & e). binv H. inversion H; subst. eapply IH; eauto.
  + destruct f as [a|s x]; simpl as_cb in H; cbn [bind fst snd] in H; [discriminate|].
    binv H. destruct v as ((sc & acts) & e). inversion H; subst. simpl in G.
    assert (F : Forall2 fsim x acts).
    { eapply cb_predict_loop_restore; [|exact G|exact B]. intros s0 d0 mo0 p0 g0 e0 W0 E0.
      apply (IH (FtsSimple s0) d0 mo0 p0 g0 e0); auto. }
    simpl. split; auto. destruct G as (_ & G). destruct s; simpl; auto. apply fsim_refl, G.
  + binv H. destruct v as ((q & g) & e). binv H. binv H. inversion H; subst. eapply IH; eauto.
  + binv H. destruct v as ((q & g) & e). binv H. binv H. inversion H; subst. eapply IH; eauto.
  + binv H. destruct v as ((q & g) & e). binv H. binv H. inversion H; subst. eapply IH; eauto.
  + destruct K1. eapply elem_frame_restore; [| | | |exact H]; auto.
    intros s0 x0 g0 e0 W0 E0. eapply (IH (FtsSimple s0)); [exact W0|exact E0].
  + eapply IH; eauto.
Qed.

Lemma predict_restore : forall dbg n (r : red O n) f d mo p f' d', elems_ok n r -> good f ->
  predict dbg n r f d mo = Ok (p, f', d') -> fr f f'.
Proof.
  induction n as [|n IH]; intros r f d mo p f' d' K G H.
  - destruct r as (w & c). cbn [predict fst snd] in H. apply wrap_ok in H. destruct H as (d1 & d2 & H).
    unfold coin_predict_body in H. binv H. binv H. inversion H; subst. now apply fr_refl.
  - destruct r as ((w & k) & ch). cbn [predict] in H. apply wrap_ok in H. destruct H as (d1 & d2 & H).
    destruct K as (K1 & K2). cbn [fst snd] in K1, K2.
    eapply kind_predict_restore; [exact K1|exact G| |exact H]. intros; eapply IH; eauto.
Qed.

Lemma kind_learn_restore : forall X (P : X -> Prop) dbg k le ch f lb d mo k' ch' f' d', elem_ok k -> good f -> P ch ->
  (forall ch f lb d mo ch' f' d', P ch -> good f -> le ch f lb d mo = Ok (ch', f', d') -> P ch' /\ fr f f') ->
  kind_learn dbg k le ch f lb d mo = Ok ((k', ch'), f', d') -> (elem_ok k' /\ P ch') /\ fr f f'.
Proof.
  intros X P dbg k le ch f lb d mo k' ch' f' d' K1 G K2 IH H.
  destruct k; cbn [kind_learn] in H.
  + binv H. binv H. destruct v0 as ((c' & g) & e). inversion H; subst.
    apply IH in B0; auto. tauto.
  + destruct f as [a|s x]; simpl as_cb in H; cbn [bind fst snd] in H; [discriminate|].
    binv H. destruct v as ((act & cost) & prob). simpl in G. destruct ty.
    * binv H. destruct v as ((c' & acts) & e). inversion H; subst.
      destruct (cb_ips_loop_restore _ _ _ _ _ _ _ _ _ _ _ _ _ _ P
                  (fun ch s lb d mo x f' d' Pc W E => IH ch (FtsSimple s) lb d mo x f' d' Pc W E) K2 G B0) as (Q1 & Q2).
      split; [split; [exact I|exact Q1]|].
      simpl. split; auto. destruct G as (_ & G). destruct s; simpl; auto. apply fsim_refl, G.
    * binv H. binv H. destruct s as [sh|]; [|discriminate]. binv H. binv H. binv H.
      destruct v3 as ((c' & g) & e). binv H. inversion H; subst. clear H.
      destruct G as (F & Wsh & Nsh & R).
      assert (Hin : In v1 x). { unfold opt_or in B2. destruct (nth_error x (N.to_nat act)) eqn:E; [|discriminate].
        inversion B2; subst. eapply nth_error_In; eauto. }
      destruct (R v1 Hin) as (_ & R2).
      assert (Wv : fwf v1 /\ noraw v1) by (eapply Forall_forall in F; eauto).
      destruct Wv as (Wv & Nv).
      assert (W1 : fwf v2) by (eapply (append_wf sh v1); eauto).
      apply IH in B4; auto. destruct B4 as (Q1 & Q2). destruct g as [g|]; [|now simpl in Q2]. simpl in Q2, B5.
      split; [split; [exact I|exact Q1]|]. simpl. split.
      -- apply (around_restore dbg sh v1 v2 g v3); auto.
      -- clear - F. induction F; constructor; auto. apply fsim_refl, H.
  + binv H. destruct v as ((c' & g) & e). inversion H; subst. apply IH in B; auto. tauto.
  + binv H. destruct v as ((c' & g) & e). inversion H; subst. apply IH in B; auto. tauto.
  + binv H. destruct v as ((act & cost) & prob). binv H. destruct v as ((c' & g) & e). binv H.
    inversion H; subst. apply IH in B0; auto. split; [split; [exact I|tauto]|tauto].
  + binv H. destruct v as ((c' & g) & e). inversion H; subst. destruct K1 as (N1 & N2).
    split.
    * split; [simpl; auto|].
      (* the child after the call *)
      unfold elem_frame in B. destruct f as [s|]; simpl as_simple in B; cbn [bind] in B; [|discriminate].
      simpl in G. binv B. destruct (elem_multiply_wf _ _ _ _ _ _ B0) as (Wd & _ & _).
      destruct keep.
      -- binv B. destruct v0 as ((y & g) & e0). inversion B; subst. eapply IH in B1; [|auto|]; [tauto|].
         simpl. now apply fwf_set.
      -- destruct (sf_remove_ns one _) as (o1 & s2) eqn:E1. binv B. destruct (sf_remove_ns two _) as (o2 & s3) eqn:E2.
         binv B. binv B. destruct v2 as ((y & g) & e0). inversion B; subst. eapply IH in B3; [|auto|]; [tauto|].
         inversion E1; inversion E2; subst. simpl. apply fwf_del, fwf_del. now apply fwf_set.
    * eapply elem_frame_restore; [| | | |exact B]; auto.
      intros s0 x0 g0 e0 W0 E0. eapply (IH ch (FtsSimple s0)); [exact K2|exact W0|exact E0].
  + binv H. destruct v as ((c' & g) & e). inversion H; subst. apply IH in B; auto. tauto.
Qed.

Lemma learn_restore : forall dbg n (r : red O n) f lb d mo r' f' d', elems_ok n r -> good f ->
  learn dbg n r f lb d mo = Ok (r', f', d') -> elems_ok n r' /\ fr f f'.
Proof.
  induction n as [|n IH]; intros r f lb d mo r' f' d' K G H.
  - destruct r as (w & c). cbn [learn] in H. apply wrap_ok in H. destruct H as (d1 & d2 & H).
    unfold coin_learn_body in H. binv H. destruct v as ((c' & g) & e). binv B. binv B. binv B.
    inversion B; inversion H; subst. split; [exact I|]. now apply fr_refl.
  - destruct r as ((w & k) & ch). cbn [learn] in H. apply wrap_ok in H. destruct H as (d1 & d2 & H).
    destruct K as (K1 & K2). cbn [fst snd] in K1, K2.
    binv H. destruct v as (((k' & ch') & g) & e). inversion H; subst. clear H.
    cbn [elems_ok fst snd].
    eapply (kind_learn_restore _ (elems_ok n)); [exact K1|exact G|exact K2| |exact B]. intros; eapply IH; eauto.
Qed.

End Restore.

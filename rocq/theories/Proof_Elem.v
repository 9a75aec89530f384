(** C36: the element-wise interaction. *)
From Coq Require Import List NArith ZArith Bool Lia Sorted.
From Verif Require Import Base FloatOps FloatB32 Model_Hash Model_Features Model_Types Model_Interactions
  Model_Coin Model_Stack Model_Factory Spec_Stack Spec_Elem Proof_Hash Proof_Features Proof_StackCong
  Proof_StackRestore Proof_StackShape Proof_StackProps.
Import ListNotations.
Open Scope N_scope.

Section Elem.
Context (O : FOps).

Lemma at_cons : forall k p (w : vec O), at_pos k (p :: w) = if fst p =? k then Some (snd p) else at_pos k w.
Proof. intros. unfold at_pos. simpl. now destruct (fst p =? k). Qed.

Lemma at_none : forall k (w : vec O), Forall (fun p => k < fst p) w -> at_pos k w = None.
Proof.
  intros k w H. induction H as [|p w H _ IH]; [reflexivity|]. rewrite at_cons.
  destruct (N.eqb_spec (fst p) k); [lia|auto].
Qed.

Lemma products_skip : forall (v : vec O) p w, Forall (fun q => fst p < fst q) v ->
  products v (p :: w) = products v w.
Proof.
  intros v p w H. unfold products. induction H as [|q v H _ IH]; [reflexivity|]. simpl.
  rewrite at_cons. destruct (N.eqb_spec (fst p) (fst q)); [lia|]. now rewrite IH.
Qed.

Lemma sub32_add : forall dbg b k, sub32 dbg (b + k) b = Ok k.
Proof.
  intros. unfold sub32. replace (b <=? b + k) with true by (symmetry; apply N.leb_le; lia).
  f_equal. lia.
Qed.

Lemma merge_step : forall dbg b1 b2 cb i1 v1 (r1 : list (N * O)) i2 v2 r2 dest,
  elem_merge dbg b1 b2 cb ((i1, v1) :: r1) ((i2, v2) :: r2) dest =
  let* idx1 := sub32 dbg i1 b1 in
  let* idx2 := sub32 dbg i2 b2 in
  let* di := add32 dbg cb idx1 in
  if idx1 =? idx2 then elem_merge dbg b1 b2 cb r1 r2 (sfn_add di (f_mul O v1 v2) dest)
  else if idx1 <? idx2 then elem_merge dbg b1 b2 cb r1 ((i2, v2) :: r2) dest
  else elem_merge dbg b1 b2 cb ((i1, v1) :: r1) r2 dest.
Proof. reflexivity. Qed.

Lemma merge_products : forall dbg b1 b2 cb (v w : vec O) dest,
  increasing v -> increasing w ->
  Forall (fun p => cb + fst p < 2 ^ 32) v ->
  exists r, elem_merge dbg b1 b2 cb (laid_out b1 v) (laid_out b2 w) dest = Ok r /\
    sfn_ns r = sfn_ns dest /\ sfn_active r = sfn_active dest /\
    sfn_idx r = sfn_idx dest ++ map (fun p => cb + fst p) (products v w) /\
    sfn_val r = sfn_val dest ++ map snd (products v w).
Proof.
  intros dbg b1 b2 cb. induction v as [|[k x] v IH]; intros w dest Hv Hw Hc.
  - exists dest. cbn [laid_out map products flat_map]. rewrite !app_nil_r.
    split; [destruct w; reflexivity|auto].
  - inversion Hv as [|? ? Hv' Fv]; subst. inversion Hc as [|? ? Hc1 Hc']; subst. simpl in Hc1.
    induction w as [|[j y] w IHw].
    + exists dest. split; [reflexivity|].
      assert (E : products ((k, x) :: v) [] = []).
      { unfold products. clear. induction ((k, x) :: v) as [|q u IH]; [reflexivity|]. simpl. exact IH. }
      rewrite E. simpl. rewrite !app_nil_r. auto.
    + inversion Hw as [|? ? Hw' Fw]; subst.
      cbn [laid_out map fst snd] in *. rewrite merge_step, !sub32_add. cbn [bind].
      unfold add32 at 1. replace (cb + k <? u32_mod) with true
        by (symmetry; apply N.ltb_lt; exact Hc1). cbn [bind].
      destruct (N.eqb_spec k j) as [->|Nkj].
      * destruct (IH w (sfn_add (cb + j) (f_mul O x y) dest) Hv' Hw' Hc') as (r & E & A1 & A2 & A3 & A4).
        exists r. split; [exact E|].
        assert (P : products ((j, x) :: v) ((j, y) :: w) = (j, f_mul O x y) :: products v w).
        { unfold products at 1. cbn [flat_map fst snd]. rewrite at_cons. cbn [fst snd].
          rewrite N.eqb_refl. cbn [app]. f_equal. apply products_skip. exact Fv. }
        rewrite P. cbn [map fst snd sfn_add sfn_ns sfn_active sfn_idx sfn_val] in *.
        rewrite A3, A4, <- !app_assoc. auto.
      * destruct (N.ltb_spec k j) as [L|L].
        -- destruct (IH ((j, y) :: w) dest Hv' Hw Hc') as (r & E & A1 & A2 & A3 & A4).
           exists r. split; [exact E|].
           assert (P : products ((k, x) :: v) ((j, y) :: w) = products v ((j, y) :: w)).
           { unfold products at 1. cbn [flat_map fst snd].
             rewrite at_none; [reflexivity|]. constructor; [exact L|].
             eapply Forall_impl; [|exact Fw]. cbn [fst]. intros; lia. }
           rewrite P. auto.
        -- destruct (IHw Hw') as (r & E & A1 & A2 & A3 & A4).
           exists r. split; [exact E|].
           rewrite products_skip; [auto|]. cbn [fst]. constructor; [cbn [fst]; lia|].
           eapply Forall_impl; [|exact Fv]. cbn [fst]. intros; lia.
Qed.

Lemma multiply_products : forall dbg nb (s : sfeats O) one two (v w : vec O),
  nb < 32 -> holds nb s one v -> holds nb s two w -> increasing v -> increasing w ->
  Forall (fun p => ns_hash (composite one two) mod 2 ^ nb + fst p < 2 ^ 32) v ->
  elem_multiply dbg nb s one two = Ok (prod_ns nb one two v w).
Proof.
  intros dbg nb s one two v w Hb (x1 & G1 & E1) (x2 & G2 & E2) Iv Iw Hc.
  unfold elem_multiply.
  assert (M : mask_from_bits dbg nb = Ok (N.ones nb)).
  { unfold mask_from_bits. apply N.ltb_lt in Hb. rewrite Hb, N.ones_equiv, N.pred_sub. reflexivity. }
  rewrite M. cbn [bind]. rewrite G1, G2. cbn [opt_or bind]. rewrite E1, E2, !mask_mod.
  change (elem_ns one two) with (composite one two).
  destruct (merge_products dbg (ns_hash one mod 2 ^ nb) (ns_hash two mod 2 ^ nb)
              (ns_hash (composite one two) mod 2 ^ nb) v w (sfn_new (composite one two)) Iv Iw Hc)
    as (r & E & A1 & A2 & A3 & A4).
  rewrite E. f_equal. destruct r as [a b c d]. simpl in *. subst. reflexivity.
Qed.

Lemma composite_ne : forall one two n, nameable n -> n <> composite one two.
Proof. intros one two [h|h|] H; simpl in H; try tauto; discriminate. Qed.

(** ** The frame *)

Lemma eqb_neq' : forall a b, a <> b -> ns_eqb a b = false.
Proof. intros a b H. now apply ns_eqb_neq. Qed.

Lemma frame : forall dbg nb s one two keep (v w : vec O),
  in_order s -> nb < 32 -> nameable one -> nameable two -> (keep = false -> one <> two) ->
  holds nb s one v -> holds nb s two w -> increasing v -> increasing w ->
  Forall (fun p => ns_hash (composite one two) mod 2 ^ nb + fst p < 2 ^ 32) v ->
  fm_get (composite one two) s = None ->
  exists t, in_order t /\ (forall k, fm_get k t = view nb s one two keep v w k) /\
    forall X (call : features O -> out (pres O X)) x u d',
      call (FtsSimple t) = Ok (x, FtsSimple u, d') ->
      in_order u -> (forall k, fm_get k u = fm_get k t) ->
      exists s', elem_frame dbg one two keep nb call (FtsSimple s) = Ok (x, FtsSimple s', d') /\
        forall k, fm_get k s' = fm_get k s.
Proof.
  intros dbg nb s one two keep v w So Hb N1 N2 Hk H1 H2 Iv Iw Hc Hn.
  pose proof (multiply_products dbg nb s one two v w Hb H1 H2 Iv Iw Hc) as E.
  assert (C1 := composite_ne one two one N1). assert (C2 := composite_ne one two two N2).
  destruct H1 as (x1 & G1 & _). destruct H2 as (x2 & G2 & _).
  apply fm_get_active in G1. apply fm_get_active in G2. destruct G1 as [G1 _]. destruct G2 as [G2 _].
  set (c := composite one two) in *. set (P := prod_ns nb one two v w) in *.
  assert (S1 : in_order (fm_set c P s)) by (apply fm_sorted_set; exact So).
  destruct keep.
  - exists (fm_set c P s). split; [exact S1|]. split.
    + intros k. rewrite fm_get_set. unfold view. fold c. fold P. destruct (ns_eqb k c); reflexivity.
    + intros X call x u d' Hcall Su Hu. unfold elem_frame. cbn [as_simple bind].
      rewrite E. cbn [bind]. fold c. change (elem_ns one two) with c. unfold sf_set_ns. fold P.
      rewrite Hcall. cbn [bind back_simple sf_remove_ns snd].
      eexists. split; [reflexivity|]. intros k. rewrite fm_get_del by exact Su. rewrite Hu, fm_get_set.
      destruct (ns_eqb k c) eqn:Ek; [|reflexivity]. apply ns_eqb_eq in Ek. subst k. now rewrite Hn.
  - specialize (Hk eq_refl).
    assert (Sd1 : in_order (fm_del one (fm_set c P s))) by (apply fm_sorted_del; exact S1).
    assert (Sd2 : in_order (fm_del two (fm_del one (fm_set c P s)))) by (apply fm_sorted_del; exact Sd1).
    exists (fm_del two (fm_del one (fm_set c P s))). split; [exact Sd2|]. split.
    + intros k. rewrite !fm_get_del by assumption. rewrite fm_get_set. unfold view. fold c. fold P.
      cbn [negb andb]. destruct (ns_eqb k two) eqn:K2.
      * apply ns_eqb_eq in K2. subst k. rewrite (eqb_neq' two c) by auto. now rewrite orb_true_r.
      * destruct (ns_eqb k one) eqn:K1; [|reflexivity].
        apply ns_eqb_eq in K1. subst k. rewrite (eqb_neq' one c) by auto. reflexivity.
    + intros X call x u d' Hcall Su Hu. unfold elem_frame. cbn [as_simple bind].
      rewrite E. cbn [bind]. change (elem_ns one two) with c. unfold sf_set_ns, sf_remove_ns. fold P.
      rewrite fm_get_set, (eqb_neq' one c) by auto. rewrite G1. cbn [opt_or bind].
      rewrite fm_get_del by exact S1. rewrite (eqb_neq' two one) by auto.
      rewrite fm_get_set, (eqb_neq' two c) by auto. rewrite G2. cbn [opt_or bind].
      rewrite Hcall. cbn [bind back_simple snd].
      eexists. split; [reflexivity|]. intros k. rewrite !fm_get_set.
      destruct (ns_eqb k two) eqn:K2; [apply ns_eqb_eq in K2; subst; congruence|].
      destruct (ns_eqb k one) eqn:K1; [apply ns_eqb_eq in K1; subst; congruence|].
      rewrite fm_get_del by exact Su. rewrite Hu, !fm_get_del, fm_get_set by assumption.
      rewrite K1, K2. destruct (ns_eqb k c) eqn:Ek; [|reflexivity].
      apply ns_eqb_eq in Ek. subst k. now rewrite Hn.
Qed.

Lemma child_input : forall dbg nb s one two keep (v w : vec O),
  in_order s -> nb < 32 -> nameable one -> nameable two -> (keep = false -> one <> two) ->
  holds nb s one v -> holds nb s two w -> increasing v -> increasing w ->
  Forall (fun p => ns_hash (composite one two) mod 2 ^ nb + fst p < 2 ^ 32) v ->
  fm_get (composite one two) s = None ->
  exists t, in_order t /\ (forall k, fm_get k t = view nb s one two keep v w k) /\
    (forall child d mo p u d',
       child (FtsSimple t) d 0 = Ok (p, FtsSimple u, d') ->
       in_order u -> (forall k, fm_get k u = fm_get k t) ->
       exists s', kind_predict dbg (KElem one two keep nb) child (FtsSimple s) d mo
                    = Ok (p, FtsSimple s', d') /\ forall k, fm_get k s' = fm_get k s) /\
    (forall X (learn : X -> features O -> label O -> N -> N -> out (pres O X)) ch lb d mo ch' u d',
       learn ch (FtsSimple t) lb d 0 = Ok (ch', FtsSimple u, d') ->
       in_order u -> (forall k, fm_get k u = fm_get k t) ->
       exists s', kind_learn dbg (KElem one two keep nb) learn ch (FtsSimple s) lb d mo
                    = Ok ((KElem one two keep nb, ch'), FtsSimple s', d') /\
                  forall k, fm_get k s' = fm_get k s).
Proof.
  intros dbg nb s one two keep v w So Hb N1 N2 Hk H1 H2 Iv Iw Hc Hn.
  destruct (frame dbg nb s one two keep v w So Hb N1 N2 Hk H1 H2 Iv Iw Hc Hn) as (t & St & V & F).
  exists t. split; [exact St|]. split; [exact V|]. split.
  - intros child d mo p u d' Hc' Su Hu.
    destruct (F _ (fun f => child f d 0) p u d' Hc' Su Hu) as (s' & E & Q).
    exists s'. split; [exact E|exact Q].
  - intros X learn ch lb d mo ch' u d' Hc' Su Hu.
    destruct (F _ (fun f => learn ch f lb d 0) ch' u d' Hc' Su Hu) as (s' & E & Q).
    exists s'. split; [|exact Q]. cbn [kind_learn]. rewrite E. reflexivity.
Qed.

(** ** Panics *)

Lemma missing : forall X dbg nb s one two keep (call : features O -> out (pres O X)),
  nb < 32 -> sf_get one s = None \/ sf_get two s = None ->
  elem_frame dbg one two keep nb call (FtsSimple s) = Pn PNone.
Proof.
  intros X dbg nb s one two keep call Hb H. unfold elem_frame. cbn [as_simple bind].
  unfold elem_multiply, mask_from_bits. apply N.ltb_lt in Hb. rewrite Hb. cbn [bind].
  destruct H as [H|H]; rewrite H; cbn [opt_or bind]; auto.
  destruct (sf_get one s); reflexivity.
Qed.

Lemma merge_noerr : forall dbg b1 b2 cb (l1 l2 : list (N * O)) dest,
  match elem_merge dbg b1 b2 cb l1 l2 dest with Er _ => False | _ => True end.
Proof.
  intros dbg b1 b2 cb. induction l1 as [|[i x] l1 IH]; intros l2 dest; [destruct l2; exact I|].
  revert dest. induction l2 as [|[j y] l2 IH2]; intros dest; [exact I|].
  rewrite merge_step. unfold sub32, add32.
  repeat match goal with |- context [if ?b then _ else _] => destruct b; cbn [bind] end; auto;
    try apply IH; apply IH2.
Qed.

Lemma same_twice : forall X dbg nb s one (call : features O -> out (pres O X)),
  in_order s -> nameable one ->
  exists p, elem_frame dbg one one false nb call (FtsSimple s) = Pn p.
Proof.
  intros X dbg nb s one call So N1. unfold elem_frame. cbn [as_simple bind].
  assert (Q : match elem_multiply dbg nb s one one with Er _ => False | _ => True end).
  { unfold elem_multiply, mask_from_bits.
    destruct (nb <? 32); [|destruct dbg]; cbn [bind]; auto;
    destruct (sf_get one s); cbn [opt_or bind]; auto; apply merge_noerr. }
  destruct (elem_multiply dbg nb s one one) as [dest|e|p]; [|tauto|eexists; reflexivity].
  cbn [bind]. unfold sf_remove_ns, sf_set_ns.
  destruct (fm_get one (fm_set (elem_ns one one) dest s)); cbn [opt_or bind]; [|eexists; reflexivity].
  rewrite fm_get_del by (apply fm_sorted_set; exact So). rewrite ns_eqb_refl. cbn [opt_or bind].
  eexists; reflexivity.
Qed.

Lemma below_base : forall nb s one two x1 x2 i1 a r1 i2 b r2 X keep (call : features O -> out (pres O X)),
  nb < 32 -> sf_get one s = Some x1 -> sf_get two s = Some x2 ->
  sfn_iter x1 = (i1, a) :: r1 -> sfn_iter x2 = (i2, b) :: r2 ->
  i1 < ns_hash one mod 2 ^ nb \/ i2 < ns_hash two mod 2 ^ nb ->
  elem_frame true one two keep nb call (FtsSimple s) = Pn POverflow.
Proof.
  intros nb s one two x1 x2 i1 a r1 i2 b r2 X keep call Hb G1 G2 E1 E2 H.
  unfold elem_frame. cbn [as_simple bind]. unfold elem_multiply.
  assert (M : mask_from_bits true nb = Ok (N.ones nb)).
  { unfold mask_from_bits. apply N.ltb_lt in Hb. rewrite Hb, N.ones_equiv, N.pred_sub. reflexivity. }
  rewrite M. cbn [bind]. rewrite G1, G2. cbn [opt_or bind]. rewrite E1, E2, !mask_mod.
  cbn [elem_merge]. unfold sub32.
  destruct (N.leb_spec (ns_hash one mod 2 ^ nb) i1); [|reflexivity]. cbn [bind].
  destruct (N.leb_spec (ns_hash two mod 2 ^ nb) i2); [lia|reflexivity].
Qed.

(** a whole stack configured with one namespace twice *)
Lemma depth_pn : forall dbg d nmb i, match depth_inc dbg d nmb i with Er _ => False | _ => True end.
Proof.
  intros. unfold depth_inc, u8_mul, u8_add.
  repeat match goal with |- context [if ?b then _ else _] => destruct b; cbn [bind] end; auto.
Qed.

Lemma never_predicts : forall H dbg gc (d : nsdef) (c : rcfg O) R r s,
  ws_new H dbg gc (CElem d d false c) = Ok R -> reach dbg (projT2 R) r -> in_order s ->
  (exists p, ws_predict dbg r (FtsSimple s) = Pn p) /\
  (forall lb, exists p, ws_learn dbg r (FtsSimple s) lb = Pn p) /\
  (forall lb, exists p, ws_ptl dbg r (FtsSimple s) lb = Pn p).
Proof.
  intros H dbg gc d c R r s E Q So.
  unfold ws_new in E. cbn [create] in E. binv E. apply add_level_ok in E. destruct E as (-> & _).
  cbn [projT1 projT2] in r, Q.
  pose proof (reach_shape _ _ _ _ Q) as Sh.
  destruct r as ((w & k) & ch). cbn [shape fst snd] in Sh.
  set (n := nsdef_namespace H (gc_seed gc) d) in *.
  assert (K : k = KElem n n false (gc_bits gc)).
  { destruct Sh as (_ & K & _). destruct k; simpl in K; try tauto.
    destruct K as (-> & -> & -> & ->). reflexivity. }
  subst k. assert (Nm : nameable n) by (destruct d; exact I).
  split; [|split; intros lb]; unfold ws_predict, ws_learn, ws_ptl;
    cbn [projT1 predict learn predict_then_learn]; unfold wrap;
    pose proof (depth_pn dbg 0 (w_below w) 0) as P;
    (destruct (depth_inc dbg 0 (w_below w) 0) as [d1|?|p]; [|tauto|exists p; reflexivity]); cbn [bind];
    cbn [kind_predict kind_learn kind_ptl].
  - destruct (same_twice _ dbg (gc_bits gc) s n (fun f => predict dbg _ ch f d1 0) So Nm) as (p & ->).
    exists p. reflexivity.
  - destruct (same_twice _ dbg (gc_bits gc) s n (fun f => learn dbg _ ch f lb d1 0) So Nm) as (p & ->).
    exists p. reflexivity.
  - destruct (same_twice _ dbg (gc_bits gc) s n (fun f => predict_then_learn dbg _ ch f lb d1 0) So Nm) as (p & ->).
    exists p. reflexivity.
Qed.
End Elem.

(** ** Witnesses *)

(** Two vectors of three and two components, with a gap in the first. *)
Definition el_a : namespace := NsNamed 5.
Definition el_b : namespace := NsNamed 9.
Definition el_v : vec BF0 := [(0, fl 2); (1, fl 3); (3, fl 7)].
Definition el_w : vec BF0 := [(0, fl 10); (3, fl 100)].
Definition el_ns (n : namespace) (base : N) (v : vec BF0) : sfn BF0 :=
  mkSfn n (map (fun p => base + fst p) v) (map snd v) true.
Definition el_s : sfeats BF0 := [(el_a, el_ns el_a 5 el_v); (el_b, el_ns el_b 9 el_w)].

Lemma el_ok :
  in_order el_s /\ nameable el_a /\ nameable el_b /\ el_a <> el_b /\
  holds 18 el_s el_a el_v /\ holds 18 el_s el_b el_w /\ increasing el_v /\ increasing el_w /\
  Forall (fun p : N * BF0 => ns_hash (composite el_a el_b) mod 2 ^ 18 + fst p < 2 ^ 32) el_v /\
  fm_get (composite el_a el_b) el_s = None /\
  products el_v el_w = [(0, fl 20); (3, fl 700)].
Proof.
  split. { unfold in_order, el_s. repeat constructor. }
  split; [exact I|]. split; [exact I|]. split; [discriminate|].
  split. { exists (el_ns el_a 5 el_v). split; reflexivity. }
  split. { exists (el_ns el_b 9 el_w). split; reflexivity. }
  split. { unfold increasing, el_v. repeat constructor. }
  split. { unfold increasing, el_w. repeat constructor. }
  split. { unfold el_v. repeat constructor. }
  split; [reflexivity|]. vm_compute. reflexivity.
Qed.

(** Two bits, bases 3 and 0: the first vector wraps around from index 3 to 0.  Without
    overflow checks its second component is silently left out. *)
Definition el_x : sfeats BF0 :=
  [(NsNamed 3, mkSfn (NsNamed 3) [3; 0] [fl 2; fl 3] true);
   (NsNamed 4, mkSfn (NsNamed 4) [0; 1] [fl 10; fl 100] true)].
Lemma el_wrap :
  map (fun i => i mod 2 ^ 2) [3 + 0; 3 + 1] = [3; 0] /\
  (exists r, elem_multiply false 2 el_x (NsNamed 3) (NsNamed 4) = Ok r /\ sfn_val r = [fl 20]) /\
  elem_multiply true 2 el_x (NsNamed 3) (NsNamed 4) = Pn POverflow.
Proof.
  split; [reflexivity|]. split; [|vm_compute; reflexivity].
  eexists. split; vm_compute; reflexivity.
Qed.

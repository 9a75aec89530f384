(** C81: one element-wise reduction over the regressor, and examples. *)
From Coq Require Import List NArith ZArith Bool Lia PeanoNat Sorted.
From Verif Require Import Base FloatOps FloatB32 Model_Hash Model_Features Model_Weights Model_Loss
  Model_Interactions Model_Types Model_Explore Model_Coin Model_Stack Model_Factory
  Spec_Features Proof_Weights Proof_Features Proof_FloatOrder Spec_Coin Proof_Coin Spec_Stack Spec_Reductions Spec_Total
  Proof_StackCong Proof_StackRestore Proof_StackPtl Proof_StackShape Proof_StackProps Proof_Types Proof_Total Proof_Release
  Spec_Elem Proof_Elem Spec_ElemStack Proof_ElemStack.
Import ListNotations.
Open Scope N_scope.

Section One.
Context {O : FOps} (FO : ford O).
Implicit Types s t u : sfeats O.

Lemma in_all' : forall a i (v : O), in_order a -> (In (i, v) (sf_all a) <-> exists k (q : sfn O), fm_get k a = Some q /\ In (i, v) (sfn_iter q)).
Proof.
  intros a i v S. unfold sf_all. rewrite in_flat_map. split.
  - intros ((k & s) & H1 & H2). exists k, s. split; auto. now apply fm_in_get.
  - intros (k & s & H1 & H2). exists (k, s). split; auto. now apply fm_get_in.
Qed.
Lemma iter_prod : forall nb one two (v w : vec O),
  sfn_iter (prod_ns nb one two v w) = map (fun p => (ns_hash (composite one two) mod 2 ^ nb + fst p, snd p)) (products v w).
Proof.
  intros. unfold prod_ns, sfn_iter. cbn [sfn_idx sfn_val]. induction (products v w) as [|p l IH]; [reflexivity|]. cbn [map combine]. now rewrite IH.
Qed.
Lemma at_in : forall k (v : vec O) x, at_pos k v = Some x -> In (k, x) v.
Proof.
  intros k v x E. unfold at_pos in E. destruct (find _ v) as [p|] eqn:Ef; [|discriminate]. inversion E; subst.
  apply find_some in Ef. destruct Ef as (Hi & Hk). apply N.eqb_eq in Hk. subst. destruct p. exact Hi.
Qed.
Lemma in_at : forall k (v : vec O) x, In (k, x) v -> at_pos k v <> None.
Proof.
  intros k v x Hi E. unfold at_pos in E. destruct (find _ v) eqn:Ef; [discriminate|].
  eapply find_none in Ef; [|exact Hi]. cbn [fst] in Ef. now rewrite N.eqb_refl in Ef.
Qed.

Lemma view_below : forall nb s one two keep (v w : vec O) u, in_order s -> in_order u -> below (2 ^ nb) s ->
  (forall k, fm_get k u = view nb s one two keep v w k) ->
  (below (2 ^ nb) u <-> products_fit nb one two v w).
Proof.
  intros nb s one two keep v w u So Su B G. split.
  - intros Bu p Hv Hw.
    destruct (at_pos p v) as [x|] eqn:Ev; [|congruence]. destruct (at_pos p w) as [y|] eqn:Ew; [|congruence].
    apply (Bu _ (f_mul O x y)). apply in_all'; auto. exists (composite one two), (prod_ns nb one two v w).
    split; [rewrite G; unfold view; now rewrite ns_eqb_refl|]. rewrite iter_prod. apply in_map_iff.
    exists (p, f_mul O x y). split; [reflexivity|]. unfold products. apply in_flat_map. exists (p, x). split; [now apply at_in|].
    cbn [fst snd]. rewrite Ew. now left.
  - intros Fi i z Hin. apply in_all' in Hin; auto. destruct Hin as (k & q & E & Hin). rewrite G in E. unfold view in E.
    destruct (ns_eqb k (composite one two)).
    + inversion E; subst q. rewrite iter_prod in Hin. apply in_map_iff in Hin. destruct Hin as ((p & a) & Q & Hin). inversion Q; subst.
      unfold products in Hin. apply in_flat_map in Hin. destruct Hin as ((p' & x) & H1 & H2). cbn [fst snd] in *.
      destruct (at_pos p' w) eqn:Ew; [|contradiction]. destruct H2 as [H2|[]]. inversion H2; subst. apply Fi; [eapply in_at; eauto|congruence].
    + destruct (negb keep && _); [discriminate|]. apply (B i z). apply in_all'; auto. eauto.
Qed.

Lemma one_level : forall H gc d1 d2 keep cc R r s (v w : vec O),
  ws_new H false gc (CElem d1 d2 keep (CCoin cc)) = Ok R -> reach false (projT2 R) r -> gc_bits gc < 32 ->
  built s -> below (2 ^ gc_bits gc) s ->
  let one := nsdef_namespace H (gc_seed gc) d1 in let two := nsdef_namespace H (gc_seed gc) d2 in
  vectors (gc_bits gc) s one two keep v w ->
  (products_fit (gc_bits gc) one two v w ->
     (exists pr f', ws_predict false r (FtsSimple s) = Ok (pr, f')) /\
     (forall y wt, exists r' f', ws_learn false r (FtsSimple s) (LbSimple y wt) = Ok (r', f'))) /\
  (~ products_fit (gc_bits gc) one two v w ->
     (exists p, ws_predict false r (FtsSimple s) = Pn p) /\
     (forall y wt, exists p, ws_learn false r (FtsSimple s) (LbSimple y wt) = Pn p)).
Proof.
  intros H gc d1 d2 keep cc R r s v w E Q Hb Bs Bl one two V.
  assert (So : in_order s) by (apply built_wf in Bs; apply Bs).
  assert (N1 : nameable one) by (destruct d1; exact I). assert (N2 : nameable two) by (destruct d2; exact I).
  destruct (frame2 false (gc_bits gc) s one two keep v w So Hb N1 N2 V) as (u & Su & Gu & _).
  pose proof (view_below _ _ _ _ _ _ _ _ So Su Bl Gu) as VB.
  pose proof E as E0. unfold ws_new in E0. cbn [create] in E0. binv E0. binv B. inversion B; subst v0. clear B.
  apply add_level_ok in E0. destruct E0 as (-> & _). cbn [projT1 projT2] in *.
  set (R := existT _ _ _) in E.
  assert (F : finds _ (projT2 R) (FtsSimple s) [u]).
  { unfold R. cbn [projT1 projT2 finds fst snd]. exists s, v, w, u. do 4 (split; [solve [reflexivity|assumption]|]). exists u. auto. }
  assert (FB : Forall (below (2 ^ gc_bits gc)) [u] <-> products_fit (gc_bits gc) one two v w).
  { rewrite <- VB. split; [intros K; now inversion K|auto]. }
  assert (P := elem_predict FO H gc _ R r (FtsSimple s) [u] E Q Hb eq_refl Bs (fun K => ltac:(discriminate K)) F).
  assert (L : forall y wt, _) by (intros y wt; exact (elem_learn FO H gc _ R r (FtsSimple s) (LbSimple y wt) [u] E Q Hb Bs eq_refl eq_refl F)).
  rewrite FB in P. setoid_rewrite FB in L. split; intros K.
  - split; [|intros y wt; now apply L]. destruct P as (P & _). destruct (P K) as (pr & f' & P1 & _). eauto.
  - split; [now apply P|intros y wt; now apply L].
Qed.
End One.

(** ** examples *)
Definition es_b : str := [98]. Definition es_e : str := [101].
Definition es_cfg (keep : bool) : rcfg BF0 := CElem (NDName es_b) (NDName es_e) keep (CCoin coin_default).
Definition es_vec (ps : list N) : vec BF0 := map (fun p => (p, fl 2)) ps.
Definition es_adds (r : nat) (h base : N) (ps : list N) : fop BF0 :=
  FAdds r (NsNamed h) (map (fun p => base + p) ps) (map (fun _ => fl 2) ps).
Definition es_hist : list (fop BF0) :=
  [es_adds 0 98 2 [0; 5]; es_adds 0 101 5 [0; 3; 5]; es_adds 1 98 2 [0; 6]; es_adds 1 101 5 [0; 6];
   es_adds 2 98 2 [0; 5]; es_adds 3 101 5 [0; 3; 5]; es_adds 4 101 5 [0; 6]].
Definition es_store : fstore BF0 := match fops_run false es_hist fstore0 with Ok st => st | _ => fstore0 end.
Lemma es_built : forall i, built (es_store i).
Proof. intros i. exists false, es_hist, es_store, i. split; reflexivity. Qed.
Definition belowb (n : N) (s : sfeats BF0) : bool := forallb (fun p => fst p <? n) (sf_all s).
Lemma belowb_ok : forall n s, belowb n s = true -> below n s.
Proof. intros n s E i v Hin. unfold belowb in E. rewrite forallb_forall in E. apply E in Hin. now apply N.ltb_lt in Hin. Qed.
Lemma es_vectors : forall (t : sfeats BF0) keep ps qs, fm_get (NsNamed 98) t = Some (mkSfn (NsNamed 98) (map (fun p => 2 + p) ps) (map (fun _ => fl 2) ps) true) ->
  fm_get (NsNamed 101) t = Some (mkSfn (NsNamed 101) (map (fun p => 5 + p) qs) (map (fun _ => fl 2) qs) true) ->
  StronglySorted N.lt ps -> StronglySorted N.lt qs -> Forall (fun p => p < 16) ps -> fm_get (composite (NsNamed 98) (NsNamed 101)) t = None ->
  vectors 4 t (NsNamed 98) (NsNamed 101) keep (es_vec ps) (es_vec qs).
Proof.
  intros t keep ps qs G1 G2 S1 S2 B G3.
  assert (Q : forall b l, combine (map (fun p => b + p) l) (map (fun _ : N => fl (O := BF0) 2) l) = laid_out b (es_vec l)).
  { intros b l. unfold laid_out, es_vec. induction l as [|x l IH]; [reflexivity|]. cbn [map combine fst snd]. now rewrite IH. }
  assert (Inc : forall l, StronglySorted N.lt l -> increasing (es_vec l)).
  { intros l K. unfold increasing, es_vec. induction K as [|x l K IH F]; cbn [map]; constructor; auto.
    apply Forall_map. exact F. }
  split; [intros _ K; inversion K|]. split; [|split; [|split; [|split; [|split]]]]; auto.
  - eexists. unfold sf_get. rewrite G1. split; [reflexivity|]. apply Q.
  - eexists. unfold sf_get. rewrite G2. split; [reflexivity|]. apply Q.
  - unfold es_vec. apply Forall_map. eapply Forall_impl; [|exact B]. intros p Hp. cbn beta in Hp. cbn [fst].
    replace (ns_hash (composite (NsNamed 98) (NsNamed 101)) mod 2 ^ 4) with 10 by reflexivity. change (2 ^ 32) with 4294967296. lia.
Qed.
Lemma es_one : forall keep, exists R, ws_new ex_hash false ex_gc (es_cfg keep) = Ok R /\ gc_bits ex_gc < 32 /\
  (* positions 0 and 5 in both *)
  (built (es_store 0%nat) /\ below (2 ^ 4) (es_store 0%nat) /\
   vectors 4 (es_store 0%nat) (nsdef_namespace ex_hash 0 (NDName es_b)) (nsdef_namespace ex_hash 0 (NDName es_e)) keep (es_vec [0; 5]) (es_vec [0; 3; 5]) /\
   products_fit 4 (nsdef_namespace ex_hash 0 (NDName es_b)) (nsdef_namespace ex_hash 0 (NDName es_e)) (es_vec [0; 5]) (es_vec [0; 3; 5])) /\
  (* positions 0 and 6 in both *)
  (built (es_store 1%nat) /\ below (2 ^ 4) (es_store 1%nat) /\
   vectors 4 (es_store 1%nat) (nsdef_namespace ex_hash 0 (NDName es_b)) (nsdef_namespace ex_hash 0 (NDName es_e)) keep (es_vec [0; 6]) (es_vec [0; 6]) /\
   ~ products_fit 4 (nsdef_namespace ex_hash 0 (NDName es_b)) (nsdef_namespace ex_hash 0 (NDName es_e)) (es_vec [0; 6]) (es_vec [0; 6])).
Proof.
  intros keep. destruct (ws_new ex_hash false ex_gc (es_cfg keep)) as [R|x|x] eqn:E; [|destruct keep; vm_compute in E; discriminate..].
  exists R. split; auto. split; [reflexivity|].
  change (nsdef_namespace ex_hash 0 (NDName es_b)) with (NsNamed 98). change (nsdef_namespace ex_hash 0 (NDName es_e)) with (NsNamed 101).
  split.
  - split; [apply es_built|]. split; [apply belowb_ok; vm_compute; reflexivity|]. split.
    + apply es_vectors; try (vm_compute; reflexivity); repeat constructor.
    + intros p Hv Hw. destruct (N.lt_ge_cases p 6) as [L|L].
      * replace (ns_hash (composite (NsNamed 98) (NsNamed 101)) mod 2 ^ 4) with 10 by reflexivity. change (2 ^ 4) with 16. lia.
      * exfalso. apply Hv. unfold at_pos, es_vec. cbn [map find fst]. destruct (N.eqb_spec 0 p); [lia|]. destruct (N.eqb_spec 5 p); [lia|reflexivity].
  - split; [apply es_built|]. split; [apply belowb_ok; vm_compute; reflexivity|]. split.
    + apply es_vectors; try (vm_compute; reflexivity); repeat constructor.
    + intros F. specialize (F 6). vm_compute in F. assert (K : Eq = Lt) by (apply F; discriminate). discriminate.
Qed.

(** A contextual bandit example over such a stack: namespace b in the shared features,
    namespace e in each action. *)
Definition es_cb : rcfg BF0 := CGreedy (fl 0) (CCbAdf Mtr (es_cfg true)).
Definition es_ftr (acts : list nat) : features BF0 := FtsCb (Some (es_store 2%nat)) (map es_store acts).
Definition es_app (a b : sfeats BF0) : sfeats BF0 := match sf_append a b with Ok u => u | _ => [] end.
Lemma es_joined : forall a b, built a -> built b -> joined a b (es_app a b).
Proof.
  intros a b Ba Bb. apply built_wf in Ba, Bb. destruct (append_get a b Ba Bb) as (u & E & W & G). unfold es_app. rewrite E.
  split; [apply W|]. intros k. rewrite G. unfold sf_get. destruct (fm_get k b) as [y|]; [|reflexivity]. destruct (sfn_active y); [|reflexivity].
  unfold sfn_cat, item. destruct (fm_get k a) as [x|] eqn:Ea; [|reflexivity]. destruct Ba as (_ & Wa). destruct (Wa _ _ Ea) as (-> & _). reflexivity.
Qed.

Lemma es_below : forall t keep (v w : vec BF0), in_order t -> below (2 ^ 4) t -> vectors 4 t (NsNamed 98) (NsNamed 101) keep v w ->
  exists u, in_order u /\ (forall k, fm_get k u = view 4 t (NsNamed 98) (NsNamed 101) keep v w k) /\
    (below (2 ^ 4) u <-> products_fit 4 (NsNamed 98) (NsNamed 101) v w).
Proof.
  intros t keep v w So Bl V.
  destruct (frame2 false 4 t (NsNamed 98) (NsNamed 101) keep v w So eq_refl Logic.I Logic.I V) as (u & Su & Gu & _). exists u. split; auto. split; auto.
  exact (view_below 4 t (NsNamed 98) (NsNamed 101) keep v w u So Su Bl Gu).
Qed.
(** [ps] is what the shared features hold and [qs] what the action holds *)
Lemma es_join : forall a b keep ps qs, let t := es_app (es_store a) (es_store b) in
  belowb (2 ^ 4) t = true ->
  fm_get (NsNamed 98) t = Some (mkSfn (NsNamed 98) (map (fun p => 2 + p) ps) (map (fun _ => fl 2) ps) true) ->
  fm_get (NsNamed 101) t = Some (mkSfn (NsNamed 101) (map (fun p => 5 + p) qs) (map (fun _ => fl 2) qs) true) ->
  StronglySorted N.lt ps -> StronglySorted N.lt qs -> Forall (fun p => p < 16) ps -> fm_get (composite (NsNamed 98) (NsNamed 101)) t = None ->
  joined (es_store a) (es_store b) t /\ vectors 4 t (NsNamed 98) (NsNamed 101) keep (es_vec ps) (es_vec qs) /\
  exists u, in_order u /\ (forall k, fm_get k u = view 4 t (NsNamed 98) (NsNamed 101) keep (es_vec ps) (es_vec qs) k) /\
    (below (2 ^ 4) u <-> products_fit 4 (NsNamed 98) (NsNamed 101) (es_vec ps) (es_vec qs)).
Proof.
  intros a b keep ps qs t B G1 G2 S1 S2 Bp G3.
  assert (J := es_joined _ _ (es_built a) (es_built b)). fold t in J. split; auto.
  assert (V : vectors 4 t (NsNamed 98) (NsNamed 101) keep (es_vec ps) (es_vec qs)) by (apply es_vectors; auto). split; auto.
  apply es_below; auto; [apply J|now apply belowb_ok].
Qed.
Lemma es_fit : forall ps qs, forallb (fun p => p <? 6) (filter (fun p => existsb (N.eqb p) qs) ps) = true ->
  products_fit 4 (NsNamed 98) (NsNamed 101) (es_vec ps) (es_vec qs).
Proof.
  intros ps qs E p Hv Hw. rewrite forallb_forall in E.
  assert (A : forall l, at_pos p (es_vec l) <> None -> In p l).
  { intros l K. destruct (at_pos p (es_vec l)) as [x|] eqn:Ex; [|congruence]. apply at_in in Ex. unfold es_vec in Ex. apply in_map_iff in Ex.
    destruct Ex as (q & Q & Hq). now inversion Q; subst. }
  assert (L : (p <? 6) = true). { apply E. apply filter_In. split; auto. apply existsb_exists. exists p. split; auto. apply N.eqb_refl. }
  apply N.ltb_lt in L. replace (ns_hash (composite (NsNamed 98) (NsNamed 101)) mod 2 ^ 4) with 10 by reflexivity. change (2 ^ 4) with 16. lia.
Qed.
Lemma es_shape : forall R, ws_new ex_hash false ex_gc es_cb = Ok R -> exists (w0 : red BF0 0), td_in_label (red_types (n:=0) w0) = LTSimple /\
  R = existT (red BF0) 3%nat ((mkW td_explore 1, KGreedy (fl 0)), ((mkW td_cb_adf 1, KCbAdf Mtr 0 0),
        ((mkW (mkTd LTSimple (Some LTSimple) FTSimple (Some FTSimple) (Some PTScalar) PTScalar) 1, KElem (NsNamed 98) (NsNamed 101) true 4), w0))).
Proof.
  intros R E. unfold ws_new, es_cb, es_cfg in E. cbn [create] in E. binv E. binv B. binv B0. binv B1. inversion B1; subst v1. clear B1.
  apply add_level_ok in E, B, B0. destruct E as (-> & _). destruct B as (-> & _). destruct B0 as (-> & _). cbn [projT1 projT2].
  eexists. split; [|reflexivity]. reflexivity.
Qed.
Lemma es_bandit : exists R ts us, ws_new ex_hash false ex_gc es_cb = Ok R /\ gc_bits ex_gc < 32 /\ uses_weighted (projT2 R) = false /\
  built_fts (es_ftr [3; 4]%nat) /\ num_actions (es_ftr [3; 4]%nat) <> 0 /\
  feat_type_of (es_ftr [3; 4]%nat) = td_in_feats (red_types (projT2 R)) /\
  label_type_of (LbCb 0 (fl (O:=BF0) 1) (fl (O:=BF0) 1)) = td_in_label (red_types (projT2 R)) /\
  finds _ (projT2 R) (es_ftr [3; 4]%nat) ts /\ length ts = 2%nat /\ Forall (below (2 ^ gc_bits ex_gc)) ts /\
  meets 0 _ (projT2 R) (es_ftr [3; 4]%nat) us /\ length us = 1%nat /\ Forall (below (2 ^ gc_bits ex_gc)) us.
Proof.
  destruct (ws_new ex_hash false ex_gc es_cb) as [R|x|x] eqn:E; [|vm_compute in E; discriminate..].
  destruct (es_join 3 2 true [0; 5] [0; 3; 5]) as (J1 & V1 & u1 & O1 & G1 & F1);
    [vm_compute; reflexivity|vm_compute; reflexivity|vm_compute; reflexivity|repeat constructor|repeat constructor|repeat constructor|vm_compute; reflexivity|].
  destruct (es_join 4 2 true [0; 5] [0; 6]) as (J2 & V2 & u2 & O2 & G2 & F2);
    [vm_compute; reflexivity|vm_compute; reflexivity|vm_compute; reflexivity|repeat constructor|repeat constructor|repeat constructor|vm_compute; reflexivity|].
  destruct (es_join 2 3 true [0; 5] [0; 3; 5]) as (J3 & V3 & u3 & O3 & G3 & F3);
    [vm_compute; reflexivity|vm_compute; reflexivity|vm_compute; reflexivity|repeat constructor|repeat constructor|repeat constructor|vm_compute; reflexivity|].
  exists R, [u1; u2], [u3]. destruct (es_shape R E) as (w0 & _ & ->). 
  split; [reflexivity|]. split; [reflexivity|]. split; [reflexivity|].
  split; [split; [intros a [<- | [<- | []]]; apply es_built|apply es_built]|]. split; [discriminate|]. split; [reflexivity|]. split; [reflexivity|].
  split.
  { cbn [projT1 projT2 finds fst snd]. exists (Some (es_store 2%nat)), [es_store 3%nat; es_store 4%nat], [[u1]; [u2]].
    split; [reflexivity|]. split; [reflexivity|]. apply Forall2_cons; [|apply Forall2_cons; [|apply Forall2_nil]].
    - exists (es_app (es_store 3%nat) (es_store 2%nat)). split; [exact J1|]. exists (es_app (es_store 3%nat) (es_store 2%nat)), (es_vec [0; 5]), (es_vec [0; 3; 5]), u1.
      split; [reflexivity|]. split; [exact V1|]. split; [exact O1|]. split; [exact G1|]. exists u1; split; reflexivity.
    - exists (es_app (es_store 4%nat) (es_store 2%nat)). split; [exact J2|]. exists (es_app (es_store 4%nat) (es_store 2%nat)), (es_vec [0; 5]), (es_vec [0; 6]), u2.
      split; [reflexivity|]. split; [exact V2|]. split; [exact O2|]. split; [exact G2|]. exists u2; split; reflexivity. }
  split; [reflexivity|].
  split; [constructor; [|constructor; [|constructor]]; [apply F1|apply F2]; apply es_fit; reflexivity|].
  split.
  { cbn [projT1 projT2 meets finds fst snd]. do 4 eexists. split; [reflexivity|]. split; [reflexivity|]. split; [exact J3|].
    do 4 eexists. split; [reflexivity|]. split; [exact V3|]. split; [exact O3|]. split; [exact G3|]. eexists; split; reflexivity. }
  split; [reflexivity|]. constructor; [|constructor]. apply F3. apply es_fit; reflexivity.
Qed.

Lemma es_outside : exists R (s : sfeats BF0), ws_new ex_hash false ex_gc (es_cfg true) = Ok R /\ built s /\ below (2 ^ gc_bits ex_gc) s /\
  td_in_feats (red_types (projT2 R)) = FTSimple /\
  (exists p, ws_predict false (projT2 R) (FtsSimple s) = Pn p) /\
  (exists p, ws_learn false (projT2 R) (FtsSimple s) (LbSimple (fl 1) (fl 1)) = Pn p).
Proof.
  destruct (es_one true) as (R & E & Hb & _ & B & Bl & V & F). exists R, (es_store 1%nat).
  do 3 (split; [assumption|]).
  destruct (one_level (BF_ford _ _ _) ex_hash ex_gc (NDName es_b) (NDName es_e) true coin_default R (projT2 R) (es_store 1%nat) _ _ E
    (reach_refl _ _) Hb B Bl V) as (_ & K). destruct (K F) as (K1 & K2).
  split; [|split; [exact K1|apply K2]].
  unfold ws_new, es_cfg in E. cbn [create] in E. binv E. binv B0. inversion B0; subst v. apply add_level_ok in E. destruct E as (-> & _). reflexivity.
Qed.

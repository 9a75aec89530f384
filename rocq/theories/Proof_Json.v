(** The JSON format (C41, C42). *)
From Coq Require Import List NArith PeanoNat Bool Lia.
From Verif Require Import Base FloatOps Model_Hash Model_Features Model_Types Model_Stack Model_Text Model_Metrics Model_Train Model_Json Spec_Features Spec_Stack
  Spec_Text Spec_Json Proof_Hash Proof_Features Proof_FeaturesHist Proof_StackCong Proof_StackRestore Proof_Loose Proof_TextFeats Proof_TextChunk Proof_Train
  Proof_JsonPlan.
Import ListNotations.
Open Scope N_scope.

(** the panic of [reserve] *)

Section P.
Context {O : FOps} (H : hasher) (dbg : bool) (seed nb : N).
Notation cns := (cns O).
Notation cobj := (cobj O).

(** the features of a namespace *)
Definition hashed (mk nsh : N) (p : parsed_feature) (v : O) : out (list (N * O)) :=
  let* h := parsed_feature_hash H dbg p nsh in Ok [(mask mk h, v)].
Definition entry_feats (mk nsh : N) (kv : str * json O) : out (list (N * O)) :=
  match snd kv with
  | JNum n => hashed mk nsh (PFSimple (fst kv)) (jn_f64 n)
  | JStr s => hashed mk nsh (PFSimpleStr (fst kv) s) f1
  | JBool b => if b then hashed mk nsh (PFSimple (fst kv)) f1 else Ok []
  | _ => Pn PTodo
  end.
Definition string_feats (mk nsh : N) (y : json O) : out (list (N * O)) :=
  let* s := opt_or PNone (jas_str y) in hashed mk nsh (PFSimple s) f1.
Definition ns_feats (mk nsh : N) (v : json O) : out (list (N * O)) :=
  match v with
  | JArr (JNum n :: r) =>
      let ar := JNum n :: r in
      let* e := add32 dbg nsh (wrap32 (N.of_nat (length ar))) in
      let* vs := mapm (fun y => opt_or PNone (jas_f64 y)) ar in
      if Nat.eqb (length (range32 nsh e)) (length vs) then Ok (combine (map (mask mk) (range32 nsh e)) vs) else Pn PAssert
  | JArr (JStr s :: r) => let* ls := mapm (string_feats mk nsh) (JStr s :: r) in Ok (concat ls)
  | JObj l => let* ls := mapm (entry_feats mk nsh) l in Ok (concat ls)
  | _ => Pn PTodo
  end.

Section A.
Context (al : alloc).
Definition cadds (fs : list (N * O)) (x : cns) : cns := fold_left (fun x iv => cns_add O al (fst iv) (snd iv) x) fs x.
Lemma cadds_cat : forall fs x, fst (cadds fs x) = cat fs (fst x).
Proof.
  induction fs as [|(i & v) fs IH]; intros x; [now rewrite cat_nil|].
  cbn [cadds fold_left]. fold (cadds fs (cns_add O al i v x)). cbn [fst snd]. rewrite IH.
  change ((i, v) :: fs) with ([(i, v)] ++ fs). now rewrite cat_app.
Qed.
Lemma foldm_cadds : forall A (f : cns -> A -> out cns) (g : A -> out (list (N * O))),
  (forall x a, f x a = let* fs := g a in Ok (cadds fs x)) ->
  forall l x, foldm f l x = let* ls := mapm g l in Ok (cadds (concat ls) x).
Proof.
  intros A f g K. induction l as [|a l IH]; intros x; auto. cbn [foldm mapm]. rewrite K.
  destruct (g a) as [fs| |]; auto. cbn [bind]. rewrite IH. destruct (mapm g l) as [ls| |]; auto. cbn [bind concat].
  unfold cadds. now rewrite fold_left_app.
Qed.
Lemma add_parsed_hashed : forall mk nsh p v x,
  add_parsed O H dbg al mk nsh p v x = let* fs := hashed mk nsh p v in Ok (cadds fs x).
Proof. intros. unfold add_parsed, hashed. destruct (parsed_feature_hash H dbg p nsh); reflexivity. Qed.

(** [reserve] fails *)
Definition fails (v : json O) (c : nat * nat) : bool :=
  match v with
  | JArr (JStr s :: r) => Nat.ltb (length (JStr s :: r)) (fst c) || Nat.ltb (length (JStr s :: r)) (snd c)
  | _ => false
  end.

(** one namespace *)
Lemma json_ns_eq : forall nsh v k s c, sfn_wf k s ->
  exists cf, json_ns O H dbg nb al nsh v (s, c) =
    let* mk := mask_from_bits dbg nb in
    if fails v c then Pn (badcap dbg) else
    let* fs := ns_feats mk nsh v in Ok (cat fs s, cf mk fs).
Proof.
  intros nsh v k s c (En & L). unfold json_ns. destruct (mask_from_bits dbg nb) as [mk| |]; cbn [bind]; [|exists (fun _ _ => c); reflexivity..].
  destruct v as [|b|n|t|ar|l]; try (exists (fun _ _ => c); reflexivity).
  - destruct ar as [|y r]; [exists (fun _ _ => c); reflexivity|].
    destruct y as [|b|n|t|l|l]; try (exists (fun _ _ => c); reflexivity).
    + (* numbers *) cbn [fails ns_feats].
      destruct (add32 dbg nsh (wrap32 (N.of_nat (length (JNum n :: r))))) as [e| |]; cbn [bind]; [|exists (fun _ _ => c); reflexivity..].
      destruct (mapm (fun y => opt_or PNone (jas_f64 y)) (JNum n :: r)) as [vs| |]; cbn [bind]; [|exists (fun _ _ => c); reflexivity..].
      unfold cns_adds_iter, sfn_adds_iter. cbn [fst snd]. rewrite !app_length, map_length, L.
      destruct (Nat.eqb (length (range32 nsh e)) (length vs)) eqn:EL.
      * apply Nat.eqb_eq in EL. rewrite EL, Nat.eqb_refl. cbn [bind]. eexists (fun _ _ => _). unfold cat.
        assert (Q : forall A B (a : list A) (b : list B), length a = length b -> map fst (combine a b) = a /\ map snd (combine a b) = b).
        { clear. induction a as [|x a IH]; intros [|y b] E; try discriminate; auto. simpl. destruct (IH b) as (-> & ->); auto. }
        destruct (Q _ _ (map (mask mk) (range32 nsh e)) vs) as (-> & ->); [now rewrite map_length|]. reflexivity.
      * replace (Nat.eqb (length (sfn_val s) + length (range32 nsh e)) (length (sfn_val s) + length vs)) with false.
        2: { symmetry. apply Nat.eqb_neq in EL. apply Nat.eqb_neq. lia. }
        exists (fun _ _ => c). reflexivity.
    + (* strings *) cbn [ns_feats]. destruct c as (ci & cv). unfold cns_reserve. unfold fails. cbn [fst snd].
      destruct (Nat.ltb (length (JStr t :: r)) ci); [exists (fun _ _ => (ci, cv)); reflexivity|].
      destruct (Nat.ltb (length (JStr t :: r)) cv); [exists (fun _ _ => (ci, cv)); reflexivity|]. cbn [orb bind].
      match goal with |- context [foldm ?f _ (s, ?c1)] => set (c' := c1); set (fn := f) end.
      exists (fun _ fs => snd (cadds fs (s, c'))).
      rewrite (foldm_cadds _ fn (string_feats mk nsh)).
      2: { intros x a. unfold fn, string_feats. destruct (opt_or PNone (jas_str a)); cbn [bind]; [apply add_parsed_hashed|reflexivity..]. }
      destruct (mapm (string_feats mk nsh) (JStr t :: r)) as [ls| |]; auto. cbn [bind].
      rewrite (surjective_pairing (cadds (concat ls) (s, c'))), cadds_cat. reflexivity.
  - cbn [fails ns_feats]. exists (fun _ fs => snd (cadds fs (s, c))).
    rewrite (foldm_cadds _ _ (entry_feats mk nsh)).
    2: { intros x kv. unfold json_entry, entry_feats. destruct (snd kv) as [|b|n|t|r|r]; try reflexivity; try apply add_parsed_hashed.
         destruct b; [apply add_parsed_hashed|reflexivity]. }
    destruct (mapm (entry_feats mk nsh) l) as [ls| |]; auto. cbn [bind].
    rewrite (surjective_pairing (cadds (concat ls) (s, c))), cadds_cat. reflexivity.
Qed.

(** a whole object *)
Definition doc_plan (l : list (str * json O)) : out (list (namespace * list (N * O))) :=
  mapm (fun kv => let k := ns_from_name H (fst kv) seed in
                  let* mk := mask_from_bits dbg nb in
                  let* fs := ns_feats mk (ns_hash k) (snd kv) in Ok (k, fs)) l.
Definition features_plan (v : json O) : out (list (namespace * list (N * O))) :=
  match v with JObj l => doc_plan l | _ => Pn PTodo end.

Lemma doc_step : forall kv o, fwf (fst o) ->
  let k := ns_from_name H (fst kv) seed in
  exists cf, cobj_upd O k (json_ns O H dbg nb al (ns_hash k) (snd kv)) o =
    let* mk := mask_from_bits dbg nb in
    if fails (snd kv) (snd o k) then Pn (badcap dbg) else
    let* fs := ns_feats mk (ns_hash k) (snd kv) in Ok (sf_upd_ns k (cat fs) (fst o), caps_set k (cf mk fs) (snd o)).
Proof.
  intros kv o W k. unfold cobj_upd.
  change (match fm_get k (fst o) with Some s => s | None => sfn_new k end) with (item k (fst o)).
  destruct (json_ns_eq (ns_hash k) (snd kv) k (sfn_set_active true (item k (fst o))) (snd o k)) as (cf & E); [now apply set_active_wf, item_wf|].
  exists cf. rewrite E. destruct (mask_from_bits dbg nb) as [mk| |]; cbn [bind]; auto.
  destruct (fails (snd kv) (snd o k)); auto. destruct (ns_feats mk (ns_hash k) (snd kv)) as [fs| |]; auto.
Qed.

Lemma upd_cat_wf : forall k fs (m : sfeats O), fwf m -> fwf (sf_upd_ns k (cat fs) m).
Proof. intros k fs m W. apply (apply_plan_wf [(k, fs)] m W). Qed.

Definition tf_loop (l : list (str * json O)) (o : cobj) : out cobj :=
  foldm (fun o kv => let k := ns_from_name H (fst kv) seed in cobj_upd O k (json_ns O H dbg nb al (ns_hash k) (snd kv)) o) l o.
Lemma loop_plan : forall l o, fwf (fst o) ->
  orelb (badcap dbg) (fun o' plan => fst o' = apply_plan plan (fst o)) (tf_loop l o) (doc_plan l).
Proof.
  induction l as [|kv l IH]; intros o W; [right; constructor; reflexivity|].
  unfold tf_loop, doc_plan. cbn [foldm mapm]. fold (doc_plan l).
  destruct (doc_step kv o W) as (cf & E). cbv zeta in E. rewrite E. clear E. set (k := ns_from_name H (fst kv) seed) in *.
  destruct (mask_from_bits dbg nb) as [mk| |]; cbn [bind]; [|right; constructor..].
  destruct (fails (snd kv) (snd o k)); [left; reflexivity|].
  destruct (ns_feats mk (ns_hash k) (snd kv)) as [fs| |]; cbn [bind]; [|right; constructor..].
  specialize (IH (sf_upd_ns k (cat fs) (fst o), caps_set k (cf mk fs) (snd o)) (upd_cat_wf k fs _ W)).
  fold (tf_loop l (sf_upd_ns k (cat fs) (fst o), caps_set k (cf mk fs) (snd o))).
  destruct IH as [->|R]; [left; reflexivity|right].
  destruct R as [o' plan R| |]; cbn [bind]; constructor. exact R.
Qed.
Lemma features_plan_ok : forall v o, fwf (fst o) ->
  orelb (badcap dbg) (fun o' plan => fst o' = apply_plan plan (fst o)) (to_features O H dbg seed nb al v o) (features_plan v).
Proof. intros v o W. destruct v; try (right; constructor). now apply loop_plan. Qed.

(** when [reserve] does not fail *)
Definition safe_for (v : json O) (o : cobj) : Prop :=
  no_lists v \/ (distinct_ns H seed v /\ forall k, snd o k = (0, 0)%nat).
Lemma jkey_name : forall name, ns_from_name H name seed = jkey H seed name.
Proof. intros name. unfold ns_from_name, jkey. destruct (str_eqb name str_space), (str_eqb name str_default); reflexivity. Qed.
Lemma fails_zero : forall v, fails v (0, 0)%nat = false.
Proof. intros v. destruct v as [| | | |[|[]]|]; reflexivity. Qed.
Lemma fails_list : forall v c, fails v c = true -> exists s r, v = JArr (JStr s :: r).
Proof. intros v c. destruct v as [| | | |[|[]]|]; try discriminate. intros _. eauto. Qed.

Lemma loop_safe_lists : forall l o, fwf (fst o) -> (forall name s r, ~ In (name, JArr (JStr s :: r)) l) ->
  orel (fun o' plan => fst o' = apply_plan plan (fst o)) (tf_loop l o) (doc_plan l).
Proof.
  induction l as [|kv l IH]; intros o W NL; [constructor; reflexivity|].
  unfold tf_loop, doc_plan. cbn [foldm mapm]. fold (doc_plan l).
  destruct (doc_step kv o W) as (cf & E). cbv zeta in E. rewrite E. clear E. set (k := ns_from_name H (fst kv) seed) in *.
  destruct (mask_from_bits dbg nb) as [mk| |]; cbn [bind]; [|constructor..].
  destruct (fails (snd kv) (snd o k)) eqn:EF.
  { exfalso. apply fails_list in EF. destruct EF as (s & r & EF). apply (NL (fst kv) s r). left. rewrite <- EF. now destruct kv. }
  destruct (ns_feats mk (ns_hash k) (snd kv)) as [fs| |]; cbn [bind]; [|constructor..].
  specialize (IH (sf_upd_ns k (cat fs) (fst o), caps_set k (cf mk fs) (snd o)) (upd_cat_wf k fs _ W)
     (fun name s r I => NL name s r (or_intror I))).
  fold (tf_loop l (sf_upd_ns k (cat fs) (fst o), caps_set k (cf mk fs) (snd o))).
  destruct IH as [o' plan R| |]; cbn [bind]; constructor. exact R.
Qed.
Lemma loop_safe_new : forall l (o : cobj), fwf (fst o) -> NoDup (map (fun kv => jkey H seed (fst kv)) l) ->
  (forall kv, In kv l -> snd o (jkey H seed (fst kv)) = (0, 0)%nat) ->
  orel (fun o' plan => fst o' = apply_plan plan (fst o)) (tf_loop l o) (doc_plan l).
Proof.
  induction l as [|kv l IH]; intros o W ND Z; [constructor; reflexivity|].
  unfold tf_loop, doc_plan. cbn [foldm mapm]. fold (doc_plan l).
  destruct (doc_step kv o W) as (cf & E). cbv zeta in E. rewrite E. clear E.
  cbn [map] in ND. inversion ND as [|? ? NI ND']; subst.
  rewrite jkey_name. pose proof (Z kv (or_introl eq_refl)) as Z0. set (k := jkey H seed (fst kv)) in *.
  destruct (mask_from_bits dbg nb) as [mk| |]; cbn [bind]; [|constructor..].
  destruct (fails (snd kv) (snd o k)) eqn:EF.
  { exfalso. enough (fails (snd kv) (snd o k) = false) by congruence. etransitivity; [apply f_equal; exact Z0|apply fails_zero]. }
  destruct (ns_feats mk (ns_hash k) (snd kv)) as [fs| |]; cbn [bind]; [|constructor..].
  assert (Z' : forall kv', In kv' l -> caps_set k (cf mk fs) (snd o) (jkey H seed (fst kv')) = (0, 0)%nat).
  { intros kv' I. unfold caps_set. destruct (ns_eqb k (jkey H seed (fst kv'))) eqn:EK.
    - exfalso. apply ns_eqb_eq in EK. apply NI. fold k. rewrite EK. apply (in_map (fun kv => jkey H seed (fst kv)) l kv' I).
    - apply Z. now right. }
  specialize (IH (sf_upd_ns k (cat fs) (fst o), caps_set k (cf mk fs) (snd o)) (upd_cat_wf k fs _ W) ND' Z').
  fold (tf_loop l (sf_upd_ns k (cat fs) (fst o), caps_set k (cf mk fs) (snd o))).
  destruct IH as [o' plan R| |]; cbn [bind]; constructor. exact R.
Qed.
Lemma features_safe : forall v o, fwf (fst o) -> safe_for v o ->
  orel (fun o' plan => fst o' = apply_plan plan (fst o)) (to_features O H dbg seed nb al v o) (features_plan v).
Proof.
  intros v o W [NL|(ND & Z)]; destruct v; try constructor.
  - apply loop_safe_lists; [exact W|]. intros name s r I. exact (NL l name s r eq_refl I).
  - apply loop_safe_new; auto.
Qed.
End A.

(** *** what the features are *)
Lemma mapm_F2 : forall A B (f : A -> out B) l r, mapm f l = Ok r <-> Forall2 (fun a b => f a = Ok b) l r.
Proof.
  induction l as [|a l IH]; intros r; cbn [mapm].
  - split; intros E; [injection E as <-; constructor|inversion E; reflexivity].
  - split; intros E.
    + binv E. binv E. injection E as <-. constructor; auto. now apply IH.
    + inversion E as [|? ? ? ? Ea F]; subst. apply IH in F. now rewrite Ea, F.
Qed.
Lemma mask_ok : nb < 32 -> mask_from_bits dbg nb = Ok (N.ones nb).
Proof. intros Hb. unfold mask_from_bits. apply N.ltb_lt in Hb. rewrite Hb, N.ones_equiv, N.pred_sub. reflexivity. Qed.
Lemma masked_app : forall a b : list (N * O), masked nb (a ++ b) = masked nb a ++ masked nb b.
Proof. intros. apply map_app. Qed.
Lemma masked_concat : forall l : list (list (N * O)), masked nb (concat l) = concat (map (masked nb) l).
Proof. induction l as [|a l IH]; auto. cbn [concat map]. now rewrite masked_app, IH. Qed.
Notation mk := (N.ones nb).
Definition fits_ns (nsh : N) (v : json O) : Prop :=
  forall n r, v = JArr (JNum n :: r) -> nsh + N.of_nat (length (JNum n :: r)) < 4294967296.

Lemma entry_iff : forall nsh kv fs, entry_feats mk nsh kv = Ok fs <-> exists l, jentry H nsh kv l /\ fs = masked nb l.
Proof.
  intros nsh (k & v) fs. unfold entry_feats, hashed, masked. cbn [fst snd]. split.
  - intros E. destruct v as [|[]|n|s|r|r]; try discriminate; injection E as <-; eexists; (split; [constructor|]); cbn [map fst snd]; rewrite ?mask_mod; reflexivity.
  - intros (l & J & ->). inversion J; subst; cbn [map fst snd bind parsed_feature_hash]; rewrite ?mask_mod; reflexivity.
Qed.
Lemma numbers_iff : forall ar vs, mapm (fun y : json O => opt_or PNone (jas_f64 y)) ar = Ok vs <-> exists ns, ar = map JNum ns /\ vs = map jn_f64 ns.
Proof.
  intros ar vs. rewrite mapm_F2. split.
  - induction 1 as [|y v ar vs E F (ns & -> & ->)]; [exists []; auto|].
    destruct y as [| |n| | |]; try discriminate. injection E as <-. exists (n :: ns). auto.
  - intros (ns & -> & ->). induction ns; constructor; auto.
Qed.
Lemma strings_iff : forall nsh ar ls, mapm (string_feats mk nsh) ar = Ok ls <->
  exists ss, ar = map JStr ss /\ ls = map (fun s => masked nb [(h32 H s nsh, f1)]) ss.
Proof.
  intros nsh ar ls. rewrite mapm_F2. split.
  - induction 1 as [|y v ar vs E F (ns & -> & ->)]; [exists []; auto|].
    destruct y as [| | |s| |]; try discriminate. unfold string_feats, hashed in E. cbn in E. injection E as <-.
    exists (s :: ns). split; auto. cbn [map]. f_equal. unfold masked. cbn [map fst snd]. now rewrite <- mask_mod.
  - intros (ss & -> & ->). induction ss as [|s ss IH]; constructor; auto. unfold string_feats, hashed, masked. cbn. now rewrite <- mask_mod.
Qed.
Lemma string_concat : forall nsh ss, concat (map (fun s => masked nb [(h32 H s nsh, f1 : O)]) ss) = masked nb (map (fun s => (h32 H s nsh, f1 : O)) ss).
Proof. intros nsh. induction ss as [|t l IH]; auto. cbn [map concat]. rewrite IH. reflexivity. Qed.
Lemma vector_feats : forall nsh (ns : list (jnum O)) a,
  combine (map (mask mk) (map (fun i => nsh + N.of_nat i) (seq a (length ns)))) (map jn_f64 ns) =
  masked nb (map (fun p => (nsh + fst p, jn_f64 (snd p))) (enum_from (N.of_nat a) ns)).
Proof.
  intros nsh. induction ns as [|n ns IH]; intros a; auto. cbn [length seq map combine enum_from masked fst snd]. unfold masked in *.
  rewrite IH, mask_mod, Nat2N.inj_succ. reflexivity.
Qed.
Lemma range32_length : forall a b, length (range32 a b) = N.to_nat (b - a).
Proof. intros. unfold range32. now rewrite map_length, seq_length. Qed.
Lemma fits_gen : forall m nsh e n, 0 < m -> nsh < m -> n <> 0%nat ->
  (if nsh + N.of_nat n mod m <? m then Ok (nsh + N.of_nat n mod m) else if dbg then Pn POverflow else Ok ((nsh + N.of_nat n mod m) mod m)) = Ok e ->
  N.to_nat (e - nsh) = n -> nsh + N.of_nat n < m /\ e = nsh + N.of_nat n.
Proof.
  intros m nsh e n M B NZ A L.
  pose proof (N.mod_le (N.of_nat n) m ltac:(lia)) as M1.
  pose proof (N.mod_lt (N.of_nat n) m ltac:(lia)) as M2.
  set (w := N.of_nat n mod m) in *.
  destruct (nsh + w <? m) eqn:EL.
  - apply N.ltb_lt in EL. injection A as <-. assert (w = N.of_nat n) as Q by lia. rewrite Q in *. lia.
  - apply N.ltb_ge in EL. destruct dbg; [discriminate|]. injection A as <-. exfalso.
    assert ((nsh + w) mod m = nsh + w - m) as Q.
    { symmetry. apply N.mod_unique with (q := 1); lia. }
    rewrite Q in L. lia.
Qed.
Lemma fits_eqb : forall nsh e (ns : list (jnum O)), nsh < 4294967296 ->
  add32 dbg nsh (wrap32 (N.of_nat (length ns))) = Ok e -> length (range32 nsh e) = length ns -> ns <> [] ->
  nsh + N.of_nat (length ns) < 4294967296 /\ e = nsh + N.of_nat (length ns).
Proof.
  intros nsh e ns B A L NE. rewrite range32_length in L. unfold add32, wrap32 in A.
  assert (NZ : length ns <> 0%nat) by (destruct ns; [congruence|discriminate]).
  assert (M : 0 < u32_mod) by reflexivity. change 4294967296 with u32_mod in *.
  exact (fits_gen u32_mod nsh e (length ns) M B NZ A L).
Qed.
Lemma ns_feats_iff : forall nsh v fs, nsh < 4294967296 ->
  (ns_feats mk nsh v = Ok fs <-> exists l, jns H nsh v l /\ fits_ns nsh v /\ fs = masked nb l).
Proof.
  intros nsh v fs B. split.
  - intros E. destruct v as [| | | |ar|l]; try discriminate.
    + destruct ar as [|[| |n|s| |] r]; try discriminate; cbn [ns_feats] in E.
      * binv E. binv E. match type of E with (if ?c then _ else _) = _ => destruct c eqn:EL end; [|discriminate].
        apply Nat.eqb_eq in EL. injection E as <-.
        match goal with K : mapm _ _ = Ok _ |- _ => apply numbers_iff in K; destruct K as (ns & EN & ->) end.
        rewrite EN in *. rewrite !map_length in *.
        assert (NE : ns <> []) by (destruct ns; discriminate).
        match goal with K : add32 _ _ _ = Ok _ |- _ => destruct (fits_eqb _ _ _ B K EL NE) as (FT & ->) end.
        eexists. split; [now constructor|]. split.
        { intros n0 r0 E0. injection E0 as E0. rewrite <- E0, map_length. exact FT. }
        change (enum_from 0 ns) with (enum_from (N.of_nat 0) ns). rewrite <- (vector_feats nsh ns 0). unfold range32. do 4 f_equal. lia.
      * binv E. injection E as <-.
        match goal with K : mapm _ _ = Ok _ |- _ => apply strings_iff in K; destruct K as (ss & EN & ->) end.
        rewrite EN. assert (NE : ss <> []) by (destruct ss; discriminate).
        eexists. split; [now constructor|]. split; [intros n0 r0 E0; destruct ss; discriminate|].
        clear. induction ss as [|s ss IH]; auto. cbn [map concat]. rewrite IH. reflexivity.
    + cbn [ns_feats] in E. binv E. injection E as <-.
      match goal with K : mapm _ _ = Ok _ |- _ => apply mapm_F2 in K; rename K into F end.
      assert (Q : exists fs, Forall2 (jentry H nsh) l fs /\ concat v = masked nb (concat fs)).
      { induction F as [|y z l v E F (fs & F' & EF)]; [exists []; split; auto; constructor|].
        apply entry_iff in E. destruct E as (g & J & ->). exists (g :: fs). split; [now constructor|].
        cbn [concat]. now rewrite masked_app, EF. }
      destruct Q as (fs & F' & ->). eexists. split; [apply jn_object; exact F'|]. split; [intros n0 r0 E0; discriminate|reflexivity].
  - intros (l & J & FT & ->). inversion J as [ns NE|ss NE|en fs F]; subst.
    + destruct ns as [|n ns]; [congruence|]. specialize (FT n (map JNum ns) eq_refl).
      cbn [ns_feats map]. change (JNum n :: map JNum ns) with (map JNum (n :: ns)) in *. rewrite map_length in *.
      unfold add32, wrap32, u32_mod. rewrite (N.mod_small (N.of_nat (length (n :: ns)))) by lia.
      replace (nsh + N.of_nat (length (n :: ns)) <? 4294967296) with true by (symmetry; now apply N.ltb_lt). cbn [bind].
      assert (Q : mapm (fun y : json O => opt_or PNone (jas_f64 y)) (map JNum (n :: ns)) = Ok (map jn_f64 (n :: ns))) by (apply numbers_iff; eauto).
      rewrite Q. cbn [bind]. rewrite range32_length, map_length.
      replace (N.to_nat (nsh + N.of_nat (length (n :: ns)) - nsh)) with (length (n :: ns)) by lia. rewrite Nat.eqb_refl.
      change (enum_from 0 (n :: ns)) with (enum_from (N.of_nat 0) (n :: ns)). rewrite <- (vector_feats nsh (n :: ns) 0). unfold range32. do 5 f_equal. lia.
    + destruct ss as [|s ss]; [congruence|]. cbn [ns_feats map]. change (JStr s :: map JStr ss) with (map (@JStr O) (s :: ss)).
      assert (Q : mapm (string_feats mk nsh) (map JStr (s :: ss)) = Ok (map (fun s => masked nb [(h32 H s nsh, f1)]) (s :: ss))) by (apply strings_iff; eauto).
      rewrite Q. cbn [bind]. now rewrite string_concat.
    + cbn [ns_feats]. assert (Q : mapm (entry_feats mk nsh) en = Ok (map (masked nb) fs)).
      { apply mapm_F2. clear -F. induction F; constructor; auto. apply entry_iff. eauto. }
      rewrite Q. cbn [bind]. now rewrite masked_concat.
Qed.
Lemma jkey_bound : forall name, key_hash (jkey H seed name) < 4294967296.
Proof. intros name. unfold jkey. destruct (_ || _); [reflexivity|]. cbn [key_hash]. unfold h32. apply N.mod_lt. lia. Qed.
Lemma key_hash_ns : forall k, ns_hash k = key_hash k.
Proof. destruct k; reflexivity. Qed.

Definition mplan (nss : list (namespace * list (N * O))) := map (fun n => (fst n, masked nb (snd n))) nss.
Lemma plan_iff : forall v plan, nb < 32 ->
  (features_plan v = Ok plan <-> exists nss, jdoc H seed v nss /\ jfits H seed v /\ plan = mplan nss).
Proof.
  intros v plan Hb. unfold features_plan, doc_plan, jdoc, jfits. split.
  - intros E. destruct v as [| | | | |l]; try discriminate. apply mapm_F2 in E.
    assert (Q : exists nss, Forall2 (fun kv n => fst n = jkey H seed (fst kv) /\ jns H (key_hash (fst n)) (snd kv) (snd n)) l nss /\
                (forall kv, In kv l -> fits_ns (key_hash (jkey H seed (fst kv))) (snd kv)) /\ plan = mplan nss).
    { induction E as [|kv p l plan E F (nss & F' & FT & ->)]; [exists []; repeat split; [constructor|intros ? []]|].
      cbv zeta in E. rewrite (mask_ok Hb) in E. cbn [bind] in E. binv E. injection E as <-. rewrite jkey_name, key_hash_ns in *.
      match goal with K : ns_feats _ _ _ = Ok _ |- _ => apply ns_feats_iff in K; [|apply jkey_bound]; destruct K as (g & J & FI & ->) end.
      exists ((jkey H seed (fst kv), g) :: nss). repeat split; [constructor; auto|].
      intros kv' [<-|I]; auto. }
    destruct Q as (nss & F & FT & ->). exists nss. split; [eauto|]. split; auto.
    intros l0 name n r E0 I. injection E0 as <-. exact (FT _ I n r eq_refl).
  - intros (nss & (l & -> & F) & FT & ->). apply mapm_F2. assert (FT' : forall kv, In kv l -> fits_ns (key_hash (jkey H seed (fst kv))) (snd kv)).
    { intros (name & y) I n r E. cbn [fst snd] in *. subst y. exact (FT l name n r eq_refl I). }
    clear FT. induction F as [|kv n l nss (En & J) F IH]; constructor.
    + cbv zeta. rewrite (mask_ok Hb). cbn [bind]. rewrite jkey_name, key_hash_ns, <- En.
      assert (Q : ns_feats mk (key_hash (fst n)) (snd kv) = Ok (masked nb (snd n))).
      { apply ns_feats_iff; [rewrite En; apply jkey_bound|]. exists (snd n). split; auto. split; auto. rewrite En. apply FT'. now left. }
      now rewrite Q.
    + apply IH. intros kv' I. apply FT'. now right.
Qed.
Lemma mplan_content : forall nss k,
  match filter (fun n => ns_eqb k (fst n)) (mplan nss) with [] => None | l => Some (flat_map snd l) end = jcontent nb nss k.
Proof.
  intros nss k. unfold jcontent.
  assert (Q : filter (fun n => ns_eqb k (fst n)) (mplan nss) = mplan (filter (fun n => ns_eqb k (fst n)) nss)).
  { induction nss as [|(j & l) nss IH]; auto. cbn [mplan map filter fst snd]. fold (mplan nss). rewrite IH. destruct (ns_eqb k j); reflexivity. }
  rewrite Q. destruct (filter _ nss) as [|n l]; auto. cbn [mplan map]. f_equal.
  change ((fst n, masked nb (snd n)) :: map (fun n0 => (fst n0, masked nb (snd n0))) l) with (mplan (n :: l)).
  generalize (n :: l) as x. induction x as [|(j & y) x IH]; auto. cbn [mplan map flat_map fst snd]. rewrite masked_app. f_equal. exact IH.
Qed.

(** C41: whatever object the pool gives, the features of a parsed example are those of
    the document *)
Lemma features_ok : forall al v o o', nb < 32 -> pooled (fst o) -> to_features O H dbg seed nb al v o = Ok o' ->
  exists nss, jdoc H seed v nss /\ jfits H seed v /\ forall k, sf_get k (fst o') = as_sfn k (jcontent nb nss k).
Proof.
  intros al v o o' Hb P E. assert (L : looks_new (fst o)) by now apply pooled_new.
  destruct (features_plan_ok al v o (proj1 L)) as [B|R]; [congruence|]. rewrite E in R. inversion R as [? plan EP EQ EQ2| |]; subst.
  symmetry in EQ2. apply (plan_iff _ _ Hb) in EQ2. destruct EQ2 as (nss & D & FT & ->). exists nss. split; auto. split; auto.
  intros k. rewrite EP, (apply_plan_new _ _ _ L). f_equal. apply mplan_content.
Qed.
Lemma features_accepted : forall al v o nss, nb < 32 -> pooled (fst o) -> jdoc H seed v nss -> jfits H seed v -> safe_for v o ->
  exists o', to_features O H dbg seed nb al v o = Ok o'.
Proof.
  intros al v o nss Hb P D FT S. assert (L : looks_new (fst o)) by now apply pooled_new.
  pose proof (features_safe al v o (proj1 L) S) as R.
  assert (E : features_plan v = Ok (mplan nss)) by (apply plan_iff; eauto).
  rewrite E in R. inversion R. eauto.
Qed.
End P.

(** C85: the same example in the three formats. *)
From Coq Require Import List NArith PeanoNat Bool Lia.
From Verif Require Import Base FloatOps FloatB32 Model_Hash Model_Features Model_Types Model_Interactions Model_Weights Model_Loss Model_Explore Model_Coin
  Model_Stack Model_Factory Model_Text Model_Metrics Model_Train Model_Json Model_JsonTrain Model_Save Model_Command
  Spec_Features Spec_Stack Spec_Text Spec_Json Spec_JsonLabel Spec_Command Spec_Formats Proof_Hash Proof_Features Proof_FeaturesHist Proof_StackCong Proof_StackRestore Proof_StackProps
  Proof_Loose Proof_TextParse Proof_TextFeats Proof_TextChunk Proof_Train Proof_JsonPlan Proof_Json Proof_JsonChunk Proof_JsonLabel Proof_DsJson Proof_JsonTrain Proof_Pieces Proof_Command Proof_CommandEx.
Import ListNotations.
Open Scope N_scope.

Section P.
Context {O : FOps} (H : hasher) (pf : str -> option O) (rd : str -> option (json O)) (dbg : bool) (seed nb : N).

(** *** what an example puts into the feature objects *)
Definition okey (name : option str) : namespace := match name with None => NsDefault | Some n => NsNamed (h32 H n seed) end.
Lemma okey_hash : forall name, key_hash (okey name) = opt_hash H seed name.
Proof. intros [n|]; reflexivity. Qed.
Definition fvals (nsh : N) (it : str * fval O) : N * O :=
  match snd it with
  | VNum x => (h32 H (fst it) nsh, x)
  | VStr s => (h32 H s (h32 H (fst it) nsh), f1)
  | VFlag => (h32 H (fst it) nsh, f1)
  end.
Definition vvals (nsh z : N) (xs : list O) : list (N * O) := map (fun p => (nsh + fst p, snd p)) (enum_from z xs).
Definition bvals (nsh : N) (b : body O) : list (N * O) :=
  match b with BNamed l => map (fvals nsh) l | BVector xs => vvals nsh 0 xs end.
Definition nss_of (p : part O) : list (namespace * list (N * O)) :=
  map (fun e => (okey (fst e), bvals (opt_hash H seed (fst e)) (snd e))) p.
Definition holds (p : part O) (d : sfeats O) : Prop :=
  pclean d /\ forall k, sf_get k d = as_sfn k (jcontent nb (nss_of p) k).

Lemma clean_sim : forall a b : sfeats O, pclean a -> pclean b -> (forall k, sf_get k a = sf_get k b) -> fsim a b.
Proof.
  intros a b (Wa & _ & Oa) (Wb & _ & Ob) E. split; auto. split; auto. intros k.
  assert (K : forall m : sfeats O, fwf m -> open m -> vget k m = sf_get k m).
  { intros m _ Om. unfold vget, sf_get. destruct (fm_get k m) as [s|] eqn:G; auto. unfold svis.
    destruct (sfn_active s) eqn:A; auto. cbn [orb]. destruct (Nat.eqb (sfn_size s) 0) eqn:Z; auto. apply Nat.eqb_neq in Z.
    rewrite (Om k s G Z) in A. discriminate. }
  rewrite !K; auto.
Qed.
Lemma holds_sim : forall p a b, holds p a -> holds p b -> fsim a b.
Proof. intros p a b (Ca & Ga) (Cb & Gb). apply clean_sim; auto. intros k. now rewrite Ga, Gb. Qed.

(** *** text *)
Lemma text_vals : forall sc nsh fs b, text_body pf sc fs b -> ((exists xs, b = BVector xs) -> nsh + N.of_nat (body_size b) < 4294967296) ->
  map (fun iv => (fst iv, f_mul O (snd iv) sc)) (tn_values H pf nsh 0 fs) = bvals nsh b.
Proof.
  intros sc nsh fs b T FT. destruct T as [fs l F|vs xs F].
  - clear FT. generalize 0. induction F as [|i j fs l I F IH]; intros z; auto.
    destruct I as [c name v y E|name v E M|name M]; cbn [tn_values]; [rewrite E|rewrite E|]; cbn [bvals map fst snd fvals]; rewrite ?IH; try rewrite M; reflexivity.
  - assert (B : nsh + 0 + N.of_nat (length xs) < 4294967296) by (specialize (FT (ex_intro _ xs eq_refl)); cbn [body_size] in FT; lia).
    cbn [bvals]. unfold vvals. clear FT. revert B. generalize 0. induction F as [|v x vs xs (y & E & ->) F IH]; intros z B; auto.
    cbn [map tn_values enum_from fst snd]. rewrite E. cbn [map fst snd]. cbn [length] in B. rewrite N.mod_small by lia. f_equal.
    rewrite <- N.add_1_r. apply IH. lia.
Qed.
Lemma F2_len : forall A B (r : A -> B -> Prop) a b, Forall2 r a b -> length a = length b.
Proof. intros A B r a b F. induction F; cbn [length]; congruence. Qed.
Lemma text_size : forall sc fs b, text_body pf sc fs b -> length fs = body_size b.
Proof.
  intros sc fs b T. destruct T as [fs l F|vs xs F]; cbn [body_size]; [|rewrite map_length]; now apply F2_len in F.
Qed.
Lemma text_key : forall n e, text_ns pf n e -> tn_key H seed n = okey (fst e).
Proof. intros n e (_ & E & _). unfold tn_key. rewrite E. destruct (tn_head n) as [(a & b)|]; reflexivity. Qed.
Lemma text_content : forall n e, text_ns pf n e -> ((exists xs, snd e = BVector xs) -> opt_hash H seed (fst e) + N.of_nat (body_size (snd e)) < 4294967296) ->
  tn_content H pf seed nb n = masked nb (bvals (opt_hash H seed (fst e)) (snd e)).
Proof.
  intros n e T FT. unfold tn_content. rewrite (text_key _ _ T), okey_hash. destruct T as (_ & _ & T).
  rewrite <- (text_vals _ _ _ _ T FT). unfold masked. rewrite map_map. reflexivity.
Qed.
Lemma text_line_content : forall ns p k, Forall2 (text_ns pf) ns p -> part_fits H dbg seed p ->
  line_content H pf seed nb ns k = jcontent nb (nss_of p) k.
Proof.
  intros ns p k F FT. unfold line_content, jcontent.
  assert (Q : Forall2 (fun n q => tn_key H seed n = fst q /\ tn_content H pf seed nb n = masked nb (snd q)) ns (nss_of p)).
  { induction F as [|n e ns p T F IH]; cbn [nss_of map]; constructor.
    - cbn [fst snd]. split; [now apply text_key|]. apply text_content; auto. intros X. destruct e as (name & b). apply (FT name b); [now left|now right].
    - apply IH. intros name b I. apply FT. now right. }
  assert (Q2 : Forall2 (fun n q => tn_key H seed n = fst q /\ tn_content H pf seed nb n = masked nb (snd q))
     (filter (fun n => ns_eqb k (tn_key H seed n)) ns) (filter (fun n => ns_eqb k (fst n)) (nss_of p))).
  { clear -Q. induction Q as [|n q ns l (E & M) Q IH]; cbn [filter]; [constructor|]. rewrite E. destruct (ns_eqb k (fst q)); auto. }
  destruct Q2 as [|n q a b (E & M) Q2]; auto. f_equal. cbn [flat_map]. rewrite masked_app, M. f_equal. clear -Q2.
  induction Q2 as [|n q a b (E & M) Q2 IH]; auto. cbn [flat_map]. now rewrite masked_app, M, IH.
Qed.
Lemma text_anon : forall ns p, Forall2 (text_ns pf) ns p -> part_fits H dbg seed p -> dbg = true -> Forall (anon_fits H seed) ns.
Proof.
  intros ns p F FT D. induction F as [|n e ns p T F IH]; constructor.
  - unfold anon_fits. rewrite (text_key _ _ T), okey_hash. destruct T as (_ & _ & T). apply text_size in T. rewrite map_length in T. rewrite T.
    destruct e as (name & b). apply (FT name b); [now left|now left].
  - apply IH. intros name b I. apply FT. now right.
Qed.
Lemma text_oks : forall ns p, Forall2 (text_ns pf) ns p -> Forall (tn_ok pf) ns.
Proof. intros ns p F. induction F as [|n e ns p T F IH]; constructor; auto. apply T. Qed.

Lemma single_clean : forall ft ds chunk d lb, Forall looks_new ds ->
  parse_chunk H pf dbg seed nb ft LTSimple ds chunk = Ok (FtsSimple d, lb) -> pclean d.
Proof.
  intros ft ds chunk d lb F E. unfold parse_chunk in E. assert (M : is_multiline ft LTSimple = false) by (destruct ft; reflexivity). rewrite M in E.
  binv E. destruct v as (l & d'). apply (parse_line_clean H pf) in B; [|now apply looks_new_clean, hd_new].
  unfold finalize_single in E. cbn [fst snd] in E. destruct l as [[x w|s a]|]; inversion E; subst; apply B.
Qed.
Lemma multi_clean : forall ds chunk sh acts lb, Forall looks_new ds ->
  parse_chunk H pf dbg seed nb FTCb LTCb ds chunk = Ok (FtsCb sh acts, lb) ->
  Forall pclean (match sh with Some s => [s] | None => [] end ++ acts).
Proof.
  intros ds chunk sh acts lb F E. unfold parse_chunk in E. change (is_multiline FTCb LTCb) with true in E. cbv iota in E.
  binv E. apply (parse_lines_clean H pf) in B; auto. unfold finalize_multi in E. change (is_multiline FTCb LTCb) with true in E. cbv iota in E.
  destruct v as [|(l0 & g0) rest]; [discriminate|]. inversion B as [|? ? C0 CR]; subst. cbn [snd] in C0. binv E.
  assert (CM : Forall pclean (map snd rest)) by (clear - CR; induction CR; constructor; auto).
  destruct (fst v); binv E; inversion E; subst; cbn [app map snd]; constructor; auto.
Qed.

(** *** the result of parsing *)
Definition holds_exam (e : exam O) (f : features O) : Prop :=
  match e, f with
  | ESimple p _, FtsSimple d => holds p d
  | EBandit sh acts _, FtsCb s x => match sh, s with Some p, Some d => holds p d | None, None => True | _, _ => False end /\ Forall2 holds acts x
  | _, _ => False
  end.
Lemma exam_sim : forall e f g, holds_exam e f -> holds_exam e g -> ftsim f g /\ pgood f /\ pgood g.
Proof.
  assert (C : forall (s : option (sfeats O)) sh acts x, (match sh, s with Some p, Some d => holds p d | None, None => True | _, _ => False end) -> Forall2 holds acts x -> loosef s x).
  { intros s sh acts x Hs F. apply clean_loosef; [destruct sh, s; try contradiction; auto; apply Hs|]. induction F as [|p d acts x (C & _) F IH]; constructor; auto. }
  intros [p lb|sh acts lb] [a|s x] [b|t y]; cbn [holds_exam]; try tauto.
  - intros Ha Hb. cbn [ftsim pgood]. split; [eapply holds_sim; eauto|]. split; [apply Ha|apply Hb].
  - intros (Hs & Fx) (Ht & Fy). split; [|split; eapply C; eauto]. cbn [ftsim]. split.
    + destruct sh as [p|], s as [c|], t as [d|]; try contradiction; cbn [oeq]; auto. eapply holds_sim; eauto.
    + clear -Fx Fy. revert y Fy. induction Fx as [|p d acts x Hd Fx IH]; intros y Fy; inversion Fy; subst; constructor; auto. eapply holds_sim; eauto.
Qed.

Lemma text_parsed : forall ds c e, nb < 32 -> Forall pooled ds -> text_exam pf c e -> exam_fits H dbg seed e ->
  exists f, parse_chunk H pf dbg seed nb (fst (exam_types e)) (snd (exam_types e)) ds c = Ok (f, exam_label e) /\ holds_exam e f.
Proof.
  intros ds c e Hb P T FT. destruct T as [initial ws s ns f NI LW SL F ->|ls sh acts lb NE OKl SLn F SH LB].
  - apply Forall_inv in FT. cbn [exam_types fst snd].
    destruct (chunk_simple_ok H pf seed nb dbg FTSimple ds initial ns ws s Hb P NI LW SL (text_oks _ _ F) (text_anon _ _ F FT)) as (d & E & G).
    exists (FtsSimple d). split.
    + rewrite E. cbn [exam_label]. destruct s as [(x & [w|])|]; reflexivity.
    + cbn [holds_exam]. split; [eapply single_clean; [|exact E]; now apply pooled_Forall|]. intros k. now rewrite G, (text_line_content _ _ k F FT).
  - cbn [exam_types fst snd]. assert (FT' : Forall (part_fits H dbg seed) (match sh with Some s => [s] | None => [] end ++ acts)) by (destruct sh; exact FT).
    destruct (chunk_cb_ok H pf seed nb dbg ds ls c Hb P OKl NE SLn) as (s & x & lb' & E & HL & S' & LB').
    { intros D. clear -F FT' D. revert FT'. generalize dependent (match sh with Some s => [s] | None => [] end ++ acts). intros l F FT'.
      induction F as [|a p ls l T F IH]; constructor; [apply Forall_inv in FT'; eapply text_anon; eauto|apply IH; now apply Forall_inv_tail in FT']. }
    { eapply label_is_not_two. exact LB. }
    assert (lb' = lb) as ->.
    { clear -LB LB'. destruct lb as [[[i x] y]|], lb' as [[[j u] v]|]; auto; cbn [label_is] in *.
      - destruct LB as ((a & E1) & U1), LB' as ((b & E2) & U2). assert (EQ : N.to_nat i = N.to_nat j) by (eapply U2; [exact E1|exact Logic.I]).
        rewrite EQ in E1. apply N2Nat.inj in EQ. congruence.
      - destruct LB as ((a & E1) & U1). exfalso. eapply LB'; [eapply nth_error_In; exact E1|exact Logic.I].
      - destruct LB' as ((a & E1) & U1). exfalso. eapply LB; [eapply nth_error_In; exact E1|exact Logic.I]. }
    exists (FtsCb s x). split; [exact E|]. apply multi_clean in E; [|now apply pooled_Forall]. cbn [holds_exam].
    assert (HH : Forall2 holds (match sh with Some s => [s] | None => [] end ++ acts) (match s with Some s => [s] | None => [] end ++ x)).
    { clear -F FT' E HL. revert F FT' E HL. generalize (match sh with Some s => [s] | None => [] end ++ acts), (match s with Some s => [s] | None => [] end ++ x).
      intros ps xs F. revert xs. induction F as [|a p ls ps T F IH]; intros xs FT E HL; inversion HL as [|? d ? xs' Hd HL']; subst; constructor.
      - inversion FT; inversion E; subst. split; auto. intros k. rewrite Hd. f_equal. now apply text_line_content.
      - apply IH; auto; [now inversion FT|now inversion E]. }
    destruct sh as [p|], s as [d|]; cbn [app] in HH.
    + inversion HH; subst. split; auto.
    + exfalso. apply (proj2 S'); [apply SH; discriminate|reflexivity].
    + exfalso. apply (proj2 SH); [apply S'; discriminate|reflexivity].
    + split; auto.
Qed.

(** *** JSON *)
Lemma named_key : forall key name, named key name -> jkey H seed key = okey name.
Proof.
  intros key [n|]; cbn [named okey]; [intros (-> & A & B)|intros [->| ->]; reflexivity]. unfold jkey.
  destruct (str_eqb n str_space) eqn:E1; [apply str_eqb_eq in E1; contradiction|].
  destruct (str_eqb n str_default) eqn:E2; [apply str_eqb_eq in E2; contradiction|]. reflexivity.
Qed.
Lemma items_entries : forall nsh en l, json_items en l -> exists fs, Forall2 (jentry H nsh) en fs /\ concat fs = map (fvals nsh) l.
Proof.
  intros nsh en l J. induction J as [|k r l J (fs & F & E)|k n r l J (fs & F & E)|k s r l J (fs & F & E)|k r l J (fs & F & E)].
  - exists []. split; [constructor|reflexivity].
  - exists ([] :: fs). split; [constructor; [constructor|exact F]|exact E].
  - eexists (_ :: fs). split; [constructor; [constructor|exact F]|]. cbn [concat map app]. rewrite E. reflexivity.
  - eexists (_ :: fs). split; [constructor; [constructor|exact F]|]. cbn [concat map app]. rewrite E. reflexivity.
  - eexists (_ :: fs). split; [constructor; [constructor|exact F]|]. cbn [concat map app]. rewrite E. reflexivity.
Qed.
Lemma enum_map : forall A B (g : A -> B) l z, enum_from z (map g l) = map (fun p => (fst p, g (snd p))) (enum_from z l).
Proof. induction l as [|a l IH]; intros z; auto. cbn [map enum_from fst snd]. now rewrite IH. Qed.
Lemma body_jns : forall nsh v b, json_body v b -> jns H nsh v (bvals nsh b).
Proof.
  intros nsh v b J. destruct J as [en l J|ns NE]; cbn [bvals].
  - destruct (items_entries nsh en l J) as (fs & F & <-). now constructor.
  - unfold vvals. rewrite enum_map, map_map. now apply jn_vector.
Qed.
Lemma part_doc : forall v p, json_part v p -> part_fits H dbg seed p -> jdoc H seed v (nss_of p) /\ jfits H seed v /\ no_lists v.
Proof.
  intros v p (l & -> & F) FT. split; [|split].
  - exists l. split; auto. clear FT. induction F as [|kv e l p (N & B) F IH]; cbn [nss_of map]; constructor; auto. cbn [fst snd].
    split; [symmetry; now apply named_key|]. rewrite okey_hash. now apply body_jns.
  - intros l' name n r E I. injection E as <-. induction F as [|kv e l p (N & B) F IH]; [destruct I|]. destruct I as [->|I].
    + cbn [fst snd] in *. rewrite (named_key _ _ N), okey_hash. destruct e as (nm & b). cbn [fst snd] in *.
      assert (X : exists xs, b = BVector xs /\ length xs = length (JNum n :: r)).
      { inversion B as [|ns NE E1 E2]; subst. exists (map jn_f64 ns). split; auto. rewrite map_length. apply (f_equal (@length _)) in E1. now rewrite map_length. }
      destruct X as (xs & -> & L). rewrite <- L. apply (FT nm (BVector xs)); [now left|right; eauto].
    + apply IH; auto. intros nm b I'. apply FT. now right.
  - intros l' name s r E I. injection E as <-. clear FT. induction F as [|kv e l p (N & B) F IH]; [destruct I|]. destruct I as [->|I]; auto.
    cbn [fst snd] in B. inversion B as [|ns NE E1 E2]. destruct ns; discriminate.
Qed.
Lemma part_parsed : forall al v p o, nb < 32 -> looks_new (fst o) -> pooled (fst o) -> json_part v p -> part_fits H dbg seed p ->
  exists o', to_features O H dbg seed nb al v o = Ok o' /\ holds p (fst o').
Proof.
  intros al v p o Hb L P J FT. destruct (part_doc v p J FT) as (D & F & NL).
  destruct (features_accepted H dbg seed nb al v o (nss_of p) Hb P D F (or_introl NL)) as (o' & E). exists o'. split; auto. split.
  - destruct (to_features_two H dbg seed nb False al al v o o (or_intror NL) L L) as [([] & _)|R]. rewrite E in R. inversion R as [? ? (_ & C & _)| |]; subst. exact C.
  - destruct (features_plan_ok H dbg seed nb al v o (proj1 L)) as [B|R]; [congruence|]. rewrite E in R. inversion R as [? plan EP EQ EQ2| |]; subst.
    assert (EQ3 : features_plan H dbg seed nb v = Ok (mplan nb (nss_of p))) by (apply plan_iff; eauto). rewrite EQ3 in EQ2. injection EQ2 as ->.
    intros k. rewrite EP, (apply_plan_new _ _ _ L). f_equal. apply mplan_content.
Qed.
Lemma part_not_null : forall v p, json_part (O := O) v p -> v <> JNull.
Proof. intros v p (l & -> & _). discriminate. Qed.
Definition bare (ds : list (sfeats O)) : list (cobj O) := map (fun d => (d, no_caps)) ds.
Lemma tl_bare : forall ds, tl (bare ds) = bare (tl ds).
Proof. intros ds. destruct ds; reflexivity. Qed.
Lemma acts_parsed : forall al l acts ds, nb < 32 -> Forall pooled ds -> Forall2 json_part l acts -> Forall (part_fits H dbg seed) acts ->
  exists xs, json_actions O H dbg seed nb al l (bare ds) = Ok xs /\ Forall2 holds acts (map fst xs).
Proof.
  intros al l acts ds Hb P F FT. revert ds P FT. induction F as [|v p l acts J F IH]; intros ds P FT; [exists []; split; [reflexivity|constructor]|].
  cbn [json_actions]. set (o := hd (cobj_new O) (bare ds)).
  assert (Po : pooled (fst o)) by (unfold o; destruct P; [now left|assumption]).
  destruct (part_parsed al v p o Hb (pooled_new _ Po) Po J (Forall_inv FT)) as (x & E & Hx). rewrite E. cbn [bind].
  destruct (IH (tl ds)) as (xs & E2 & Fx); [destruct P; [constructor|assumption]|now apply Forall_inv_tail in FT|].
  rewrite tl_bare.
  rewrite E2. cbn [bind]. exists (x :: xs). split; [reflexivity|]. cbn [map]. now constructor.
Qed.
Lemma json_parsed : forall al ds c v e, nb < 32 -> Forall pooled ds -> rd c = Some v -> json_exam v e -> exam_fits H dbg seed e ->
  exists f, json_example O H dbg seed nb al rd (fst (exam_types e)) (snd (exam_types e)) (bare ds) c = Ok (f, exam_label e) /\ holds_exam e f.
Proof.
  intros al ds c v e Hb P R J FT. unfold json_example, json_chunk. rewrite R. cbn [opt_or bind].
  set (o := hd (cobj_new O) (bare ds)). assert (Po : pooled (fst o)) by (unfold o; destruct P; [now left|assumption]).
  destruct J as [x f lb FE JP LB|sh l acts lb SH FE F LB]; cbn [exam_types fst snd json_features].
  - apply Forall_inv in FT. pose proof (part_not_null _ _ JP) as NN. apply jget_first in FE; auto. rewrite FE.
    destruct (part_parsed al x f o Hb (pooled_new _ Po) Po JP FT) as (o' & E & Ho). unfold o in E. apply json_label_ok in LB.
    exists (FtsSimple (fst o')). split; [|exact Ho]. destruct x; try congruence; rewrite E; cbn [bind]; rewrite LB; reflexivity.
  - apply jget_first in FE; [|discriminate]. rewrite FE. apply json_label_ok in LB. destruct sh as [p|].
    + destruct SH as (x & FE2 & JP). pose proof (part_not_null _ _ JP) as NN. apply jget_first in FE2; auto. rewrite FE2.
      destruct (part_parsed al x p o Hb (pooled_new _ Po) Po JP (Forall_inv FT)) as (o' & E & Ho). unfold o in E.
      destruct (acts_parsed al l acts (tl ds) Hb ltac:(destruct P; [constructor|assumption]) F (Forall_inv_tail FT)) as (xs & E2 & Fx).
      rewrite tl_bare.
      exists (FtsCb (Some (fst o')) (map fst xs)). split; [|split; auto].
      destruct x; try congruence; rewrite E; cbn [bind fst snd]; rewrite E2; cbn [bind fst snd]; rewrite LB; reflexivity.
    + apply jget_null in SH. rewrite SH. cbn [bind fst snd]. destruct (acts_parsed al l acts ds Hb P F FT) as (xs & E2 & Fx).
      exists (FtsCb None (map fst xs)). split; [|split; auto]. rewrite E2. cbn [bind fst snd]. rewrite LB. reflexivity.
Qed.

(** *** decision service JSON *)
Definition tagged (e : option str * body O) : list (namespace * (N * O)) := map (pair (okey (fst e))) (bvals (opt_hash H seed (fst e)) (snd e)).
Lemma no_underscore : forall k path, ignored (PKey k :: path) = underscore k || ignored path.
Proof. reflexivity. Qed.
Lemma items_feats : forall en l nm outer, ds_items en l -> inner_key outer = Some nm -> ignored outer = false ->
  feats_of H seed (leaves_entries outer en) = map (pair (jkey H seed nm)) (map (fvals (key_hash (jkey H seed nm))) l).
Proof.
  intros en l nm outer D K I. induction D as [|k v r l U D IH|k r l D IH|k n r l U D IH|k s r l U D IH|k r l U D IH]; auto; cbn [leaves_entries fst snd].
  - rewrite feats_app, IH, feats_ignored; auto. rewrite no_underscore, U. reflexivity.
  - cbn [leaves map]. rewrite feats_app, IH. unfold feats_of, some_of. cbn [filter fst]. rewrite no_underscore, U, I. cbn [orb negb flat_map leaf_feature fst snd]. rewrite K. reflexivity.
  - cbn [leaves map]. rewrite feats_app, IH. unfold feats_of, some_of. cbn [filter fst]. rewrite no_underscore, U, I. cbn [orb negb flat_map leaf_feature fst snd]. rewrite K. reflexivity.
  - cbn [leaves map]. rewrite feats_app, IH. unfold feats_of, some_of. cbn [filter fst]. rewrite no_underscore, U, I. cbn [orb negb flat_map leaf_feature fst snd]. rewrite K. reflexivity.
Qed.
Lemma vector_feats : forall ns nm outer z, inner_key outer = Some nm -> ignored outer = false ->
  key_hash (jkey H seed nm) + z + N.of_nat (length ns) < 4294967296 ->
  feats_of H seed (leaves_items outer z (map JNum ns)) = map (pair (jkey H seed nm)) (vvals (key_hash (jkey H seed nm)) z (map jn_f64 ns)).
Proof.
  intros ns nm outer z K I. revert z. induction ns as [|n ns IH]; intros z B; auto. cbn [length] in B. cbn [map leaves_items leaves]. rewrite feats_app, IH by lia.
  unfold feats_of, some_of, vvals. cbn [filter fst]. change (ignored (PIdx z :: outer)) with (ignored outer). rewrite I. cbn [negb flat_map leaf_feature fst snd]. rewrite K.
  cbn [app map enum_from fst snd]. rewrite N.mod_small, N.add_1_r by lia. reflexivity.
Qed.
Lemma entries_app : forall path (a b : list (str * json O)), leaves_entries path (a ++ b) = leaves_entries path a ++ leaves_entries path b.
Proof. intros path a b. induction a as [|y a IH]; auto. cbn [app leaves_entries]. now rewrite IH, app_assoc. Qed.
Lemma fits_tail : forall e p, part_fits (O := O) H dbg seed (e :: p) -> part_fits H dbg seed p.
Proof. intros e p FT name b I. apply FT. now right. Qed.
Lemma parts_feats : forall l p, ds_parts l p -> part_fits H dbg seed p -> feats_of H seed (leaves_entries [PKey str_space] l) = flat_map tagged p.
Proof.
  intros l p D. induction D as [|k v r p U D IH|k name en l r p U N I NE D IH|k name ns r p U N NE D IH|en l r p I NE D IH]; intros FT; auto.
  - cbn [leaves_entries fst snd]. rewrite feats_app, IH, feats_ignored; auto. rewrite no_underscore, U. reflexivity.
  - cbn [leaves_entries fst snd flat_map]. rewrite feats_app, IH by now apply fits_tail in FT. f_equal. rewrite leaves_obj.
    rewrite (items_feats en l k); [|exact I|reflexivity|rewrite no_underscore, U; reflexivity]. unfold tagged. cbn [fst snd bvals]. rewrite (named_key _ _ N), okey_hash. reflexivity.
  - cbn [leaves_entries fst snd flat_map]. rewrite feats_app, IH by now apply fits_tail in FT. f_equal. rewrite leaves_arr.
    assert (B : opt_hash H seed name + N.of_nat (length ns) < 4294967296).
    { rewrite <- (map_length jn_f64 ns). apply (FT name (BVector (map jn_f64 ns))); [now left|right; eauto]. }
    rewrite (vector_feats ns k); [|reflexivity|rewrite no_underscore, U; reflexivity|rewrite (named_key _ _ N), okey_hash; lia].
    unfold tagged. cbn [fst snd bvals]. rewrite (named_key _ _ N), okey_hash. reflexivity.
  - rewrite entries_app, feats_app, IH by now apply fits_tail in FT. cbn [flat_map]. f_equal.
    rewrite (items_feats en l str_space); [|exact I|reflexivity|reflexivity]. reflexivity.
Qed.
Lemma parts_nonempty : forall l p, ds_parts l p -> Forall (fun e => bvals (opt_hash H seed (fst e)) (snd e) <> []) p.
Proof.
  intros l p D. induction D as [|k v r p U D IH|k name en l r p U N I NE D IH|k name ns r p U N NE D IH|en l r p I NE D IH]; try constructor; auto; cbn [fst snd bvals].
  - destruct l; [congruence|discriminate].
  - destruct ns; [congruence|discriminate].
  - destruct l; [congruence|discriminate].
Qed.
Lemma tagged_content : forall p k, Forall (fun e => bvals (opt_hash H seed (fst e)) (snd e) <> []) p ->
  match filter (fun n => ns_eqb k (fst n)) (flat_map tagged p) with [] => None | l => Some (masked nb (map snd l)) end = jcontent nb (nss_of p) k.
Proof.
  intros p k NE. unfold jcontent.
  assert (Q : map snd (filter (fun n => ns_eqb k (fst n)) (flat_map tagged p)) = flat_map snd (filter (fun n => ns_eqb k (fst n)) (nss_of p))).
  { clear NE. induction p as [|e p IH]; auto. cbn [flat_map nss_of map]. rewrite filter_app, map_app, IH. unfold tagged. fold (nss_of p). cbn [filter fst].
    assert (T : forall xs : list (N * O), map snd (filter (fun n => ns_eqb k (fst n)) (map (pair (okey (fst e))) xs)) = if ns_eqb k (okey (fst e)) then xs else []).
    { induction xs as [|x xs IHx]; cbn [map filter fst]; [now destruct (ns_eqb k (okey (fst e)))|]. destruct (ns_eqb k (okey (fst e))); auto. cbn [map snd]. now rewrite IHx. }
    rewrite T. destruct (ns_eqb k (okey (fst e))); reflexivity. }
  assert (Z : Forall (fun q : namespace * list (N * O) => snd q <> []) (filter (fun n => ns_eqb k (fst n)) (nss_of p))).
  { clear Q. induction NE as [|e p NE F IH]; cbn [nss_of map filter]; [constructor|]. cbn [fst]. destruct (ns_eqb k (okey (fst e))); [constructor; auto|auto]. }
  destruct (filter _ (flat_map tagged p)) as [|a x], (filter _ (nss_of p)) as [|b y]; auto; [| |now rewrite Q].
  - exfalso. apply Forall_inv in Z. cbn [flat_map map] in Q. destruct (snd b); [congruence|discriminate].
  - discriminate.
Qed.
Lemma item_fine : forall en l, ds_items en l -> Forall (fun y : str * json O => ds_fine (fst y) (snd y)) en.
Proof. intros en l D. induction D; constructor; auto; cbn [fst snd]; now constructor. Qed.
Lemma parts_fine : forall l p, ds_parts l p -> Forall (fun y : str * json O => ds_fine (fst y) (snd y)) l.
Proof.
  intros l p D. induction D as [|k v r p U D IH|k name en l r p U N I NE D IH|k name ns r p U N NE D IH|en l r p I NE D IH].
  - constructor.
  - constructor; auto. now apply df_ignored.
  - constructor; auto. apply df_obj. eapply item_fine; eauto.
  - constructor; auto. apply df_arr. apply Forall_forall. intros y Y. apply in_map_iff in Y. destruct Y as (n & <- & _). left. eauto.
  - apply Forall_app. split; auto. eapply item_fine; eauto.
Qed.
Lemma items_no_idx : forall en l outer i out x, ds_items en l -> ignored outer = false -> In (PIdx i :: out, x) (leaves_entries (O := O) outer en) -> ignored out = true.
Proof.
  intros en l outer i out x D I X. induction D as [|k v r l U D IH|k r l D IH|k n r l U D IH|k s r l U D IH|k r l U D IH]; cbn [leaves_entries leaves fst snd app] in X.
  - destruct X.
  - apply in_app_or in X. destruct X as [X|X]; auto. apply leaves_ignored in X; [exact X|]. rewrite no_underscore, U. reflexivity.
  - auto.
  - destruct X as [X|X]; auto; discriminate.
  - destruct X as [X|X]; auto; discriminate.
  - destruct X as [X|X]; auto; discriminate.
Qed.
Lemma vector_idx : forall ns outer z i out x, In (PIdx i :: out, x) (leaves_items (O := O) outer z (map JNum ns)) -> out = outer /\ i < z + N.of_nat (length ns).
Proof.
  induction ns as [|n ns IH]; intros outer z i out x X; [destruct X|]. cbn [map leaves_items leaves app] in X. cbn [length]. destruct X as [X|X].
  - injection X as -> -> _. split; auto. lia.
  - apply IH in X. destruct X as (-> & X). split; auto. lia.
Qed.
Lemma parts_fits : forall l p, ds_parts l p -> part_fits H dbg seed p -> ds_fits (O := O) H seed [PKey str_space] (JObj l).
Proof.
  intros l p D FT i out x nm X I K. rewrite leaves_obj in X.
  induction D as [|k v r p U D IH|k name en l r p U N IT NE D IH|k name ns r p U N NE D IH|en l r p IT NE D IH]; cbn [leaves_entries fst snd] in X.
  - destruct X.
  - apply in_app_or in X. destruct X as [X|X]; auto. exfalso. apply leaves_ignored in X; [|rewrite no_underscore, U; reflexivity].
    change (ignored out = true) in X. congruence.
  - apply in_app_or in X. destruct X as [X|X]; [|apply IH; auto; now apply fits_tail in FT]. exfalso. rewrite leaves_obj in X.
    apply (items_no_idx _ _ _ _ _ _ IT) in X; [congruence|]. rewrite no_underscore, U. reflexivity.
  - apply in_app_or in X. destruct X as [X|X]; [|apply IH; auto; now apply fits_tail in FT]. rewrite leaves_arr in X. apply vector_idx in X. destruct X as (-> & X).
    cbn [inner_key] in K. injection K as <-. rewrite (named_key _ _ N), okey_hash.
    assert (B : opt_hash H seed name + N.of_nat (length ns) < 4294967296).
    { rewrite <- (map_length jn_f64 ns). apply (FT name (BVector (map jn_f64 ns))); [now left|right; eauto]. } lia.
  - rewrite entries_app in X. apply in_app_or in X. destruct X as [X|X]; [|apply IH; auto; now apply fits_tail in FT]. exfalso.
    apply (items_no_idx _ _ _ _ _ _ IT) in X; [congruence|reflexivity].
Qed.
Lemma ds_part_parsed : forall v p f, nb < 32 -> pooled f -> ds_part v p -> part_fits H dbg seed p ->
  exists f', ds_handle O H dbg seed nb v str_space f [] = Ok (f', []) /\ holds p f'.
Proof.
  intros v p f Hb P (l & -> & D) FT.
  destruct (proj2 (root_accepts H dbg seed nb (JObj l) f Hb (fun _ => parts_fits l p D FT))) as (f' & st & E).
  { split; [|exact Logic.I]. apply df_obj. eapply parts_fine; eauto. }
  destruct (root_ok H dbg seed nb _ _ _ _ Hb P E) as (-> & G). exists f'. split; auto. split.
  - pose proof (handle_sim H dbg seed nb (JObj l) str_space f f (pooled_new _ P) (pooled_new _ P)) as S. rewrite E in S. inversion S as [? ? ((_ & C & _) & _)| |]; subst. exact C.
  - intros k. rewrite G. f_equal. rewrite <- (tagged_content p k (parts_nonempty _ _ D)). rewrite <- (parts_feats l p D FT), <- leaves_obj. reflexivity.
Qed.
Lemma ds_acts_parsed : forall l acts ds, nb < 32 -> Forall pooled ds -> Forall2 ds_part l acts -> Forall (part_fits H dbg seed) acts ->
  exists xs, ds_actions O H dbg seed nb l ds = Ok xs /\ Forall2 holds acts xs.
Proof.
  intros l acts ds Hb P F FT. revert ds P FT. induction F as [|v p l acts J F IH]; intros ds P FT; [exists []; split; [reflexivity|constructor]|].
  cbn [ds_actions]. assert (Po : pooled (hd sf_new ds)) by (destruct P; [now left|assumption]).
  destruct (ds_part_parsed v p _ Hb Po J (Forall_inv FT)) as (x & E & Hx). rewrite E. cbn [bind fst snd].
  destruct (IH (tl ds)) as (xs & E2 & Fx); [destruct P; [constructor|assumption]|now apply Forall_inv_tail in FT|].
  rewrite E2. cbn [bind]. exists (x :: xs). split; [reflexivity|]. now constructor.
Qed.
Lemma ds_parsed : forall ds c v e, nb < 32 -> Forall pooled ds -> rd c = Some v -> ds_exam v e -> exam_fits H dbg seed e ->
  exists f, ds_chunk O H dbg seed nb rd ds c = Ok (f, exam_label e) /\ holds_exam e f.
Proof.
  intros ds c v e Hb P R D FT. unfold ds_chunk. rewrite R. cbn [opt_or bind]. destruct D as [w sh l acts lb FE DP FM F DM]. unfold ds_value.
  assert (NN : w <> JNull) by (destruct DP as (? & -> & _); discriminate). apply jget_first in FE; auto. rewrite FE. apply jget_first in FM; [|discriminate]. rewrite FM.
  assert (Po : pooled (hd sf_new ds)) by (destruct P; [now left|assumption]).
  destruct (ds_part_parsed w sh _ Hb Po DP (Forall_inv FT)) as (x & E & Hx). rewrite E. cbn [bind fst snd].
  destruct (ds_acts_parsed l acts (tl ds) Hb ltac:(destruct P; [constructor|assumption]) F (Forall_inv_tail FT)) as (xs & E2 & Fx). rewrite E2. cbn [bind].
  exists (FtsCb (Some x) xs). split; [|split; auto].
  assert (L : ds_label O v = Ok (lb_of lb)).
  { unfold ds_label. destruct DM as [Z|cc pp a i F1 F2 F3 U].
    - rewrite !(proj2 (jget_null _ v)); auto; apply Z; cbn [In]; auto.
    - apply jget_first in F1; [|discriminate]. apply jget_first in F2; [|discriminate]. apply jget_first in F3; [|discriminate]. rewrite F1, F2, F3, U. reflexivity. }
  rewrite L. reflexivity.
Qed.
End P.

(** ** training *)
Section T.
Context {O : FOps} (H : hasher) (pf : str -> option O) (rd : str -> option (json O)) (dbg : bool).

Lemma written_parsed : forall al fmt gc n (r : red O n) ps need ds c e, get_parser H pf rd al dbg fmt gc r = Ok (ps, need) ->
  gc_bits gc < 32 -> Forall pooled ds -> writes pf rd fmt c e -> exam_types e = types_of r -> exam_fits H dbg (gc_seed gc) e ->
  exists f, ps ds c = Ok (f, exam_label e) /\ holds_exam H (gc_seed gc) (gc_bits gc) e f.
Proof.
  intros al fmt gc n r ps need ds c e GP Hb P W T FT. unfold types_of in T. destruct fmt; cbn [get_parser writes] in GP, W.
  - injection GP as <- _. destruct (text_parsed H pf dbg (gc_seed gc) (gc_bits gc) ds c e Hb P W FT) as (f & E & G). rewrite T in E. eauto.
  - binv GP. injection GP as <- _. destruct W as (w & R & D). exact (ds_parsed H rd dbg (gc_seed gc) (gc_bits gc) ds c w e Hb P R D FT).
  - injection GP as <- _. destruct W as (v & R & J). destruct (json_parsed H rd dbg (gc_seed gc) (gc_bits gc) al ds c v e Hb P R J FT) as (f & E & G). rewrite T in E. eauto.
Qed.
Lemma parser_made : forall al fmt gc n (r : red O n) c e, writes pf rd fmt c e -> exam_types e = types_of r ->
  exists ps need, get_parser H pf rd al dbg fmt gc r = Ok (ps, need).
Proof.
  intros al fmt gc n r c e W T. destruct fmt; cbn [get_parser]; [eauto| |eauto]. destruct W as (v & _ & D). destruct D. cbn [exam_types] in T.
  injection T as T1 T2. unfold ds_create. rewrite <- T1, <- T2. cbn [bind]. eauto.
Qed.

Lemma same_parsed : forall al1 al2 fmt1 fmt2 gc n (r : red O n) ps1 ps2 need1 need2 ds1 ds2 c1 c2 e,
  get_parser H pf rd al1 dbg fmt1 gc r = Ok (ps1, need1) -> get_parser H pf rd al2 dbg fmt2 gc r = Ok (ps2, need2) ->
  gc_bits gc < 32 -> Forall looks_new ds1 -> Forall looks_new ds2 -> writes pf rd fmt1 c1 e -> writes pf rd fmt2 c2 e ->
  exam_types e = types_of r -> exam_fits H dbg (gc_seed gc) e ->
  exists f g, ps1 ds1 c1 = Ok (f, exam_label e) /\ ps2 ds2 c2 = Ok (g, exam_label e) /\ ftsim f g.
Proof.
  intros al1 al2 fmt1 fmt2 gc n r ps1 ps2 need1 need2 ds1 ds2 c1 c2 e G1 G2 Hb P1 P2 W1 W2 T FT.
  assert (K : forall al fmt ps need ds c, get_parser H pf rd al dbg fmt gc r = Ok (ps, need) -> Forall looks_new ds -> writes pf rd fmt c e ->
    exists f f0, ps ds c = Ok (f, exam_label e) /\ ftsim f f0 /\ holds_exam H (gc_seed gc) (gc_bits gc) e f0).
  { intros al fmt ps need ds c G P W. destruct (written_parsed al fmt gc n r ps need [] c e G Hb (Forall_nil _) W T FT) as (f0 & E & Hf).
    destruct (get_parser_ok H pf rd al dbg _ _ _ _ _ _ G) as (OK & _). pose proof (OK ds [] c P (Forall_nil _)) as Q. rewrite E in Q.
    inversion Q as [u v ((S & L) & _) Eu Ev| |]; subst. destruct u as (f & lb). cbn [fst snd] in *. subst lb. exists f, f0. auto. }
  destruct (K _ _ _ _ _ _ G1 P1 W1) as (f & f0 & E1 & S1 & H1). destruct (K _ _ _ _ _ _ G2 P2 W2) as (g & g0 & E2 & S2 & H2).
  exists f, g. split; auto. split; auto. destruct (exam_sim H _ _ e f0 g0 H1 H2) as (S & _).
  eapply ftsim_trans; [exact S1|]. eapply ftsim_trans; [exact S|]. now apply ftsim_sym.
Qed.

Lemma same_loop : forall al1 al2 fmt1 fmt2 gc n (r : red O n) ps1 ps2 need1 need2 md es cs1 cs2 (u v : tstate O n * list (sfeats O)),
  get_parser H pf rd al1 dbg fmt1 gc r = Ok (ps1, need1) -> get_parser H pf rd al2 dbg fmt2 gc r = Ok (ps2, need2) ->
  gc_bits gc < 32 -> Forall2 (writes pf rd fmt1) cs1 es -> Forall2 (writes pf rd fmt2) cs2 es ->
  Forall (fun e => exam_types e = types_of r /\ exam_fits H dbg (gc_seed gc) e) es -> loopsim u v ->
  orel loopsim (train_loop dbg md ps1 need1 cs1 u) (train_loop dbg md ps2 need2 cs2 v).
Proof.
  intros al1 al2 fmt1 fmt2 gc n r ps1 ps2 need1 need2 md es cs1 cs2 u v G1 G2 Hb W1 W2 F. revert cs1 cs2 W1 W2 u v. unfold train_loop.
  induction F as [|e es (T & FT) F IH]; intros cs1 cs2 W1 W2 u v S; inversion W1 as [|c1 ? cs1' ? X1 Y1]; inversion W2 as [|c2 ? cs2' ? X2 Y2]; subst; cbn [foldm]; [now constructor|].
  eapply orel_bind; [|intros a b Sab; apply IH; [exact Y1|exact Y2|exact Sab]]. destruct u as (st & ds1), v as (st' & ds2), S as (E & P1 & P2). cbn [fst snd] in E, P1, P2. subst st'.
  unfold train_chunk. cbn [fst snd].
  destruct (same_parsed al1 al2 fmt1 fmt2 gc n r ps1 ps2 need1 need2 ds1 ds2 c1 c2 e G1 G2 Hb P1 P2 X1 X2 T FT) as (f & g & E1 & E2 & Sfg).
  rewrite E1, E2. cbn [unwrap_res bind fst snd]. eapply orel_bind; [apply process_sim; exact Sfg|]. intros (s1 & f1) (s2 & f2) (Es & S1). cbn [fst snd] in *. subst.
  constructor. split; auto. cbn [snd]. split; apply give_back_new; auto using skipn_new; eapply ftsim_wf_l; [|eapply ftsim_sym]; eauto.
Qed.

Lemma same_training : forall al1 al2 o1 o2 s gc R t1 t2 cs1 cs2 es, open_source H dbg s = Ok (gc, R) ->
  op_mode o1 = op_mode o2 -> op_metrics o1 = op_metrics o2 -> op_period o1 = op_period o2 ->
  gc_bits gc < 32 -> es <> [] ->
  pieces (op_format o1) (is_multiline (fst (types_of (projT2 R))) (snd (types_of (projT2 R)))) t1 cs1 ->
  pieces (op_format o2) (is_multiline (fst (types_of (projT2 R))) (snd (types_of (projT2 R)))) t2 cs2 ->
  Forall2 (writes pf rd (op_format o1)) cs1 es -> Forall2 (writes pf rd (op_format o2)) cs2 es ->
  Forall (fun e => exam_types e = types_of (projT2 R) /\ exam_fits H dbg (gc_seed gc) e) es ->
  train_command H pf rd al1 dbg o1 s t1 = train_command H pf rd al2 dbg o2 s t2.
Proof.
  intros al1 al2 o1 o2 s gc R t1 t2 cs1 cs2 es OS M1 M2 M3 Hb NE P1 P2 W1 W2 F. unfold train_command. rewrite OS. cbn [bind fst snd].
  destruct R as (n & r). cbn [projT2 projT1] in *. unfold train_from.
  destruct (pieces_one O n r (op_format o1) t1) as (d1 & E1 & _ & U1). specialize (U1 _ P1). subst d1.
  destruct (pieces_one O n r (op_format o2) t2) as (d2 & E2 & _ & U2). specialize (U2 _ P2). subst d2.
  rewrite E1, E2, M1, M2, M3.
  assert (K : (exists ps need, get_parser H pf rd al1 dbg (op_format o1) gc r = Ok (ps, need)) /\ (exists ps need, get_parser H pf rd al2 dbg (op_format o2) gc r = Ok (ps, need))).
  { destruct F as [|e es (T & _) F]; [congruence|]. inversion W1; inversion W2; subst. split; eapply parser_made; eauto. }
  destruct K as ((ps1 & need1 & G1) & (ps2 & need2 & G2)). rewrite G1, G2. cbn [bind fst snd opt_or]. apply orel_eq.
  destruct (train_start (op_metrics o2) (op_period o2) r) as [st| |]; cbn [bind]; try constructor.
  eapply orel_bind; [eapply same_loop; eauto; split; [reflexivity|split; constructor]|]. intros (a & x) (b & y) (E & _). cbn [fst] in E. subst b.
  cbn [fst]. apply orel_refl. reflexivity.
Qed.
Lemma same_features : forall al1 al2 fmt1 fmt2 gc n (r : red O n) ps1 ps2 need1 need2 ds1 ds2 c1 c2 e,
  get_parser H pf rd al1 dbg fmt1 gc r = Ok (ps1, need1) -> get_parser H pf rd al2 dbg fmt2 gc r = Ok (ps2, need2) ->
  gc_bits gc < 32 -> Forall pooled ds1 -> Forall pooled ds2 -> writes pf rd fmt1 c1 e -> writes pf rd fmt2 c2 e ->
  exam_types e = types_of r -> exam_fits H dbg (gc_seed gc) e ->
  exists x y, ps1 ds1 c1 = Ok x /\ ps2 ds2 c2 = Ok y /\ same_example x y /\ snd x = exam_label e.
Proof.
  intros al1 al2 fmt1 fmt2 gc n r ps1 ps2 need1 need2 ds1 ds2 c1 c2 e G1 G2 Hb P1 P2 W1 W2 T FT.
  destruct (same_parsed al1 al2 fmt1 fmt2 gc n r ps1 ps2 need1 need2 ds1 ds2 c1 c2 e G1 G2 Hb (pooled_Forall _ P1) (pooled_Forall _ P2) W1 W2 T FT) as (f & g & E1 & E2 & S).
  exists (f, exam_label e), (g, exam_label e). split; auto. split; auto. split; [|reflexivity]. split; [|reflexivity]. now apply ftsim_same.
Qed.
End T.

(** Chunks: which parse (C27), what they give (C29), recycled objects (C03). *)
From Coq Require Import List NArith Bool Lia Arith.
From Verif Require Import Base FloatOps Model_Hash Model_Types Model_Features Model_Text Spec_Features Spec_Stack Spec_Text
  Proof_Hash Proof_Features Proof_FeaturesHist Proof_StackCong Proof_StackProps Proof_TextRead Proof_TextParse Proof_TextFeats.
Import ListNotations.
Open Scope N_scope.

Section TC.
Context {O : FOps} (H : hasher) (pf : str -> option O) (seed nb : N).

Lemma pooled_new : forall d : sfeats O, pooled d -> looks_new d.
Proof.
  intros d [->|(m & (dbg & h & st & i & Hr & ->) & ->)].
  - apply fsim_refl. apply fwf_nil.
  - apply fsim_clear_new. exact (fops_wf _ _ _ _ stwf0 Hr i).
Qed.

(** *** C27 *)
Lemma foldm_tokens_release : forall k nsv toks acc, exists r, foldm (add_token H pf false nb k nsv) toks acc = Ok r.
Proof.
  induction toks as [|t toks IH]; intros acc; [exists acc; reflexivity|]. cbn [foldm].
  assert (Hx : exists r, add_token H pf false nb k nsv acc t = Ok r).
  { unfold add_token.
    assert (Hp : exists p v off, parse_feature pf false t (snd acc) = Ok (p, v, off)).
    { assert (Hs : exists p v off, match split_char 58 t with
        | name :: value :: _ => match pf value with Some v => Ok (PFSimple name, v, snd acc) | None => Ok (PFSimpleStr name (trim value), f1, snd acc) end
        | [name] => Ok (PFSimple name, f1, snd acc) | [] => Pn PNone end = Ok (p, v, off)).
      { destruct (split_char 58 t) as [|n [|v r]] eqn:E; [exfalso; exact (split_by_ne _ _ E)|eauto|]. destruct (pf v); eauto. }
      unfold parse_feature. destruct t as [|c r]; [exact Hs|].
      assert (Hc : exists p v off, match pf r with Some v => let* off' := add32 false (snd acc) 1 in Ok (PFAnon (snd acc), v, off')
                   | None => Ok (PFSimpleStr [] (trim r), f1, snd acc) end = Ok (p, v, off)).
      { destruct (pf r); [|eauto]. unfold add32. destruct (snd acc + 1 <? u32_mod); cbn [bind]; eauto. }
      destruct c as [|c]; [exact Hs|]. do 6 (destruct c as [c|c|]; try exact Hs). exact Hc. }
    destruct Hp as (p & v & off & ->). cbn [bind].
    assert (Hh : exists h, parsed_feature_hash H false p (ns_hash k) = Ok h).
    { destruct p; cbn [parsed_feature_hash]; eauto. unfold add32. destruct (ns_hash k + offset <? u32_mod); eauto. }
    destruct Hh as (h & ->). cbn [bind]. unfold mask_from_bits. destruct (nb <? 32); cbn [bind]; eauto. }
  destruct Hx as (r & ->). cbn [bind]. apply IH.
Qed.
Lemma seg_fine_iff : forall seg, seg_fine pf seg <-> exists r, namespace_head pf seg = Ok r.
Proof.
  intros seg. unfold seg_fine, namespace_head. destruct (starts_with 32 seg) eqn:Es.
  - split; [eauto|]. intros _. left. apply starts_with_spec. exact Es.
  - assert (Hn : ~ exists r, seg = 32 :: r) by (intros Hx; apply starts_with_spec in Hx; congruence). split.
    + intros [Hx|(w & ws & Hw & Hv)]; [contradiction|]. apply words_unique in Hw. unfold split_ascii_ws. rewrite Hw.
      destruct (split_char 58 w) as [|a [|v r]] eqn:Ec; [exfalso; exact (split_by_ne _ _ Ec)|eauto|].
      apply cut_split in Ec. specialize (Hv _ _ _ Ec). destruct (pf v); [cbn; eauto|destruct Hv; reflexivity].
    + intros (r & E). right. unfold split_ascii_ws in E. destruct (filter nonempty (split_by is_ascii_ws seg)) as [|w ws] eqn:Ew; [discriminate|].
      exists w, ws. split; [apply words_unique; exact Ew|]. intros a v q Hc. apply cut_split in Hc. rewrite Hc in E.
      destruct (pf v); [discriminate|discriminate].
Qed.
Lemma namespace_head_not_er : forall seg e, namespace_head pf seg <> Er e.
Proof.
  intros seg e. unfold namespace_head. destruct (starts_with 32 seg); [discriminate|].
  destruct (split_ascii_ws seg) as [|w ws]; [discriminate|]. destruct (split_char 58 w) as [|a [|v r]]; [discriminate..|].
  destruct (pf v); discriminate.
Qed.
Lemma parse_segs_iff : forall segs d,
  (Forall (seg_fine pf) segs -> exists d', foldm (parse_namespace H pf false seed nb) segs d = Ok d') /\
  (~ Forall (seg_fine pf) segs -> exists p, foldm (parse_namespace H pf false seed nb) segs d = Pn p).
Proof.
  induction segs as [|s segs IH]; intros d; cbn [foldm].
  - split; [eauto|]. intros Hn. destruct Hn. constructor.
  - unfold parse_namespace at 1 3. destruct (namespace_head pf s) as [[[name nsv] toks]|e|p] eqn:Eh; cbn [bind].
    + destruct (foldm_tokens_release (ns_from_name H name seed) nsv toks (sf_upd_ns (ns_from_name H name seed) (fun s0 => s0) d, 0)) as (r & ->).
      cbn [bind]. assert (Hs : seg_fine pf s) by (apply seg_fine_iff; eauto). destruct (IH (fst r)) as [IH1 IH2]. split.
      * intros Hf. inversion Hf; subst. auto.
      * intros Hn. apply IH2. intros Hf. apply Hn. constructor; assumption.
    + exfalso. exact (namespace_head_not_er _ _ Eh).
    + split; [|eauto]. intros Hf. inversion Hf as [|? ? Hs _]; subst. apply seg_fine_iff in Hs. destruct Hs as (r & Hr). congruence.
Qed.
Lemma label_fine_iff : forall lt initial, label_fine pf lt (label_tokens initial) <-> exists l, parse_label pf (label_tokens initial) lt = Ok l.
Proof.
  intros lt initial.
  assert (Hw : Forall (Forall (fun c => is_ws c = false)) (label_tokens initial)).
  { eapply label_words_free. apply label_words_tokens. reflexivity. }
  destruct lt; cbn [label_fine].
  - split; [intros (s & Hs); eexists; apply parse_label_simple; eauto|].
    intros (l & Hl). apply parse_label_simple in Hl. destruct Hl as (s & Hs & _). eauto.
  - split; [intros []|intros (l & Hl); discriminate].
  - split; [intros (m & Hm); eexists; apply parse_label_cb; eauto|].
    intros (l & Hl). apply parse_label_cb in Hl; [|exact Hw]. destruct Hl as (s & Hs & _). eauto.
Qed.
Lemma line_fine_split : forall lt line initial segs, split_char 124 line = initial :: segs ->
  (line_fine pf lt line <-> (label_fine pf lt (label_tokens initial) /\ Forall (seg_fine pf) segs)).
Proof.
  intros lt line initial segs E. split.
  - intros (i & s & ws & Hc & Hl & Hf & Hs). apply cut_split in Hc. rewrite E in Hc. inversion Hc; subst.
    apply label_words_tokens in Hl. subst ws. auto.
  - intros [Hf Hs]. exists initial, segs, (label_tokens initial). split; [apply cut_split; exact E|].
    split; [apply label_words_tokens; reflexivity|auto].
Qed.
Lemma parse_line_release : forall lt line d,
  (line_fine pf lt line -> exists r, parse_line H pf false seed nb lt line d = Ok r) /\
  (~ line_fine pf lt line -> exists p, parse_line H pf false seed nb lt line d = Pn p).
Proof.
  intros lt line d. unfold parse_line. destruct (split_char 124 line) as [|initial segs] eqn:E; [exfalso; exact (split_by_ne _ _ E)|].
  rewrite (line_fine_split _ _ _ _ E). destruct (parse_label pf (label_tokens initial) lt) as [l|e|p] eqn:El; cbn [bind].
  - assert (Hl : label_fine pf lt (label_tokens initial)) by (apply label_fine_iff; eauto).
    destruct (parse_segs_iff segs d) as [P1 P2]. split.
    + intros [_ Hs]. destruct (P1 Hs) as (d' & ->). cbn [bind]. eauto.
    + intros Hn. destruct P2 as (p & ->); [intros Hs; apply Hn; auto|]. cbn [bind]. eauto.
  - exfalso. exact (parse_label_not_er _ _ _ _ El).
  - split; [|eauto]. intros [Hl _]. apply label_fine_iff in Hl. destruct Hl as (l & Hl). congruence.
Qed.
Lemma parse_lines_release : forall lt lines dests,
  (Forall (line_fine pf lt) lines -> exists r, parse_lines H pf false seed nb lt lines dests = Ok r) /\
  (~ Forall (line_fine pf lt) lines -> exists p, parse_lines H pf false seed nb lt lines dests = Pn p).
Proof.
  induction lines as [|l lines IH]; intros dests; cbn [parse_lines].
  - split; [eauto|]. intros Hn. destruct Hn. constructor.
  - destruct (parse_line_release lt l (hd sf_new dests)) as [P1 P2].
    destruct (parse_line H pf false seed nb lt l (hd sf_new dests)) as [r|e|p] eqn:E; cbn [bind].
    + destruct (IH (tl dests)) as [I1 I2]. split.
      * intros Hf. inversion Hf; subst. destruct (I1 H3) as (rs & ->). cbn [bind]. eauto.
      * intros Hn. destruct I2 as (p & ->); [|cbn; eauto]. intros Hf. apply Hn. constructor; [|exact Hf].
        assert (Hd : line_fine pf lt l \/ ~ line_fine pf lt l).
        { destruct (split_char 124 l) as [|i s] eqn:Es; [exfalso; exact (split_by_ne _ _ Es)|].
          unfold parse_line in E. rewrite Es in E. destruct (parse_label pf (label_tokens i) lt) eqn:El; cbn [bind] in E; [|discriminate..].
          rewrite (line_fine_split _ _ _ _ Es). destruct (foldm (parse_namespace H pf false seed nb) s (hd sf_new dests)) eqn:Ef; cbn [bind] in E; [|discriminate..].
          left. split; [apply label_fine_iff; eauto|]. clear - Ef. revert Ef. generalize (hd sf_new dests). induction s as [|x s IHs]; intros d Ef; [constructor|].
          cbn [foldm] in Ef. unfold parse_namespace in Ef at 1. destruct (namespace_head pf x) as [[[a b] c]|e|e] eqn:Ex; cbn [bind] in Ef; [|discriminate..].
          constructor; [apply seg_fine_iff; eauto|]. destruct (foldm _ c _); cbn [bind] in Ef; [|discriminate..]. eapply IHs. exact Ef. }
        destruct Hd as [Hd|Hd]; [exact Hd|]. destruct (P2 Hd) as (p & Hp). discriminate.
    + exfalso. assert (Hd : ~ line_fine pf lt l) by (intros Hf; destruct (P1 Hf); discriminate). destruct (P2 Hd). discriminate.
    + split; [|eauto]. intros Hf. inversion Hf; subst. destruct (P1 H2). discriminate.
Qed.

(** release builds: which chunks return *)
Lemma chunk_simple_release : forall ft dests chunk, let r := parse_chunk H pf false seed nb ft LTSimple dests chunk in
  (line_fine pf LTSimple chunk -> exists x, r = Ok x) /\ (~ line_fine pf LTSimple chunk -> exists p, r = Pn p).
Proof.
  intros ft dests chunk. cbn zeta. unfold parse_chunk. replace (is_multiline ft LTSimple) with false by (destruct ft; reflexivity).
  destruct (parse_line_release LTSimple chunk (hd sf_new dests)) as [P1 P2]. split.
  - intros Hf. destruct (P1 Hf) as ([lb d] & E). rewrite E. cbn [bind fst snd].
    unfold parse_line in E. destruct (split_char 124 chunk) as [|ini segs]; [discriminate|].
    destruct (parse_label pf (label_tokens ini) LTSimple) as [l'|e|e] eqn:El; cbn [bind] in E; [|discriminate..].
    destruct (foldm _ _ _); cbn [bind] in E; [|discriminate..]. inversion E; subst.
    apply parse_label_simple in El. destruct El as ([[x w]|] & _ & ->); cbn; eauto.
  - intros Hn. destruct (P2 Hn) as (p & ->). cbn. eauto.
Qed.
Lemma chunk_cb_release : forall dests chunk, let r := parse_chunk H pf false seed nb FTCb LTCb dests chunk in
  (Forall (line_fine pf LTCb) (str_lines chunk) -> (exists x, r = Ok x) \/ r = Er EInvalidArgument) /\
  (~ Forall (line_fine pf LTCb) (str_lines chunk) -> exists p, r = Pn p).
Proof.
  intros dests chunk. cbn zeta. destruct (parse_lines_release LTCb (str_lines chunk) dests) as [P1 P2]. split.
  - intros Hf. destruct (P1 Hf) as (rs & E). destruct (multi_result H pf seed nb _ _ _ _ E) as (ms & _ & [(f & lb & ->)|[-> _]]); eauto.
  - intros Hn. destruct (P2 Hn) as (p & E). unfold parse_chunk. replace (is_multiline FTCb LTCb) with true by reflexivity.
    rewrite E. cbn. eauto.
Qed.

(** *** C29 for chunks *)
Lemma hd_pooled : forall dests : list (sfeats O), Forall pooled dests -> pooled (hd sf_new dests).
Proof. intros dests Hd. destruct Hd; [left; reflexivity|assumption]. Qed.
Lemma chunk_simple_ok : forall dbg ft dests initial ns ws s, nb < 32 -> Forall pooled dests -> ~ In 124 initial ->
  label_words initial ws -> simple_label pf ws s ->
  Forall (tn_ok pf) ns -> (dbg = true -> Forall (anon_fits H seed) ns) ->
  exists d, parse_chunk H pf dbg seed nb ft LTSimple dests (line_text initial ns) =
      Ok (FtsSimple d, match s with
                       | Some (x, Some w) => Some (LbSimple x w)
                       | Some (x, None) => Some (LbSimple x f1)
                       | None => None
                       end) /\
    forall k, sf_get k d = as_sfn k (line_content H pf seed nb ns k).
Proof.
  intros dbg ft dests initial ns ws s Hnb Hd Hi Hw Hs Hok Hov. apply label_words_tokens in Hw.
  assert (Hl : parse_label pf (label_tokens initial) LTSimple = Ok (match s with Some (x, w) => Some (TLSimple x w) | None => None end)).
  { apply parse_label_simple. exists s. rewrite Hw. auto. }
  destruct (parse_line_ok H pf seed nb dbg LTSimple initial ns (hd sf_new dests) _ Hnb Hi Hok Hov (pooled_new _ (hd_pooled _ Hd)) Hl) as (d & E & G).
  exists d. split; [|exact G]. unfold parse_chunk. replace (is_multiline ft LTSimple) with false by (destruct ft; reflexivity).
  rewrite E. cbn [bind fst snd]. destruct s as [[x [w|]]|]; reflexivity.
Qed.

Lemma parse_lines_ok : forall dbg ls dests, nb < 32 -> Forall pooled dests -> Forall (cl_ok pf) ls ->
  (dbg = true -> Forall (fun l => Forall (anon_fits H seed) (cl_ns l)) ls) ->
  exists rs, parse_lines H pf dbg seed nb LTCb (map cl_text ls) dests = Ok rs /\
    map fst rs = map (fun l => Some (mark_tlabel (cl_mark l))) ls /\ Forall2 (holds_line H pf seed nb) ls (map snd rs).
Proof.
  intros dbg ls. induction ls as [|l ls IH]; intros dests Hnb Hd Hok Hov.
  - exists []. repeat split. constructor.
  - inversion Hok as [|? ? (Hi & Hw & Hm & Hn) Hok']; subst. cbn [map parse_lines].
    assert (Hl : parse_label pf (label_tokens (cl_initial l)) LTCb = Ok (Some (mark_tlabel (cl_mark l)))).
    { pose proof (label_words_free _ _ Hw) as Hfree. apply label_words_tokens in Hw. rewrite Hw. apply parse_label_cb; [exact Hfree|eauto]. }
    assert (Hov1 : dbg = true -> Forall (anon_fits H seed) (cl_ns l)) by (intros Ed; specialize (Hov Ed); inversion Hov; assumption).
    destruct (parse_line_ok H pf seed nb dbg LTCb (cl_initial l) (cl_ns l) (hd sf_new dests) _ Hnb Hi Hn Hov1 (pooled_new _ (hd_pooled _ Hd)) Hl) as (d & E & G).
    unfold cl_text at 1. rewrite E. cbn [bind].
    destruct (IH (tl dests) Hnb) as (rs & E' & G1 & G2); [destruct Hd; [constructor|assumption]|exact Hok'| |].
    + intros Ed. specialize (Hov Ed). inversion Hov; assumption.
    + rewrite E'. cbn [bind]. eexists. split; [reflexivity|]. cbn [map fst snd]. split; [f_equal; exact G1|constructor; assumption].
Qed.

Lemma chunk_cb_ok : forall dbg dests ls chunk, nb < 32 -> Forall pooled dests -> Forall (cl_ok pf) ls -> ls <> [] ->
  str_lines chunk = map cl_text ls ->
  (dbg = true -> Forall (fun l => Forall (anon_fits H seed) (cl_ns l)) ls) ->
  ~ two_labels (action_marks (map cl_mark ls)) ->
  exists sh acts lb, parse_chunk H pf dbg seed nb FTCb LTCb dests chunk = Ok (FtsCb sh acts, lb_of lb) /\
    Forall2 (holds_line H pf seed nb) ls (match sh with Some s => [s] | None => [] end ++ acts) /\
    (sh <> None <-> exists r, map cl_mark ls = MShared :: r) /\
    label_is (action_marks (map cl_mark ls)) lb.
Proof.
  intros dbg dests ls chunk Hnb Hd Hok Hne Hc Hov Ht.
  destruct (parse_lines_ok dbg ls dests Hnb Hd Hok Hov) as (rs & E & G1 & G2).
  rewrite <- Hc in E.
  assert (Hms : Forall2 (line_mark pf) (str_lines chunk) (map cl_mark ls)).
  { rewrite Hc. clear - Hok. induction Hok as [|l ls (Hi & Hw & Hm & Hn) _ IH]; [constructor|]. cbn [map]. constructor; [|exact IH].
    exists (cl_initial l), (map tn_text (cl_ns l)), (cl_words l). split; [|auto]. apply cut_split. unfold cl_text. eapply line_split; eassumption. }
  destruct (multi_result H pf seed nb dbg dests chunk rs E) as (ms & Hm & Hr).
  rewrite (line_marks_unique pf _ _ _ Hm Hms) in *. destruct Hr as [(f & lb & Ep)|[_ [Hn|Hn]]]; [|destruct ls; [destruct Hne; reflexivity|discriminate]|contradiction].
  destruct (multi_ok H pf seed nb _ _ _ _ _ Ep) as (ms2 & l & H2 & -> & Hl & sh & acts & -> & _ & Hsh).
  rewrite (line_marks_unique pf _ _ _ H2 Hms) in *.
  exists sh, acts, l. split; [exact Ep|]. split; [|auto].
  replace (match sh with Some s => [s] | None => [] end ++ acts) with (map snd rs); [exact G2|].
  unfold parse_chunk, finalize_multi in Ep. replace (is_multiline FTCb LTCb) with true in Ep by reflexivity. rewrite E in Ep. cbn [bind] in Ep.
  destruct rs as [|[l0 g0] rest]; [discriminate|].
  destruct (as_cb_tlabel l0) as [[[|] q]|e|e]; cbn [bind fst] in Ep; [| |discriminate..].
  - destruct (find_label (map fst rest)); cbn [bind] in Ep; [|discriminate..]. inversion Ep; subst. reflexivity.
  - destruct (find_label (map fst ((l0, g0) :: rest))); cbn [bind] in Ep; [|discriminate..]. inversion Ep; subst. reflexivity.
Qed.

(** *** recycled objects *)
Definition fl_sim (x y : features O * option (label O)) : Prop := ftsim (fst x) (fst y) /\ snd x = snd y.
Lemma parse_lines_sim : forall dbg lt ls ds es,
  Forall looks_new ds -> Forall looks_new es ->
  orel (Forall2 (fun x y => fst x = fst y /\ fsim (snd x) (snd y)))
    (parse_lines H pf dbg seed nb lt ls ds) (parse_lines H pf dbg seed nb lt ls es).
Proof.
  induction ls as [|l ls IH]; intros ds es Hd He; cbn [parse_lines]; [repeat constructor|].
  assert (Hh : fsim (hd sf_new ds) (hd sf_new es)).
  { assert (Hx : forall q : list (sfeats O), Forall looks_new q -> looks_new (hd sf_new q)).
    { intros q Hq. destruct Hq; [apply fsim_refl, fwf_nil|assumption]. }
    eapply fsim_trans; [apply Hx; exact Hd|apply fsim_sym, Hx; exact He]. }
  eapply orel_bind; [apply parse_line_sim; exact Hh|]. intros x y Hxy.
  eapply orel_bind; [apply IH|].
  - destruct Hd; [constructor|assumption].
  - destruct He; [constructor|assumption].
  - intros xs ys Hs. constructor. constructor; assumption.
Qed.
Lemma F2_map_fst : forall (xs ys : list (option (tlabel O) * sfeats O)),
  Forall2 (fun x y => fst x = fst y /\ fsim (snd x) (snd y)) xs ys -> map fst xs = map fst ys /\ Forall2 fsim (map snd xs) (map snd ys).
Proof. induction 1 as [|x y xs ys [H1 H2] _ [I1 I2]]; cbn; split; [reflexivity|constructor|congruence|constructor; assumption]. Qed.
Lemma parse_chunk_sim : forall dbg ft lt chunk ds es,
  Forall looks_new ds -> Forall looks_new es ->
  orel fl_sim (parse_chunk H pf dbg seed nb ft lt ds chunk) (parse_chunk H pf dbg seed nb ft lt es chunk).
Proof.
  intros dbg ft lt chunk ds es Hd He. unfold parse_chunk. destruct (is_multiline ft lt) eqn:Em.
  - eapply orel_bind; [apply parse_lines_sim; assumption|]. intros xs ys Hs. unfold finalize_multi. rewrite Em.
    destruct (F2_map_fst _ _ Hs) as [F1 F2]. inversion Hs as [|x y xs' ys' [H1 H2] Hs']; subst; [constructor|].
    destruct x as [l0 g0], y as [l1 g1]. cbn [fst snd] in H1, H2. subst l1.
    destruct (as_cb_tlabel l0) as [[[|] q]|e|e]; cbn [bind fst]; [| |constructor..].
    + destruct (F2_map_fst _ _ Hs') as [-> F4]. destruct (find_label (map fst ys')); cbn [bind]; constructor.
      split; [cbn; split; [exact H2|exact F4]|reflexivity].
    + rewrite F1. destruct (find_label (map fst ((l0, g1) :: ys'))); cbn [bind]; constructor.
      split; [cbn -[map]; split; [exact Logic.I|exact F2]|reflexivity].
  - eapply orel_bind.
    + apply parse_line_sim.
      assert (Hx : forall q : list (sfeats O), Forall looks_new q -> looks_new (hd sf_new q)).
      { intros q Hq. destruct Hq; [apply fsim_refl, fwf_nil|assumption]. }
      eapply fsim_trans; [apply Hx; exact Hd|apply fsim_sym, Hx; exact He].
    + intros [l0 g0] [l1 g1] [H1 H2]. cbn [fst snd] in *. subst l1. destruct l0 as [[x w|s a]|]; cbn [finalize_single]; constructor;
      (split; [exact H2|reflexivity]).
Qed.
Lemma chunk_recycled : forall dbg ft lt chunk ds es, Forall pooled ds -> Forall pooled es ->
  orel (fun x y => fts_same (fst x) (fst y) /\ snd x = snd y)
    (parse_chunk H pf dbg seed nb ft lt ds chunk) (parse_chunk H pf dbg seed nb ft lt es chunk).
Proof.
  intros dbg ft lt chunk ds es Hd He. apply (orel_mono _ _ fl_sim _ _ _ (parse_chunk_sim dbg ft lt chunk ds es ltac:(eapply Forall_impl; [apply pooled_new|exact Hd]) ltac:(eapply Forall_impl; [apply pooled_new|exact He]))).
  intros x y [H1 H2]. split; [apply ftsim_same; exact H1|exact H2].
Qed.
End TC.

(** *** examples *)
From Verif Require Import FloatB32.
Definition ex_pf (s : str) : option BF0 := option_map (fun n => @f_of_N BF0 n) (parse_u32 s).
Definition ex_h : hasher := fun s n => fold_left (fun a c => a * 31 + c) s (n + 7).
(* |a x:2 :3 | y   (bar a, then default namespace) *)
Definition ex_ns : list tns :=
  [mkTns (Some ([97], None)) [([32], ([120], Some [50])); ([32; 32], ([], Some [51]))] [];
   mkTns None [([32], ([121], None))] [];
   mkTns (Some ([97], Some [52])) [([9], ([122], Some [113]))] [32]].
Lemma ex_ns_ok : Forall (tn_ok ex_pf) ex_ns.
Proof.
  assert (W : forall c, is_ws c = false /\ c =? 58 = false /\ c =? 124 = false -> plain_char c).
  { intros c (A & B & C). apply N.eqb_neq in B. apply N.eqb_neq in C. repeat split; assumption. }
  unfold ex_ns, tn_ok, item_ok, word, gap. cbn [tn_head tn_feats tn_trail fst snd].
  repeat match goal with
  | |- _ /\ _ => split
  | |- Forall _ [] => constructor
  | |- Forall _ (_ :: _) => constructor
  | |- True => exact Logic.I
  | |- _ <> [] => discriminate
  | |- plain_char _ => apply W
  | |- ex_pf _ <> None => discriminate
  | |- exists r, _ => eexists; reflexivity
  | |- _ = _ => reflexivity
  | _ => progress cbn [tn_head tn_feats tn_trail fst snd]
  end.
Qed.
Lemma words_by : forall p s ws, filter nonempty (split_by p s) = ws -> words p s ws.
Proof. intros p s ws E. apply words_unique. exact E. Qed.

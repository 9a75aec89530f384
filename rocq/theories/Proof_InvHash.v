(** The inverse hash table (C45). *)
From Coq Require Import List NArith PeanoNat Bool Lia.
From Verif Require Import Base FloatOps FloatB32 Model_Hash Model_Features Model_Types Model_Text Model_InvHash Spec_Features Spec_Stack Spec_Text Spec_InvHash
  Proof_Hash Proof_Features Proof_TextParse Proof_TextFeats Proof_TextChunk Proof_StackRestore.
Import ListNotations.
Open Scope N_scope.

(** *** equality, the table *)
Lemma str_eqb_refl : forall s, str_eqb s s = true.
Proof. intros s. now apply str_eqb_eq. Qed.
Fixpoint feature_ind' (P : feature -> Prop)
  (hs : forall a b, P (FtSimple a b)) (hv : forall a b c, P (FtSimpleStr a b c)) (ha : forall a i, P (FtAnon a i))
  (hi : forall l, Forall P l -> P (FtInter l)) (f : feature) : P f :=
  match f with
  | FtSimple a b => hs a b
  | FtSimpleStr a b c => hv a b c
  | FtAnon a i => ha a i
  | FtInter l => hi l ((fix go (l : list feature) : Forall P l :=
                          match l with [] => Forall_nil _ | x :: r => Forall_cons x (feature_ind' P hs hv ha hi x) (go r) end) l)
  end.
Lemma feature_eqb_eq : forall f g, feature_eqb f g = true <-> f = g.
Proof.
  induction f as [a b|a b c|a i|l IH] using feature_ind'; intros [a' b'|a' b' c'|a' i'|l']; cbn [feature_eqb]; try (split; discriminate).
  - rewrite andb_true_iff, !str_eqb_eq. split; [intros (-> & ->); reflexivity|intros E; injection E as -> ->; auto].
  - rewrite !andb_true_iff, !str_eqb_eq. split; [intros ((-> & ->) & ->); reflexivity|intros E; injection E as -> -> ->; auto].
  - rewrite andb_true_iff, str_eqb_eq, N.eqb_eq. split; [intros (-> & ->); reflexivity|intros E; injection E as -> ->; auto].
  - assert (Q : (fix go (l k : list feature) : bool := match l, k with [], [] => true | x :: l, y :: k => feature_eqb x y && go l k | _, _ => false end) l l' = true <-> l = l').
    { revert l'. induction IH as [|x l Hx F IHl]; intros [|y l']; try (split; [discriminate|discriminate]); [tauto|].
      rewrite andb_true_iff, Hx, IHl. split; [intros (-> & ->); reflexivity|intros E; injection E as -> ->; auto]. }
    rewrite Q. split; [intros ->; reflexivity|intros E; now injection E].
Qed.
Lemma set_insert_in : forall f g s, In f (set_insert g s) <-> f = g \/ In f s.
Proof.
  intros f g s. unfold set_insert. destruct (existsb (feature_eqb g) s) eqn:E.
  - apply existsb_exists in E. destruct E as (x & I & E). apply feature_eqb_eq in E. subst x. split; auto. intros [->|K]; auto.
  - cbn [In]. split; intros [K|K]; auto.
Qed.
Lemma inv_get_cons : forall i j s t, inv_get i ((j, s) :: t) = if j =? i then Some s else inv_get i t.
Proof. intros i j s t. unfold inv_get. cbn [find fst]. destruct (j =? i); reflexivity. Qed.
Lemma inv_insert_in : forall i f j g t, inv_in i f (inv_insert j g t) <-> (i = j /\ f = g) \/ inv_in i f t.
Proof.
  intros i f j g. unfold inv_in. induction t as [|(k & s) t IH]; cbn [inv_insert].
  - rewrite inv_get_cons. split.
    + intros (u & E & I). destruct (j =? i) eqn:Ej; [|discriminate]. apply N.eqb_eq in Ej. injection E as <-. destruct I as [->|[]]. auto.
    + intros [(-> & ->)|(u & E & _)]; [|discriminate]. rewrite N.eqb_refl. exists [g]. cbn. auto.
  - destruct (k =? j) eqn:Ek; rewrite !inv_get_cons.
    + apply N.eqb_eq in Ek. subst k. destruct (j =? i) eqn:Ej.
      * apply N.eqb_eq in Ej. subst j. split.
        -- intros (u & E & I). injection E as <-. apply set_insert_in in I. destruct I as [->|I]; eauto.
        -- intros [(_ & ->)|(u & E & I)]; eexists; (split; [reflexivity|]); apply set_insert_in; auto. injection E as <-. auto.
      * apply N.eqb_neq in Ej. split; [eauto|]. intros [(-> & _)|K]; [congruence|exact K].
    + destruct (k =? i) eqn:Ei.
      * apply N.eqb_eq in Ei. subst k. apply N.eqb_neq in Ek. split; [eauto|]. intros [(-> & _)|K]; [congruence|exact K].
      * exact IH.
Qed.

(** *** collecting *)
Lemma info_eqb_eq : forall a b, info_eqb a b = true <-> a = b.
Proof.
  intros [a|] [b|]; cbn [info_eqb]; try (split; [discriminate|discriminate]); [|tauto].
  rewrite str_eqb_eq. split; [intros ->; reflexivity|intros E; now injection E].
Qed.
Lemma put_keys : forall k v m x, In x (map fst (names_put k v m)) <-> x = k \/ In x (map fst m).
Proof.
  intros k v. induction m as [|(k' & v') m IH]; intros x; cbn [names_put map fst In].
  - split; intros [E|[]]; auto.
  - destruct (info_eqb k' k) eqn:E; cbn [map fst In]; [apply info_eqb_eq in E; subst k'; split; intros K; decompose [or] K; auto|].
    rewrite IH. split; intros K; decompose [or] K; auto.
Qed.
Lemma put_nodup : forall k v m, NoDup (map fst m) -> NoDup (map fst (names_put k v m)).
Proof.
  intros k v. induction m as [|(k' & v') m IH]; intros ND; cbn [names_put map fst].
  - constructor; [intros []|constructor].
  - inversion ND as [|? ? NI ND']; subst. destruct (info_eqb k' k) eqn:E; cbn [map fst]; constructor; auto.
    intros I. apply put_keys in I. destruct I as [->|I]; [|auto].
    assert (info_eqb k k = true) by now apply info_eqb_eq. congruence.
Qed.
Lemma put_in : forall k v m e, NoDup (map fst m) -> (In e (names_put k v m) <-> e = (k, v) \/ (fst e <> k /\ In e m)).
Proof.
  intros k v. induction m as [|(k' & v') m IH]; intros e ND; cbn [names_put In].
  - split; [intros [E|[]]; auto|intros [E|(_ & [])]; auto].
  - inversion ND as [|? ? NI ND']; subst. destruct (info_eqb k' k) eqn:E; cbn [In].
    + apply info_eqb_eq in E. subst k'. split.
      * intros [E|I]; auto. right. split; auto. intros Ek. apply NI. cbn [fst]. rewrite <- Ek. now apply in_map.
      * intros [E|(Ne & [E|I])]; auto. subst e. cbn in Ne. congruence.
    + assert (Nk : k' <> k) by (intros ->; assert (info_eqb k k = true) by (now apply info_eqb_eq); congruence).
      rewrite IH by auto. split.
      * intros [E1|[E1|(Ne & I)]]; auto. subst e. right. split; auto.
      * intros [E1|(Ne & [E1|I])]; auto.
Qed.
Lemma collect_snoc : forall l x, collect_names (l ++ [x]) = names_put (fst x) (snd x) (collect_names l).
Proof. intros. unfold collect_names. now rewrite fold_left_app. Qed.
Lemma collect_nodup : forall l, NoDup (map fst (collect_names l)).
Proof. induction l as [|x l IH] using rev_ind; [constructor|]. rewrite collect_snoc. now apply put_nodup. Qed.
Lemma collect_in : forall l e, In e (collect_names l) <-> exists a b, l = a ++ e :: b /\ ~ In (fst e) (map fst b).
Proof.
  induction l as [|x l IH] using rev_ind; intros e.
  - split; [intros []|]. intros (a & b & E & _). destruct a; discriminate.
  - rewrite collect_snoc, put_in by apply collect_nodup. rewrite IH. split.
    + intros [E|(Ne & a & b & -> & NI)].
      * exists l, []. destruct x. cbn in *. subst e. auto.
      * exists a, (b ++ [x]). split; [now rewrite <- app_assoc|]. rewrite map_app, in_app_iff. intros [I|[I|[]]]; auto.
    + intros (a & b & E & NI). induction b as [|y b _] using rev_ind.
      * apply app_inj_tail in E. destruct E as (_ & <-). left. now destruct x.
      * change (a ++ e :: b ++ [y]) with (a ++ (e :: b) ++ [y]) in E. rewrite app_assoc in E. apply app_inj_tail in E. destruct E as (-> & <-).
        rewrite map_app, in_app_iff in NI. right. split; [intros Q; apply NI; right; left; now symmetry|].
        exists a, b. split; auto.
Qed.

Section P.
Context {O : FOps} (H : hasher) (pf : str -> option O) (dbg : bool) (seed nb : N).

(** *** extraction *)
Definition ifeat (ns : str) (k : N) (f : str * option str) : feature * N :=
  match f with
  | (name, None) => (FtSimple ns name, k)
  | (name, Some v) =>
      match pf v, name with
      | Some _, [] => (FtAnon ns (k mod u32_mod), k + 1)
      | Some _, _ => (FtSimple ns name, k)
      | None, _ => (FtSimpleStr ns name v, k)
      end
  end.
Lemma item_features_step : forall ns k f fs,
  item_features pf ns k (f :: fs) = fst (ifeat ns k f) :: item_features pf ns (snd (ifeat ns k f)) fs.
Proof. intros ns k [name [v|]] fs; cbn [item_features ifeat]; [destruct (pf v); [destruct name|]; reflexivity|reflexivity]. Qed.
Lemma parse_feature_ok : forall i f, item_ok f -> (dbg = true -> i + 1 < u32_mod) ->
  exists p v, parse_feature pf dbg (item_text f) (i mod u32_mod) = Ok (p, v, snd (ifeat [] i f) mod u32_mod) /\
    forall ns, feature_of_parsed p ns = fst (ifeat ns i f) /\ snd (ifeat ns i f) = snd (ifeat [] i f).
Proof.
  intros i [name v] Hi Hov. pose proof Hi as [Hn Hv]. cbn [fst snd] in *.
  assert (Hnc : forall x r, name = x :: r -> x <> 58).
  { intros x r ->. inversion Hn as [|? ? (_ & Hx & _) _]; subst. exact Hx. }
  assert (Hnamed : name <> [] -> parse_feature pf dbg (item_text (name, v)) (i mod u32_mod) =
    match v with
    | Some v => match pf v with Some x => Ok (PFSimple name, x, i mod u32_mod) | None => Ok (PFSimpleStr name (trim v), f1, i mod u32_mod) end
    | None => Ok (PFSimple name, f1, i mod u32_mod)
    end).
  { intros Hne. unfold parse_feature. rewrite (split_item _ Hi). cbn [fst snd].
    destruct name as [|x r]; [destruct Hne; reflexivity|]. specialize (Hnc _ _ eq_refl).
    unfold item_text. cbn [fst snd app]. destruct x as [|x]; [destruct v; reflexivity|].
    do 6 (destruct x as [x|x|]; try (destruct v; reflexivity)). destruct Hnc. reflexivity. }
  destruct v as [v|].
  - assert (Htv : trim v = v) by (apply trim_word, word_ws; exact Hv).
    destruct name as [|x r].
    + unfold parse_feature, item_text, ifeat. cbn [fst snd app]. destruct (pf v) as [y|] eqn:Ey.
      * assert (Ha : add32 dbg (i mod u32_mod) 1 = Ok ((i + 1) mod u32_mod)).
        { unfold add32. pose proof (N.mod_upper_bound i u32_mod ltac:(discriminate)) as Hlt.
          destruct (i mod u32_mod + 1 <? u32_mod) eqn:E.
          - apply N.ltb_lt in E. f_equal. rewrite <- (N.mod_small _ _ E). apply N.add_mod_idemp_l. discriminate.
          - destruct dbg.
            + specialize (Hov eq_refl). rewrite N.mod_small in E by lia. apply N.ltb_ge in E. lia.
            + unfold wrap32. f_equal. apply N.add_mod_idemp_l. discriminate. }
        rewrite Ha. cbn [bind]. eexists _, _. split; [reflexivity|]. intros ns. split; reflexivity.
      * eexists _, _. split; [reflexivity|]. intros ns. rewrite Htv. split; reflexivity.
    + rewrite Hnamed by discriminate. unfold ifeat. destruct (pf v) as [y|] eqn:Ey; eexists _, _; (split; [reflexivity|]); intros ns; rewrite ?Htv; split; reflexivity.
  - rewrite Hnamed by exact Hv. unfold ifeat. eexists _, _. split; [reflexivity|]. intros ns. split; reflexivity.
Qed.
Lemma ifeat_k : forall ns k f, k <= snd (ifeat ns k f) /\ snd (ifeat ns k f) <= k + 1.
Proof. intros ns k [name [v|]]; cbn [ifeat]; [destruct (pf v); [destruct name|]; cbn [snd]; lia|cbn [snd]; lia]. Qed.

Definition ex_step (acc : list parsed_feature * N) (tok : str) : out (list parsed_feature * N) :=
  let* x := parse_feature pf dbg tok (snd acc) in let '(p, _, off) := x in Ok (fst acc ++ [p], off).
Lemma ex_steps_ok : forall fs i acc, Forall item_ok fs -> (dbg = true -> i + N.of_nat (length fs) < u32_mod) ->
  exists ps i', foldm ex_step (map item_text fs) (acc, i mod u32_mod) = Ok (acc ++ ps, i') /\
    forall ns, map (fun p => feature_of_parsed p ns) ps = item_features pf ns i fs.
Proof.
  induction fs as [|f fs IH]; intros i acc F Hov.
  - exists [], (i mod u32_mod). cbn [map foldm]. rewrite app_nil_r. auto.
  - inversion F as [|? ? Hf F']; subst. cbn [map foldm].
    destruct (parse_feature_ok i f Hf) as (p & v & E & K); [intros Ed; specialize (Hov Ed); cbn [length] in Hov; lia|].
    assert (ES : ex_step (acc, i mod u32_mod) (item_text f) = Ok (acc ++ [p], snd (ifeat [] i f) mod u32_mod)) by (unfold ex_step; cbn [snd]; rewrite E; reflexivity).
    rewrite ES. cbn [bind].
    destruct (IH (snd (ifeat [] i f)) (acc ++ [p]) F') as (ps & i' & E' & K').
    { intros Ed. specialize (Hov Ed). pose proof (ifeat_k [] i f). cbn [length] in Hov. lia. }
    exists (p :: ps), i'. split; [rewrite E', <- app_assoc; reflexivity|].
    intros ns. cbn [map]. rewrite item_features_step, K'. destruct (K ns) as (-> & ->). reflexivity.
Qed.

Lemma until_space_ok : forall a r, Forall (fun c => is_ascii_ws c = false) a -> until_space (a ++ 32 :: r) = Some (a, 32 :: r).
Proof.
  induction a as [|c a IH]; intros r F; [reflexivity|]. inversion F as [|? ? Hc F']; subst. cbn [app until_space].
  destruct (c =? 32) eqn:E; [apply N.eqb_eq in E; subst; discriminate|]. now rewrite IH.
Qed.
Lemma extract_ok : forall n, tn_ok pf n -> spaced n -> (dbg = true -> N.of_nat (length (tn_feats n)) < u32_mod) ->
  exists ps, extract_namespace pf dbg (tn_text n) = Ok (tn_name n, ps) /\
    forall ns, map (fun p => feature_of_parsed p ns) ps = tn_features pf ns n.
Proof.
  intros [hd fs trail] (Hf & Ht & Hh) Sp Hov. unfold extract_namespace, tn_name, tn_features. cbn [tn_head tn_feats tn_trail] in *.
  destruct (body_tokens fs trail Hf Ht) as [Hb1 Hb2].
  assert (Hf' : Forall item_ok (map snd fs)).
  { rewrite Forall_map. eapply Forall_impl; [|exact Hf]. intros p (_ & _ & Hi). exact Hi. }
  assert (Q : exists rest, parse_namespace_info pf (tn_text (mkTns hd fs trail)) = Ok (option_map fst hd, rest) /\
     split_ascii_ws rest = map (fun p => item_text (snd p)) fs).
  { unfold parse_namespace_info. destruct hd as [h|].
    - unfold spaced in Sp. cbn [tn_head] in Sp. destruct Sp as (r & Er). destruct Hh as (Hi & Hv).
      destruct (item_chars _ Hi) as (C1 & C2 & C3).
      unfold tn_text in Er. cbn [tn_head tn_feats tn_trail] in Er. apply app_inv_head in Er.
      unfold tn_text. cbn [tn_head tn_feats tn_trail]. rewrite Er.
      assert (NS : starts_with 32 (item_text h ++ 32 :: r) = false).
      { destruct (item_text h) as [|c q]; [congruence|]. inversion C1; subst. cbn [app starts_with]. apply N.eqb_neq. intros ->. discriminate. }
      rewrite NS, until_space_ok by exact C1. cbn [opt_or bind fst snd]. rewrite split_item by exact Hi. rewrite <- Er.
      eexists. split; [|exact Hb1]. destruct h as [name [v|]]; cbn [fst snd option_map] in *; [|reflexivity]. destruct (pf v); [reflexivity|congruence].
    - unfold spaced in Sp. destruct Hh as (r & Er). rewrite Er. cbn [starts_with tl option_map]. rewrite N.eqb_refl. eexists. split; [reflexivity|].
      unfold tn_text in Er. cbn [tn_head tn_feats tn_trail app] in Er. rewrite Er in Hb1. rewrite <- Hb1.
      unfold split_ascii_ws. cbn [split_by is_ascii_ws]. reflexivity. }
  destruct Q as (rest & E & T). rewrite E. cbn [bind fst snd]. rewrite T.
  change (foldm _ _ ([], 0)) with (foldm ex_step (map (fun p : str * (str * option str) => item_text (snd p)) fs) ([], 0 mod u32_mod)).
  rewrite <- (map_map snd item_text).
  destruct (ex_steps_ok (map snd fs) 0 [] Hf') as (ps & i' & E' & K); [intros Ed; rewrite map_length; exact (Hov Ed)|].
  rewrite E'. cbn [bind fst app]. exists ps. auto.
Qed.
Lemma chunk_segs : forall multi chunk ns, chunk_ns multi chunk ns -> Forall (tn_ok pf) ns ->
  (if multi then flat_map (fun l => tl (split_char 124 l)) (str_lines chunk) else tl (split_char 124 chunk)) = map tn_text ns.
Proof.
  intros multi chunk ns C F. destruct multi; cbn [chunk_ns] in C.
  - destruct C as (ls & -> & -> & N0). induction N0 as [|p ls Np N0 IH]; [reflexivity|].
    cbn [map flat_map] in *. apply Forall_app in F. destruct F as (F1 & F2). rewrite (line_split pf) by auto. cbn [tl]. now rewrite map_app, IH.
  - destruct C as (initial & -> & N0). rewrite (line_split pf) by auto. reflexivity.
Qed.
Lemma pairs_ok : forall multi chunk ns, chunk_ns multi chunk ns -> Forall (tn_ok pf) ns -> Forall spaced ns ->
  (dbg = true -> Forall (fun n => N.of_nat (length (tn_feats n)) < u32_mod) ns) ->
  exists l, extract_pairs pf dbg multi chunk = Ok l /\
    Forall2 (fun n e => fst e = tn_name n /\ forall nm, map (fun p => feature_of_parsed p nm) (snd e) = tn_features pf nm n) ns l.
Proof.
  intros multi chunk ns C F S Hov. unfold extract_pairs. cbv zeta.
  replace (if multi then _ else _) with (map tn_text ns) by (symmetry; now apply chunk_segs). clear C.
  induction ns as [|n ns IH]; [exists []; split; auto|]. inversion F; inversion S; subst. cbn [map mapm].
  destruct (extract_ok n) as (ps & E & K); auto; [intros Ed; specialize (Hov Ed); now inversion Hov|].
  destruct IH as (l & E' & K'); auto; [intros Ed; specialize (Hov Ed); now inversion Hov|].
  rewrite E, E'. cbn [bind]. eexists. split; [reflexivity|]. constructor; auto.
Qed.

(** *** the indices *)
Lemma features_hash : forall nm fs i, (dbg = true -> h32 H nm seed + i + N.of_nat (length fs) < u32_mod) ->
  Forall2 (fun iv f => feature_hash H dbg f seed = Ok (fst iv)) (tn_values H pf (h32 H nm seed) i fs) (item_features pf nm i fs).
Proof.
  intros nm. induction fs as [|(name & v) fs IH]; intros i Hov; [constructor|].
  assert (Hov0 : dbg = true -> h32 H nm seed + i + N.of_nat (length fs) < u32_mod) by (intros Ed; specialize (Hov Ed); cbn [length] in Hov; lia).
  cbn [tn_values item_features]. destruct v as [v|]; [|constructor; [reflexivity|now apply IH]].
  destruct (pf v) as [x|]; [|constructor; [reflexivity|now apply IH]].
  destruct name as [|c name]; [|constructor; [reflexivity|now apply IH]].
  constructor; [|apply IH; intros Ed; specialize (Hov Ed); cbn [length] in Hov; lia].
  cbn [feature_hash fst]. change (hash_bytes H nm seed) with (h32 H nm seed). change 4294967296 with u32_mod. unfold add32.
  destruct (h32 H nm seed + i mod u32_mod <? u32_mod) eqn:E.
  - apply N.ltb_lt in E. f_equal. rewrite <- (N.mod_small _ _ E). apply mod_add. discriminate.
  - destruct dbg; [|unfold wrap32; f_equal; apply mod_add; discriminate].
    specialize (Hov eq_refl). apply N.ltb_ge in E. rewrite N.mod_small in E by lia. cbn [length] in Hov. lia.
Qed.

Lemma inv_adds : forall nm ps t, nb < 32 -> (forall p, In p ps -> exists h, feature_hash H dbg (feature_of_parsed p nm) seed = Ok h) ->
  exists t', foldm (inv_add H dbg seed nb nm) ps t = Ok t' /\
    forall i f, inv_in i f t' <-> inv_in i f t \/ exists p h, In p ps /\ f = feature_of_parsed p nm /\ feature_hash H dbg f seed = Ok h /\ i = h mod 2 ^ nb.
Proof.
  intros nm. induction ps as [|p ps IH]; intros t Hb Hh; cbn [foldm].
  - exists t. split; auto. intros i f. split; auto. intros [K|(p & h & [] & _)]; auto.
  - destruct (Hh p (or_introl eq_refl)) as (h & E). 
    assert (Hm : mask_from_bits dbg nb = Ok (2 ^ nb - 1)) by (unfold mask_from_bits; apply N.ltb_lt in Hb; now rewrite Hb).
    assert (Hk : mask (2 ^ nb - 1) h = h mod 2 ^ nb) by (unfold mask; rewrite N.sub_1_r, <- N.ones_equiv; apply N.land_ones).
    assert (ES : inv_add H dbg seed nb nm t p = Ok (inv_insert (h mod 2 ^ nb) (feature_of_parsed p nm) t)).
    { unfold inv_add. cbv zeta. rewrite E. cbn [bind]. rewrite Hm. cbn [bind]. now rewrite Hk. }
    rewrite ES. cbn [bind].
    destruct (IH (inv_insert (h mod 2 ^ nb) (feature_of_parsed p nm) t) Hb) as (t' & E' & K); [intros q I; apply Hh; now right|].
    exists t'. split; auto. intros i f. rewrite K, inv_insert_in. split.
    + intros [[(-> & ->)|I]|(q & h' & I & Q)]; auto; right; [exists p, h; cbn; auto|exists q, h'; cbn; auto].
    + intros [I|(q & h' & [<-|I] & -> & E2 & ->)]; auto; [|right; eauto 6]. left. left. rewrite E in E2. injection E2 as <-. auto.
Qed.
Lemma inv_add_alls : forall dn names t, nb < 32 ->
  (forall e p, In e names -> In p (snd e) -> exists h, feature_hash H dbg (feature_of_parsed p (match fst e with Some n => n | None => dn end)) seed = Ok h) ->
  exists t', inv_add_all H dbg seed nb dn names t = Ok t' /\
    forall i f, inv_in i f t' <-> inv_in i f t \/ exists e p h, In e names /\ In p (snd e) /\
      f = feature_of_parsed p (match fst e with Some n => n | None => dn end) /\ feature_hash H dbg f seed = Ok h /\ i = h mod 2 ^ nb.
Proof.
  intros dn. unfold inv_add_all. induction names as [|e names IH]; intros t Hb Hh; cbn [foldm].
  - exists t. split; auto. intros i f. split; auto. intros [K|(e & p & h & [] & _)]; auto.
  - destruct (inv_adds (match fst e with Some n => n | None => dn end) (snd e) t Hb) as (t1 & E1 & K1); [intros p I; apply Hh; auto; now left|].
    rewrite E1. cbn [bind]. destruct (IH t1 Hb) as (t' & E' & K); [intros e' p I J; apply Hh; auto; now right|].
    exists t'. split; auto. intros i f. rewrite K, K1. split.
    + intros [[I|(p & h & I & Q)]|(e' & p & h & I & Q)]; auto; right; [exists e, p, h; cbn; tauto|exists e', p, h; cbn; tauto].
    + intros [I|(e' & p & h & [<-|I] & Q)]; auto; [left; right; eauto|right; exists e', p, h; auto].
Qed.

Lemma F2_split : forall A B (R : A -> B -> Prop) l r, Forall2 R l r -> forall a x b, r = a ++ x :: b ->
  exists a' x' b', l = a' ++ x' :: b' /\ R x' x /\ Forall2 R a' a /\ Forall2 R b' b.
Proof.
  intros A B R l r F. induction F as [|u v l r Huv F IH]; intros a x b E; [destruct a; discriminate|].
  destruct a as [|y a]; cbn [app] in E; injection E as -> E.
  - subst. exists [], u, l. auto.
  - destruct (IH a x b E) as (a' & x' & b' & -> & K1 & K2 & K3). exists (u :: a'), x', b'. auto.
Qed.
Lemma F2_split' : forall A B (R : A -> B -> Prop) l r, Forall2 R l r -> forall a x b, l = a ++ x :: b ->
  exists a' x' b', r = a' ++ x' :: b' /\ R x x' /\ Forall2 R a a' /\ Forall2 R b b'.
Proof.
  intros A B R l r F. induction F as [|u v l r Huv F IH]; intros a x b E; [destruct a; discriminate|].
  destruct a as [|y a]; cbn [app] in E; injection E as -> E.
  - subst. exists [], v, r. auto.
  - destruct (IH a x b E) as (a' & x' & b' & -> & K1 & K2 & K3). exists (v :: a'), x', b'. auto.
Qed.

(** exactly the features of the last namespace of every name *)
Lemma table_ok : forall dn multi chunk ns t0, nb < 32 -> chunk_ns multi chunk ns -> Forall (tn_ok pf) ns -> Forall spaced ns ->
  (dbg = true -> Forall (inv_fits H seed dn) ns) ->
  exists names t, extract_feature_names pf dbg multi chunk = Ok names /\ inv_add_all H dbg seed nb dn names t0 = Ok t /\
    forall i f, inv_in i f t <-> inv_in i f t0 \/ exists a n b h, ns = a ++ n :: b /\ ~ In (tn_name n) (map tn_name b) /\
      In f (tn_features pf (name_of dn n) n) /\ feature_hash H dbg f seed = Ok h /\ i = h mod 2 ^ nb.
Proof.
  intros dn multi chunk ns t0 Hb C F S Hov.
  destruct (pairs_ok multi chunk ns C F S) as (l & E & K).
  { intros Ed. specialize (Hov Ed). eapply Forall_impl; [|exact Hov]. unfold inv_fits, u32_mod. intros n Hn. cbv beta in *. lia. }
  unfold extract_feature_names. rewrite E. cbn [bind]. exists (collect_names l).
  assert (KN : forall b' b, Forall2 (fun n e => fst e = tn_name n /\ forall nm, map (fun p => feature_of_parsed p nm) (snd e) = tn_features pf nm n) b' b ->
     map fst b = map tn_name b').
  { induction 1 as [|n e b' b (Q & _) _ IH]; cbn [map]; congruence. }
  assert (HH : forall n f, In n ns -> In f (tn_features pf (name_of dn n) n) -> exists h, feature_hash H dbg f seed = Ok h).
  { intros n f I J. assert (Q : dbg = true -> h32 H (name_of dn n) seed + 0 + N.of_nat (length (map snd (tn_feats n))) < u32_mod).
    { intros Ed. specialize (Hov Ed). rewrite Forall_forall in Hov. specialize (Hov n I). unfold inv_fits, u32_mod in *. rewrite map_length. lia. }
    pose proof (features_hash (name_of dn n) (map snd (tn_feats n)) 0 Q) as FH. fold (tn_features pf (name_of dn n) n) in FH.
    clear -FH J. induction FH as [|iv g a b Eg FH IH]; [destruct J|]. destruct J as [<-|J]; eauto. }
  destruct (inv_add_alls dn (collect_names l) t0 Hb) as (t & E' & K').
  { intros e p I J. apply collect_in in I. destruct I as (a & b & El & _).
    destruct (F2_split _ _ _ _ _ K _ _ _ El) as (a' & n & b' & En & (Q1 & Q2) & _ & _).
    apply (HH n); [rewrite En; apply in_elt|]. unfold name_of. rewrite <- Q1, <- Q2. now apply (in_map (fun p => feature_of_parsed p _)). }
  exists t. split; auto. split; auto. intros i f. rewrite K'. split; (intros [I|Q]; [auto|right]).
  - destruct Q as (e & p & h & I & J & Ef & Eh & Ei). apply collect_in in I. destruct I as (a & b & El & NI).
    destruct (F2_split _ _ _ _ _ K _ _ _ El) as (a' & n & b' & En & (Q1 & Q2) & _ & Fb).
    exists a', n, b', h. split; auto. split; [rewrite <- (KN _ _ Fb), <- Q1; exact NI|]. split; auto.
    unfold name_of. rewrite <- Q1, <- Q2, Ef. now apply (in_map (fun p => feature_of_parsed p _)).
  - destruct Q as (a & n & b & h & En & NI & J & Eh & Ei).
    destruct (F2_split' _ _ _ _ _ K _ _ _ En) as (a' & e & b' & El & (Q1 & Q2) & _ & Fb).
    unfold name_of in J. rewrite <- Q1, <- Q2 in J. apply in_map_iff in J. destruct J as (p & Ep & Ip).
    exists e, p, h. split; [apply collect_in; exists a', b'; split; auto; rewrite (KN _ _ Fb), Q1; exact NI|]. auto.
Qed.
(** a feature of a named namespace is at its index *)
Lemma named_ok : forall dn multi chunk ns t0, nb < 32 -> chunk_ns multi chunk ns -> Forall (tn_ok pf) ns -> Forall spaced ns ->
  (dbg = true -> Forall (inv_fits H seed dn) ns) ->
  exists names t, extract_feature_names pf dbg multi chunk = Ok names /\ inv_add_all H dbg seed nb dn names t0 = Ok t /\
    forall a n b name w, ns = a ++ n :: b -> tn_head n = Some (name, w) -> ~ In (Some name) (map tn_name b) ->
      Forall2 (fun iv f => exists s, inv_get (fst iv) t = Some s /\ In f s) (tn_content H pf seed nb n) (tn_features pf name n).
Proof.
  intros dn multi chunk ns t0 Hb C F S Hov. destruct (table_ok dn multi chunk ns t0 Hb C F S Hov) as (names & t & E & E' & K).
  exists names, t. split; auto. split; auto. intros a n b name w En Eh NI.
  assert (Q : dbg = true -> h32 H name seed + 0 + N.of_nat (length (map snd (tn_feats n))) < u32_mod).
  { intros Ed. specialize (Hov Ed). subst ns. apply Forall_app in Hov. destruct Hov as (_ & Hov). inversion Hov as [|? ? Hn _]; subst.
    unfold inv_fits, name_of, tn_name in Hn. rewrite Eh in Hn. cbn [option_map fst] in Hn. rewrite map_length. unfold u32_mod. lia. }
  pose proof (features_hash name (map snd (tn_feats n)) 0 Q) as FH.
  unfold tn_content, tn_key. rewrite Eh. cbn [fst key_hash]. fold (tn_features pf name n) in FH.
  assert (KK : forall f, In f (tn_features pf name n) -> forall h, feature_hash H dbg f seed = Ok h -> inv_in (h mod 2 ^ nb) f t).
  { intros f I h Ef. apply K. right. exists a, n, b, h. unfold tn_name at 1, name_of, tn_name. rewrite Eh. cbn [option_map fst]. auto. }
  revert KK FH. generalize (tn_values H pf (h32 H name seed) 0 (map snd (tn_feats n))) (tn_features pf name n).
  intros l l' KK FH. induction FH as [|iv f l l' Ef FH IH]; cbn [map]; constructor.
  - cbn [fst]. apply (KK f); auto. now left.
  - apply IH. intros g I. apply KK. now right.
Qed.
End P.

(** *** where it fails *)
Ltac doc := 
  let W := fresh in
  assert (W : forall c, is_ws c = false /\ (c =? 58) = false /\ (c =? 124) = false -> plain_char c)
    by (let A := fresh in let B := fresh in let C := fresh in intros ? (A & B & C); apply N.eqb_neq in B; apply N.eqb_neq in C; repeat split; assumption);
  unfold tn_ok, item_ok, word, gap; cbn [tn_head tn_feats tn_trail fst snd];
  repeat match goal with
  | |- _ /\ _ => split
  | |- Forall _ [] => constructor
  | |- Forall _ (_ :: _) => constructor
  | |- True => exact Logic.I
  | |- _ <> [] => discriminate
  | |- plain_char _ => apply W
  | |- exists r, _ = 32 :: r => eexists; reflexivity
  | |- _ = _ => reflexivity
  | _ => progress cbn [tn_head tn_feats tn_trail fst snd]
  end.
Section R.
Context {O : FOps} (H : hasher) (pf : str -> option O) (seed nb : N).
(** "|a x|a y" *)
Definition c_twice : str := [124; 97; 32; 120; 124; 97; 32; 121].
(** "shared |u s", "|a x", "|a y": three lines *)
Definition c_actions : str := [115; 104; 97; 114; 101; 100; 32; 124; 117; 32; 115; 10; 124; 97; 32; 120; 10; 124; 97; 32; 121].
Definition c_default : str := [124; 32; 120].
Definition c_alone : str := [124; 97].
(** a tab between a and x *)
Definition c_tab : str := [124; 97; 9; 120; 32; 121].
Lemma mask_bits : nb < 32 -> exists mk, mask_from_bits false nb = Ok mk.
Proof. intros Hb. unfold mask_from_bits. apply N.ltb_lt in Hb. rewrite Hb. eauto. Qed.
Lemma one_in : forall i f j g, inv_in i f (inv_insert j g inv_new) -> f = g.
Proof. intros i f j g I. apply inv_insert_in in I. destruct I as [(_ & E)|(s & E & _)]; [exact E|discriminate]. Qed.
Lemma two_in : forall i f j g j' g', inv_in i f (inv_insert j g (inv_insert j' g' inv_new)) -> f = g \/ f = g'.
Proof. intros i f j g j' g' I. apply inv_insert_in in I. destruct I as [(_ & E)|I]; auto. apply one_in in I. auto. Qed.

Definition n_a (x : N) : tns := mkTns (Some ([97], None)) [([32], ([x], None))] [].
Lemma eqb_self : forall k, ns_eqb k k = true.
Proof. intros k. now apply ns_eqb_eq. Qed.
Lemma repeated_lost : forall dn, nb < 32 -> exists d names t s,
  parse_chunk H pf false seed nb FTSimple LTSimple [] c_twice = Ok (FtsSimple d, None) /\
  sf_get (NsNamed (h32 H [97] seed)) d = Some s /\
  sfn_idx s = [h32 H [120] (h32 H [97] seed) mod 2 ^ nb; h32 H [121] (h32 H [97] seed) mod 2 ^ nb] /\
  extract_feature_names pf false false c_twice = Ok names /\ inv_add_all H false seed nb dn names inv_new = Ok t /\
  forall i, ~ inv_in i (FtSimple [97] [120]) t.
Proof.
  intros dn Hb. destruct (mask_bits Hb) as (mk & Em).
  assert (OK1 : Forall (tn_ok pf) [n_a 120; n_a 121]) by (unfold n_a; doc).
  destruct (chunk_simple_ok H pf seed nb false FTSimple [] [] [n_a 120; n_a 121] [] None Hb (Forall_nil _) (fun x => x)) as (d & E & G);
    [apply label_words_tokens; reflexivity|constructor|exact OK1|discriminate|].
  change (line_text [] [n_a 120; n_a 121]) with c_twice in E.
  exists d. eexists _, _. eexists. split; [exact E|]. split.
  { rewrite G. unfold line_content. cbn [filter]. change (tn_key H seed (n_a 120)) with (NsNamed (h32 H [97] seed)).
    change (tn_key H seed (n_a 121)) with (NsNamed (h32 H [97] seed)). rewrite eqb_self. reflexivity. }
  split; [reflexivity|]. split; [reflexivity|]. split.
  { unfold inv_add_all, collect_names. cbn [foldm fold_left names_put fst snd app]. cbn [info_eqb]. rewrite (str_eqb_refl [97]). cbn [foldm fst snd]. unfold inv_add. cbn [feature_of_parsed feature_hash bind].
    rewrite Em. cbn [bind]. reflexivity. }
  intros i I. apply one_in in I. discriminate.
Qed.
Lemma actions_lost : forall dn, nb < 32 -> exists d names t,
  parse_chunk H pf false seed nb FTCb LTCb [] c_actions = Ok (d, None) /\
  extract_feature_names pf false true c_actions = Ok names /\ inv_add_all H false seed nb dn names inv_new = Ok t /\
  forall i, ~ inv_in i (FtSimple [97] [120]) t.
Proof.
  intros dn Hb. destruct (mask_bits Hb) as (mk & Em).
  set (n_u := mkTns (Some ([117], None)) [([32], ([115], None))] []).
  set (ls := [mkCline [115; 104; 97; 114; 101; 100; 32] [str_shared] (@MShared O) [n_u]; mkCline [] [] MNone [n_a 120]; mkCline [] [] MNone [n_a 121]]).
  assert (OKL : Forall (cl_ok pf) ls).
  { assert (K : forall x, is_ws x = false /\ (x =? 58) = false /\ (x =? 124) = false -> cl_ok pf (mkCline [] [] (@MNone O) [n_a x])).
    { intros x Px. split; [intros []|]. split; [apply label_words_tokens; reflexivity|]. split; [constructor|]. cbn [cl_ns]. unfold n_a. doc; apply Px. }
    unfold ls. apply Forall_cons; [|apply Forall_cons; [apply K; repeat split|apply Forall_cons; [apply K; repeat split|apply Forall_nil]]].
    split; [cbn; intuition discriminate|]. split; [apply label_words_tokens; reflexivity|]. split; [constructor|]. cbn [cl_ns]. unfold n_u. doc. }
  destruct (chunk_cb_ok H pf seed nb false [] ls c_actions Hb (Forall_nil _) OKL) as (sh & acts & lb & E & _ & _ & L); try discriminate; try reflexivity.
  { intros (i & j & m & m' & _ & Ei & _ & Lm & _). destruct i as [|[|i]]; cbn in Ei; [injection Ei as <-|injection Ei as <-|destruct i; discriminate];
      cbn in Lm; destruct Lm. }
  assert (lb = None) as ->.
  { destruct lb as [((k & c) & q)|]; auto. cbn in L. destruct L as ((a & Q) & _). apply nth_error_In in Q. destruct Q as [Q|[Q|[]]]; discriminate. }
  exists (FtsCb sh acts). eexists _, _. split; [exact E|]. split; [reflexivity|]. split.
  { unfold inv_add_all, collect_names. cbn [fold_left names_put fst snd app]. cbn [info_eqb].
    change (str_eqb [117] [97]) with false. cbv iota. cbn [names_put info_eqb]. rewrite (str_eqb_refl [97]). cbn [foldm fst snd]. unfold inv_add. cbn [feature_of_parsed feature_hash bind].
    rewrite Em. cbn [bind foldm fst snd]. cbn [feature_of_parsed feature_hash bind]. reflexivity. }
  intros i I. apply two_in in I. destruct I; discriminate.
Qed.
Lemma alone_panics : nb < 32 -> exists d,
  parse_chunk H pf false seed nb FTSimple LTSimple [] c_alone = Ok (FtsSimple d, None) /\
  extract_feature_names pf false false c_alone = Pn PNone.
Proof.
  intros Hb. set (n := mkTns (Some ([97], None)) [] []).
  assert (OK1 : Forall (tn_ok pf) [n]) by (unfold n; doc).
  destruct (chunk_simple_ok H pf seed nb false FTSimple [] [] [n] [] None Hb (Forall_nil _) (fun x => x)) as (d & E & G);
    [apply label_words_tokens; reflexivity|constructor|exact OK1|discriminate|].
  exists d. split; [exact E|]. reflexivity.
Qed.
Lemma tab_wrong : nb < 32 -> exists d s,
  parse_chunk H pf false seed nb FTSimple LTSimple [] c_tab = Ok (FtsSimple d, None) /\
  sf_get (NsNamed (h32 H [97] seed)) d = Some s /\ length (sfn_idx s) = 2%nat /\
  extract_feature_names pf false false c_tab = Ok [(Some [97; 9; 120], [PFSimple [121]])].
Proof.
  intros Hb. set (n := mkTns (Some ([97], None)) [([9], ([120], None)); ([32], ([121], None))] []).
  assert (OK1 : Forall (tn_ok pf) [n]) by (unfold n; doc).
  destruct (chunk_simple_ok H pf seed nb false FTSimple [] [] [n] [] None Hb (Forall_nil _) (fun x => x)) as (d & E & G);
    [apply label_words_tokens; reflexivity|constructor|exact OK1|discriminate|].
  exists d. eexists. split; [exact E|]. split.
  { rewrite G. unfold line_content. cbn [filter]. change (tn_key H seed n) with (NsNamed (h32 H [97] seed)). rewrite eqb_self. reflexivity. }
  split; reflexivity.
Qed.
Lemma default_lost : forall dn, nb < 32 -> h32 H [120] 0 mod 2 ^ nb <> h32 H [120] (h32 H dn seed) mod 2 ^ nb ->
  exists d s names t, parse_chunk H pf false seed nb FTSimple LTSimple [] c_default = Ok (FtsSimple d, None) /\
  sf_get NsDefault d = Some s /\ sfn_idx s = [h32 H [120] 0 mod 2 ^ nb] /\
  extract_feature_names pf false false c_default = Ok names /\ inv_add_all H false seed nb dn names inv_new = Ok t /\
  inv_get (h32 H [120] 0 mod 2 ^ nb) t = None.
Proof.
  intros dn Hb NE. set (n := mkTns None [([32], ([120], None))] []).
  assert (OK1 : Forall (tn_ok pf) [n]) by (unfold n; doc).
  destruct (chunk_simple_ok H pf seed nb false FTSimple [] [] [n] [] None Hb (Forall_nil _) (fun x => x)) as (d & E & G);
    [apply label_words_tokens; reflexivity|constructor|exact OK1|discriminate|].
  exists d. eexists _, _, _. split; [exact E|]. split; [rewrite G; reflexivity|]. split; [reflexivity|]. split; [reflexivity|].
  assert (Hm : mask_from_bits false nb = Ok (2 ^ nb - 1)) by (unfold mask_from_bits; apply N.ltb_lt in Hb; now rewrite Hb).
  split.
  { unfold inv_add_all, collect_names. cbn [fold_left names_put fst snd app foldm]. unfold inv_add. cbn [feature_of_parsed feature_hash bind].
    rewrite Hm. cbn [bind]. reflexivity. }
  unfold inv_new. cbn [inv_insert]. rewrite inv_get_cons. unfold mask. rewrite N.sub_1_r, <- N.ones_equiv, N.land_ones.
  change (hash_bytes H [120] (hash_bytes H dn seed)) with (h32 H [120] (h32 H dn seed)).
  destruct (_ =? _) eqn:Q; [|reflexivity]. apply N.eqb_eq in Q. congruence.
Qed.
End R.

(** *** an example for the hypotheses: "|a x:2 :3 y:q| z" *)
Definition ex_named : list tns :=
  [mkTns (Some ([97], None)) [([32], ([120], Some [50])); ([32], ([], Some [51])); ([32], ([121], Some [113]))] []; mkTns None [([32], ([122], None))] []].
Lemma ex_named_ok : chunk_ns false (line_text [] ex_named) ex_named /\ Forall (tn_ok ex_pf) ex_named /\ Forall spaced ex_named /\
  Forall (inv_fits ex_h 0 [100]) ex_named /\
  tn_features ex_pf [97] (hd (mkTns None [] []) ex_named) = [FtSimple [97] [120]; FtAnon [97] 0; FtSimpleStr [97] [121] [113]].
Proof.
  split; [exists []; auto|]. split.
  { unfold ex_named. doc. }
  split; [unfold ex_named; repeat constructor; eexists; reflexivity|]. split; [repeat constructor|]. reflexivity.
Qed.

(** The features of parsed lines (C27, C29) and recycled objects. *)
From Coq Require Import List NArith Bool Lia Arith.
From Verif Require Import Base FloatOps Model_Hash Model_Types Model_Features Model_Text Spec_Text
  Proof_Hash Proof_Features Proof_TextRead Proof_TextParse.
Import ListNotations.
Open Scope N_scope.

Lemma ascii_ws : forall c, is_ascii_ws c = true -> is_ws c = true.
Proof.
  intros c Hc. unfold is_ascii_ws in Hc. rewrite !orb_true_iff, !N.eqb_eq in Hc.
  destruct Hc as [[[[->| ->]| ->]| ->]| ->]; reflexivity.
Qed.
Lemma plain_ascii : forall c, plain_char c -> is_ascii_ws c = false.
Proof.
  intros c (Hw & _). destruct (is_ascii_ws c) eqn:E; [|reflexivity]. apply ascii_ws in E. congruence.
Qed.
Lemma word_free : forall s, word s -> ~ In 58 s /\ ~ In 124 s.
Proof.
  intros s Hs. unfold word in Hs. rewrite Forall_forall in Hs. split; intros Hin; destruct (Hs _ Hin) as (_ & A & B); contradiction.
Qed.
Lemma word_ws : forall s, word s -> Forall (fun c => is_ws c = false) s.
Proof. intros s Hs. eapply Forall_impl; [|exact Hs]. intros c (A & _). exact A. Qed.

Lemma item_chars : forall f, item_ok f -> Forall (fun c => is_ascii_ws c = false) (item_text f) /\ ~ In 124 (item_text f) /\ item_text f <> [].
Proof.
  intros [name v] [Hn Hv]. cbn [fst snd item_text] in *. unfold item_text. cbn [fst snd]. split; [|split].
  - apply Forall_app. split; [eapply Forall_impl; [apply plain_ascii|exact Hn]|]. destruct v as [v|]; [|constructor].
    constructor; [reflexivity|]. eapply Forall_impl; [apply plain_ascii|exact Hv].
  - intros Hin. apply in_app_or in Hin. destruct Hin as [Hin|Hin]; [exact (proj2 (word_free _ Hn) Hin)|].
    destruct v as [v|]; [|destruct Hin]. destruct Hin as [E|Hin]; [discriminate|exact (proj2 (word_free _ Hv) Hin)].
  - destruct v as [v|]; [destruct name; discriminate|]. rewrite app_nil_r. exact Hv.
Qed.
Lemma split_item : forall f, item_ok f ->
  split_char 58 (item_text f) = match snd f with Some v => [fst f; v] | None => [fst f] end.
Proof.
  intros [name v] [Hn Hv]. cbn [fst snd] in *. unfold item_text. cbn [fst snd]. apply cut_split. destruct v as [v|].
  - apply cut_more; [exact (proj1 (word_free _ Hn))|]. apply cut_last. exact (proj1 (word_free _ Hv)).
  - rewrite app_nil_r. apply cut_last. exact (proj1 (word_free _ Hn)).
Qed.

Definition tn_body (n : tns) : str := flat_map (fun p => fst p ++ item_text (snd p)) (tn_feats n) ++ tn_trail n.
Lemma body_tokens : forall fs trail,
  Forall (fun p => gap (fst p) /\ fst p <> [] /\ item_ok (snd p)) fs -> gap trail ->
  split_ascii_ws (flat_map (fun p => fst p ++ item_text (snd p)) fs ++ trail) = map (fun p => item_text (snd p)) fs /\
  (flat_map (fun p => fst p ++ item_text (snd p)) fs ++ trail = [] \/
   exists c r, flat_map (fun p => fst p ++ item_text (snd p)) fs ++ trail = c :: r /\ is_ascii_ws c = true).
Proof.
  intros fs trail Hf Ht. induction Hf as [|[g f] fs (Hg & Hgn & Hi) Hfs IH]; cbn [flat_map map fst snd app].
  - split.
    + unfold split_ascii_ws. rewrite <- (app_nil_r trail). rewrite toks_gap by exact Ht. reflexivity.
    + destruct trail as [|c r]; [left; reflexivity|right; exists c, r]. inversion Ht; auto.
  - cbn [fst snd] in *. destruct IH as [IH1 IH2]. destruct (item_chars _ Hi) as (Hc1 & Hc2 & Hc3). split.
    + unfold split_ascii_ws in *. rewrite <- !app_assoc. rewrite toks_gap by exact Hg.
      destruct IH2 as [E|(c & r & E & Hc)]; rewrite E in *.
      * rewrite app_nil_r. rewrite toks_word by assumption. cbn in IH1. rewrite <- IH1. reflexivity.
      * rewrite toks_word_sep by assumption. rewrite IH1. reflexivity.
    + right. destruct g as [|c g]; [destruct Hgn; reflexivity|]. inversion Hg; subst. eexists. eexists. split; [reflexivity|assumption].
Qed.
Lemma body_free : forall fs trail,
  Forall (fun p => gap (fst p) /\ fst p <> [] /\ item_ok (snd p)) fs -> gap trail ->
  ~ In 124 (flat_map (fun p => fst p ++ item_text (snd p)) fs ++ trail).
Proof.
  assert (Hgap : forall g, gap g -> ~ In 124 g).
  { intros g Hg Hin. unfold gap in Hg. rewrite Forall_forall in Hg. specialize (Hg _ Hin). discriminate. }
  intros fs trail Hf Ht Hin. apply in_app_or in Hin. destruct Hin as [Hin|Hin]; [|exact (Hgap _ Ht Hin)].
  apply in_flat_map in Hin. destruct Hin as ([g f] & Hp & Hin). rewrite Forall_forall in Hf.
  destruct (Hf _ Hp) as (Hg & _ & Hi). cbn [fst snd] in *. apply in_app_or in Hin.
  destruct Hin as [Hin|Hin]; [exact (Hgap _ Hg Hin)|exact (proj1 (proj2 (item_chars _ Hi)) Hin)].
Qed.

Section TF.
Context {O : FOps} (H : hasher) (pf : str -> option O) (seed nb : N).

Lemma head_ok : forall n, tn_ok pf n ->
  namespace_head pf (tn_text n) =
  Ok (match tn_head n with Some h => fst h | None => str_space end, tn_scale pf n, map (fun p => item_text (snd p)) (tn_feats n)).
Proof.
  intros [hd fs trail] (Hf & Ht & Hh). unfold namespace_head, tn_text, tn_scale in *. cbn [tn_head tn_feats tn_trail] in *.
  destruct (body_tokens fs trail Hf Ht) as [Hb1 Hb2].
  remember (flat_map (fun p => fst p ++ item_text (snd p)) fs ++ trail) as body eqn:Ebody. destruct hd as [h|].
  - destruct Hh as [Hi Hv]. destruct (item_chars _ Hi) as (Hc1 & Hc2 & Hc3).
    assert (Hns : starts_with 32 (item_text h ++ body) = false).
    { destruct (item_text h) as [|c r] eqn:E; [destruct Hc3; reflexivity|]. cbn. inversion Hc1; subst.
      destruct (c =? 32) eqn:Ec; [apply N.eqb_eq in Ec; subst c; discriminate|reflexivity]. }
    rewrite Hns.
    assert (Htok : split_ascii_ws (item_text h ++ body) = item_text h :: map (fun p => item_text (snd p)) fs).
    { unfold split_ascii_ws in *. destruct Hb2 as [E|(c & r & E & Hc)]; rewrite E in *.
      - rewrite app_nil_r, toks_word by assumption. cbn in Hb1. rewrite <- Hb1. reflexivity.
      - rewrite toks_word_sep by assumption. f_equal. exact Hb1. }
    rewrite Htok, split_item by exact Hi. destruct h as [name v]. cbn [fst snd] in *. destruct v as [v|]; [|reflexivity].
    destruct (pf v); [reflexivity|destruct Hv; reflexivity].
  - destruct Hh as (r & Hr). cbn [app] in *. rewrite Hr at 1. cbn [starts_with N.eqb Pos.eqb].
    rewrite Hb1. reflexivity.
Qed.

Definition fval_of (nsh k : N) (f : str * option str) : N * O * N :=
  match f with
  | (name, None) => (h32 H name nsh, f1, k)
  | (name, Some v) =>
      match pf v, name with
      | Some x, [] => ((nsh + k) mod 4294967296, x, k + 1)
      | Some x, _ => (h32 H name nsh, x, k)
      | None, _ => (h32 H v (h32 H name nsh), f1, k)
      end
  end.
Lemma tn_values_step : forall nsh k f fs,
  tn_values H pf nsh k (f :: fs) = fst (fval_of nsh k f) :: tn_values H pf nsh (snd (fval_of nsh k f)) fs.
Proof. intros nsh k [name [v|]] fs; cbn; [destruct (pf v); [destruct name|]; reflexivity|reflexivity]. Qed.

Lemma mod_add : forall a b m, m <> 0 -> (a + b mod m) mod m = (a + b) mod m.
Proof. intros a b m Hm. apply N.add_mod_idemp_r. exact Hm. Qed.

Lemma add_token_ok : forall dbg k nsv d i f, nb < 32 -> item_ok f ->
  (dbg = true -> ns_hash k + i + 1 < u32_mod) ->
  add_token H pf dbg nb k nsv (d, i mod u32_mod) (item_text f) =
  Ok (sf_upd_ns k (sfn_add (fst (fst (fval_of (ns_hash k) i f)) mod 2 ^ nb) (f_mul O (snd (fst (fval_of (ns_hash k) i f))) nsv)) d,
      snd (fval_of (ns_hash k) i f) mod u32_mod).
Proof.
  intros dbg k nsv d i f Hnb Hi Hov. unfold add_token. cbn [snd fst].
  assert (Hm : mask_from_bits dbg nb = Ok (2 ^ nb - 1)).
  { unfold mask_from_bits. apply N.ltb_lt in Hnb. rewrite Hnb. reflexivity. }
  assert (Hmask : forall h, mask (2 ^ nb - 1) h = h mod 2 ^ nb).
  { intros h. unfold mask. rewrite N.sub_1_r, <- N.ones_equiv. apply N.land_ones. }
  destruct f as [name v]. pose proof Hi as [Hn Hv]. cbn [fst snd] in *.
  assert (Hnc : forall x r, name = x :: r -> x <> 58).
  { intros x r ->. inversion Hn as [|? ? (_ & Hx & _) _]; subst. exact Hx. }
  assert (Hnamed : name <> [] -> parse_feature pf dbg (item_text (name, v)) (i mod u32_mod) =
    match v with
    | Some v => match pf v with Some x => Ok (PFSimple name, x, i mod u32_mod) | None => Ok (PFSimpleStr name (trim v), f1, i mod u32_mod) end
    | None => Ok (PFSimple name, f1, i mod u32_mod)
    end).
  { intros Hne. unfold parse_feature. rewrite (split_item _ Hi). cbn [fst snd].
    destruct name as [|x r]; [destruct Hne; reflexivity|]. specialize (Hnc _ _ eq_refl).
    unfold item_text. cbn [fst snd app]. destruct x as [|x]; [destruct v; reflexivity|].
    do 6 (destruct x as [x|x|]; try (destruct v; reflexivity)). destruct Hnc. reflexivity. }
  unfold fval_of. destruct v as [v|].
  - assert (Htv : trim v = v) by (apply trim_word, word_ws; exact Hv).
    destruct name as [|x r].
    + unfold parse_feature, item_text. cbn [fst snd app]. destruct (pf v) as [y|] eqn:Ey.
      * assert (Ha : exists off', add32 dbg (i mod u32_mod) 1 = Ok off' /\ off' = (i + 1) mod u32_mod).
        { unfold add32. pose proof (N.mod_upper_bound i u32_mod ltac:(discriminate)) as Hlt.
          destruct (i mod u32_mod + 1 <? u32_mod) eqn:E.
          - eexists. split; [reflexivity|]. apply N.ltb_lt in E. rewrite <- (N.mod_small _ _ E).
            apply N.add_mod_idemp_l. discriminate.
          - destruct dbg.
            + specialize (Hov eq_refl). rewrite N.mod_small in E by lia. apply N.ltb_ge in E. lia.
            + eexists. split; [reflexivity|]. unfold wrap32. apply N.add_mod_idemp_l. discriminate. }
        destruct Ha as (off' & Ha & Eoff). rewrite Ha. cbn [bind parsed_feature_hash].
        assert (Hs : add32 dbg (ns_hash k) (i mod u32_mod) = Ok ((ns_hash k + i) mod u32_mod)).
        { unfold add32. destruct (ns_hash k + i mod u32_mod <? u32_mod) eqn:E.
          - apply N.ltb_lt in E. f_equal. rewrite <- (N.mod_small _ _ E). apply mod_add. discriminate.
          - destruct dbg; [|unfold wrap32; f_equal; apply mod_add; discriminate].
            specialize (Hov eq_refl). apply N.ltb_ge in E. rewrite N.mod_small in E by lia. lia. }
        rewrite Hs. cbn [bind]. rewrite Hm. cbn [bind]. rewrite Hmask, Eoff. reflexivity.
      * cbn [bind parsed_feature_hash]. rewrite Hm. cbn [bind]. rewrite Hmask, Htv. reflexivity.
    + rewrite Hnamed by discriminate. destruct (pf v) as [y|] eqn:Ey; cbn [bind parsed_feature_hash]; rewrite Hm; cbn [bind]; rewrite Hmask; [reflexivity|].
      rewrite Htv. reflexivity.
  - rewrite Hnamed by exact Hv. cbn [bind parsed_feature_hash]. rewrite Hm. cbn [bind]. rewrite Hmask. reflexivity.
Qed.

Lemma fval_k : forall nsh k f, k <= snd (fval_of nsh k f) /\ snd (fval_of nsh k f) <= k + 1.
Proof. intros nsh k [name [v|]]; cbn; [destruct (pf v); [destruct name|]; cbn; lia|cbn; lia]. Qed.

(** all tokens of a namespace *)
Definition scaled (nsv : O) (iv : N * O) : N * O := (fst iv mod 2 ^ nb, f_mul O (snd iv) nsv).
Lemma add_tokens_ok : forall dbg k nsv fs d i s, nb < 32 ->
  Forall item_ok fs -> (dbg = true -> ns_hash k + i + N.of_nat (length fs) < u32_mod) ->
  fm_get k d = Some s -> sfn_active s = true ->
  exists d' i', foldm (add_token H pf dbg nb k nsv) (map item_text fs) (d, i mod u32_mod) = Ok (d', i') /\
    fm_get k d' = Some (mkSfn (sfn_ns s) (sfn_idx s ++ map fst (map (scaled nsv) (tn_values H pf (ns_hash k) i fs)))
                              (sfn_val s ++ map snd (map (scaled nsv) (tn_values H pf (ns_hash k) i fs))) true) /\
    forall j, j <> k -> fm_get j d' = fm_get j d.
Proof.
  intros dbg k nsv fs. induction fs as [|f fs IH]; intros d i s Hnb Hf Hov Hs Ha.
  - exists d, (i mod u32_mod). cbn. rewrite !app_nil_r. split; [reflexivity|]. split; [|auto]. rewrite Hs. destruct s; cbn in *. congruence.
  - inversion Hf; subst. cbn [map foldm]. rewrite add_token_ok by (assumption || (intros E; specialize (Hov E); cbn [length] in Hov; lia)).
    cbn [bind]. set (fv := fval_of (ns_hash k) i f).
    set (d1 := sf_upd_ns k (sfn_add (fst (fst fv) mod 2 ^ nb) (f_mul O (snd (fst fv)) nsv)) d).
    assert (Hg1 : fm_get k d1 = Some (sfn_add (fst (fst fv) mod 2 ^ nb) (f_mul O (snd (fst fv)) nsv) s)).
    { unfold d1. rewrite sf_upd_item, fm_get_set_eq. unfold item. rewrite Hs.
      replace (sfn_set_active true s) with s; [reflexivity|]. destruct s; cbn in Ha. subst. reflexivity. }
    destruct (IH d1 (snd fv) (sfn_add (fst (fst fv) mod 2 ^ nb) (f_mul O (snd (fst fv)) nsv) s)) as (d' & i' & E & G & Ho); auto.
    { intros Ed. specialize (Hov Ed). pose proof (fval_k (ns_hash k) i f) as Hk. fold fv in Hk. cbn [length] in Hov. lia. }
    exists d', i'. split; [exact E|]. split.
    + rewrite G. cbn [sfn_add sfn_ns sfn_idx sfn_val]. rewrite tn_values_step. fold fv. cbn [map scaled fst snd].
      rewrite <- !app_assoc. reflexivity.
    + intros j Hj. rewrite Ho by exact Hj. unfold d1. rewrite sf_upd_item. apply fm_get_set_ne. exact Hj.
Qed.

Lemma tn_key_name : forall n, tn_ok pf n ->
  ns_from_name H (match tn_head n with Some h => fst h | None => str_space end) seed = tn_key H seed n /\
  ns_hash (tn_key H seed n) = key_hash (tn_key H seed n).
Proof.
  intros [hd fs trail] (Hf & Ht & Hh). unfold tn_key. cbn [tn_head] in *. split; [|destruct hd; reflexivity].
  destruct hd as [h|]; [|reflexivity]. destruct Hh as [[Hn _] _]. unfold ns_from_name.
  destruct (str_eqb (fst h) str_space) eqn:E1.
  { apply str_eqb_eq in E1. rewrite E1 in Hn. inversion Hn as [|? ? (Hw & _) _]; subst. discriminate. }
  destruct (str_eqb (fst h) str_default) eqn:E2; [|reflexivity].
  apply str_eqb_eq in E2. rewrite E2 in Hn. inversion Hn as [|? ? (_ & Hw & _) _]; subst. destruct Hw. reflexivity.
Qed.

Lemma parse_namespace_ok : forall dbg d n, nb < 32 -> tn_ok pf n -> (dbg = true -> anon_fits H seed n) ->
  exists d', parse_namespace H pf dbg seed nb d (tn_text n) = Ok d' /\
    fm_get (tn_key H seed n) d' =
      Some (let s := item (tn_key H seed n) d in
            mkSfn (sfn_ns s) (sfn_idx s ++ map fst (tn_content H pf seed nb n)) (sfn_val s ++ map snd (tn_content H pf seed nb n)) true) /\
    forall j, j <> tn_key H seed n -> fm_get j d' = fm_get j d.
Proof.
  intros dbg d n Hnb Hok Hov. unfold parse_namespace. rewrite head_ok by exact Hok. cbn [bind].
  destruct (tn_key_name n Hok) as [Ek Eh]. rewrite Ek. set (k := tn_key H seed n) in *.
  set (d1 := sf_upd_ns k (fun s => s) d).
  assert (Hg1 : fm_get k d1 = Some (sfn_set_active true (item k d))) by (unfold d1; rewrite sf_upd_item; apply fm_get_set_eq).
  destruct Hok as (Hf & Ht & Hh).
  assert (Hf' : Forall item_ok (map snd (tn_feats n))).
  { rewrite Forall_map. eapply Forall_impl; [|exact Hf]. intros p (_ & _ & Hi). exact Hi. }
  assert (Hov' : dbg = true -> ns_hash k + 0 + N.of_nat (length (map snd (tn_feats n))) < u32_mod).
  { intros Ed. specialize (Hov Ed). unfold anon_fits in Hov. fold k in Hov. rewrite Eh, map_length, N.add_0_r. exact Hov. }
  destruct (add_tokens_ok dbg k (tn_scale pf n) (map snd (tn_feats n)) d1 0 _ Hnb Hf' Hov' Hg1 eq_refl) as (d' & i' & E & G & Ho).
  rewrite map_map in E. change (0 mod u32_mod) with 0 in E. rewrite E. cbn [bind fst]. exists d'. split; [reflexivity|]. split.
    + rewrite G. cbn [sfn_set_active sfn_ns sfn_idx sfn_val]. unfold tn_content. fold k. rewrite <- Eh. reflexivity.
    + intros j Hj. rewrite Ho by exact Hj. unfold d1. rewrite sf_upd_item. apply fm_get_set_ne. exact Hj.
Qed.

(** the features put into namespace [k] *)
Definition content_of (ns : list tns) (k : namespace) : list (N * O) :=
  flat_map (tn_content H pf seed nb) (filter (fun n => ns_eqb k (tn_key H seed n)) ns).
Lemma parse_namespaces_ok : forall dbg ns d, nb < 32 -> Forall (tn_ok pf) ns -> (dbg = true -> Forall (anon_fits H seed) ns) ->
  exists d', foldm (parse_namespace H pf dbg seed nb) (map tn_text ns) d = Ok d' /\
    forall k, fm_get k d' =
      match filter (fun n => ns_eqb k (tn_key H seed n)) ns with
      | [] => fm_get k d
      | _ => Some (let s := item k d in
                   mkSfn (sfn_ns s) (sfn_idx s ++ map fst (content_of ns k)) (sfn_val s ++ map snd (content_of ns k)) true)
      end.
Proof.
  intros dbg ns. induction ns as [|n ns IH]; intros d Hnb Hok Hov.
  - exists d. split; reflexivity.
  - inversion Hok; subst. cbn [map foldm].
    destruct (parse_namespace_ok dbg d n Hnb H2) as (d1 & E1 & G1 & Ho1); [intros Ed; specialize (Hov Ed); inversion Hov; assumption|].
    rewrite E1. cbn [bind].
    destruct (IH d1 Hnb H3) as (d' & E & G); [intros Ed; specialize (Hov Ed); inversion Hov; assumption|].
    exists d'. split; [exact E|]. intros k. rewrite G. unfold content_of. cbn [filter].
    destruct (ns_eqb k (tn_key H seed n)) eqn:Ek.
    + apply ns_eqb_eq in Ek. subst k. unfold item. rewrite G1. cbn [sfn_ns sfn_idx sfn_val]. cbn [flat_map].
      rewrite !map_app, !app_assoc.
      destruct (filter (fun n0 => ns_eqb (tn_key H seed n) (tn_key H seed n0)) ns); [|reflexivity].
      cbn [flat_map map]. rewrite !app_nil_r. reflexivity.
    + apply ns_eqb_neq in Ek. unfold item. rewrite Ho1 by exact Ek. reflexivity.
Qed.

(** [d] looks new *)
Definition looks_new (d : sfeats O) : Prop := fsim d [].
Lemma looks_new_item : forall d k, looks_new d -> item k d = sfn_new k.
Proof. intros d k Hd. rewrite (fsim_item _ _ k Hd). reflexivity. Qed.
Lemma looks_new_get : forall d k, looks_new d -> sf_get k d = None.
Proof. intros d k Hd. rewrite (fsim_get _ _ k Hd). reflexivity. Qed.

Lemma line_split : forall initial ns, ~ In 124 initial -> Forall (tn_ok pf) ns ->
  split_char 124 (line_text initial ns) = initial :: map tn_text ns.
Proof.
  intros initial ns Hi Hok. apply cut_split. unfold line_text. revert initial Hi.
  induction Hok as [|n ns (Hf & Ht & Hh) _ IH]; intros initial Hi; cbn [flat_map map].
  - rewrite app_nil_r. apply cut_last. exact Hi.
  - cbn [app]. apply cut_more; [exact Hi|]. apply IH. unfold tn_text. intros Hin. apply in_app_or in Hin.
    destruct Hin as [Hin|Hin]; [|exact (body_free _ _ Hf Ht Hin)].
    destruct (tn_head n) as [h|]; [|destruct Hin]. destruct Hh as [Hh _]. exact (proj1 (proj2 (item_chars _ Hh)) Hin).
Qed.

Lemma parse_line_ok : forall dbg lt initial ns d lb, nb < 32 -> ~ In 124 initial ->
  Forall (tn_ok pf) ns -> (dbg = true -> Forall (anon_fits H seed) ns) -> looks_new d ->
  parse_label pf (label_tokens initial) lt = Ok lb ->
  exists d', parse_line H pf dbg seed nb lt (line_text initial ns) d = Ok (lb, d') /\
    forall k, sf_get k d' = as_sfn k (line_content H pf seed nb ns k).
Proof.
  intros dbg lt initial ns d lb Hnb Hi Hok Hov Hd Hl. unfold parse_line. rewrite line_split by assumption. rewrite Hl. cbn [bind].
  destruct (parse_namespaces_ok dbg ns d Hnb Hok Hov) as (d' & E & G). rewrite E. cbn [bind]. exists d'. split; [reflexivity|].
  intros k. unfold sf_get, line_content. rewrite G. rewrite looks_new_item by exact Hd. cbn [sfn_new sfn_ns sfn_idx sfn_val app].
  unfold content_of. destruct (filter (fun n => ns_eqb k (tn_key H seed n)) ns) as [|x l]; [|reflexivity].
  pose proof (looks_new_get d k Hd) as Hg. unfold sf_get in Hg. rewrite Hg. reflexivity.
Qed.

(** *** recycled objects *)
Lemma add_token_sim : forall dbg k nsv a b i tok, fsim a b ->
  orel (fun x y => fsim (fst x) (fst y) /\ snd x = snd y)
    (add_token H pf dbg nb k nsv (a, i) tok) (add_token H pf dbg nb k nsv (b, i) tok).
Proof.
  intros dbg k nsv a b i tok Hs. unfold add_token. cbn [fst snd].
  destruct (parse_feature pf dbg tok i) as [[[p v] off]|e|e]; cbn [bind]; [|constructor..].
  destruct (parsed_feature_hash H dbg p (ns_hash k)) as [h|e|e]; cbn [bind]; [|constructor..].
  destruct (mask_from_bits dbg nb) as [m|e|e]; cbn [bind]; [|constructor..]. constructor. cbn [fst snd]. split; [|reflexivity].
  apply fsim_upd; [exact Hs|]. intros s Hs'. apply sfn_add_wf. exact Hs'.
Qed.
Lemma parse_namespace_sim : forall dbg a b seg, fsim a b ->
  orel fsim (parse_namespace H pf dbg seed nb a seg) (parse_namespace H pf dbg seed nb b seg).
Proof.
  intros dbg a b seg Hs. unfold parse_namespace. destruct (namespace_head pf seg) as [[[name nsv] toks]|e|e]; cbn [bind]; [|constructor..].
  eapply orel_bind.
  - apply orel_foldm with (R := fun x y : sfeats O * N => fsim (fst x) (fst y) /\ snd x = snd y).
    + cbn [fst snd]. split; [|reflexivity]. apply fsim_upd; [exact Hs|auto].
    + intros tok [x1 i1] [x2 i2] _ [Hx Hi]. cbn [fst snd] in *. subst i2. apply add_token_sim. exact Hx.
  - intros x y [Hx _]. constructor. exact Hx.
Qed.
Lemma parse_line_sim : forall dbg lt line a b, fsim a b ->
  orel (fun x y => fst x = fst y /\ fsim (snd x) (snd y))
    (parse_line H pf dbg seed nb lt line a) (parse_line H pf dbg seed nb lt line b).
Proof.
  intros dbg lt line a b Hs. unfold parse_line. destruct (split_char 124 line) as [|ini segs]; [constructor|].
  destruct (parse_label pf (label_tokens ini) lt); cbn [bind]; [|constructor..].
  eapply orel_bind.
  - apply orel_foldm with (R := fsim); [exact Hs|]. intros seg x y _ Hx. apply parse_namespace_sim. exact Hx.
  - intros x y Hx. constructor. auto.
Qed.
End TF.

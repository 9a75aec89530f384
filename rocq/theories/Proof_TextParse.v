(** Parsing lines (C27, C28, C29). *)
From Coq Require Import List NArith Bool Lia Arith.
From Verif Require Import Base FloatOps Model_Hash Model_Types Model_Features Model_Text Spec_Text
  Proof_Hash Proof_Features Proof_TextRead.
Import ListNotations.
Open Scope N_scope.

Lemma F2_impl : forall A B (P Q : A -> B -> Prop) x y, (forall a b, P a b -> Q a b) -> Forall2 P x y -> Forall2 Q x y.
Proof. intros A B P Q x y Hi. induction 1; constructor; auto. Qed.
(** *** cutting and words *)
Lemma split_by_word : forall p l, Forall (fun c => p c = false) l -> split_by p l = [l].
Proof.
  induction l as [|c l IH]; intros Hf; [reflexivity|]. inversion Hf; subst. cbn [split_by].
  rewrite H1, IH by assumption. reflexivity.
Qed.
Lemma split_by_word_sep : forall p l c r, Forall (fun c => p c = false) l -> p c = true ->
  split_by p (l ++ c :: r) = l :: split_by p r.
Proof.
  induction l as [|x l IH]; intros c r Hf Hc; cbn [app split_by].
  - rewrite Hc. reflexivity.
  - inversion Hf; subst. rewrite H1, IH by assumption. reflexivity.
Qed.
Lemma not_in_free : forall c l, ~ In c l <-> Forall (fun x => N.eqb c x = false) l.
Proof.
  intros c l. rewrite Forall_forall. split.
  - intros Hn x Hx. apply N.eqb_neq. intros ->. exact (Hn Hx).
  - intros Hf Hin. specialize (Hf _ Hin). rewrite N.eqb_refl in Hf. discriminate.
Qed.
Lemma cut_split : forall c s ps, cut c s ps <-> split_char c s = ps.
Proof.
  intros c s ps. split.
  - unfold split_char. induction 1 as [l Hl|l r ps Hl Hr IH].
    + apply split_by_word. apply not_in_free. exact Hl.
    + rewrite split_by_word_sep; [f_equal; exact IH|apply not_in_free; exact Hl|apply N.eqb_refl].
  - intros <-. unfold split_char. remember (length s) as n eqn:En. assert (Hn : (length s <= n)%nat) by lia. clear En. revert s Hn.
    induction n as [|n IH]; intros s Hn; [destruct s; [|cbn in Hn; lia]; apply cut_last; intros []|].
    assert (Hs : (~ In c s) \/ exists l r, s = l ++ c :: r /\ ~ In c l).
    { clear. induction s as [|x s IH]; [left; intros []|]. destruct (N.eq_dec x c) as [->|Hx].
      - right. exists [], s. split; [reflexivity|intros []].
      - destruct IH as [IH|(l & r & -> & Hl)]; [left; intros [E|E]; auto|].
        right. exists (x :: l), r. split; [reflexivity|intros [E|E]; auto]. }
    destruct Hs as [Hs|(l & r & -> & Hl)].
    + rewrite split_by_word by (apply not_in_free; exact Hs). apply cut_last. exact Hs.
    + rewrite split_by_word_sep by (apply not_in_free in Hl || apply N.eqb_refl; assumption || apply N.eqb_refl).
      apply cut_more; [exact Hl|]. apply IH. rewrite app_length in Hn. cbn in Hn. lia.
Qed.

Lemma toks_gap : forall p g s, Forall (fun c => p c = true) g ->
  filter nonempty (split_by p (g ++ s)) = filter nonempty (split_by p s).
Proof.
  induction g as [|c g IH]; intros s Hg; [reflexivity|]. inversion Hg; subst. cbn [app split_by]. rewrite H1.
  cbn [filter nonempty]. apply IH. assumption.
Qed.
Lemma toks_word : forall p w, w <> [] -> Forall (fun c => p c = false) w -> filter nonempty (split_by p w) = [w].
Proof. intros p w Hn Hw. rewrite split_by_word by exact Hw. destruct w; [destruct Hn|]; reflexivity. Qed.
Lemma toks_word_sep : forall p w c r, w <> [] -> Forall (fun c => p c = false) w -> p c = true ->
  filter nonempty (split_by p (w ++ c :: r)) = w :: filter nonempty (split_by p (c :: r)).
Proof.
  intros p w c r Hn Hw Hc. rewrite split_by_word_sep by assumption. cbn [split_by]. rewrite Hc.
  cbn [filter nonempty]. destruct w; [destruct Hn|]; reflexivity.
Qed.
Lemma words_toks : forall p s ws, words p s ws -> filter nonempty (split_by p s) = ws.
Proof.
  intros p s ws Hw. induction Hw as [g Hg|g w Hg Hn Hw|g w c r ws Hg Hn Hw Hc Hr IH].
  - rewrite <- (app_nil_r g). rewrite toks_gap by exact Hg. reflexivity.
  - rewrite toks_gap by exact Hg. apply toks_word; assumption.
  - rewrite toks_gap by exact Hg. rewrite toks_word_sep by assumption. f_equal. exact IH.
Qed.
Lemma span : forall (p : N -> bool) s, exists a b, s = a ++ b /\ Forall (fun c => p c = true) a /\
  (b = [] \/ exists c r, b = c :: r /\ p c = false).
Proof.
  induction s as [|c s IH]; [exists [], []; auto|]. destruct (p c) eqn:E.
  - destruct IH as (a & b & -> & Ha & Hb). exists (c :: a), b. auto.
  - exists [], (c :: s). split; [reflexivity|]. split; [constructor|]. right. exists c, s. auto.
Qed.
Lemma words_exist : forall p s, words p s (filter nonempty (split_by p s)).
Proof.
  intros p s. remember (length s) as n eqn:En. assert (Hn : (length s <= n)%nat) by lia. clear En. revert s Hn.
  induction n as [|n IH]; intros s Hn; [destruct s; [|cbn in Hn; lia]; apply words_end; constructor|].
  destruct (span p s) as (g & s1 & -> & Hg & Hs1). rewrite toks_gap by exact Hg.
  destruct Hs1 as [->|(c & r & -> & Hc)].
  - cbn. rewrite app_nil_r. apply words_end. exact Hg.
  - destruct (span (fun x => negb (p x)) (c :: r)) as (w & s2 & Ew & Hw & Hs2).
    assert (Hw' : Forall (fun c => p c = false) w).
    { eapply Forall_impl; [|exact Hw]. intros x Hx. cbn in Hx. destruct (p x); [discriminate|reflexivity]. }
    assert (Hwn : w <> []).
    { intros ->. cbn in Ew. subst s2. destruct Hs2 as [E|(d & q & E & Hd)]; [discriminate|]. inversion E; subst. rewrite Hc in Hd. discriminate. }
    destruct Hs2 as [->|(d & q & -> & Hd)].
    + rewrite app_nil_r in Ew. rewrite Ew. rewrite toks_word by assumption. apply words_one; assumption.
    + assert (Hd' : p d = true) by (destruct (p d); [reflexivity|discriminate]).
      rewrite Ew in *. rewrite toks_word_sep by assumption. apply words_cons; try assumption. apply IH.
      rewrite !app_length in Hn. destruct w; [destruct Hwn; reflexivity|]. cbn in Hn |- *. lia.
Qed.
Lemma words_unique : forall p s ws, words p s ws <-> filter nonempty (split_by p s) = ws.
Proof. intros p s ws. split; [apply words_toks|intros <-; apply words_exist]. Qed.

Lemma starts_with_spec : forall c s, starts_with c s = true <-> exists r, s = c :: r.
Proof.
  intros c [|x s]; cbn; split; intros E; try discriminate; try (destruct E; discriminate).
  - apply N.eqb_eq in E. subst. eauto.
  - destruct E as (r & E). inversion E. apply N.eqb_refl.
Qed.
Lemma ends_with_spec : forall c s, ends_with c s = true <-> exists r, s = r ++ [c].
Proof.
  intros c s. unfold ends_with. split.
  - destruct (rev s) as [|x r] eqn:E; [discriminate|]. intros Hx. apply N.eqb_eq in Hx. subst x.
    exists (rev r). rewrite <- (rev_involutive s), E. reflexivity.
  - intros (r & ->). rewrite rev_app_distr. cbn. apply N.eqb_refl.
Qed.
Lemma label_words_tokens : forall text ws, label_words text ws <-> label_tokens text = ws.
Proof.
  intros text ws. unfold label_tokens, split_ws. split.
  - intros Hw. inversion Hw as [E1|ws' t Ht Hc|ws' t Ht Hq Hs]; subst.
    + apply words_unique in E1. rewrite E1. reflexivity.
    + apply words_unique in Ht. rewrite Ht, rev_app_distr. cbn [rev app].
      replace (starts_with 39 t || negb (ends_with 32 text)) with true; [apply rev_involutive|].
      symmetry. apply orb_true_iff. destruct Hc as [Hc|Hc]; [left; apply starts_with_spec; exact Hc|right].
      apply negb_true_iff. apply not_true_iff_false. intros E. apply Hc. apply ends_with_spec. exact E.
    + apply words_unique in Ht. rewrite Ht, rev_app_distr. cbn [rev app].
      replace (starts_with 39 t || negb (ends_with 32 text)) with false; [reflexivity|].
      symmetry. apply orb_false_iff. split.
      * apply not_true_iff_false. intros E. apply Hq. apply starts_with_spec. exact E.
      * apply negb_false_iff. apply ends_with_spec. exact Hs.
  - intros <-. destruct (rev (filter nonempty (split_by is_ws text))) as [|t r] eqn:E.
    + apply lw_none. apply words_unique. rewrite <- (rev_involutive (filter _ _)), E. reflexivity.
    + assert (Ew : filter nonempty (split_by is_ws text) = rev r ++ [t]).
      { rewrite <- (rev_involutive (filter _ _)), E. reflexivity. }
      destruct (starts_with 39 t) eqn:E1; [|destruct (ends_with 32 text) eqn:E2]; cbn [orb negb].
      * eapply lw_tag; [apply words_unique; exact Ew|]. left. apply starts_with_spec. exact E1.
      * rewrite Ew. apply lw_all; [apply words_unique; exact Ew| |apply ends_with_spec; exact E2].
        intros Hx. apply starts_with_spec in Hx. congruence.
      * eapply lw_tag; [apply words_unique; exact Ew|]. right. intros Hx. apply ends_with_spec in Hx. congruence.
Qed.

Lemma trim_start_word : forall w, Forall (fun c => is_ws c = false) w -> trim_start w = w.
Proof. intros [|c w] Hw; [reflexivity|]. inversion Hw; subst. cbn. rewrite H1. reflexivity. Qed.
Lemma trim_word : forall w, Forall (fun c => is_ws c = false) w -> trim w = w.
Proof.
  intros w Hw. unfold trim. rewrite trim_start_word by exact Hw. apply trim_end_id.
  destruct (rev w) as [|c r] eqn:E; [left; rewrite <- (rev_involutive w), E; reflexivity|]. right.
  exists (rev r), c. split; [rewrite <- (rev_involutive w), E; reflexivity|].
  rewrite Forall_forall in Hw. apply Hw. apply in_rev. rewrite E. left. reflexivity.
Qed.
Lemma label_words_free : forall text ws, label_words text ws -> Forall (Forall (fun c => is_ws c = false)) ws.
Proof.
  intros text ws Hl. apply label_words_tokens in Hl. subst ws.
  assert (Hf : Forall (Forall (fun c => is_ws c = false)) (split_ws text)).
  { unfold split_ws. rewrite Forall_forall. intros w Hw. apply filter_In in Hw. destruct Hw as [Hw _].
    pose proof (split_by_free is_ws text) as Hx. rewrite Forall_forall in Hx. exact (Hx _ Hw). }
  unfold label_tokens. destruct (rev (split_ws text)) as [|x r] eqn:E; [constructor|].
  destruct (starts_with 39 x || negb (ends_with 32 text)); [|exact Hf].
  apply Forall_rev. assert (Hr : Forall (Forall (fun c => is_ws c = false)) (x :: r)) by (rewrite <- E; apply Forall_rev; exact Hf).
  inversion Hr; assumption.
Qed.

Section TP.
Context {O : FOps} (H : hasher) (pf : str -> option O) (seed nb : N).

Definition mark_tlabel (m : mark O) : tlabel O :=
  match m with
  | MShared => TLCb true None
  | MNone => TLCb false None
  | MLabel a c p => TLCb false (Some (a, c, p))
  end.
Lemma str_eqb_eq : forall a b, str_eqb a b = true <-> a = b.
Proof.
  unfold str_eqb. induction a as [|x a IH]; intros [|y b]; cbn; split; intros E; try discriminate; try reflexivity.
  - apply andb_true_iff in E. destruct E as [E1 E2]. apply N.eqb_eq in E1. apply IH in E2. congruence.
  - inversion E; subst. rewrite N.eqb_refl. apply IH. reflexivity.
Qed.

Lemma parse_label_cb : forall ws l, Forall (Forall (fun c => is_ws c = false)) ws ->
  (parse_label pf ws LTCb = Ok l <-> exists m, mark_of pf ws m /\ l = Some (mark_tlabel m)).
Proof.
  intros ws l Hf. split.
  - destruct ws as [|w ws]; cbn [parse_label].
    + intros E. inversion E. exists MNone. split; [constructor|reflexivity].
    + inversion Hf; subst. rewrite trim_word by assumption.
      destruct (str_eqb w str_shared) eqn:Es.
      * apply str_eqb_eq in Es. subst w. intros E. inversion E. exists MShared. split; [constructor|reflexivity].
      * destruct (split_char 58 w) as [|a [|c [|p more]]] eqn:Ec; cbn [nth_error opt_or bind]; try discriminate;
          destruct (parse_u32 a) as [an|] eqn:Ea; cbn [opt_or bind]; try discriminate.
        { destruct (pf c); cbn [opt_or bind]; discriminate. }
        destruct (pf c) as [x|] eqn:Ex; cbn [opt_or bind]; [|discriminate].
        destruct (pf p) as [y|] eqn:Ey; cbn [opt_or bind]; [|discriminate].
        intros E. inversion E. exists (MLabel an x y). split; [|reflexivity].
        eapply mk_label; [apply cut_split; exact Ec|exact Ea|exact Ex|exact Ey].
  - intros (m & Hm & ->). inversion Hm as [|ws'|w ws' a c p more an x y Hc Ha Hx Hy]; subst; cbn [parse_label].
    + reflexivity.
    + reflexivity.
    + inversion Hf; subst. rewrite trim_word by assumption. apply cut_split in Hc.
      destruct (str_eqb w str_shared) eqn:Es; [apply str_eqb_eq in Es; subst w; discriminate|].
      rewrite Hc. cbn [nth_error opt_or bind]. rewrite Ha. cbn [opt_or bind]. rewrite Hx. cbn [opt_or bind]. rewrite Hy. reflexivity.
Qed.
Lemma parse_label_simple : forall ws l,
  parse_label pf ws LTSimple = Ok l <->
  exists s, simple_label pf ws s /\ l = match s with Some (x, w) => Some (TLSimple x w) | None => None end.
Proof.
  intros ws l. split.
  - destruct ws as [|a [|b [|c ws]]]; cbn [parse_label]; try discriminate.
    + intros E. inversion E. exists None. split; [constructor|reflexivity].
    + destruct (pf a) as [x|] eqn:Ea; cbn [opt_or bind]; [|discriminate]. intros E. inversion E.
      exists (Some (x, None)). split; [constructor; exact Ea|reflexivity].
    + destruct (pf a) as [x|] eqn:Ea; cbn [opt_or bind]; [|discriminate].
      destruct (pf b) as [y|] eqn:Eb; cbn [opt_or bind]; [|discriminate]. intros E. inversion E.
      exists (Some (x, Some y)). split; [constructor; assumption|reflexivity].
  - intros (s & Hs & ->). inversion Hs as [|a x Ha|a b x y Ha Hb]; subst; cbn [parse_label]; [reflexivity| |].
    + rewrite Ha. reflexivity.
    + rewrite Ha. cbn [opt_or bind]. rewrite Hb. reflexivity.
Qed.
Lemma parse_label_not_er : forall ws lt e, parse_label pf ws lt <> Er e.
Proof.
  intros ws lt e. destruct lt; cbn [parse_label].
  - destruct ws as [|a [|b [|c ws]]]; try discriminate; destruct (pf a); cbn [opt_or bind]; try discriminate.
    destruct (pf b); cbn [opt_or bind]; discriminate.
  - discriminate.
  - destruct ws as [|w ws]; [discriminate|]. destruct (str_eqb (trim w) str_shared); [discriminate|].
    destruct (split_char 58 w) as [|a [|c [|p more]]]; cbn [nth_error opt_or bind]; try discriminate;
      destruct (parse_u32 a); cbn [opt_or bind]; try discriminate; destruct (pf c); cbn [opt_or bind]; try discriminate.
    destruct (pf p); cbn [opt_or bind]; discriminate.
Qed.

(** *** the label of a multi-line example *)
Definition acp_of (m : mark O) : option (N * O * O) := match m with MLabel a c p => Some (a, c, p) | _ => None end.
Lemma mark_tlabel_cb : forall m, as_cb_tlabel (Some (mark_tlabel m)) =
  Ok (match m with MShared => true | _ => false end, acp_of m).
Proof. intros [| |a c p]; reflexivity. Qed.

(** search with an accumulator: [done] are the marks already seen *)
Lemma find_label_acc : forall ms seen acc,
  label_is seen acc ->
  let r := foldm (fun acc cl =>
             let* l := as_cb_tlabel (snd cl) in
             match snd l with
             | None => Ok acc
             | Some (_, c, p) => match acc with Some _ => Er EInvalidArgument | None => Ok (Some (LbCb (fst cl) c p)) end
             end) (enum_from (N.of_nat (length seen)) (map (fun m => Some (mark_tlabel m)) ms)) (lb_of acc) in
  (exists lb, r = Ok (lb_of lb) /\ label_is (seen ++ ms) lb) \/
  (r = Er EInvalidArgument /\ two_labels (seen ++ ms)).
Proof.
  induction ms as [|m ms IH]; intros seen acc Hacc; cbn zeta.
  - left. exists acc. rewrite app_nil_r. split; [reflexivity|exact Hacc].
  - cbn [map enum_from foldm fst snd]. rewrite mark_tlabel_cb. cbn [bind fst snd].
    assert (Eseen : seen ++ m :: ms = (seen ++ [m]) ++ ms) by (rewrite <- app_assoc; reflexivity).
    assert (Elen : N.succ (N.of_nat (length seen)) = N.of_nat (length (seen ++ [m]))).
    { rewrite app_length. cbn. lia. }
    rewrite Elen, Eseen.
    assert (Hno : ~ is_label m -> label_is (seen ++ [m]) acc).
    { intros Hm. destruct acc as [[[i c] p]|]; cbn [label_is] in *.
      - destruct Hacc as [(a & Ha) Hu]. split.
        + exists a. rewrite nth_error_app1; [exact Ha|]. apply nth_error_Some. congruence.
        + intros j m' Hj Hl. destruct (Nat.lt_ge_cases j (length seen)) as [Hlt|Hge].
          * rewrite nth_error_app1 in Hj by exact Hlt. eapply Hu; eassumption.
          * rewrite nth_error_app2 in Hj by exact Hge. destruct (j - length seen)%nat as [|k]; [|destruct k; discriminate].
            inversion Hj; subst. contradiction.
      - intros m' Hin. apply in_app_or in Hin. destruct Hin as [Hin|[<-|[]]]; [apply Hacc; exact Hin|exact Hm]. }
    destruct m as [| |a c p]; cbn [acp_of].
    + apply IH. apply Hno. intros [].
    + apply IH. apply Hno. intros [].
    + destruct acc as [[[i c0] p0]|]; cbn [lb_of].
      * right. cbn [bind]. split; [reflexivity|]. destruct Hacc as [(a0 & Ha) _].
        exists (N.to_nat i), (length seen), (MLabel a0 c0 p0), (MLabel a c p).
        assert (Hlt : (N.to_nat i < length seen)%nat) by (apply nth_error_Some; congruence).
        repeat split; cbn; [lia| |].
        -- rewrite <- app_assoc. rewrite nth_error_app1 by exact Hlt. exact Ha.
        -- rewrite <- app_assoc. rewrite nth_error_app2 by lia. rewrite Nat.sub_diag. reflexivity.
      * cbn [bind]. apply (IH _ (Some (N.of_nat (length seen), c, p))). cbn [label_is]. rewrite Nnat.Nat2N.id. split.
        -- exists a. rewrite nth_error_app2 by lia. rewrite Nat.sub_diag. reflexivity.
        -- intros j m' Hj Hl. destruct (Nat.lt_ge_cases j (length seen)) as [Hlt|Hge].
           ++ rewrite nth_error_app1 in Hj by exact Hlt. exfalso. cbn in Hacc. eapply Hacc; [eapply nth_error_In; exact Hj|exact Hl].
           ++ rewrite nth_error_app2 in Hj by exact Hge. destruct (j - length seen)%nat as [|k] eqn:Ek; [lia|destruct k; discriminate].
Qed.
Lemma find_label_spec : forall ms,
  (exists lb, find_label (map (fun m => Some (mark_tlabel m)) ms) = Ok (lb_of lb) /\ label_is ms lb) \/
  (find_label (map (fun m => Some (mark_tlabel m)) ms) = Er EInvalidArgument /\ two_labels ms).
Proof. intros ms. apply (find_label_acc ms [] None). intros m []. Qed.
Lemma label_is_not_two : forall (ms : list (mark O)) lb, label_is ms lb -> ~ two_labels ms.
Proof.
  intros ms lb Hl (i & j & m & m' & Hij & Hi & Hj & Lm & Lm'). destruct lb as [[[k c] p]|]; cbn in Hl.
  - destruct Hl as [_ Hu]. apply Hij. rewrite (Hu _ _ Hi Lm), (Hu _ _ Hj Lm'). reflexivity.
  - eapply Hl; [eapply nth_error_In; exact Hi|exact Lm].
Qed.

Lemma parse_line_cb : forall dbg line dest l d', parse_line H pf dbg seed nb LTCb line dest = Ok (l, d') ->
  exists m, line_mark pf line m /\ l = Some (mark_tlabel m).
Proof.
  intros dbg line dest l d' E. unfold parse_line in E. destruct (split_char 124 line) as [|initial segs] eqn:Es; [discriminate|].
  destruct (parse_label pf (label_tokens initial) LTCb) as [lb|e|e] eqn:El; cbn [bind] in E; [|discriminate..].
  destruct (foldm _ segs dest) as [dd|e|e]; cbn [bind] in E; [|discriminate..]. inversion E; subst.
  assert (Hw : label_words initial (label_tokens initial)) by (apply label_words_tokens; reflexivity).
  apply parse_label_cb in El; [|eapply label_words_free; exact Hw]. destruct El as (m & Hm & ->). exists m.
  split; [|reflexivity]. exists initial, segs, (label_tokens initial). split; [apply cut_split; exact Es|]. auto.
Qed.
Lemma parse_lines_cb : forall dbg lines dests rs, parse_lines H pf dbg seed nb LTCb lines dests = Ok rs ->
  exists ms, Forall2 (line_mark pf) lines ms /\ map fst rs = map (fun m => Some (mark_tlabel m)) ms /\
    Forall2 (fun line r => exists d, (d = sf_new \/ In d dests) /\ parse_line H pf dbg seed nb LTCb line d = Ok r) lines rs.
Proof.
  induction lines as [|l lines IH]; intros dests rs E; cbn [parse_lines] in E.
  - inversion E; subst. exists []. repeat split; constructor.
  - destruct (parse_line _ _ _ _ _ _ l _) as [r|e|e] eqn:E1; cbn [bind] in E; [|discriminate..].
    destruct (parse_lines _ _ _ _ _ _ lines _) as [rs'|e|e] eqn:E2; cbn [bind] in E; [|discriminate..]. inversion E; subst.
    destruct (IH _ _ E2) as (ms & H1 & H2 & H3). destruct r as [lb d'].
    destruct (parse_line_cb _ _ _ _ _ E1) as (m & Hm & ->).
    exists (m :: ms). split; [constructor; assumption|]. split; [cbn; f_equal; exact H2|]. constructor.
    + exists (hd sf_new dests). split; [|exact E1]. destruct dests; [left; reflexivity|right; left; reflexivity].
    + eapply F2_impl; [|exact H3]. intros line r (d & Hd & Hr). exists d. split; [|exact Hr].
      destruct Hd as [Hd|Hd]; [left; exact Hd|right]. destruct dests; [destruct Hd|right; exact Hd].
Qed.

Lemma multi_ok : forall dbg dests chunk f lb,
  parse_chunk H pf dbg seed nb FTCb LTCb dests chunk = Ok (f, lb) ->
  exists ms l, Forall2 (line_mark pf) (str_lines chunk) ms /\ lb = lb_of l /\ label_is (action_marks ms) l /\
    exists sh acts, f = FtsCb sh acts /\
      Forall2 (line_feats H pf seed nb dbg dests) (str_lines chunk) (match sh with Some s => [s] | None => [] end ++ acts) /\
      (sh <> None <-> exists r, ms = MShared :: r).
Proof.
  intros dbg dests chunk f lb E. unfold parse_chunk in E. cbn [is_multiline feat_type_eqb label_type_eqb andb] in E.
  replace (is_multiline FTCb LTCb) with true in E by reflexivity.
  destruct (parse_lines _ _ _ _ _ _ _ _) as [rs|e|e] eqn:E1; cbn [bind] in E; [|discriminate..].
  destruct (parse_lines_cb _ _ _ _ E1) as (ms & H1 & H2 & H3). unfold finalize_multi in E.
  replace (is_multiline FTCb LTCb) with true in E by reflexivity.
  assert (Hfs : Forall2 (line_feats H pf seed nb dbg dests) (str_lines chunk) (map snd rs)).
  { clear - H3. induction H3 as [|l r ls rs (d & Hd & Hr) _ IH]; [constructor|]. cbn. constructor; [|exact IH].
    exists d, (fst r). split; [exact Hd|]. rewrite Hr. destruct r; reflexivity. }
  destruct rs as [|[l0 f0] rest]; [discriminate|]. destruct ms as [|m ms]; [discriminate|]. cbn [map fst] in H2. injection H2 as El0 H4. subst l0.
  rewrite mark_tlabel_cb in E. cbn [bind fst] in E.
  exists (m :: ms). destruct m as [| |a c p].
  - rewrite H4 in E. destruct (find_label_spec ms) as [(l & El & Hl)|[El _]]; rewrite El in E; cbn [bind] in E; [|discriminate].
    inversion E; subst. exists l. split; [exact H1|]. split; [reflexivity|]. split; [exact Hl|].
    exists (Some f0), (map snd rest). split; [reflexivity|]. split; [exact Hfs|]. split; [eauto|discriminate].
  - assert (Em : map fst ((Some (mark_tlabel MNone), f0) :: rest) = map (fun m => Some (mark_tlabel m)) (MNone :: ms)) by (cbn; f_equal; exact H4).
    rewrite Em in E. destruct (find_label_spec (MNone :: ms)) as [(l & El & Hl)|[El _]]; rewrite El in E; cbn [bind] in E; [|discriminate].
    inversion E; subst. exists l. split; [exact H1|]. split; [reflexivity|]. split; [exact Hl|].
    exists None, (map snd ((Some (mark_tlabel MNone), f0) :: rest)). split; [reflexivity|]. split; [exact Hfs|].
    split; [intros Hx; destruct Hx; reflexivity|intros (r & Hr); discriminate].
  - assert (Em : map fst ((Some (mark_tlabel (MLabel a c p)), f0) :: rest) = map (fun m => Some (mark_tlabel m)) (MLabel a c p :: ms)) by (cbn; f_equal; exact H4).
    rewrite Em in E. destruct (find_label_spec (MLabel a c p :: ms)) as [(l & El & Hl)|[El _]]; rewrite El in E; cbn [bind] in E; [|discriminate].
    inversion E; subst. exists l. split; [exact H1|]. split; [reflexivity|]. split; [exact Hl|].
    exists None, (map snd ((Some (mark_tlabel (MLabel a c p)), f0) :: rest)). split; [reflexivity|]. split; [exact Hfs|].
    split; [intros Hx; destruct Hx; reflexivity|intros (r & Hr); discriminate].
Qed.

Lemma mark_unique : forall ws (m m' : mark O), mark_of pf ws m -> mark_of pf ws m' -> m = m'.
Proof.
  assert (Hcut : forall ps, cut 58 str_shared ps -> ps = [str_shared]).
  { intros ps Hc. apply cut_split in Hc. subst. reflexivity. }
  intros ws m m' Hm Hm'. inversion Hm as [|w1|w ws' a c p more an x y Hc Ha Hx Hy]; subst;
    inversion Hm' as [|w2|w' ws2 a' c' p' more' an' x' y' Hc' Ha' Hx' Hy']; subst; try reflexivity.
  - apply Hcut in Hc'. discriminate.
  - apply Hcut in Hc. discriminate.
  - apply cut_split in Hc. apply cut_split in Hc'. rewrite Hc in Hc'. inversion Hc'; subst. congruence.
Qed.
Lemma line_mark_unique : forall line (m m' : mark O), line_mark pf line m -> line_mark pf line m' -> m = m'.
Proof.
  intros line m m' (i & s & ws & H1 & H2 & H3) (i' & s' & ws' & K1 & K2 & K3).
  apply cut_split in H1. apply cut_split in K1. rewrite H1 in K1. inversion K1; subst.
  apply label_words_tokens in H2. apply label_words_tokens in K2. rewrite H2 in K2. subst. eapply mark_unique; eassumption.
Qed.
Lemma line_marks_unique : forall lines (ms ms' : list (mark O)),
  Forall2 (line_mark pf) lines ms -> Forall2 (line_mark pf) lines ms' -> ms = ms'.
Proof.
  intros lines ms ms' F. revert ms'. induction F; intros ms' F'; inversion F'; subst; [reflexivity|].
  f_equal; [eapply line_mark_unique; eassumption|apply IHF; assumption].
Qed.

(** every line parses: a result, or an error exactly for two labels (or no line) *)
Lemma multi_result : forall dbg dests chunk rs,
  parse_lines H pf dbg seed nb LTCb (str_lines chunk) dests = Ok rs ->
  exists ms, Forall2 (line_mark pf) (str_lines chunk) ms /\
  ((exists f lb, parse_chunk H pf dbg seed nb FTCb LTCb dests chunk = Ok (f, lb)) \/
   (parse_chunk H pf dbg seed nb FTCb LTCb dests chunk = Er EInvalidArgument /\ (ms = [] \/ two_labels (action_marks ms)))).
Proof.
  intros dbg dests chunk rs E1. destruct (parse_lines_cb _ _ _ _ E1) as (ms & H1 & H2 & H3). exists ms. split; [exact H1|].
  unfold parse_chunk, finalize_multi. replace (is_multiline FTCb LTCb) with true by reflexivity. rewrite E1. cbn [bind].
  destruct rs as [|[l0 f0] rest]; [right; split; [reflexivity|left; destruct ms; [reflexivity|discriminate]]|].
  destruct ms as [|m ms]; [discriminate|]. cbn [map fst] in H2. injection H2 as El0 H4. subst l0.
  rewrite mark_tlabel_cb. cbn [bind fst]. destruct m as [| |a c p].
  - rewrite H4. destruct (find_label_spec ms) as [(l & El & Hl)|[El Ht]]; rewrite El; cbn [bind]; [left; eauto|right; auto].
  - assert (Em : map fst ((Some (mark_tlabel MNone), f0) :: rest) = map (fun m => Some (mark_tlabel m)) (MNone :: ms)) by (cbn; f_equal; exact H4).
    rewrite Em. destruct (find_label_spec (MNone :: ms)) as [(l & El & Hl)|[El Ht]]; rewrite El; cbn [bind]; [left; eauto|right; auto].
  - assert (Em : map fst ((Some (mark_tlabel (MLabel a c p)), f0) :: rest) = map (fun m => Some (mark_tlabel m)) (MLabel a c p :: ms)) by (cbn; f_equal; exact H4).
    rewrite Em. destruct (find_label_spec (MLabel a c p :: ms)) as [(l & El & Hl)|[El Ht]]; rewrite El; cbn [bind]; [left; eauto|right; auto].
Qed.
Lemma two_labels_error : forall dbg dests chunk rs ms,
  parse_lines H pf dbg seed nb LTCb (str_lines chunk) dests = Ok rs ->
  Forall2 (line_mark pf) (str_lines chunk) ms -> two_labels (action_marks ms) ->
  parse_chunk H pf dbg seed nb FTCb LTCb dests chunk = Er EInvalidArgument.
Proof.
  intros dbg dests chunk rs ms E1 Hm Ht. destruct (multi_result _ _ _ _ E1) as (ms' & Hm' & [(f & lb & E)|[E _]]); [|exact E].
  destruct (multi_ok _ _ _ _ _ E) as (ms2 & l & H2 & _ & Hl & _).
  rewrite (line_marks_unique _ _ _ H2 Hm) in Hl. exfalso. eapply label_is_not_two; eassumption.
Qed.
End TP.

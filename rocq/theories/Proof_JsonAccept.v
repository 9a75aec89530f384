(** C86: which JSON and decision service JSON data the train command accepts. *)
From Coq Require Import List NArith ZArith Bool Lia.
From Verif Require Import Base FloatOps FloatB32 Model_Hash Model_Features Model_Weights Model_Loss
  Model_Interactions Model_Types Model_Explore Model_Coin Model_Stack Model_Factory Model_Text Model_Metrics Model_Train Model_Json Model_JsonTrain Model_Command
  Spec_Features Proof_Weights Proof_WeightsProps Proof_Features Proof_FeaturesHist Proof_FloatOrder Spec_Coin Proof_Coin Spec_Stack Spec_Reductions Spec_Total
  Proof_StackCong Proof_StackRestore Proof_StackPtl Proof_StackShape Proof_StackProps Proof_Types Proof_Total
  Spec_Text Proof_TextRead Proof_TextParse Proof_TextFeats Proof_TextChunk Proof_Loose Proof_Train Spec_Release Proof_Release
  Spec_Json Spec_JsonLabel Spec_Formats Spec_Command Spec_JsonAccept Proof_JsonPlan Proof_Json Proof_JsonChunk Proof_DsJson Proof_JsonTrain Proof_JsonLabel Proof_Pieces Proof_PythonFits.
Import ListNotations.
Open Scope N_scope.

(** ** any parser whose result does not depend on the recycled objects *)
Section Gen.
Context {O : FOps} (FO : ford O).
Implicit Types (f g u : features O).

Lemma mtr_sim : forall u v lb, ftsim u v -> mtr_example u lb -> mtr_example v lb.
Proof.
  intros u v lb S (sh & x & i & c & p & -> & -> & L). destruct v as [|[s|] y]; cbn [ftsim] in S; try tauto.
  destruct S as (_ & F). apply F2_length in F. exists s, y, i, c, p. repeat split. lia.
Qed.
Lemma acts_sim : forall u v, ftsim u v -> num_actions u = num_actions v.
Proof.
  intros [a|s x] [b|t y] S; cbn [ftsim] in S; try tauto. destruct S as (_ & F). apply F2_length in F. cbn [num_actions]. now rewrite F.
Qed.
Lemma type_sim : forall u v, ftsim u v -> feat_type_of u = feat_type_of v.
Proof. intros [a|s x] [b|t y] S; cbn [ftsim] in S; try tauto; reflexivity. Qed.

(** the mtr cost type needs shared features and an existing action *)
Lemma learn_no_mtr : forall n d, d < 256 -> forall (r : red O n) u act cost prob, typed n r -> uses_elem r = false -> uses_mtr r = true ->
  feat_type_of u = FTCb -> ~ mtr_example u (LbCb act cost prob) -> exists p, learn false n r u (LbCb act cost prob) d 0 = Pn p.
Proof.
  intros n d Hd r [a|[sh|] x] act cost prob T El M Tf NM; [discriminate| |].
  2: { exists PTodo. now apply learn_no_shared. }
  assert (L : nth_error x (N.to_nat act) = None).
  { apply nth_error_None. destruct (Nat.le_gt_cases (length x) (N.to_nat act)); auto. exfalso. apply NM. repeat eexists. lia. }
  clear NM Tf. revert r cost prob T El M. induction n as [|n IH]; intros r cost prob T El M; [discriminate|].
  destruct r as ((w & k) & ch). pose proof T as (T1 & T2 & T3). pose proof (td_good _ _ T3) as (G1 & _ & _). rewrite T2 in G1.
  unfold uses_elem in El. cbn [some_kind fst snd] in El. apply orb_false_elim in El. destruct El as (El1 & El2).
  unfold uses_mtr in M. cbn [some_kind fst snd] in M.
  assert (IP : forall c p, uses_mtr ch = true -> exists q, learn false n ch (FtsCb (Some sh) x) (LbCb act c p) d 0 = Pn q) by (intros; apply IH; auto).
  assert (G : exists q, kind_learn false k (learn false n) ch (FtsCb (Some sh) x) (LbCb act cost prob) d 0 = Pn q).
  { destruct k; try discriminate; cbn [kind_td td_out_label td_cb_adf td_explore] in G1; inversion G1 as [G1']; cbn [kind_learn].
    - destruct (typed_simple n ch T1) as (Q & _); [congruence|]. unfold uses_mtr in Q. rewrite Q in M. discriminate.
    - cbn [as_cb as_cb_label bind fst snd]. destruct ty.
      + destruct (typed_simple n ch T1) as (Q & _); [congruence|]. unfold uses_mtr in Q. rewrite Q in M. discriminate.
      + destruct (add64_release action_sum (N.of_nat (length x))) as (as' & ->). cbn [bind].
        destruct (add64_release event_sum 1) as (es' & ->). cbn [bind]. rewrite L. cbn [opt_or bind]. eauto.
    - destruct (IP cost prob M) as (q & ->). cbn [bind]. eauto.
    - destruct (IP cost prob M) as (q & ->). cbn [bind]. eauto.
    - cbn [as_cb_label bind]. destruct (IP cost f1 M) as (q & ->). cbn [bind]. eauto.
    - destruct (IP cost prob M) as (q & ->). cbn [bind]. eauto. }
  destruct G as (q & G). exists q. cbn [learn]. apply wrap_panics; auto. rewrite G. reflexivity.
Qed.

(** probabilities over no actions *)
Lemma predict_no_actions : forall fs n d, d < 256 -> forall (r : red O n) f, inv false fs n r -> uses_weighted r = false ->
  rgood fs f -> feat_type_of f = td_in_feats (red_types r) -> td_out_pred (red_types r) = PTProbs -> num_actions f = 0 ->
  exists p, predict false n r f d 0 = Pn p.
Proof.
  intros fs n d Hd. induction n as [|n IH]; intros r f I U G Tf Tp NA.
  - destruct r as (w & c). destruct I as (T & _). simpl in T. rewrite T in Tp. discriminate.
  - destruct r as ((w & k) & ch). destruct I as (T & El & C). pose proof T as (T1 & T2 & T3). pose proof (td_good _ _ T3) as (G1 & G2 & G3).
    unfold uses_elem in El. cbn [some_kind fst snd] in El. apply orb_false_elim in El. destruct El as (El1 & El2).
    unfold uses_weighted in U. cbn [some_kind fst snd] in U. apply orb_false_elim in U. destruct U as (U1 & U2).
    assert (Ic : inv false fs n ch) by (split; [exact T1|split; [exact El2|exact C]]).
    change (red_types (n := S n) (w, k, ch)) with (w_types w) in *. rewrite T2 in *.
    assert (Q : exists p, kind_predict false k (predict false n ch) f d 0 = Pn p).
    { destruct k; try discriminate; cbn [kind_td td_in_feats td_in_label td_out_label td_out_feats td_in_pred td_out_pred td_cb_adf td_explore] in *;
        inversion G1 as [G1']; inversion G2 as [G2']; inversion G3 as [G3'].
      - destruct (rel_predict fs n d Hd ch f Ic U2 G) as (p & f' & E & Tp' & Ns); try congruence. rewrite <- G3' in Tp'.
        destruct p as [?|?|l|?]; try discriminate. cbn [acts_in_order] in Ns. rewrite NA in Ns. cbn in Ns. destruct l; [|discriminate].
        cbn [kind_predict]. rewrite E. cbn [bind as_scores]. cbn. eauto.
      - destruct (IH ch f Ic U2 G) as (p & E); try congruence. cbn [kind_predict]. eauto. }
    destruct Q as (p & Q). exists p. cbn [predict]. apply wrap_panics; auto.
Qed.

Section Run.
Context (fs : N) (n : nat) (T : tdesc) (M : bool) (ps : parser O) (need : str -> nat).
Context (PO : parser_ok ps)
  (PG : forall ds chunk u lb, Forall looks_new ds -> ps ds chunk = Ok (u, lb) -> rgood fs u)
  (PT : forall chunk u lb, ps [] chunk = Ok (u, Some lb) -> feat_type_of u = td_in_feats T /\ label_type_of lb = td_in_label T).
Local Notation wsok := (wsok fs n T M).

(** the chunk is an example with condition [cond] *)
Definition gives (cond : features O -> label O -> Prop) (c : str) : Prop := exists u lb, ps [] c = Ok (u, Some lb) /\ cond u lb.
Definition learnable u lb : Prop := M = true -> mtr_example u lb.

Lemma any_pool : forall ds chunk u lb, Forall looks_new ds -> ps [] chunk = Ok (u, lb) ->
  exists u', ps ds chunk = Ok (u', lb) /\ ftsim u u' /\ pgood u'.
Proof.
  intros ds chunk u lb F E. pose proof (PO [] ds chunk (Forall_nil _) F) as Q. rewrite E in Q. inversion Q as [? v (S & _ & G)| |]; subst.
  destruct v as (u' & lb'). destruct S as (S & S'). cbn [fst snd] in *. subst lb'. eauto.
Qed.

Inductive chunk_case (ds : list (sfeats O)) (chunk : str) : Prop :=
| cc_panic : (exists p, unwrap_res (ps ds chunk) = Pn p) -> (forall u lb, ps [] chunk <> Ok (u, lb)) -> chunk_case ds chunk
| cc_none : forall u0 u, ps [] chunk = Ok (u0, None) -> ps ds chunk = Ok (u, None) -> chunk_case ds chunk
| cc_some : forall u0 u lb, ps [] chunk = Ok (u0, Some lb) -> ps ds chunk = Ok (u, Some lb) -> ftsim u0 u -> rgood fs u -> pgood u ->
    feat_type_of u = td_in_feats T -> label_type_of lb = td_in_label T -> chunk_case ds chunk.
Lemma chunk_cases : forall ds chunk, Forall looks_new ds -> chunk_case ds chunk.
Proof.
  intros ds chunk F. destruct (ps [] chunk) as [(u & [lb|])|e|p] eqn:E.
  - destruct (any_pool ds chunk _ _ F E) as (u' & E' & S & G). destruct (PT _ _ _ E) as (A & B).
    eapply cc_some; eauto. rewrite <- (type_sim _ _ S). exact A.
  - destruct (any_pool ds chunk _ _ F E) as (u' & E' & S & G). eapply cc_none; eauto.
  - apply cc_panic; [|congruence]. pose proof (PO [] ds chunk (Forall_nil _) F) as Q. rewrite E in Q. inversion Q; subst. cbn [unwrap_res]. eauto.
  - apply cc_panic; [|congruence]. pose proof (PO [] ds chunk (Forall_nil _) F) as Q. rewrite E in Q. inversion Q; subst. cbn [unwrap_res]. eauto.
Qed.

Lemma learn_fit : forall r u lb, wsok r -> rgood fs u -> feat_type_of u = td_in_feats T -> label_type_of lb = td_in_label T -> learnable u lb ->
  exists r' f', ws_learn false r u lb = Ok (r', f').
Proof.
  intros r u lb (I & ET & EM) G Tf Tl Hm.
  destruct (rel_learn FO fs n 0 eq_refl r u lb I G) as (r' & f' & E); try congruence.
  - unfold mtr_needs. rewrite EM. exact Hm.
  - exists r', f'. unfold ws_learn. rewrite E. reflexivity.
Qed.
Lemma learn_unfit : forall r u lb, wsok r -> feat_type_of u = td_in_feats T -> label_type_of lb = td_in_label T -> ~ learnable u lb ->
  exists p, ws_learn false r u lb = Pn p.
Proof.
  intros r u lb (I & ET & EM) Tf Tl NL. unfold learnable in NL. destruct M eqn:HM; [|exfalso; apply NL; discriminate].
  destruct I as (Ty & El & _).
  assert (Hl : td_in_label T = LTCb).
  { destruct (td_in_label T) eqn:E; auto; exfalso; destruct (typed_simple n r Ty) as (Q & _); congruence. }
  destruct (entry_types n r Ty) as [(A & B & _)|[(A & B)|(A & B)]]; rewrite ET in *; try congruence.
  rewrite Hl in Tl. destruct lb as [| |i c p]; try discriminate.
  destruct (learn_no_mtr n 0 eq_refl r u i c p Ty El EM) as (q & E); try congruence.
  { intros X. apply NL. auto. }
  exists q. unfold ws_learn. rewrite E. reflexivity.
Qed.
Lemma learnable_dec : forall u lb, {learnable u lb} + {~ learnable u lb}.
Proof.
  intros u lb. unfold learnable. destruct M; [|left; discriminate].
  assert (D : {mtr_example u lb} + {~ mtr_example u lb}).
  { destruct u as [a|[sh|] x].
    - right. intros (? & ? & ? & ? & ? & X & _). discriminate.
    - destruct lb as [? ?|?|i c p]; try (right; intros (? & ? & ? & ? & ? & _ & X & _); discriminate).
      destruct (Compare_dec.lt_dec (N.to_nat i) (length x)) as [L|L].
      + left. repeat eexists. exact L.
      + right. intros (? & ? & ? & ? & ? & X & Y & Z). inversion X; inversion Y; subst. contradiction.
    - right. intros (? & ? & ? & ? & ? & X & _). discriminate. }
  destruct D as [D|D]; [left; auto|right; auto].
Qed.
Lemma learnable_sim : forall u v lb, ftsim u v -> (learnable u lb <-> learnable v lb).
Proof.
  intros u v lb S. unfold learnable. split; intros A B; (eapply mtr_sim; [|apply A; exact B]); auto. now apply ftsim_sym.
Qed.
Lemma gives_dec : forall cond, (forall u lb, {cond u lb} + {~ cond u lb}) -> forall c, {gives cond c} + {~ gives cond c}.
Proof.
  intros cond D c. unfold gives. destruct (ps [] c) as [(u & [lb|])|e|p].
  - destruct (D u lb) as [K|K]; [left; eauto|right]. intros (u' & lb' & X & Y). inversion X; subst. contradiction.
  - right. intros (u' & lb' & X & _). discriminate.
  - right. intros (u' & lb' & X & _). discriminate.
  - right. intros (u' & lb' & X & _). discriminate.
Qed.

(** ** quiet runs *)
Lemma quiet_yes : forall (st : tstate O n) ds chunk, wsok (t_red st) -> Forall looks_new ds -> gives learnable chunk ->
  exists st' ds', train_chunk false quiet ps need (st, ds) chunk = Ok (st', ds') /\ wsok (t_red st') /\ Forall looks_new ds'.
Proof.
  intros st ds chunk W F (u1 & lb1 & E1 & C1). unfold train_chunk. cbn [fst snd].
  destruct (chunk_cases ds chunk F) as [_ X|u0 u X _|u0 u lb X E S G PGu Tf Tl]; try congruence; try (exfalso; eapply X; eauto; fail).
  rewrite X in E1. inversion E1; subst. rewrite E. cbn [unwrap_res bind fst snd].
  destruct (learn_fit _ _ _ W G Tf Tl (proj1 (learnable_sim _ _ _ S) C1)) as (r' & f' & L).
  assert (P : process_example false quiet st u (Some lb1) = Ok (mkTs r' (t_preds st) (t_metrics st) (t_mgr st), f')).
  { unfold process_example. cbn [opt_or bind quiet tm_quiet tm_preds negb orb]. rewrite L. reflexivity. }
  rewrite P. cbn [bind fst snd]. do 2 eexists. split; [reflexivity|]. split; [eapply wsok_step; eauto|].
  apply give_back_new; [|now apply skipn_new]. eapply process_wf; [|exact P]. now apply pgood_wf.
Qed.
Lemma quiet_no : forall (st : tstate O n) ds chunk, wsok (t_red st) -> Forall looks_new ds -> ~ gives learnable chunk ->
  exists p, train_chunk false quiet ps need (st, ds) chunk = Pn p.
Proof.
  intros st ds chunk W F NG. unfold train_chunk. cbn [fst snd].
  destruct (chunk_cases ds chunk F) as [(p & ->) _|u0 u _ ->|u0 u lb X E S G PGu Tf Tl]; cbn [unwrap_res bind fst snd]; eauto.
  - unfold process_example. cbn [opt_or bind]. eauto.
  - rewrite E. cbn [unwrap_res bind fst snd]. unfold process_example. cbn [opt_or bind quiet tm_quiet tm_preds negb orb].
    destruct (learn_unfit _ _ _ W Tf Tl) as (p & ->); [|cbn [bind]; eauto].
    intros C. apply NG. exists u0, lb. split; auto. now apply (learnable_sim _ _ _ S).
Qed.
Lemma quiet_loop : forall chunks (st : tstate O n) ds, wsok (t_red st) -> Forall looks_new ds ->
  (Forall (gives learnable) chunks -> exists x, train_loop false quiet ps need chunks (st, ds) = Ok x) /\
  (~ Forall (gives learnable) chunks -> exists p, train_loop false quiet ps need chunks (st, ds) = Pn p).
Proof.
  induction chunks as [|c chunks IH]; intros st ds W F; unfold train_loop; cbn [foldm].
  - split; [eauto|]. intros Nf. destruct Nf. constructor.
  - destruct (gives_dec learnable learnable_dec c) as [Tr|Nt].
    + destruct (quiet_yes st ds c W F Tr) as (st' & ds' & -> & W' & F'). cbn [bind].
      destruct (IH st' ds' W' F') as (I1 & I2). split.
      * intros Fa. inversion Fa; subst. now apply I1.
      * intros Nf. apply I2. intros Fa. apply Nf. now constructor.
    + destruct (quiet_no st ds c W F Nt) as (p & ->). cbn [bind]. split; [|eauto].
      intros Fa. inversion Fa; contradiction.
Qed.

(** ** with output *)
Definition is_ips (m : metric O) : bool := match m with MIps _ _ => true | _ => false end.
Definition names_action u (lb : label O) : Prop := match lb with LbCb i _ _ => i < num_actions u | _ => True end.
Context (ips : bool).
Definition showable u lb : Prop :=
  learnable u lb /\ (td_out_pred T = PTProbs -> num_actions u <> 0) /\ (ips = true -> names_action u lb).

Lemma showable_dec : forall u lb, {showable u lb} + {~ showable u lb}.
Proof.
  intros u lb. unfold showable. destruct (learnable_dec u lb) as [A|A]; [|right; tauto].
  assert (D1 : {td_out_pred T = PTProbs -> num_actions u <> 0} + {~ (td_out_pred T = PTProbs -> num_actions u <> 0)}).
  { destruct (td_out_pred T); try (left; discriminate). destruct (N.eq_dec (num_actions u) 0); [right|left]; auto. }
  assert (D2 : {ips = true -> names_action u lb} + {~ (ips = true -> names_action u lb)}).
  { destruct ips; [|left; discriminate]. unfold names_action. destruct lb as [? ?|?|i c p]; try (left; auto; fail).
    destruct (i <? num_actions u) eqn:E; [apply N.ltb_lt in E; left; auto|apply N.ltb_ge in E; right; intros X; specialize (X eq_refl); lia]. }
  destruct D1 as [D1|D1]; [|right; tauto]. destruct D2 as [D2|D2]; [left; auto|right; tauto].
Qed.
Lemma showable_sim : forall u v lb, ftsim u v -> (showable u lb <-> showable v lb).
Proof.
  intros u v lb S. unfold showable, names_action. rewrite (learnable_sim _ _ _ S), (acts_sim _ _ S). reflexivity.
Qed.

Lemma adds_ok : forall ms f u lb (pr : prediction O), Forall (msuits T) ms -> label_type_of lb = td_in_label T ->
  pred_type_of pr = td_out_pred T -> acts_in_order u pr -> (td_in_label T = LTSimple -> td_out_pred T = PTScalar) ->
  (existsb is_ips ms = true -> names_action u lb) ->
  exists ms', mapm (fun m => metric_add m f lb pr) ms = Ok ms' /\ Forall (msuits T) ms' /\ Forall mstarted ms' /\ length ms' = length ms /\
    existsb is_ips ms' = existsb is_ips ms.
Proof.
  intros ms f u lb pr F Tl Tp Ha Hs Hi. induction F as [|m ms Hm F IH].
  - exists []. repeat split; constructor.
  - cbn [existsb] in Hi. destruct IH as (ms' & E & S1 & S2 & L & X). { intros Y. apply Hi. rewrite Y. apply orb_true_r. }
    cbn [mapm].
    assert (exists m', metric_add m f lb pr = Ok m' /\ msuits T m' /\ mstarted m' /\ is_ips m' = is_ips m) as (m' & -> & K1 & K2 & K3).
    { destruct m as [v c|c v|c|c]; cbn [metric_add msuits] in *.
      - rewrite Hm in Tl. destruct lb; try discriminate. rewrite (Hs Hm) in Tp. destruct pr; try discriminate.
        cbn [as_simple_label as_scalar bind]. eexists. split; [reflexivity|]. split; [exact Hm|]. split; [exact Logic.I|reflexivity].
      - destruct Hm as (Hl & Hp). rewrite Hp in Tp. destruct pr as [?|?|?|l]; try discriminate.
        rewrite Hl in Tl. destruct lb as [? ?|?|i c0 p0]; try discriminate. specialize (Hi eq_refl). cbn [names_action] in Hi.
        cbn [as_cb_label as_probs bind]. cbn [acts_in_order] in Ha.
        assert (exists x, find (fun q : N * O => fst q =? i) l = Some x) as (x & ->).
        { destruct (find (fun q : N * O => fst q =? i) l) as [x|] eqn:Ef; [eauto|]. exfalso.
          assert (Hin : In i (map fst l)).
          { rewrite Ha. apply in_map_iff. exists (N.to_nat i). split; [lia|]. apply in_seq. lia. }
          apply in_map_iff in Hin. destruct Hin as (q & Hq & Hin). apply (find_none _ _ Ef) in Hin.
          apply N.eqb_neq in Hin. contradiction. }
        cbn [opt_or bind]. eexists. split; [reflexivity|]. split; [split; assumption|]. split; [exact Logic.I|reflexivity].
      - contradiction.
      - eexists. split; [reflexivity|]. split; [exact Logic.I|]. split; [cbn [mstarted]; lia|reflexivity]. }
    cbn [bind]. rewrite E. cbn [bind]. exists (m' :: ms'). split; auto. split; [now constructor|]. split; [now constructor|].
    split; [cbn [length]; now rewrite L|]. cbn [existsb]. congruence.
Qed.
Lemma adds_fail : forall ms f u lb (pr : prediction O) ms', Forall (msuits T) ms -> acts_in_order u pr ->
  existsb is_ips ms = true -> ~ names_action u lb -> mapm (fun m => metric_add m f lb pr) ms <> Ok ms'.
Proof.
  intros ms f u lb pr ms' F Ha Hi NA E. revert ms' Hi E. induction F as [|m ms Hm F IH]; intros ms' Hi E; [discriminate|].
  cbn [mapm existsb] in *. binv E. binv E. destruct (is_ips m) eqn:Em; [|eapply IH; eauto].
  destruct m as [y c|c y|c|c]; try discriminate. cbn [metric_add] in B.
  destruct lb as [? ?|?|i c0 p0]; cbn [names_action] in NA; try (apply NA; exact Logic.I).
  cbn [as_cb_label bind] in B. destruct pr as [?|?|?|l]; try discriminate. cbn [as_probs bind] in B.
  destruct (find (fun q : N * O => fst q =? i) l) as [x|] eqn:Ef; [|discriminate].
  apply find_some in Ef. destruct Ef as (Hin & Hx). apply N.eqb_eq in Hx. apply NA. cbn [acts_in_order] in Ha.
  assert (K : In i (map fst l)) by (subst i; now apply in_map). rewrite Ha in K. apply in_map_iff in K. destruct K as (k & <- & K). apply in_seq in K. lia.
Qed.

Definition outok (st : tstate O n) : Prop := tsok fs n T M st /\ existsb is_ips (t_metrics st) = ips.

Lemma out_yes : forall md (st : tstate O n) ds chunk, negb (tm_quiet md) || tm_preds md = true -> outok st -> Forall looks_new ds ->
  gives showable chunk ->
  exists st' ds', train_chunk false md ps need (st, ds) chunk = Ok (st', ds') /\ outok st' /\ Forall looks_new ds' /\ Forall mstarted (t_metrics st').
Proof.
  intros md st ds chunk Md ((W & U & Fm & Lc) & Hi) F (u1 & lb1 & E1 & C1). unfold train_chunk. cbn [fst snd].
  destruct (chunk_cases ds chunk F) as [_ X|u0 u X _|u0 u lb X E S G PGu Tf Tl]; try congruence; try (exfalso; eapply X; eauto; fail).
  rewrite X in E1. inversion E1; subst u1 lb1. rewrite E. cbn [unwrap_res bind fst snd].
  apply (showable_sim _ _ _ S) in C1. destruct C1 as (C1 & C2 & C3).
  assert (P : exists st' f', process_example false md st u (Some lb) = Ok (st', f') /\ outok st' /\ Forall mstarted (t_metrics st')).
  { unfold process_example. cbn [opt_or bind]. rewrite Md.
    destruct (learn_fit _ _ _ W G Tf Tl C1) as (r' & f2 & L). pose proof W as (I & ET & EM).
    destruct (rel_predict fs n 0 eq_refl (t_red st) u I U G) as (pr & f1 & P & Tp & Ha); [congruence|rewrite ET; exact C2|].
    assert (P' : ws_predict false (t_red st) u = Ok (pr, f1)) by (unfold ws_predict; rewrite P; reflexivity).
    destruct (proj2 (ws_ptl_agrees false n (t_red st) u lb (noelem_ok _ _ (proj1 (proj2 I))) PGu) _ _ _ _ P' L) as (f' & ->).
    cbn [bind]. rewrite ET in Tp.
    destruct (adds_ok (t_metrics st) f' u lb pr Fm Tl Tp Ha) as (ms & Em & S1 & S2 & Ln & Ei).
    { intros Hs. destruct I as (Ty & _). destruct (entry_types _ _ Ty) as [(A & B & C)|[(A & B)|(A & B)]]; congruence. }
    { intros Y. apply C3. congruence. }
    rewrite Em. cbn [bind]. destruct (inc_release (t_mgr st)) as (b & m' & -> & Lm). cbn [bind fst snd].
    destruct (started_value ms S2) as (vs & Ev & Lv).
    assert (exists mg, (if b then let* vs := mapm (metric_value false) ms in add_results vs m' else Ok m') = Ok mg /\ mg_columns mg = mg_columns m') as (mg & -> & Lg).
    { destruct b; [|eauto]. rewrite Ev. cbn [bind]. unfold add_results.
      replace (Nat.eqb (length vs) (mg_columns m')) with true by (symmetry; apply Nat.eqb_eq; congruence). eexists. split; reflexivity. }
    cbn [bind]. do 2 eexists. split; [reflexivity|]. split; [|exact S2].
    split; [|cbn [t_metrics]; congruence]. split; [eapply wsok_step; eauto|]. cbn [t_mgr t_metrics t_red].
    split; [|split; [exact S1|congruence]].
    apply ws_learn_ok in L. rewrite (shape_weighted _ _ _ (learn_shape _ _ _ _ _ _ _ _ _ _ L)). exact U. }
  destruct P as (st' & f' & P & K1 & K2). rewrite P. cbn [bind fst snd]. do 2 eexists. split; [reflexivity|]. split; auto. split; auto.
  apply give_back_new; [|now apply skipn_new]. eapply process_wf; [|exact P]. now apply pgood_wf.
Qed.
Lemma out_no : forall md (st : tstate O n) ds chunk y, negb (tm_quiet md) || tm_preds md = true -> outok st -> Forall looks_new ds ->
  ~ gives showable chunk -> train_chunk false md ps need (st, ds) chunk <> Ok y.
Proof.
  intros md st ds chunk y Md ((W & U & Fm & Lc) & Hi) F NG Y. unfold train_chunk in Y. cbn [fst snd] in Y.
  destruct (chunk_cases ds chunk F) as [(p & Q) _|u0 u _ Q|u0 u lb X E S G PGu Tf Tl]; try (rewrite Q in Y; discriminate).
  rewrite E in Y. cbn [unwrap_res bind fst snd] in Y. binv Y. clear Y. unfold process_example in B. cbn [opt_or bind] in B. rewrite Md in B.
  binv B. destruct v0 as ((pr & r') & f'). rename B0 into Ptl. binv B. rename B0 into Ad. clear B.
  pose proof W as (I & ET & EM).
  destruct (proj1 (ws_ptl_agrees false n (t_red st) u lb (noelem_ok _ _ (proj1 (proj2 I))) PGu) _ _ _ Ptl) as (f1 & f2 & Pr & Le).
  apply NG. exists u0, lb. split; auto. apply (showable_sim _ _ _ S).
  assert (NA : td_out_pred T = PTProbs -> num_actions u <> 0).
  { intros Tp Z. rewrite <- ET in Tp. destruct (predict_no_actions fs n 0 eq_refl (t_red st) u I U G) as (p & P); try congruence.
    unfold ws_predict in Pr. rewrite P in Pr. discriminate. }
  split; [|split; [exact NA|]].
  - destruct (learnable_dec u lb) as [D|D]; auto. destruct (learn_unfit _ _ _ W Tf Tl D) as (p & P). congruence.
  - intros Hips. destruct (rel_predict fs n 0 eq_refl (t_red st) u I U G) as (pr' & g1 & P & Tp & Ha); [congruence|rewrite ET; exact NA|].
    unfold ws_predict in Pr. rewrite P in Pr. cbn [bind] in Pr. inversion Pr; subst pr'.
    assert (D : {names_action u lb} + {~ names_action u lb}).
    { unfold names_action. destruct lb as [? ?|?|i c p]; try (left; exact Logic.I). destruct (i <? num_actions u) eqn:E0; [left; now apply N.ltb_lt|right; apply N.ltb_ge in E0; lia]. }
    destruct D as [D|D]; auto. exfalso. eapply adds_fail; [exact Fm|exact Ha| |exact D|exact Ad]. congruence.
Qed.
Lemma out_loop : forall md chunks (st : tstate O n) ds, negb (tm_quiet md) || tm_preds md = true -> outok st -> Forall looks_new ds ->
  (Forall (gives showable) chunks -> exists st' ds', train_loop false md ps need chunks (st, ds) = Ok (st', ds') /\ outok st' /\
     (chunks <> [] -> Forall mstarted (t_metrics st'))) /\
  (forall x, train_loop false md ps need chunks (st, ds) = Ok x -> Forall (gives showable) chunks).
Proof.
  intros md chunks st ds Md. revert st ds. induction chunks as [|c chunks IH]; intros st ds S F; unfold train_loop; cbn [foldm].
  - split; [|constructor]. intros _. do 2 eexists. split; [reflexivity|]. split; auto. congruence.
  - destruct (gives_dec showable showable_dec c) as [Tr|Nt].
    + destruct (out_yes md st ds c Md S F Tr) as (st' & ds' & -> & S' & F' & K). cbn [bind].
      destruct (IH st' ds' S' F') as (I1 & I2). split.
      * intros Fa. inversion Fa; subst. destruct (I1 H2) as (st2 & ds2 & E2 & S2 & K2). exists st2, ds2. split; auto. split; auto.
        intros _. destruct chunks as [|c' chunks]; [inversion E2; subst; auto|]. apply K2. discriminate.
      * intros x E. constructor; auto. eapply I2; eauto.
    + split; [intros Fa; inversion Fa; contradiction|]. intros x E. binv E. exfalso. eapply out_no; eauto.
Qed.
End Run.
End Gen.

(** ** what the parsers accept *)
Section Accept.
Context {O : FOps} (H : hasher) (seed nb : N) (Hb : nb < 32) (rd : str -> option (json O)) (al : alloc).

Definition shape (u : features O) (lb : label O) (sh : bool) (k : nat) (i : N) : Prop :=
  match u, lb with
  | FtsSimple _, LbSimple _ _ => sh = false /\ k = 0%nat /\ i = 0
  | FtsCb s x, LbCb j _ _ => sh = match s with Some _ => true | None => false end /\ k = length x /\ i = j
  | _, _ => False
  end.

Lemma object_iff : forall v, no_lists v ->
  ((exists o, to_features O H false seed nb al v (cobj_new O) = Ok o) <-> feature_object H seed v).
Proof.
  intros v NL. assert (P : pooled (fst (cobj_new O))) by (left; reflexivity). split.
  - intros (o & E). destruct (features_ok H false seed nb al v _ o Hb P E) as (nss & D & F & _). exists nss. auto.
  - intros (nss & D & F). eapply features_accepted; eauto. now left.
Qed.
Lemma object_ok : forall v o, to_features O H false seed nb al v (cobj_new O) = Ok o -> feature_object H seed v.
Proof.
  intros v o E. assert (P : pooled (fst (cobj_new O))) by (left; reflexivity). destruct (features_ok H false seed nb al v _ o Hb P E) as (nss & D & F & _). exists nss. auto.
Qed.
Lemma object_not_null : forall v : json O, feature_object H seed v -> v <> JNull.
Proof. intros v (nss & (l & -> & _) & _). discriminate. Qed.

Lemma actions_ok : forall l xs, json_actions O H false seed nb al l [] = Ok xs -> Forall (feature_object H seed) l /\ length xs = length l.
Proof.
  induction l as [|a l IH]; intros xs E; cbn [json_actions hd tl] in E; [inversion E; split; [constructor|reflexivity]|].
  binv E. binv E. inversion E; subst. apply object_ok in B. destruct (IH _ B0) as (F & L). split; [now constructor|]. cbn [length]. now rewrite L.
Qed.
Lemma actions_accepted : forall l, Forall no_lists l -> Forall (feature_object H seed) l -> exists xs, json_actions O H false seed nb al l [] = Ok xs /\ length xs = length l.
Proof.
  intros l NL F. induction F as [|a l Fa F IH]; [exists []; auto|]. inversion NL; subst. cbn [json_actions hd tl].
  destruct (proj2 (object_iff a H2) Fa) as (o & ->). cbn [bind]. destruct (IH H3) as (xs & -> & L). cbn [bind].
  eexists. split; [reflexivity|]. cbn [length]. now rewrite L.
Qed.

Lemma json_iff : forall ft lt c, (ft = FTSimple /\ lt = LTSimple) \/ (ft = FTSimple /\ lt = LTBinary) \/ (ft = FTCb /\ lt = LTCb) ->
  no_string_lists rd FmtJson ft c -> forall sh k i,
  ((exists u lb, json_example O H false seed nb al rd ft lt [] c = Ok (u, Some lb) /\ shape u lb sh k i) <->
   exists v, rd c = Some v /\ labelled H seed v FmtJson lt sh k i).
Proof.
  intros ft lt c Ty NL sh k i. split.
  - intros (u & lb & E & S). unfold json_example in E. binv E. destruct v as (x & lb'). cbn [fst snd] in E. inversion E; subst. clear E.
    apply json_chunk_label in B. destruct B as (v & Rd & F & L). exists v. split; auto.
    destruct Ty as [(-> & ->)|[(-> & ->)|(-> & ->)]].
    + cbn [json_fts shape] in S. destruct lb as [a w|?|? ? ?]; try contradiction. destruct S as (-> & -> & ->).
      unfold json_features in F.
      assert (Nn : jget s_features v <> JNull) by (intros Z; rewrite Z in F; discriminate).
      assert (Q : exists o, to_features O H false seed nb al (jget s_features v) (cobj_new O) = Ok o).
      { destruct (jget s_features v); try discriminate; binv F; eauto. }
      destruct Q as (o & Q). apply object_ok in Q. eapply lx_simple; [apply jget_first; eauto|exact Q|exact L].
    + inversion L; congruence.
    + cbn [json_fts shape] in S. destruct lb as [a w|?|j cc p]; try contradiction.
      unfold json_features in F. binv F. destruct v0 as (s & ds). cbn [fst snd] in F.
      destruct (jget s_actions v) as [| | | |l|] eqn:EA; try discriminate. binv F. inversion F; subst. clear F. cbn [fst snd] in S.
      rewrite map_length in S. destruct S as (-> & Ek & ->).
      assert (K : (jget str_shared v = JNull /\ s = None /\ ds = []) \/
                  (jget str_shared v <> JNull /\ ds = [] /\ exists o, s = Some o /\ to_features O H false seed nb al (jget str_shared v) (cobj_new O) = Ok o)).
      { destruct (jget str_shared v); try (right; split; [discriminate|]; binv B; inversion B; subst; split; [reflexivity|]; eauto; fail).
        left. inversion B; auto. }
      destruct K as [(Esh & -> & ->)|(Nsh & -> & o & -> & Eo)]; cbn [option_map]; apply actions_ok in B0; destruct B0 as (Fa & Le); rewrite (eq_trans Ek Le).
      * eapply lx_no_shared; [apply jget_null; exact Esh|apply jget_first; eauto; discriminate|exact Fa|exact L].
      * eapply lx_shared; [apply jget_first; [exact Nsh|reflexivity]|eapply object_ok; exact Eo|apply jget_first; eauto; discriminate|exact Fa|exact L].
  - intros (v & Rd & L). pose proof (NL eq_refl v Rd) as N1.
    assert (W : forall x lb, json_features O H false seed nb al ft v [] = Ok x -> label_in lt v lb ->
              json_example O H false seed nb al rd ft lt [] c = Ok (json_fts O ft x, lb)).
    { intros x lb F Lb. unfold json_example. rewrite (proj2 (json_chunk_label H false seed nb al rd ft lt [] c x lb)); [reflexivity|eauto]. }
    inversion L as [x lb FE FO LB|l j cc p FS FE FO LB|x l j cc p FS FX FE FO LB|]; subst;
      destruct Ty as [(Tf & Tl)|[(Tf & Tl)|(Tf & Tl)]]; try discriminate; subst.
    + cbn [json_parts] in N1. apply Forall_inv in N1. pose proof (object_not_null _ FO) as Nn. apply jget_first in FE; auto.
      rewrite FE in N1. destruct (proj2 (object_iff x N1) FO) as (o & E).
      assert (J : json_features O H false seed nb al FTSimple v [] = Ok ([o], None)).
      { cbn [json_features hd]. rewrite FE. destruct x; try (now destruct Nn); rewrite E; reflexivity. }
      assert (S : shape (json_fts O FTSimple ([o], None)) lb false 0 0) by (inversion LB; cbn; auto).
      do 2 eexists. split; [exact (W _ _ J LB)|exact S].
    + apply jget_null in FS. apply jget_first in FE; [|discriminate]. cbn [json_parts] in N1. rewrite FE in N1. inversion N1; subst.
      destruct (actions_accepted l H3 FO) as (xs & E & Len).
      do 2 eexists. split; [eapply W; [|exact LB]|].
      { cbn [json_features]. rewrite FS. cbn [bind snd fst]. rewrite FE, E. reflexivity. }
      cbn [json_fts fst snd option_map shape]. rewrite map_length. auto.
    + pose proof (object_not_null _ FX) as Nn. apply jget_first in FS; auto. apply jget_first in FE; [|discriminate].
      cbn [json_parts] in N1. rewrite FS, FE in N1. pose proof (Forall_inv N1) as H2. pose proof (Forall_inv_tail N1) as H3.
      destruct (proj2 (object_iff x H2) FX) as (o & Eo). destruct (actions_accepted l H3 FO) as (xs & E & Len).
      do 2 eexists. split; [eapply W; [|exact LB]|].
      { cbn [json_features hd tl]. rewrite FS, FE. destruct x; try (now destruct Nn); rewrite Eo; cbn [bind snd fst]; rewrite E; reflexivity. }
      cbn [json_fts fst snd option_map shape]. rewrite map_length. auto.
Qed.

Lemma context_iff : forall v, (exists f st, ds_handle O H false seed nb v str_space sf_new [] = Ok (f, st)) <-> context_object v.
Proof. intros v. apply (root_accepts H false seed nb v sf_new Hb). discriminate. Qed.
Lemma context_stack : forall v f st, ds_handle O H false seed nb v str_space sf_new [] = Ok (f, st) -> st = [].
Proof. intros v f st E. apply (root_ok H false seed nb v sf_new) in E; auto; [apply E|left; reflexivity]. Qed.
Lemma service_actions_ok : forall l xs, ds_actions O H false seed nb l [] = Ok xs -> Forall context_object l /\ length xs = length l.
Proof.
  induction l as [|a l IH]; intros xs E; cbn [ds_actions hd tl] in E; [inversion E; split; [constructor|reflexivity]|].
  binv E. binv E. binv E. inversion E; subst. destruct v as (f & st). destruct (IH _ B1) as (F & L).
  split; [constructor; auto; apply context_iff; eauto|]. cbn [length]. now rewrite L.
Qed.
Lemma service_actions_accepted : forall l, Forall context_object l -> exists xs, ds_actions O H false seed nb l [] = Ok xs /\ length xs = length l.
Proof.
  intros l F. induction F as [|a l Fa F (xs & E & L)]; [exists []; auto|]. cbn [ds_actions hd tl].
  apply context_iff in Fa. destruct Fa as (f & st & Ea). rewrite Ea. cbn [bind fst snd]. rewrite (context_stack _ _ _ Ea). cbn [bind].
  rewrite E. cbn [bind]. eexists. split; [reflexivity|]. cbn [length]. now rewrite L.
Qed.
Lemma marks_iff : forall v i c p, ds_label O v = Ok (Some (LbCb i c p)) <-> ds_marks v (Some (i, c, p)).
Proof.
  intros v i c p. unfold ds_label. split.
  - intros E. destruct (jget s_label_cost v) as [| |a1| | |] eqn:E1; try discriminate;
      destruct (jget s_label_prob v) as [| |a2| | |] eqn:E2; try discriminate; destruct (jget s_label_index v) as [| |a3| | |] eqn:E3; try discriminate.
    binv E. destruct (jn_u64 a3) as [j|] eqn:E4; [|discriminate]. cbn in B. inversion B; inversion E; subst.
    constructor 2 with a3; auto; apply jget_first; auto; discriminate.
  - intros M. inversion M as [|a1 a2 a3 ? F1 F2 F3 U]; subst.
    apply jget_first in F1; [|discriminate]. apply jget_first in F2; [|discriminate]. apply jget_first in F3; [|discriminate].
    rewrite F1, F2, F3, U. reflexivity.
Qed.
Lemma service_iff : forall c sh k i,
  ((exists u lb, ds_chunk O H false seed nb rd [] c = Ok (u, Some lb) /\ shape u lb sh k i) <->
   exists v, rd c = Some v /\ labelled H seed v FmtDs LTCb sh k i).
Proof.
  intros c sh k i. split.
  - intros (u & lb & E & S). unfold ds_chunk, ds_value in E. binv E. destruct (rd c) as [w|]; [|discriminate]. cbn in B. inversion B; subst w.
    exists v. split; auto. binv E. destruct v0 as (f & st). cbn [fst snd] in E. cbn [hd] in B0. binv E.
    destruct (jget s_multi (jget s_c v)) as [| | | |l|] eqn:Em; try discriminate. cbn [bind] in E. binv E. binv E. inversion E; subst. clear E.
    cbn [shape] in S. destruct lb as [|?|j cc p]; try contradiction. destruct S as (-> & -> & ->).
    cbn [tl] in B2. apply service_actions_ok in B2. destruct B2 as (F & ->).
    assert (C : context_object (jget s_c v)) by (apply context_iff; eauto).
    eapply lx_service with (x := jget s_c v); [apply jget_first; auto; intros Z; rewrite Z in C; destruct C as (_ & []) |exact C|apply jget_first; auto; discriminate|exact F|].
    apply marks_iff. exact B3.
  - intros (v & Rd & L). inversion L as [| | |x l j cc p FC CO FM FA DM]; subst.
    assert (Nn : x <> JNull) by (intros ->; destruct CO as (_ & [])).
    apply jget_first in FC; auto. apply jget_first in FM; [|discriminate]. apply context_iff in CO. destruct CO as (f & st & E).
    destruct (service_actions_accepted l FA) as (xs & Ea & Len). apply marks_iff in DM.
    do 2 eexists. split.
    { unfold ds_chunk. rewrite Rd. cbn [opt_or bind]. unfold ds_value. rewrite FC. cbn [hd tl]. rewrite E. cbn [bind fst snd].
      rewrite (context_stack _ _ _ E). cbn [bind]. rewrite FM. cbn [bind]. rewrite Ea. cbn [bind]. rewrite DM. reflexivity. }
    cbn [shape]. auto.
Qed.
End Accept.

(** ** the command *)
Section Cmd.
Context {O : FOps} (FO : ford O) (H : hasher) (pf : str -> option O) (rd : str -> option (json O)) (al : alloc).

Lemma shape_mtr : forall (u : features O) lb sh k i, shape u lb sh k i -> (mtr_example u lb <-> sh = true /\ (N.to_nat i < k)%nat).
Proof.
  intros u lb sh k i S. split.
  - intros (s & x & j & c & p & -> & -> & L). cbn [shape] in S. destruct S as (-> & -> & ->). auto.
  - intros (-> & L). destruct u as [a|[s|] x], lb as [? ?|?|j c p]; cbn [shape] in S; try tauto; try (destruct S; discriminate).
    destruct S as (_ & -> & ->). repeat eexists. exact L.
Qed.
Lemma some_shape : forall (u : features O) lb, (feat_type_of u = FTSimple /\ label_type_of lb = LTSimple) \/ (feat_type_of u = FTCb /\ label_type_of lb = LTCb) ->
  exists sh k i, shape u lb sh k i.
Proof.
  intros u lb [(A & B)|(A & B)]; destruct u as [a|s x], lb as [? ?|?|j c p]; try discriminate; cbn [shape]; repeat eexists.
Qed.

Section Stack.
Context (gc : gconfig) (Hb : gc_bits gc < 32) (c : rcfg O) (R : anyred O) (r : red O (projT1 R))
  (E : ws_new H false gc c = Ok R) (Q : reach false (projT2 R) r) (U : uses_elem (projT2 R) = false).
Let T := red_types (projT2 R).
Let M := uses_mtr (projT2 R).

Lemma types_pair : (td_in_feats T = FTSimple /\ td_in_label T = LTSimple) \/ (td_in_feats T = FTSimple /\ td_in_label T = LTBinary) \/ (td_in_feats T = FTCb /\ td_in_label T = LTCb).
Proof.
  destruct (bits_release (gc_bits gc)) as (fs & Hf). destruct (reach_inv FO _ _ _ _ _ _ _ E Q Hf U) as ((Ty & _) & ET & _).
  unfold T. rewrite <- ET. destruct (entry_types _ _ Ty) as [(A & B & _)|[(A & B)|(A & B)]]; auto.
Qed.
Lemma scalar_out : td_in_label T <> LTCb -> td_out_pred T <> PTProbs.
Proof.
  destruct (bits_release (gc_bits gc)) as (fs & Hf). destruct (reach_inv FO _ _ _ _ _ _ _ E Q Hf U) as ((Ty & _) & ET & _).
  unfold T. rewrite <- ET. intros L. destruct (entry_types _ _ Ty) as [(A & B & C)|[(A & B)|(A & B)]]; try congruence.
  rewrite (binary_preds _ _ Ty B). discriminate.
Qed.

(** the two parsers *)
Context (fmt : format) (NT : fmt <> FmtText).
Definition fparse : parser O := match fmt with
  | FmtDs => ds_parser H false (gc_seed gc) (gc_bits gc) rd
  | _ => json_parser H false (gc_seed gc) (gc_bits gc) rd al r
  end.
Lemma fparse_ok : parser_ok fparse.
Proof. unfold fparse. destruct fmt; [congruence|apply ds_parser_ok|apply json_parser_ok]. Qed.
Lemma fparse_good : forall fs, bits_to_max_feature_index false (gc_bits gc) = Ok fs ->
  forall ds chunk u lb, Forall looks_new ds -> fparse ds chunk = Ok (u, lb) -> rgood fs u.
Proof.
  intros fs Hf ds chunk u lb F P. unfold fparse in P. destruct fmt; [congruence| |].
  - eapply ds_rgood; [exact Hf|exact F|exact P].
  - eapply json_rgood; [exact Hf| |exact P]. clear -F. induction F; constructor; auto.
Qed.
Lemma ert : red_types r = T.
Proof. destruct (bits_release (gc_bits gc)) as (fs & Hf). destruct (reach_inv FO _ _ _ _ _ _ _ E Q Hf U) as (_ & ET & _). exact ET. Qed.

Context (DC : fmt = FmtDs -> td_in_label T = LTCb).
Lemma fparse_iff : forall ch, no_string_lists rd fmt (td_in_feats T) ch -> forall sh k i,
  ((exists u lb, fparse [] ch = Ok (u, Some lb) /\ shape u lb sh k i) <->
   exists v, rd ch = Some v /\ labelled H (gc_seed gc) v fmt (td_in_label T) sh k i).
Proof.
  intros ch NL sh k i. unfold fparse. destruct fmt; [congruence| |].
  - rewrite (DC eq_refl). apply service_iff; auto.
  - unfold json_parser. rewrite ert. apply json_iff; auto. apply types_pair.
Qed.
Lemma json_types : forall ft lt ch u lb, json_example O H false (gc_seed gc) (gc_bits gc) al rd ft lt [] ch = Ok (u, Some lb) ->
  feat_type_of u = ft /\ label_type_of lb = lt.
Proof.
  intros ft lt ch u lb P. unfold json_example in P. binv P. destruct v as (x & lb'). cbn [fst snd] in P. inversion P; subst.
  apply json_chunk_label in B. destruct B as (v & _ & _ & L). split; [destruct ft; reflexivity|]. inversion L; reflexivity.
Qed.
Lemma fparse_types : forall ch u lb, fparse [] ch = Ok (u, Some lb) -> feat_type_of u = td_in_feats T /\ label_type_of lb = td_in_label T.
Proof.
  intros ch u lb P. unfold fparse in P. destruct fmt; [congruence| |].
  - assert (Hl := DC eq_refl). destruct types_pair as [(A & B)|[(A & B)|(A & B)]]; try congruence. rewrite A, B.
    unfold ds_parser, ds_chunk, ds_value in P. binv P. binv P. binv P. binv P. binv P. binv P. inversion P; subst. split; auto.
    unfold ds_label in B5. destruct (jget s_label_cost v); try discriminate; destruct (jget s_label_prob v); try discriminate; destruct (jget s_label_index v); try discriminate.
    binv B5. inversion B5. reflexivity.
  - unfold json_parser in P. cbn [map] in P. rewrite ert in P. eapply json_types; eauto.
Qed.
Lemma fparse_shape : forall ch u lb, fparse [] ch = Ok (u, Some lb) -> exists sh k i, shape u lb sh k i.
Proof.
  intros ch u lb P. destruct (fparse_types _ _ _ P) as (A & B). apply some_shape.
  destruct types_pair as [(A' & B')|[(A' & B')|(A' & B')]]; rewrite A' in A; rewrite B' in B; auto.
  exfalso. unfold fparse in P. destruct fmt; [congruence| |].
  - rewrite (DC eq_refl) in B'. discriminate.
  - unfold json_parser, json_example in P. binv P. rewrite ert, B' in B0. eapply json_no_binary; eauto.
Qed.

Lemma trains_iff : forall ch, no_string_lists rd fmt (td_in_feats T) ch ->
  (gives fparse (learnable M) ch <-> line_trains H (gc_seed gc) rd fmt (td_in_label T) M ch).
Proof.
  intros ch NL. split.
  - intros (u & lb & P & L). destruct (fparse_shape _ _ _ P) as (sh & k & i & S).
    destruct (proj1 (fparse_iff ch NL sh k i)) as (v & Rd & Lx); [eauto|]. exists v, sh, k, i. split; auto. split; auto.
    intros Hm. apply (shape_mtr _ _ _ _ _ S). auto.
  - intros (v & sh & k & i & Rd & Lx & K). destruct (proj2 (fparse_iff ch NL sh k i)) as (u & lb & P & S); [eauto|].
    exists u, lb. split; auto. intros Hm. apply (shape_mtr _ _ _ _ _ S). auto.
Qed.
Lemma shows_iff : forall names ips ch, (ips = true <-> In name_ips names) -> (In name_ips names -> td_in_label T = LTCb) ->
  no_string_lists rd fmt (td_in_feats T) ch ->
  (gives fparse (showable T M ips) ch <-> line_shows H (gc_seed gc) rd fmt T M names ch).
Proof.
  intros names ips ch HI HL NL. split.
  - intros (u & lb & P & L & L2 & L3). destruct (fparse_shape _ _ _ P) as (sh & k & i & S). destruct (fparse_types _ _ _ P) as (Tf & Tl).
    destruct (proj1 (fparse_iff ch NL sh k i)) as (v & Rd & Lx); [eauto|]. exists v, sh, k, i. split; auto. split; auto.
    split; [intros Hm; apply (shape_mtr _ _ _ _ _ S); auto|]. split.
    + intros Hp. specialize (L2 Hp). destruct u as [a|s x], lb as [? ?|?|j cc p]; cbn [shape] in S; try contradiction.
      destruct S as (_ & -> & _). cbn [num_actions] in L2. intros Z. rewrite Z in L2. now apply L2.
    + intros Hn. pose proof (HL Hn) as Hcb. apply HI in Hn. specialize (L3 Hn). rewrite Hcb in Tl.
      destruct u as [a|s x], lb as [? ?|?|j cc p]; cbn [shape] in S; try contradiction; try discriminate.
      destruct S as (_ & -> & ->). cbn [names_action num_actions] in L3. lia.
  - intros (v & sh & k & i & Rd & Lx & K1 & K2 & K3). destruct (proj2 (fparse_iff ch NL sh k i)) as (u & lb & P & S); [eauto|].
    destruct (fparse_types _ _ _ P) as (Tf & Tl).
    exists u, lb. split; auto. split; [intros Hm; apply (shape_mtr _ _ _ _ _ S); auto|]. split.
    + intros Hp. specialize (K2 Hp). destruct u as [a|s x], lb as [? ?|?|j cc p]; cbn [shape] in S; try contradiction.
      * exfalso. apply scalar_out; [|exact Hp]. intros Z. rewrite Z in Tl. discriminate.
      * destruct S as (_ & -> & _). cbn [num_actions]. lia.
    + intros Hn. apply HI in Hn. specialize (K3 Hn). destruct u as [a|s x], lb as [? ?|?|j cc p]; cbn [shape] in S; try contradiction; [exact Logic.I|].
      destruct S as (_ & -> & ->). cbn [names_action num_actions]. lia.
Qed.
End Stack.

Lemma forall_iff : forall A (P1 P2 : A -> Prop) l, (forall x, In x l -> (P1 x <-> P2 x)) -> (Forall P1 l <-> Forall P2 l).
Proof.
  intros A P1 P2 l K. rewrite !Forall_forall. split; intros F x Hx; apply K; auto.
Qed.

Lemma get_fparse : forall gc fmt n (r : red O n), fmt <> FmtText ->
  (fmt = FmtDs -> td_in_label (red_types r) = LTCb /\ td_in_feats (red_types r) = FTCb) ->
  exists need, get_parser H pf rd al false fmt gc r = Ok (match fmt with FmtDs => ds_parser H false (gc_seed gc) (gc_bits gc) rd | _ => json_parser H false (gc_seed gc) (gc_bits gc) rd al r end, need).
Proof.
  intros gc fmt n r NT K. destruct fmt; [congruence| |]; cbn [get_parser]; [|eauto].
  destruct (K eq_refl) as (A & B). unfold ds_create. rewrite A, B. cbn [bind]. eauto.
Qed.

Lemma json_quiet_cases : forall gc (c : rcfg O) R r fmt names (p : period O) text cs,
  gc_bits gc < 32 -> ws_new H false gc c = Ok R -> reach false (projT2 R) r -> uses_elem (projT2 R) = false ->
  fmt <> FmtText -> Forall (fun nm => @get_metric O nm <> None) names ->
  full_lines text cs -> Forall (no_string_lists rd fmt (td_in_feats (red_types (projT2 R)))) cs ->
  let run := train_from H pf rd al false (mkOpts fmt (mkMode true false) names p) gc r text in
  let fine := (fmt = FmtDs -> td_in_label (red_types (projT2 R)) = LTCb) /\
    Forall (line_trains H (gc_seed gc) rd fmt (td_in_label (red_types (projT2 R))) (uses_mtr (projT2 R))) cs in
  (fine -> exists rep, run = Ok rep) /\ (~ fine -> exists e, run = Pn e).
Proof.
  intros gc c R r fmt names p text cs Hb E Q U NT FN FL NL. cbv zeta.
  destruct (bits_release (gc_bits gc)) as (fs & Hf). destruct (reach_inv FO _ _ _ _ _ _ _ E Q Hf U) as (I & T & Mt).
  unfold train_from. cbn [op_format op_mode op_metrics op_period].
  assert (D : {fmt = FmtDs -> td_in_label (red_types (projT2 R)) = LTCb} + {~ (fmt = FmtDs -> td_in_label (red_types (projT2 R)) = LTCb)}).
  { destruct fmt; try (left; discriminate). destruct (td_in_label (red_types (projT2 R))); [right|right|left]; auto; intros X; specialize (X eq_refl); discriminate. }
  destruct D as [DC|DC].
  2: { split; [tauto|]. intros _. destruct fmt; try (exfalso; apply DC; discriminate).
       cbn [get_parser]. unfold ds_create. rewrite T.
       destruct (td_in_feats (red_types (projT2 R))); cbn [bind]; [eauto|]. destruct (td_in_label (red_types (projT2 R))) eqn:El; cbn [bind]; eauto.
       exfalso. auto. }
  destruct (get_fparse gc fmt _ r NT) as (need & ->).
  { intros Hd. rewrite T. split; auto. destruct (types_pair gc c R r E Q U) as [(A & B)|[(A & B)|(A & B)]]; auto; specialize (DC Hd); congruence. }
  cbn [bind fst snd]. destruct (start_ok names p _ r FN) as (st & -> & R0 & _). cbn [bind].
  destruct (chunks_pieces O fmt _ r text) as (cs' & -> & Pc). cbn [opt_or bind].
  assert (cs' = cs) as ->.
  { eapply pieces_fun; [exact Pc|]. destruct fmt; [congruence|exact FL|exact FL]. }
  assert (W : wsok fs (projT1 R) (red_types (projT2 R)) (uses_mtr (projT2 R)) (t_red st)) by (rewrite R0; split; auto).
  change (match fmt with FmtDs => ds_parser H false (gc_seed gc) (gc_bits gc) rd | _ => json_parser H false (gc_seed gc) (gc_bits gc) rd al r end) with (fparse gc R r fmt).
  destruct (quiet_loop FO fs (projT1 R) (red_types (projT2 R)) (uses_mtr (projT2 R)) (fparse gc R r fmt) need
    (fparse_ok gc R r fmt NT) (fparse_good gc R r fmt NT fs Hf) (fparse_types gc c R r E Q U fmt NT DC) cs st [] W (Forall_nil _)) as (A & B).
  change (mkMode true false) with quiet.
  assert (FI : Forall (gives (fparse gc R r fmt) (learnable (uses_mtr (projT2 R)))) cs <->
               Forall (line_trains H (gc_seed gc) rd fmt (td_in_label (red_types (projT2 R))) (uses_mtr (projT2 R))) cs).
  { apply forall_iff. intros ch Hch. apply (trains_iff gc Hb c R r E Q U fmt NT DC). eapply Forall_forall in NL; eauto. }
  split.
  - intros (_ & Fc). destruct (A (proj2 FI Fc)) as (x & ->). cbn [bind]. unfold train_end. cbn [quiet tm_quiet bind]. eauto.
  - intros Nf. destruct B as (e & ->); [|cbn [bind]; eauto]. intros X. apply Nf. split; auto. now apply FI.
Qed.

(** ** with output *)
Lemma start_ips : forall t names (p : period O) n (r : red O n), Forall (metric_suits t) names ->
  exists st, train_start names p r = Ok st /\ t_red st = r /\ Forall (msuits t) (t_metrics st) /\
    mg_columns (t_mgr st) = length (t_metrics st) /\ (existsb is_ips (t_metrics st) = true <-> In name_ips names) /\
    (exists ms, t_metrics st = MExample 0 :: ms).
Proof.
  intros t names p n r F. unfold train_start. cbn [mapm].
  replace (@get_metric O name_example) with (Some (@example_new O)) by reflexivity. cbn [opt_or bind].
  assert (Q : exists ms, mapm (fun name => opt_or PNone (@get_metric O name)) names = Ok ms /\ Forall (msuits t) ms /\
    (existsb is_ips ms = true <-> In name_ips names)).
  { induction F as [|x l Hx F (ms & Em & Fm & Ei)]; [exists []; split; [reflexivity|]; split; [constructor|]; split; [discriminate|intros []]|]. cbn [mapm].
    destruct Hx as [->|[(-> & Hl)|(-> & Hl & Hp)]]; cbn [get_metric]; rewrite Em;
      (eexists; split; [reflexivity|split; [constructor; [|exact Fm]; simpl; auto|]]); cbn [existsb is_ips orb]; rewrite ?Ei;
      split; intros K; try (now right); try (now left); try reflexivity; destruct K as [K|K]; auto; discriminate. }
  destruct Q as (ms & -> & Fm & Ei). cbn [bind]. eexists. split; [reflexivity|]. cbn [t_red t_metrics t_mgr].
  split; auto. split; [constructor; [exact Logic.I|exact Fm]|]. split; [reflexivity|]. split; [exact Ei|]. eexists. reflexivity.
Qed.

Lemma json_output_iff : forall gc (c : rcfg O) R r fmt md names (p : period O) text cs,
  gc_bits gc < 32 -> ws_new H false gc c = Ok R -> reach false (projT2 R) r -> uses_elem (projT2 R) = false -> uses_weighted (projT2 R) = false ->
  fmt <> FmtText -> Forall (metric_suits (red_types (projT2 R))) names -> tm_quiet md = false \/ tm_preds md = true ->
  full_lines text cs -> Forall (no_string_lists rd fmt (td_in_feats (red_types (projT2 R)))) cs ->
  ((exists rep, train_from H pf rd al false (mkOpts fmt md names p) gc r text = Ok rep) <->
   (fmt = FmtDs -> td_in_label (red_types (projT2 R)) = LTCb) /\
   Forall (line_shows H (gc_seed gc) rd fmt (red_types (projT2 R)) (uses_mtr (projT2 R)) names) cs /\
   (tm_quiet md = false -> cs <> [])).
Proof.
  intros gc c R r fmt md names p text cs Hb E Q U Uw NT FN Md FL NL.
  destruct (bits_release (gc_bits gc)) as (fs & Hf). destruct (reach_inv FO _ _ _ _ _ _ _ E Q Hf U) as (I & T & Mt).
  unfold train_from. cbn [op_format op_mode op_metrics op_period].
  assert (Md' : negb (tm_quiet md) || tm_preds md = true) by (destruct Md as [-> | ->]; [reflexivity|apply orb_true_r]).
  assert (D : {fmt = FmtDs -> td_in_label (red_types (projT2 R)) = LTCb} + {~ (fmt = FmtDs -> td_in_label (red_types (projT2 R)) = LTCb)}).
  { destruct fmt; try (left; discriminate). destruct (td_in_label (red_types (projT2 R))); [right|right|left]; auto; intros X; specialize (X eq_refl); discriminate. }
  destruct D as [DC|DC].
  2: { split; [|tauto]. intros (rep & X). exfalso. destruct fmt; try (apply DC; discriminate).
       cbn [get_parser] in X. unfold ds_create in X. rewrite T in X.
       destruct (td_in_feats (red_types (projT2 R))); cbn [bind] in X; [discriminate|]. destruct (td_in_label (red_types (projT2 R))) eqn:El; cbn [bind] in X; try discriminate.
       auto. }
  destruct (get_fparse gc fmt _ r NT) as (need & ->).
  { intros Hd. rewrite T. split; auto. destruct (types_pair gc c R r E Q U) as [(A & B)|[(A & B)|(A & B)]]; auto; specialize (DC Hd); congruence. }
  cbn [bind fst snd]. destruct (start_ips (red_types (projT2 R)) names p _ r FN) as (st & -> & R0 & Fm & Lc & Ei & Ex). cbn [bind].
  destruct (chunks_pieces O fmt _ r text) as (cs' & -> & Pc). cbn [opt_or bind].
  assert (cs' = cs) as ->.
  { eapply pieces_fun; [exact Pc|]. destruct fmt; [congruence|exact FL|exact FL]. }
  assert (W : wsok fs (projT1 R) (red_types (projT2 R)) (uses_mtr (projT2 R)) (t_red st)) by (rewrite R0; split; auto).
  assert (So : outok fs (projT1 R) (red_types (projT2 R)) (uses_mtr (projT2 R)) (existsb is_ips (t_metrics st)) st).
  { split; [|reflexivity]. split; [exact W|]. split; [|auto]. rewrite R0, (shape_weighted _ _ _ (reach_shape _ _ _ _ Q)). exact Uw. }
  change (match fmt with FmtDs => ds_parser H false (gc_seed gc) (gc_bits gc) rd | _ => json_parser H false (gc_seed gc) (gc_bits gc) rd al r end) with (fparse gc R r fmt).
  destruct (out_loop FO fs (projT1 R) (red_types (projT2 R)) (uses_mtr (projT2 R)) (fparse gc R r fmt) need
    (fparse_ok gc R r fmt NT) (fparse_good gc R r fmt NT fs Hf) (fparse_types gc c R r E Q U fmt NT DC) _ md cs st [] Md' So (Forall_nil _)) as (A & B).
  assert (HL : In name_ips names -> td_in_label (red_types (projT2 R)) = LTCb).
  { intros Hn. eapply Forall_forall in FN; [|exact Hn]. destruct FN as [X|[(X & _)|(_ & X & _)]]; auto; discriminate. }
  assert (FI : Forall (gives (fparse gc R r fmt) (showable (red_types (projT2 R)) (uses_mtr (projT2 R)) (existsb is_ips (t_metrics st)))) cs <->
               Forall (line_shows H (gc_seed gc) rd fmt (red_types (projT2 R)) (uses_mtr (projT2 R)) names) cs).
  { apply forall_iff. intros ch Hch. apply (shows_iff gc Hb c R r E Q U fmt NT DC); auto. eapply Forall_forall in NL; eauto. }
  split.
  - intros (rep & X). split; auto. binv X. destruct v as (st' & ds'). split; [apply FI; eapply B; exact B0|].
    intros Mq ->. unfold train_loop in B0. cbn [foldm] in B0. inversion B0; subst. cbn [fst] in X. binv X. unfold train_end in B1. rewrite Mq in B1.
    destruct Ex as (ms & Ex). rewrite Ex in B1. cbn [mapm metric_value] in B1. discriminate.
  - intros (_ & Fc & Ne). destruct (A (proj2 FI Fc)) as (st' & ds' & -> & S' & K). cbn [bind fst]. unfold train_end.
    destruct (tm_quiet md) eqn:Mq; [cbn [bind]; eauto|].
    destruct (started_value (t_metrics st') (K (Ne eq_refl))) as (vs & -> & Lv). cbn [bind].
    destruct S' as ((_ & _ & _ & Lc') & _). unfold add_results.
    replace (Nat.eqb (length vs) (mg_columns (t_mgr st'))) with true by (symmetry; apply Nat.eqb_eq; congruence). cbn [bind]. eauto.
Qed.
End Cmd.

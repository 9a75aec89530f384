(** C95: debug builds and release builds. *)
From Coq Require Import String List NArith ZArith Bool Lia.
From Verif Require Import Base FloatOps Model_Hash Model_Features Model_Weights Model_Loss Model_Interactions Model_Types Model_Explore
  Model_Coin Model_Stack Model_Factory Spec_Builds.
Import ListNotations.

Lemma agree_refl : forall A (x : out A), agree x x.
Proof. intros A [a|e|p]; cbn; auto. Qed.
Lemma agree_bind : forall A B (d r : out A) (f g : A -> out B), agree d r -> (forall a, agree (f a) (g a)) -> agree (bind d f) (bind r g).
Proof. intros A B [a|e|p] r f g Q K; cbn in *; auto; subst r; cbn; auto. Qed.
Lemma agree_foldm : forall A B (f g : B -> A -> out B) l b, (forall b a, agree (f b a) (g b a)) -> agree (foldm f l b) (foldm g l b).
Proof. intros A B f g l. induction l as [|a l IH]; intros b K; cbn [foldm]; [reflexivity|]. apply agree_bind; auto. Qed.
Lemma agree_mapm : forall A B (f g : A -> out B) l, (forall a, agree (f a) (g a)) -> agree (mapm f l) (mapm g l).
Proof.
  intros A B f g l K. induction l as [|a l IH]; cbn [mapm]; [reflexivity|]. apply agree_bind; auto. intros b. apply agree_bind; auto. intros bs. reflexivity.
Qed.
Lemma agree_unwrap : forall A (d r : out A), agree d r -> agree (unwrap_res d) (unwrap_res r).
Proof. intros A [a|e|p] r Q; cbn in *; auto; subst r; cbn; auto. Qed.
Create HintDb agr.
Ltac ag1 :=
  match goal with
  | |- agree (Pn _) _ => exact Logic.I
  | |- agree (Ok ?a) (Ok ?a) => reflexivity
  | |- agree ?a ?a => apply agree_refl
  | |- agree (bind _ _) (bind _ _) => apply agree_bind; [|intros]
  | |- agree (unwrap_res _) (unwrap_res _) => apply agree_unwrap
  | |- agree (foldm _ _ _) (foldm _ _ _) => apply agree_foldm; intros
  | |- agree (mapm _ _) (mapm _ _) => apply agree_mapm; intros
  | |- agree (if true && ?b then _ else _) (if false && _ then _ else _) => cbn [andb]; destruct b
  | |- agree (match ?x with _ => _ end) (match ?x with _ => _ end) => destruct x
  | |- agree (match ?x with _ => _ end) _ => destruct x
  | _ => progress cbv zeta
  | _ => solve [auto with agr]
  end.
Ltac ag := repeat ag1.

Section Builds.
Context {O : FOps}.

(** *** numbers and hashes *)
Lemma ag_sub1 : forall x, agree (sub1_64 true x) (sub1_64 false x). Proof. intros. unfold sub1_64. ag. Qed.
Lemma ag_shl1 : forall x, agree (shl1_64 true x) (shl1_64 false x). Proof. intros. unfold shl1_64. ag. Qed.
Lemma ag_mul64 : forall x y, agree (mul64 true x y) (mul64 false x y). Proof. intros. unfold mul64. ag. Qed.
Hint Resolve ag_sub1 ag_shl1 ag_mul64 : agr.
Lemma ag_mask : forall x, agree (mask_from_bits true x) (mask_from_bits false x). Proof. intros. unfold mask_from_bits. ag. Qed.
Lemma ag_max : forall x, agree (bits_to_max_feature_index true x) (bits_to_max_feature_index false x). Proof. intros. unfold bits_to_max_feature_index. ag. Qed.
Hint Resolve ag_mask ag_max : agr.
Lemma ag_const : forall x, agree (constant_feature_index true x) (constant_feature_index false x). Proof. intros. unfold constant_feature_index. ag. Qed.
Lemma ag_add32 : forall x y, agree (add32 true x y) (add32 false x y). Proof. intros. unfold add32. ag. Qed.
Hint Resolve ag_const ag_add32 : agr.
Lemma ag_phash : forall H p s, agree (parsed_feature_hash H true p s) (parsed_feature_hash H false p s). Proof. intros. unfold parsed_feature_hash. ag. Qed.
Hint Resolve ag_phash : agr.
Lemma ag_fhash : forall H seed t, agree (feature_hash H true t seed) (feature_hash H false t seed).
Proof.
  intros H seed. fix IH 1. intros [a b|a b c|a o|[|t0 ts]]; cbn [feature_hash]; [ag|ag|ag|ag|].
  apply agree_bind; [apply IH|]. intros v0. generalize (fnv_mul v0).
  induction ts as [|t ts It]; intros h; [ag|]. destruct ts as [|t' ts].
  - apply agree_bind; [apply IH|]. intros v. reflexivity.
  - apply agree_bind; [apply IH|]. intros v. apply It.
Qed.
Hint Resolve ag_fhash : agr.

(** *** features *)
Lemma ag_trunc : forall n (s : sfn O), agree (sfn_truncate_by true n s) (sfn_truncate_by false n s). Proof. intros. unfold sfn_truncate_by. ag. Qed.
Hint Resolve ag_trunc : agr.
Lemma ag_updm : forall k (f g : sfn O -> out (sfn O)) m, (forall s, agree (f s) (g s)) -> agree (sf_updm_ns k f m) (sf_updm_ns k g m).
Proof. intros. unfold sf_updm_ns. ag. Qed.
Hint Resolve ag_updm : agr.
Lemma ag_remove : forall m k : sfeats O, agree (sf_remove true m k) (sf_remove false m k). Proof. intros. unfold sf_remove. ag. Qed.
Lemma ag_quadratic : forall a b nb (m : sfeats O), agree (sf_quadratic true a b nb m) (sf_quadratic false a b nb m). Proof. intros. unfold sf_quadratic. ag. Qed.
Lemma ag_cubic : forall a b c nb (m : sfeats O), agree (sf_cubic true a b c nb m) (sf_cubic false a b c nb m). Proof. intros. unfold sf_cubic. ag. Qed.
Hint Resolve ag_remove ag_quadratic ag_cubic : agr.

(** *** weights *)
Lemma ag_len : forall a b c, agree (table_len true a b c) (table_len false a b c). Proof. intros. unfold table_len. ag. Qed.
Hint Resolve ag_len : agr.
Lemma ag_dwnew : forall a b c, agree (dw_new O true a b c) (dw_new O false a b c). Proof. intros. unfold dw_new. ag. Qed.
Lemma ag_index : forall (w : dweights O) a b, agree (dw_index true w a b) (dw_index false w a b). Proof. intros. unfold dw_index. ag. Qed.
Hint Resolve ag_dwnew ag_index : agr.
Lemma ag_weight : forall (w : dweights O) a b, agree (dw_weight_at true w a b) (dw_weight_at false w a b). Proof. intros. unfold dw_weight_at. ag. Qed.
Lemma ag_state : forall (w : dweights O) a b, agree (dw_state_at true w a b) (dw_state_at false w a b). Proof. intros. unfold dw_state_at. ag. Qed.
Lemma ag_upd : forall (w : dweights O) a b g, agree (dw_state_upd true w a b g) (dw_state_upd false w a b g). Proof. intros. unfold dw_state_upd. ag. Qed.
Hint Resolve ag_weight ag_state ag_upd : agr.
Lemma ag_from : forall w : dweights O, agree (nd_from_dense true w) (nd_from_dense false w). Proof. intros. unfold nd_from_dense. ag. Qed.
Lemma ag_to : forall w : ndweights O, agree (nd_to_dense true w) (nd_to_dense false w). Proof. intros. unfold nd_to_dense. ag. Qed.
Lemma ag_fe : forall (m : sfeats O) ps ts nb c, agree (fe_list true m ps ts nb c) (fe_list false m ps ts nb c). Proof. intros. unfold fe_list. ag. Qed.
Hint Resolve ag_from ag_to ag_fe : agr.

(** *** the regressor *)
Lemma ag_new : forall H (cfg : coin_config O) gc n, agree (coin_new H true cfg gc n) (coin_new H false cfg gc n). Proof. intros. unfold coin_new. ag. Qed.
Lemma ag_feats : forall (c : coin O) f, agree (coin_feats true c f) (coin_feats false c f). Proof. intros. unfold coin_feats. ag. Qed.
Lemma ag_dot : forall (c : coin O) l, agree (coin_dot true c l) (coin_dot false c l). Proof. intros. unfold coin_dot. ag. Qed.
Hint Resolve ag_new ag_feats ag_dot : agr.
Lemma ag_cpredict : forall (c : coin O) f, agree (coin_predict true c f) (coin_predict false c f). Proof. intros. unfold coin_predict. ag. Qed.
Lemma ag_betting : forall (c : coin O) f w, agree (coin_betting_predict true c f w) (coin_betting_predict false c f w). Proof. intros. unfold coin_betting_predict. ag. Qed.
Lemma ag_update : forall (c : coin O) f p y w, agree (coin_update true c f p y w) (coin_update false c f p y w). Proof. intros. unfold coin_update. ag. Qed.
Hint Resolve ag_cpredict ag_betting ag_update : agr.
Lemma ag_clearn : forall (c : coin O) f y w, agree (coin_learn true c f y w) (coin_learn false c f y w). Proof. intros. unfold coin_learn. ag. Qed.
Lemma ag_csens : forall (c : coin O) f, agree (coin_sensitivity true c f) (coin_sensitivity false c f). Proof. intros. unfold coin_sensitivity. ag. Qed.
Hint Resolve ag_clearn ag_csens : agr.

(** *** exploration *)
Lemma ag_usub : forall a b, agree (usub true a b) (usub false a b). Proof. intros. unfold usub. ag. Qed.
Hint Resolve ag_usub : agr.
Lemma ag_rho : forall co su (mi : O) l i ru rho, agree (rho_loop true co su mi l i ru rho) (rho_loop false co su mi l i ru rho).
Proof. intros co su mi l. induction l as [|[a p] l IH]; intros i ru rho; cbn [rho_loop]; ag. Qed.
Hint Resolve ag_rho : agr.
Lemma ag_min : forall (eps : O) co els, agree (enforce_min_prob true eps co els) (enforce_min_prob false eps co els). Proof. intros. unfold enforce_min_prob. ag. Qed.
Hint Resolve ag_min : agr.
Lemma ag_square : forall (e g : O) sc, agree (squarecb_probs true e g sc) (squarecb_probs false e g sc). Proof. intros. unfold squarecb_probs. ag. Qed.
Lemma ag_softmax : forall (e g : O) sc, agree (softmax_probs true e g sc) (softmax_probs false e g sc). Proof. intros. unfold softmax_probs. ag. Qed.
Hint Resolve ag_square ag_softmax : agr.

(** *** reductions *)
Lemma ag_8mul : forall a b, agree (u8_mul true a b) (u8_mul false a b). Proof. intros. unfold u8_mul. ag. Qed.
Lemma ag_8add : forall a b, agree (u8_add true a b) (u8_add false a b). Proof. intros. unfold u8_add. ag. Qed.
Lemma ag_8sub : forall a b, agree (u8_sub true a b) (u8_sub false a b). Proof. intros. unfold u8_sub. ag. Qed.
Lemma ag_sub32 : forall a b, agree (sub32 true a b) (sub32 false a b). Proof. intros. unfold sub32. ag. Qed.
Lemma ag_add64 : forall a b, agree (add64 true a b) (add64 false a b). Proof. intros. unfold add64. ag. Qed.
Hint Resolve ag_8mul ag_8add ag_8sub ag_sub32 ag_add64 : agr.
Lemma ag_inc : forall a b c, agree (depth_inc true a b c) (depth_inc false a b c). Proof. intros. unfold depth_inc. ag. Qed.
Lemma ag_dec : forall a b c, agree (depth_dec true a b c) (depth_dec false a b c). Proof. intros. unfold depth_dec. ag. Qed.
Hint Resolve ag_inc ag_dec : agr.
Lemma ag_wrap : forall X nmb mo f d (b b' : features O -> N -> out (pres O X)), (forall f d, agree (b f d) (b' f d)) ->
  agree (wrap true nmb mo f d b) (wrap false nmb mo f d b').
Proof. intros. unfold wrap. ag. Qed.
Lemma ag_merge : forall b1 b2 cb l1 l2 (d : sfn O), agree (elem_merge true b1 b2 cb l1 l2 d) (elem_merge false b1 b2 cb l1 l2 d).
Proof.
  intros b1 b2 cb l1. induction l1 as [|[i1 v1] l1 IH]; intros l2 d; [destruct l2; reflexivity|].
  revert d. induction l2 as [|[i2 v2] l2 I2]; intros d; [reflexivity|]. cbn [elem_merge]. do 3 (apply agree_bind; [auto with agr|intros]).
  destruct (N.eqb _ _); [apply IH|]. destruct (N.ltb _ _); [apply IH|apply I2].
Qed.
Hint Resolve ag_wrap ag_merge : agr.
Lemma ag_mult : forall nb (f : sfeats O) a b, agree (elem_multiply true nb f a b) (elem_multiply false nb f a b). Proof. intros. unfold elem_multiply. ag. Qed.
Hint Resolve ag_mult : agr.
Lemma ag_frame : forall X a b keep nb (c c' : features O -> out (pres O X)) f, (forall f, agree (c f) (c' f)) ->
  agree (elem_frame true a b keep nb c f) (elem_frame false a b keep nb c' f).
Proof. intros. unfold elem_frame. ag. Qed.
Lemma ag_ipsl : forall a (c p : O) i, agree (ips_label true a c p i) (ips_label false a c p i). Proof. intros. unfold ips_label. ag. Qed.
Lemma ag_remopt : forall (f : sfeats O) s, agree (remove_opt true f s) (remove_opt false f s). Proof. intros. unfold remove_opt. ag. Qed.
Hint Resolve ag_frame ag_ipsl ag_remopt : agr.
Lemma ag_ploop : forall (ch ch' : features O -> N -> N -> out (pres O (prediction O))) sh acts i d, (forall f d m, agree (ch f d m) (ch' f d m)) ->
  agree (cb_predict_loop true ch sh acts i d) (cb_predict_loop false ch' sh acts i d).
Proof. intros ch ch' sh acts i d K. revert i d. induction acts as [|a acts IH]; intros i d; cbn [cb_predict_loop]; ag. Qed.
Lemma ag_iloop : forall X (ch ch' : X -> features O -> label O -> N -> N -> out (pres O X)) a c p sh acts i x d,
  (forall x f l d m, agree (ch x f l d m) (ch' x f l d m)) ->
  agree (cb_ips_loop true ch a c p sh acts i x d) (cb_ips_loop false ch' a c p sh acts i x d).
Proof. intros X ch ch' a c p sh acts i x d K. revert i x d. induction acts as [|b acts IH]; intros i x d; cbn [cb_ips_loop]; ag. Qed.
Hint Resolve ag_ploop ag_iloop : agr.
Lemma ag_kpredict : forall k (ch ch' : features O -> N -> N -> out (pres O (prediction O))) f d mo, (forall f d m, agree (ch f d m) (ch' f d m)) ->
  agree (kind_predict true k ch f d mo) (kind_predict false k ch' f d mo).
Proof. intros. unfold kind_predict. ag. Qed.
Lemma ag_klearn : forall X k (ch ch' : X -> features O -> label O -> N -> N -> out (pres O X)) x f l d mo,
  (forall x f l d m, agree (ch x f l d m) (ch' x f l d m)) -> agree (kind_learn true k ch x f l d mo) (kind_learn false k ch' x f l d mo).
Proof. intros. unfold kind_learn. ag. Qed.
Hint Resolve ag_kpredict ag_klearn : agr.
Lemma ag_dptl : forall X (p p' : features O -> N -> out (pres O (prediction O))) (l l' : features O -> N -> out (pres O X)) f d,
  (forall f d, agree (p f d) (p' f d)) -> (forall f d, agree (l f d) (l' f d)) -> agree (default_ptl p l f d) (default_ptl p' l' f d).
Proof. intros. unfold default_ptl. ag. Qed.
Hint Resolve ag_dptl : agr.
Lemma ag_kptl : forall X k (p p' : X -> features O -> N -> N -> out (pres O (prediction O))) (l l' : X -> features O -> label O -> N -> N -> out (pres O X))
  (q q' : X -> features O -> label O -> N -> N -> out (pres O (prediction O * X))) x f lb d mo,
  (forall x f d m, agree (p x f d m) (p' x f d m)) -> (forall x f b d m, agree (l x f b d m) (l' x f b d m)) ->
  (forall x f b d m, agree (q x f b d m) (q' x f b d m)) -> agree (kind_ptl true k p l q x f lb d mo) (kind_ptl false k p' l' q' x f lb d mo).
Proof. intros. unfold kind_ptl. ag. Qed.
Hint Resolve ag_kptl : agr.
Lemma ag_pbody : forall (c : coin O) f d, agree (coin_predict_body true c f d) (coin_predict_body false c f d). Proof. intros. unfold coin_predict_body. ag. Qed.
Lemma ag_lbody : forall (c : coin O) f l d, agree (coin_learn_body true c f l d) (coin_learn_body false c f l d). Proof. intros. unfold coin_learn_body. ag. Qed.
Hint Resolve ag_pbody ag_lbody : agr.
Lemma ag_predict : forall n (r : red O n) f d mo, agree (predict true n r f d mo) (predict false n r f d mo).
Proof. induction n as [|n IH]; intros r f d mo; cbn [predict]; [|destruct r as ((w & k) & ch)]; apply ag_wrap; intros; ag. Qed.
Lemma ag_learn : forall n (r : red O n) f l d mo, agree (learn true n r f l d mo) (learn false n r f l d mo).
Proof. induction n as [|n IH]; intros r f l d mo; cbn [learn]; [destruct r as (w & c)|destruct r as ((w & k) & ch)]; apply ag_wrap; intros; ag. Qed.
Hint Resolve ag_predict ag_learn : agr.
Lemma ag_ptl : forall n (r : red O n) f l d mo, agree (predict_then_learn true n r f l d mo) (predict_then_learn false n r f l d mo).
Proof. induction n as [|n IH]; intros r f l d mo; cbn [predict_then_learn]; [destruct r as (w & c)|destruct r as ((w & k) & ch)]; apply ag_wrap; intros; ag. Qed.
Lemma ag_sens : forall n (r : red O n) f, agree (sensitivity true n r f) (sensitivity false n r f).
Proof. induction n as [|n IH]; intros r f; cbn [sensitivity]; ag. Qed.
Hint Resolve ag_ptl ag_sens : agr.
Lemma ag_wpredict : forall n (r : red O n) f, agree (ws_predict true r f) (ws_predict false r f). Proof. intros. unfold ws_predict. ag. Qed.
Lemma ag_wlearn : forall n (r : red O n) f l, agree (ws_learn true r f l) (ws_learn false r f l). Proof. intros. unfold ws_learn. ag. Qed.
Lemma ag_wptl : forall n (r : red O n) f l, agree (ws_ptl true r f l) (ws_ptl false r f l). Proof. intros. unfold ws_ptl. ag. Qed.
Hint Resolve ag_wpredict ag_wlearn ag_wptl : agr.
Lemma ag_create : forall H gc (c : rcfg O) nma, agree (create H true gc nma c) (create H false gc nma c).
Proof. intros H gc c. induction c; intros nma; cbn [create]; ag. Qed.
Hint Resolve ag_create : agr.
Lemma ag_wnew : forall H gc (c : rcfg O), agree (ws_new H true gc c) (ws_new H false gc c). Proof. intros. unfold ws_new. ag. Qed.
End Builds.
#[export] Hint Resolve ag_sub1 ag_shl1 ag_mul64 ag_mask ag_max ag_const ag_add32 ag_phash ag_fhash ag_trunc ag_updm ag_remove ag_len ag_dwnew ag_index
  ag_weight ag_state ag_upd ag_from ag_to ag_fe ag_new ag_feats ag_dot ag_cpredict ag_clearn ag_csens ag_usub ag_min ag_sub32 ag_add64
  ag_wpredict ag_wlearn ag_wptl ag_sens ag_create ag_wnew : agr.

(** The coin betting regressor: /repo/reductionml-core/src/reductions/coin.rs. *)
From Coq Require Import List NArith ZArith Bool.
From Verif Require Import Base FloatOps Model_Hash Model_Features Model_Weights Model_Loss
  Model_Interactions Model_Types.
Import ListNotations.
Open Scope N_scope.

(** lines 23-27 *)
Inductive link : Type := LinkIdentity | LinkLogistic.

(** lines 38-59 [CoinRegressorConfig] *)
Record coin_config (A : Type) : Type := mkCoinCfg {
  cc_alpha : A;
  cc_beta : A;
  cc_l1 : A;
  cc_l2 : A;
  cc_loss : loss A;
  cc_link : link
}.
Arguments mkCoinCfg {A}. Arguments cc_alpha {A}. Arguments cc_beta {A}. Arguments cc_l1 {A}.
Arguments cc_l2 {A}. Arguments cc_loss {A}. Arguments cc_link {A}.

(** lines 88-107 [CoinRegressorModelState], [CoinRegressor]; a model state is the pair
    (normalized_sum_norm_x, total_weight). *)
Record coin (A : Type) : Type := mkCoin {
  co_w : dweights A;
  co_cfg : coin_config A;
  co_states : list (A * A);
  co_avg : A;
  co_min : A;
  co_max : A;
  co_loss : loss A;
  co_pairs : list (namespace * namespace);
  co_triples : list (namespace * namespace * namespace);
  co_bits : N;
  co_const : bool
}.
Arguments mkCoin {A}. Arguments co_w {A}. Arguments co_cfg {A}. Arguments co_states {A}.
Arguments co_avg {A}. Arguments co_min {A}. Arguments co_max {A}. Arguments co_loss {A}.
Arguments co_pairs {A}. Arguments co_triples {A}. Arguments co_bits {A}. Arguments co_const {A}.

Section Coin.
Context (O : FOps).
Local Notation "a +. b" := (f_add O a b) (at level 50, left associativity).
Local Notation "a *. b" := (f_mul O a b) (at level 40, left associativity).
Local Notation "a /. b" := (f_div O a b) (at level 40, left associativity).

(** lines 61-75 defaults *)
Definition coin_default : coin_config O :=
  mkCoinCfg (fl 4) (fl 1) f0 f0 LossSquared LinkIdentity.

(** lines 29-36 [LinkFunction::link] *)
Definition link_fun (k : link) (v : O) : O :=
  match k with
  | LinkIdentity => v
  | LinkLogistic => f1 /. (f1 +. f_exp O (f_neg O v))
  end.

(** lines 110-147 [CoinRegressor::new] *)
Definition coin_new (H : hasher) (dbg : bool) (cfg : coin_config O) (gc : gconfig) (nma : N)
  : out (coin O) :=
  let* pt := compile_interactions H (gc_seed gc) (gc_inter gc) in
  let '(mn, mx) := match cc_loss cfg with
                   | LossSquared => (f0, f0)
                   | LossLogistic _ _ => (f_neg O (fl 50), fl 50)
                   end in
  let* fsize := bits_to_max_feature_index dbg (gc_bits gc) in
  let* w := dw_new O dbg fsize nma 6 in
  Ok (mkCoin w cfg (repeat (f0, f0) (N.to_nat nma)) f0 mn mx LossSquared
             (fst pt) (snd pt) (gc_bits gc) (gc_const gc)).

(** the enumeration of lines 196-205, 257-266, 325-334, 402-411, see Model_Weights *)
Definition coin_feats (dbg : bool) (c : coin O) (f : sfeats O) : out (list (N * O)) :=
  fe_list dbg f (co_pairs c) (co_triples c) (co_bits c) (co_const c).

(** lines 195-205: the sum of feature value times weight, model offset 0 *)
Definition coin_dot (dbg : bool) (c : coin O) (l : list (N * O)) : out O :=
  foldm (fun acc iv =>
           let* w := dw_weight_at dbg (co_w c) (fst iv) 0 in
           Ok (acc +. snd iv *. w)) l f0.

(** lines 187-219 [predict] on the inner features *)
Definition coin_predict (dbg : bool) (c : coin O) (f : sfeats O) : out (prediction O) :=
  let* l := coin_feats dbg c f in
  let* p := coin_dot dbg c l in
  let p := if f_isnan O p then f0 else p in
  let* q := f_clamp p (co_min c) (co_max c) in
  Ok (PrScalar (link_fun (cc_link (co_cfg c)) q) p).

(** lines 278-283: state positions *)
Definition W_XT := 0%nat.
Definition W_ZT := 1%nat.
Definition W_G2 := 2%nat.
Definition W_MX := 3%nat.
Definition W_WE := 4%nat.
Definition W_MG := 5%nat.
Definition sg (st : list O) (i : nat) : O := nth i st f0.

(** lines 306-323: one feature of [inner_predict] *)
Definition inner_predict (cfg : coin_config O) (acc : O * O) (x : O) (st : list O) : out (O * O) :=
  if Nat.eqb (length st) 6 then
    let w_mx := f_max (sg st W_MX) (f_abs O x) in
    let mgx := sg st W_MG *. w_mx in
    let w_xt :=
      if f_gtb mgx f0
      then ((cc_alpha cfg +. sg st W_WE) /. (mgx *. (mgx +. sg st W_G2))) *. sg st W_ZT
      else f0 in
    let p := fst acc +. w_xt *. x in
    let nx := if f_gtb w_mx f0
              then let xn := x /. w_mx in snd acc +. xn *. xn
              else snd acc in
    Ok (p, nx)
  else Pn PAssert.

(** lines 302-351 [coin_betting_predict] *)
Definition coin_betting_predict (dbg : bool) (c : coin O) (f : sfeats O) (weight : O)
  : out (O * coin O) :=
  let* l := coin_feats dbg c f in
  let* pn := foldm (fun acc iv =>
                      let* st := dw_state_at dbg (co_w c) (fst iv) 0 in
                      inner_predict (co_cfg c) acc (snd iv) st) l (f0, f0) in
  let* ms := opt_or PIndex (nth_error (co_states c) 0) in
  let nsum := fst ms +. snd pn *. weight in
  let tw := snd ms +. weight in
  let avg := (nsum +. f_lit O 1 1000000) /. tw in
  let* p := f_clamp (fst pn /. avg) (co_min c) (co_max c) in
  Ok (p, mkCoin (co_w c) (co_cfg c) (upd 0 (nsum, tw) (co_states c)) avg (co_min c) (co_max c)
                (co_loss c) (co_pairs c) (co_triples c) (co_bits c) (co_const c)).

(** lines 365-401: one feature of [inner_update] *)
Definition inner_update (cfg : coin_config O) (avg update x : O) (st : list O) : out (list O) :=
  if Nat.eqb (length st) 6 then
    let fabs_x := f_abs O x in
    let gradient := update *. x in
    let mx := if f_gtb fabs_x (sg st W_MX) then fabs_x else sg st W_MX in
    let fabs_g := f_abs O update in
    let mg := if f_gtb fabs_g (sg st W_MG)
              then (if f_gtb fabs_g (cc_beta cfg) then fabs_g else cc_beta cfg)
              else sg st W_MG in
    let xt := if f_gtb (mg *. mx) f0
              then ((cc_alpha cfg +. sg st W_WE) /. (mg *. mx *. (mg *. mx +. sg st W_G2)))
                   *. sg st W_ZT
              else f0 in
    let zt := sg st W_ZT +. f_neg O gradient in
    let g2 := sg st W_G2 +. f_abs O gradient in
    let we := sg st W_WE +. f_neg O gradient *. xt in
    let xt := xt /. avg in
    Ok [xt; zt; g2; mx; we; mg]
  else Pn PAssert.

(** lines 353-418 [coin_betting_update_after_predict] *)
Definition coin_update (dbg : bool) (c : coin O) (f : sfeats O) (prediction label weight : O)
  : out (coin O) :=
  let update := loss_d1 (co_loss c) (co_min c) (co_max c) prediction label *. weight in
  let* l := coin_feats dbg c f in
  let* w := foldm (fun w iv =>
                     dw_state_upd dbg w (fst iv) 0
                       (inner_update (co_cfg c) (co_avg c) update (snd iv))) l (co_w c) in
  Ok (mkCoin w (co_cfg c) (co_states c) (co_avg c) (co_min c) (co_max c) (co_loss c)
             (co_pairs c) (co_triples c) (co_bits c) (co_const c)).

(** lines 231-232 *)
Definition coin_range (c : coin O) (v : O) : coin O :=
  mkCoin (co_w c) (co_cfg c) (co_states c) (co_avg c) (f_min v (co_min c)) (f_max v (co_max c))
         (co_loss c) (co_pairs c) (co_triples c) (co_bits c) (co_const c).

(** lines 221-240 [learn] on the inner features and label *)
Definition coin_learn (dbg : bool) (c : coin O) (f : sfeats O) (value weight : O) : out (coin O) :=
  let c := coin_range c value in
  let* pc := coin_betting_predict dbg c f weight in
  coin_update dbg (snd pc) f (fst pc) value weight.

(** lines 247-276 [sensitivity] *)
Definition inner_sensitivity (cfg : coin_config O) (score x : O) (st : list O) : out O :=
  if Nat.eqb (length st) 6 then
    let unc := (cc_beta cfg +. f_sqrt O (sg st W_G2)) /. cc_alpha cfg +. cc_l2 cfg in
    Ok (score +. (f1 /. unc) *. f_signum O x)
  else Pn PAssert.
(** lines 247-276 [sensitivity] *)
Definition coin_sensitivity (dbg : bool) (c : coin O) (f : sfeats O) : out O :=
  let* l := coin_feats dbg c f in
  foldm (fun acc iv =>
           let* st := dw_state_at dbg (co_w c) (fst iv) 0 in
           inner_sensitivity (co_cfg c) acc (snd iv) st) l f0.

End Coin.
Arguments coin_default {O}. Arguments link_fun {O}. Arguments coin_new {O}. Arguments coin_feats {O}.
Arguments coin_dot {O}. Arguments coin_predict {O}. Arguments sg {O}. Arguments inner_predict {O}.
Arguments coin_betting_predict {O}. Arguments inner_update {O}. Arguments coin_update {O}.
Arguments coin_range {O}. Arguments coin_learn {O}.
Arguments inner_sensitivity {O}. Arguments coin_sensitivity {O}.

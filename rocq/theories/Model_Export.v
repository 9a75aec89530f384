(** Models as JSON: /repo/reductionml-core/src/workspace.rs:68-123, 153-169
    [serialize_to_json], [deserialize_from_json] and the two functions rewriting the
    weights; the derived serde implementations of everything a workspace contains.
    - A JSON value is a tree (Model_Json); writing and reading the text is left out
      (export_model.rs, import_model.rs).  A number that is not finite becomes null.
    - A struct is read by [jstruct] (Model_Config).  If a value is wrong at several places,
      a serde error is reported here even where Rust would first panic in [to_dense].
    - Fields kept in a model but without influence on it are an argument [ex], by the
      number of reductions below: the description of the child in the configurations of
      softmax and SquareCb, and what Debug prints. *)
From Coq Require Import List NArith ZArith Bool Ascii String.
From Verif Require Import Base FloatOps Model_Hash Model_Features Model_Weights Model_Loss
  Model_Interactions Model_Types Model_Explore Model_Coin Model_Stack Model_Factory Model_Text Model_Json Model_Config.
Import ListNotations.
Open Scope N_scope.
Open Scope list_scope.

(** *** keys of a map with numbers as keys *)
(** the decimal digits of a number *)
Fixpoint digits (fuel : nat) (n : N) : str :=
  match fuel with
  | 0%nat => []
  | S k => (if n <? 10 then [] else digits k (n / 10)) ++ [48 + n mod 10]
  end.
Definition dec (n : N) : str := digits (S (N.to_nat (N.log2 n))) n.
(** serde_json's reading of an integer key: decimal digits without leading zeros *)
Definition undec (s : str) : N := fold_left (fun a c => 10 * a + (c - 48)) s 0.
Definition read_key (bound : N) (s : str) : option N :=
  let n := undec s in
  if forallb (fun c => (48 <=? c) && (c <=? 57)) s && str_eqb (dec n) s && (n <? bound) then Some n else None.

Section Export.
Context (O : FOps).
Local Notation json := (json O).
Local Notation red := (red O).

(** *** derived Serialize *)
Definition w_f32 (x : O) : json := if f_isnan O x || f_isinf O x then JNull else jflt x.
Definition w_str (s : string) : json := JStr (lit s).
Definition w_opt {A} (w : A -> json) (o : option A) : json := match o with Some x => w x | None => JNull end.
(** types.rs:159-164, 353-357, 69-75 *)
Definition w_label_type (t : label_type) : json :=
  w_str match t with LTSimple => "Simple" | LTBinary => "Binary" | LTCb => "CB" end.
Definition w_feat_type (t : feat_type) : json :=
  w_str match t with FTSimple => "SparseSimple" | FTCb => "SparseCBAdf" end.
Definition w_pred_type (t : pred_type) : json :=
  w_str match t with PTScalar => "Scalar" | PTBinary => "Binary" | PTScores => "ActionScores" | PTProbs => "ActionProbs" end.
(** reduction.rs:131-139 *)
Definition w_tdesc (t : tdesc) : json :=
  JObj [(lit "input_label_type", w_label_type (td_in_label t));
        (lit "output_label_type", w_opt w_label_type (td_out_label t));
        (lit "input_features_type", w_feat_type (td_in_feats t));
        (lit "output_features_type", w_opt w_feat_type (td_out_feats t));
        (lit "input_prediction_type", w_opt w_pred_type (td_in_pred t));
        (lit "output_prediction_type", w_pred_type (td_out_pred t))].
(** sparse_namespaced_features.rs:173-178 *)
Definition w_ns (n : namespace) : json :=
  match n with
  | NsNamed h => JObj [(lit "Named", juint h)]
  | NsRawHash h => JObj [(lit "RawHash", juint h)]
  | NsDefault => w_str "Default"
  end.
(** loss_function.rs:26-30 *)
Definition w_loss (l : loss O) : json :=
  match l with
  | LossSquared => JObj [(lit "Squared", JObj [])]
  | LossLogistic a b => JObj [(lit "Logistic", JObj [(lit "min_label", w_f32 a); (lit "max_label", w_f32 b)])]
  end.
(** coin.rs:23-27, 38-75 *)
Definition w_link (l : link) : json := w_str match l with LinkIdentity => "Identity" | LinkLogistic => "Logistic" end.
Definition w_coin_cfg (c : coin_config O) : json :=
  JObj [(lit "alpha", w_f32 (cc_alpha c)); (lit "beta", w_f32 (cc_beta c)); (lit "l1Lambda", w_f32 (cc_l1 c));
        (lit "l2Lambda", w_f32 (cc_l2 c)); (lit "lossFunction", w_loss (cc_loss c)); (lit "linkFunction", w_link (cc_link c))].
(** dense_weights.rs:16-30 with the sparse form of lines 141-145, 171-180 *)
Definition w_shape (wts : json) (f m s ms ss : N) : json :=
  JObj [(lit "weights", wts); (lit "feature_index_size", juint f); (lit "model_index_size", juint m);
        (lit "feature_state_size", juint s); (lit "model_index_size_shift", juint ms);
        (lit "feature_state_size_shift", juint ss)].
Definition w_sparse (v : sparse_vec O) : json :=
  JObj [(lit "len", juint (sv_len v));
        (lit "non_zero_value_and_index_pairs", JArr (List.map (fun p => JArr [juint (fst p); w_f32 (snd p)]) (sv_pairs v)))].
Definition w_dense (w : dweights O) : json :=
  w_shape (w_sparse (sv_from_dense (dw_w w))) (dw_fsize w) (dw_msize w) (dw_ssize w) (dw_mshift w) (dw_sshift w).
(** dense_weights.rs:62-73 *)
Definition w_rows (l : list (N * list (list O))) : json :=
  JObj (List.map (fun r => (dec (fst r), JArr (List.map (fun st => JArr (List.map w_f32 st)) (snd r)))) l).
Definition w_nd (d : ndweights O) : json :=
  w_shape (w_rows (nd_map d)) (nd_fsize d) (nd_msize d) (nd_ssize d) (nd_mshift d) (nd_sshift d).
(** coin.rs:88-107; [wj] writes the weights *)
Definition w_coin (wj : dweights O -> json) (c : coin O) : json :=
  JObj [(lit "weights", wj (co_w c)); (lit "config", w_coin_cfg (co_cfg c));
        (lit "model_states", JArr (List.map (fun p => JObj [(lit "normalized_sum_norm_x", w_f32 (fst p)); (lit "total_weight", w_f32 (snd p))]) (co_states c)));
        (lit "average_squared_norm_x", w_f32 (co_avg c)); (lit "min_label", w_f32 (co_min c)); (lit "max_label", w_f32 (co_max c));
        (lit "loss_function", w_loss (co_loss c));
        (lit "pairs", JArr (List.map (fun p => JArr [w_ns (fst p); w_ns (snd p)]) (co_pairs c)));
        (lit "triples", JArr (List.map (fun p => JArr [w_ns (fst (fst p)); w_ns (snd (fst p)); w_ns (snd p)]) (co_triples c)));
        (lit "num_bits", juint (co_bits c)); (lit "constant_feature_enabled", JBool (co_const c))].

(** fields without influence *)
Record extra : Type := mkExtra { x_child : jrc O; x_id : str; x_indent : N; x_pred : bool; x_label : bool; x_feats : bool }.
(** The reductions: type name of the wrapper, name of the implementation (typetag), fields. *)
Definition kind_type (k : kind O) : rtype :=
  match k with
  | KBinary => RBinary | KCbAdf _ _ _ => RCbAdf | KGreedy _ => RGreedy | KSoftmax _ _ _ => RSoftmax
  | KSquareCb _ _ _ _ => RSquareCb | KElem _ _ _ _ => RElem | KDebug => RDebug
  end.
Definition impl_name (t : rtype) : str :=
  lit match t with
      | RCoin => "CoinRegressor"
      | RBinary => "BinaryReduction"
      | RCbAdf => "CBAdfReduction"
      | RGreedy => "CBExploreAdfGreedyReduction"
      | RSoftmax => "CBExploreAdfSoftmaxReduction"
      | RSquareCb => "CBExploreAdfSquareCBReduction"
      | RElem => "ElementwiseInteraction"
      | RDebug => "DebugReduction"
      end.
Definition w_cbtype (t : cbtype) : json := w_str match t with Ips => "ips" | Mtr => "mtr" end.
Definition w_kind (x : extra) (k : kind O) (child : json) : json :=
  match k with
  | KBinary => JObj [(lit "regressor", child)]                                    (* binary.rs:36-39 *)
  | KCbAdf ty a e =>                                                              (* cb_adf.rs:65-77 *)
      JObj [(lit "cb_type", w_cbtype ty); (lit "regressor", child);
            (lit "mtr_state", JObj [(lit "action_sum", juint a); (lit "event_sum", juint e)])]
  | KGreedy e => JObj [(lit "epsilon", w_f32 e); (lit "cb_adf", child)]           (* cb_explore_adf_greedy.rs:50-54 *)
  | KSoftmax ue la c =>                                                           (* cb_explore_adf_softmax.rs:58-63 *)
      JObj [(lit "config", JObj [(lit "uniformEpsilon", w_f32 ue); (lit "lambda", w_f32 la); (lit "cbAdf", jrc_json (x_child x))]);
            (lit "counter", juint c); (lit "cb_adf", child)]
  | KSquareCb ue gs ge c =>                                                       (* cb_explore_adf_squarecb.rs:67-72 *)
      JObj [(lit "config", JObj [(lit "uniformEpsilon", w_f32 ue); (lit "gammaScale", w_f32 gs); (lit "gammaExponent", w_f32 ge);
                                 (lit "cbAdf", jrc_json (x_child x))]);
            (lit "counter", juint c); (lit "cb_adf", child)]
  | KElem a b keep nb =>                                                          (* elementwise_interaction.rs:53-59 *)
      JObj [(lit "regressor", child); (lit "pair", JArr [w_ns a; w_ns b]); (lit "keep_original_features", JBool keep);
            (lit "num_bits", juint nb)]
  | KDebug =>                                                                     (* debug.rs:63-71 *)
      JObj [(lit "id", JStr (x_id x)); (lit "indent", juint (x_indent x)); (lit "prediction", JBool (x_pred x));
            (lit "label", JBool (x_label x)); (lit "features", JBool (x_feats x)); (lit "next", child)]
  end.
(** reduction.rs:257-263 *)
Definition w_wrapper (t : rtype) (w : winfo) (body : json) : json :=
  JObj [(lit "typename", JStr (typename t)); (lit "reduction", JObj [(impl_name t, body)]);
        (lit "type_description", w_tdesc (w_types w)); (lit "num_models_below", juint (w_below w))].
Fixpoint w_red (wj : dweights O -> json) (ex : nat -> extra) (n : nat) : red n -> json :=
  match n with
  | 0%nat => fun r => w_wrapper RCoin (fst r) (w_coin wj (snd r))
  | S m => fun r => w_wrapper (kind_type (snd (fst r))) (fst (fst r)) (w_kind (ex n) (snd (fst r)) (w_red wj ex m (snd r)))
  end.
(** interactions.rs:6-10, global_config.rs:8-30 *)
Definition w_nsdef (d : nsdef) : json := match d with NDName s => JObj [(lit "Name", JStr s)] | NDDefault => w_str "Default" end.
Definition w_global (g : gconfig) : json :=
  JObj [(lit "numBits", juint (gc_bits g)); (lit "hashSeed", juint (gc_seed g)); (lit "constantFeatureEnabled", JBool (gc_const g));
        (lit "interactions", JArr (List.map (fun i => JArr (List.map w_nsdef i)) (gc_inter g)))].
(** workspace.rs:18-25 *)
Definition w_workspace (wj : dweights O -> json) (ex : nat -> extra) (g : gconfig) (R : anyred O) : json :=
  JObj [(lit "global_config", w_global g); (lit "entry_reduction", w_red wj ex (projT1 R) (projT2 R))].

(** *** derived Deserialize *)
Definition de_unit {A} (l : list (string * A)) (v : json) : option A :=
  match jvariant v with
  | Some (k, x) =>
      match find (fun sa => str_eqb k (lit (fst sa))) l with
      | Some sa => if unit_ok x then Some (snd sa) else None
      | None => None
      end
  | None => None
  end.
(** types.rs:159-164, 353-357, 69-75 *)
Definition de_label_type := de_unit [("Simple"%string, LTSimple); ("Binary"%string, LTBinary); ("CB"%string, LTCb)].
Definition de_feat_type := de_unit [("SparseSimple"%string, FTSimple); ("SparseCBAdf"%string, FTCb)].
Definition de_pred_type :=
  de_unit [("Scalar"%string, PTScalar); ("Binary"%string, PTBinary); ("ActionScores"%string, PTScores); ("ActionProbs"%string, PTProbs)].
(** an [Option] field: may be missing in an object, not in an array *)
Definition optf {A} (v : json) (de : json -> option A) (ov : option json) : option (option A) :=
  match ov, v with
  | Some x, _ => de_opt de x
  | None, JObj _ => Some None
  | None, _ => None
  end.
Definition de_tdesc (v : json) : option tdesc :=
  match jstruct false [lit "input_label_type"; lit "output_label_type"; lit "input_features_type"; lit "output_features_type";
                       lit "input_prediction_type"; lit "output_prediction_type"] v with
  | Some [a; b; c; d; e; f] =>
      match req de_label_type a, optf v de_label_type b, req de_feat_type c, optf v de_feat_type d, optf v de_pred_type e,
            req de_pred_type f with
      | Some a, Some b, Some c, Some d, Some e, Some f => Some (mkTd a b c d e f)
      | _, _, _, _, _, _ => None
      end
  | _ => None
  end.
(** sparse_namespaced_features.rs:173-178 *)
Definition de_ns (v : json) : option namespace :=
  match jvariant v with
  | Some (k, x) =>
      if str_eqb k (lit "Named") then option_map NsNamed (req de_u32 x)
      else if str_eqb k (lit "RawHash") then option_map NsRawHash (req de_u32 x)
      else if str_eqb k (lit "Default") then if unit_ok x then Some NsDefault else None
      else None
  | None => None
  end.
(** the sparse form: dense_weights.rs:141-145, 162-168, 182-189 *)
Definition de_sparse (v : json) : option (sparse_vec O) :=
  match jstruct false [lit "len"; lit "non_zero_value_and_index_pairs"] v with
  | Some [a; b] =>
      match req de_usize a,
            req (de_vec (fun p => match p with JArr [i; x] => match de_usize i, de_f32 x with Some i, Some x => Some (i, x) | _, _ => None end
                                             | _ => None end)) b with
      | Some n, Some l => Some (mkSv n l)
      | _, _ => None
      end
  | _ => None
  end.
(** dense_weights.rs:17-30 *)
Definition shape_names : list str :=
  [lit "weights"; lit "feature_index_size"; lit "model_index_size"; lit "feature_state_size"; lit "model_index_size_shift";
   lit "feature_state_size_shift"].
Definition de_shape {A} (de : json -> option A) (v : json) : option (A * (N * N * N * N * N)) :=
  match jstruct false shape_names v with
  | Some [w; a; b; c; d; e] =>
      match req de w, req de_u32 a, req de_u8 b, req de_u8 c, req de_u8 d, req de_u8 e with
      | Some x, Some f, Some m, Some s, Some ms, Some ss => Some (x, (f, m, s, ms, ss))
      | _, _, _, _, _, _ => None
      end
  | _ => None
  end.
(** dense_weights.rs:17-30, 182-189 *)
Definition de_dense (v : json) : out (dweights O) :=
  match de_shape de_sparse v with
  | Some (x, (f, m, s, ms, ss)) => let* l := sv_to_dense x in Ok (mkDw l f m s ms ss)
  | None => Er EJson
  end.
(** the per-feature form: dense_weights.rs:62-73 *)
Fixpoint de_rows (l : list (str * json)) : option (list (N * list (list O))) :=
  match l with
  | [] => Some []
  | (k, v) :: l =>
      match read_key u32_mod k, de_vec (de_vec de_f32) v, de_rows l with
      | Some i, Some st, Some r => Some ((i, st) :: r)
      | _, _, _ => None
      end
  end.
(** dense_weights.rs:64-73 *)
Definition de_nd (v : json) : option (ndweights O) :=
  match de_shape (fun w => match w with JObj l => de_rows l | _ => None end) v with
  | Some (x, (f, m, s, ms, ss)) => Some (mkNd x f m s ms ss)
  | None => None
  end.
(** coin.rs:88-91 *)
Definition de_state (v : json) : option (O * O) :=
  match jstruct false [lit "normalized_sum_norm_x"; lit "total_weight"] v with
  | Some [a; b] => match req de_f32 a, req de_f32 b with Some x, Some y => Some (x, y) | _, _ => None end
  | _ => None
  end.
(** the entries of [pairs] and [triples], coin.rs:103-104 *)
Definition de_pair (v : json) : option (namespace * namespace) :=
  match v with
  | JArr [a; b] => match de_ns a, de_ns b with Some a, Some b => Some (a, b) | _, _ => None end
  | _ => None
  end.
Definition de_triple (v : json) : option (namespace * namespace * namespace) :=
  match v with
  | JArr [a; b; c] => match de_ns a, de_ns b, de_ns c with Some a, Some b, Some c => Some (a, b, c) | _, _, _ => None end
  | _ => None
  end.
(** coin.rs:94-107 *)
Definition de_coin_model (v : json) : out (coin O) :=
  match jstruct false [lit "weights"; lit "config"; lit "model_states"; lit "average_squared_norm_x"; lit "min_label"; lit "max_label";
                       lit "loss_function"; lit "pairs"; lit "triples"; lit "num_bits"; lit "constant_feature_enabled"] v with
  | Some [w; c; ms; av; mn; mx; lo; ps; ts; nb; cf] =>
      match w, req de_coin c, req (de_vec de_state) ms, req de_f32 av, req de_f32 mn, req de_f32 mx, req de_loss lo,
            req (de_vec de_pair) ps, req (de_vec de_triple) ts, req de_u8 nb, req de_bool cf with
      | Some w, Some c, Some ms, Some av, Some mn, Some mx, Some lo, Some ps, Some ts, Some nb, Some cf =>
          let* w := de_dense w in Ok (mkCoin w c ms av mn mx lo ps ts nb cf)
      | _, _, _, _, _, _, _, _, _, _, _ => Er EJson
      end
  | _ => Er EJson
  end.
(** cb_adf.rs:66-69 *)
Definition de_mtr (v : json) : option (N * N) :=
  match jstruct false [lit "action_sum"; lit "event_sum"] v with
  | Some [a; b] => match req de_usize a, req de_usize b with Some x, Some y => Some (x, y) | _, _ => None end
  | _ => None
  end.
(** the fields of a reduction and its child; the configurations inside are read as in
    Model_Config *)
Definition cfg_in (t : rtype) (ov : option json) : rcfg O :=
  match ov with Some v => parse_with (fun _ => CBad EJson) t v | None => CBad EJson end.
Definition de_kind (t : rtype) (v : json) : option (kind O * json) :=
  match t with
  | RCoin => None
  | RBinary => match jstruct false [lit "regressor"] v with Some [Some c] => Some (KBinary, c) | _ => None end
  | RCbAdf =>
      match jstruct false [lit "cb_type"; lit "regressor"; lit "mtr_state"] v with
      | Some [ty; Some c; m] =>
          match req de_cbtype ty, req de_mtr m with Some ty, Some (a, e) => Some (KCbAdf ty a e, c) | _, _ => None end
      | _ => None
      end
  | RGreedy =>
      match jstruct false [lit "epsilon"; lit "cb_adf"] v with
      | Some [e; Some c] => match req de_f32 e with Some e => Some (KGreedy e, c) | _ => None end
      | _ => None
      end
  | RSoftmax =>
      match jstruct false [lit "config"; lit "counter"; lit "cb_adf"] v with
      | Some [g; n; Some c] =>
          match cfg_in RSoftmax g, req de_usize n with CSoftmax ue la _, Some n => Some (KSoftmax ue la n, c) | _, _ => None end
      | _ => None
      end
  | RSquareCb =>
      match jstruct false [lit "config"; lit "counter"; lit "cb_adf"] v with
      | Some [g; n; Some c] =>
          match cfg_in RSquareCb g, req de_usize n with
          | CSquareCb ue gs ge _, Some n => Some (KSquareCb ue gs ge n, c)
          | _, _ => None
          end
      | _ => None
      end
  | RElem =>
      match jstruct false [lit "regressor"; lit "pair"; lit "keep_original_features"; lit "num_bits"] v with
      | Some [Some c; p; k; nb] =>
          match req de_pair p, req de_bool k, req de_u8 nb with
          | Some (a, b), Some k, Some nb => Some (KElem a b k nb, c)
          | _, _, _ => None
          end
      | _ => None
      end
  | RDebug =>
      match jstruct false [lit "id"; lit "indent"; lit "prediction"; lit "label"; lit "features"; lit "next"] v with
      | Some [i; n; p; l; f; Some c] =>
          match req de_str i, req de_usize n, req de_bool p, req de_bool l, req de_bool f with
          | Some _, Some _, Some _, Some _, Some _ => Some (KDebug, c)
          | _, _, _, _, _ => None
          end
      | _ => None
      end
  end.
(** reduction.rs:257-263; the implementation is found by its name, whatever [typename] says *)
Fixpoint de_red (n : nat) (v : json) : out (anyred O) :=
  match n with
  | 0%nat => Er EJson
  | S n =>
      match jstruct false [lit "typename"; lit "reduction"; lit "type_description"; lit "num_models_below"] v with
      | Some [ty; Some (JObj [(name, body)]); td; b] =>
          match req de_str ty, req de_tdesc td, req de_u8 b with
          | Some _, Some td, Some b =>
              match find (fun t => str_eqb (impl_name t) name) registry with
              | Some RCoin => let* c := de_coin_model body in Ok (existT red 0%nat (mkW td b, c))
              | Some t =>
                  match de_kind t body with
                  | Some (k, c) => let* ch := de_red n c in Ok (existT red (S (projT1 ch)) (mkW td b, k, projT2 ch))
                  | None => Er EJson
                  end
              | None => Er EJson
              end
          | _, _, _ => Er EJson
          end
      | _ => Er EJson
      end
  end.
(** workspace.rs:19-25; the pool is skipped *)
Definition de_workspace (v : json) : out (gconfig * anyred O) :=
  match jstruct false [lit "global_config"; lit "entry_reduction"] v with
  | Some [g; Some e] =>
      match req de_global g with
      | Some gc => let* r := de_red (S (jdepth e)) e in Ok (gc, r)
      | None => Er EJson
      end
  | _ => Er EJson
  end.

(** *** workspace.rs:68-123: replacing the weights inside a JSON value *)
Definition is_table (l : list (str * json)) : bool := forallb (fun nm => existsb (fun kv => str_eqb nm (fst kv)) l) shape_names.
Fixpoint rewrite_json (f : json -> out json) (v : json) : out json :=
  match v with
  | JObj l =>
      if is_table l then f v
      else let* l' := (fix go (l : list (str * json)) : out (list (str * json)) :=
                         match l with
                         | [] => Ok []
                         | (k, x) :: l => let* y := rewrite_json f x in let* l' := go l in Ok ((k, y) :: l')
                         end) l in
           Ok (JObj l')
  | JArr l =>
      let* l' := (fix go (l : list json) : out (list json) :=
                    match l with
                    | [] => Ok []
                    | x :: l => let* y := rewrite_json f x in let* l' := go l in Ok (y :: l')
                    end) l in
      Ok (JArr l')
  | v => Ok v
  end.
(** lines 105-107 and 78-79; [ord] is the order in which the hash map is visited *)
Definition to_rows (dbg : bool) (ord : list (N * list (list O)) -> list (N * list (list O))) (v : json) : out json :=
  let* w := unwrap_res (de_dense v) in
  let* d := nd_from_dense dbg w in
  Ok (w_nd (mkNd (ord (nd_map d)) (nd_fsize d) (nd_msize d) (nd_ssize d) (nd_mshift d) (nd_sshift d))).
Definition to_sparse (dbg : bool) (ord : list (N * list (list O)) -> list (N * list (list O))) (v : json) : out json :=
  match de_nd v with
  | None => Pn PErr
  | Some d =>
      let* w := nd_to_dense dbg (mkNd (ord (nd_map d)) (nd_fsize d) (nd_msize d) (nd_ssize d) (nd_mshift d) (nd_sshift d)) in
      Ok (w_dense w)
  end.

(** workspace.rs:154-158 *)
Definition ws_export (dbg : bool) (ord : list (N * list (list O)) -> list (N * list (list O))) (ex : nat -> extra)
    (g : gconfig) (R : anyred O) : out json :=
  rewrite_json (to_rows dbg ord) (w_workspace w_dense ex g R).
(** workspace.rs:161-168 *)
Definition ws_import (dbg : bool) (ord : list (N * list (list O)) -> list (N * list (list O))) (v : json)
  : out (gconfig * anyred O) :=
  let* v := rewrite_json (to_sparse dbg ord) v in
  match de_workspace v with
  | Er _ => Er EInvalidConfiguration
  | r => r
  end.
End Export.
Arguments w_f32 {O}. Arguments w_str {O}. Arguments w_opt {O A}. Arguments w_label_type {O}. Arguments w_feat_type {O}.
Arguments w_pred_type {O}. Arguments w_tdesc {O}. Arguments w_ns {O}. Arguments w_loss {O}. Arguments w_link {O}.
Arguments w_coin_cfg {O}. Arguments w_shape {O}. Arguments w_sparse {O}. Arguments w_dense {O}. Arguments w_rows {O}. Arguments w_nd {O}.
Arguments w_coin {O}. Arguments mkExtra {O}. Arguments x_child {O}. Arguments x_id {O}. Arguments x_indent {O}. Arguments x_pred {O}.
Arguments x_label {O}. Arguments x_feats {O}. Arguments kind_type {O}. Arguments w_cbtype {O}. Arguments w_kind {O}. Arguments w_wrapper {O}.
Arguments w_red {O}. Arguments w_nsdef {O}. Arguments w_global {O}. Arguments w_workspace {O}. Arguments de_unit {O A}.
Arguments de_label_type {O}. Arguments de_feat_type {O}. Arguments de_pred_type {O}. Arguments optf {O A}. Arguments de_tdesc {O}.
Arguments de_ns {O}. Arguments de_sparse {O}. Arguments de_shape {O A}. Arguments de_dense {O}. Arguments de_rows {O}. Arguments de_nd {O}.
Arguments de_state {O}. Arguments de_pair {O}. Arguments de_triple {O}. Arguments de_coin_model {O}. Arguments de_mtr {O}.
Arguments cfg_in {O}. Arguments de_kind {O}. Arguments de_red {O}. Arguments de_workspace {O}. Arguments is_table {O}.
Arguments rewrite_json {O}. Arguments to_rows {O}. Arguments to_sparse {O}. Arguments ws_export {O}. Arguments ws_import {O}.

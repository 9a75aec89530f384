(** Configurations as JSON: /repo/reductionml-core/src/workspace.rs:27-57, 125-138,
    reduction_factory.rs:18-32, 157-209, reduction_registry.rs, global_config.rs:8-30, the
    configuration structs of reductions/*.rs, and /repo/reductionml-cli/src/config.rs:46-116.
    - A JSON value is a tree of type [json] (Model_Json); reading the text is left out.  An
      object of a [serde_json::Value] has every key once; [jfield] takes the last entry.
    - The derived [Deserialize] implementations are modelled by [jstruct] and the functions
      [de_*]: None is any serde error.
    - The fields of [DebugConfig] other than [next] only influence printing; they are
      checked here and dropped. *)
From Coq Require Import List NArith ZArith Bool Ascii String.
From Verif Require Import Base FloatOps Model_Hash Model_Features Model_Weights Model_Loss
  Model_Interactions Model_Types Model_Explore Model_Coin Model_Stack Model_Factory Model_Text Model_Json.
Import ListNotations.
Open Scope N_scope.
Open Scope list_scope.

(** a Rust string literal *)
Definition lit (s : string) : str := List.map N_of_ascii (list_ascii_of_string s).

Section Config.
Context (O : FOps).
Local Notation json := (json O).
Local Notation rcfg := (rcfg O).

(** *** derived Deserialize *)
(** all keys of the object are fields *)
Definition known (names : list str) (l : list (str * json)) : bool :=
  forallb (fun kv => existsb (str_eqb (fst kv)) names) l.
(** The values given for the fields of a struct: by name, or by position in an array that
    is not longer than the list of fields.  [deny] is [deny_unknown_fields]. *)
Definition jstruct (deny : bool) (names : list str) (v : json) : option (list (option json)) :=
  match v with
  | JObj l => if deny && negb (known names l) then None else Some (List.map (fun nm => jfield O nm l) names)
  | JArr l => if Nat.leb (List.length l) (List.length names)
              then Some (List.map (nth_error l) (seq 0 (List.length names))) else None
  | _ => None
  end.
(** a field with [#[serde(default = ...)]] *)
Definition dflt {A} (de : json -> option A) (d : A) (ov : option json) : option A :=
  match ov with None => Some d | Some v => de v end.
(** a field without *)
Definition req {A} (de : json -> option A) (ov : option json) : option A :=
  match ov with None => None | Some v => de v end.

Definition de_f32 : json -> option O := jf32 O.
Definition de_bool (v : json) : option bool := match v with JBool b => Some b | _ => None end.
Definition de_str (v : json) : option str := match v with JStr s => Some s | _ => None end.
(** unsigned integers below a bound *)
Definition de_uint (bound : N) (v : json) : option N :=
  match v with JNum n => match jn_u64 n with Some k => if k <? bound then Some k else None | None => None end | _ => None end.
Definition de_u8 := de_uint 256.
Definition de_u32 := de_uint u32_mod.
Definition de_usize := de_uint 18446744073709551616.
(** [Option<T>] of a field that is there *)
Definition de_opt {A} (de : json -> option A) (v : json) : option (option A) :=
  match v with JNull => Some None | v => match de v with Some x => Some (Some x) | None => None end end.
Fixpoint de_all {A} (de : json -> option A) (l : list json) : option (list A) :=
  match l with
  | [] => Some []
  | v :: l => match de v, de_all de l with Some x, Some xs => Some (x :: xs) | _, _ => None end
  end.
Definition de_vec {A} (de : json -> option A) (v : json) : option (list A) :=
  match v with JArr l => de_all de l | _ => None end.
(** the variant of an enum (externally tagged) and its contents *)
Definition jvariant (v : json) : option (str * option json) :=
  match v with JStr s => Some (s, None) | JObj [(k, x)] => Some (k, Some x) | _ => None end.
(** the contents of a variant without fields *)
Definition unit_ok (x : option json) : bool := match x with None | Some JNull => true | _ => false end.

(** interactions.rs:6-10 *)
Definition de_nsdef (v : json) : option nsdef :=
  match jvariant v with
  | Some (k, x) =>
      if str_eqb k (lit "Name") then match req de_str x with Some s => Some (NDName s) | None => None end
      else if str_eqb k (lit "Default") then if unit_ok x then Some NDDefault else None
      else None
  | None => None
  end.
(** global_config.rs:8-30 *)
Definition global_names : list str :=
  [lit "numBits"; lit "hashSeed"; lit "constantFeatureEnabled"; lit "interactions"].
Definition de_global (v : json) : option gconfig :=
  match jstruct true global_names v with
  | Some [a; b; c; d] =>
      match dflt de_u8 18 a, dflt de_u32 0 b, dflt de_bool true c, dflt (de_vec (de_vec de_nsdef)) [] d with
      | Some nb, Some seed, Some cf, Some is => Some (mkGc nb seed cf is)
      | _, _, _, _ => None
      end
  | _ => None
  end.
(** loss_function.rs:26-30, squared_loss.rs:6-7, logistic_loss.rs:7-20: the two structs
    accept unknown fields, and their fields are in snake case *)
Definition de_loss (v : json) : option (loss O) :=
  match jvariant v with
  | Some (k, x) =>
      if str_eqb k (lit "Squared") then
        match req (jstruct false []) x with Some _ => Some LossSquared | None => None end
      else if str_eqb k (lit "Logistic") then
        match req (jstruct false [lit "min_label"; lit "max_label"]) x with
        | Some [a; b] =>
            match dflt de_f32 (f_neg O f1) a, dflt de_f32 f1 b with
            | Some mn, Some mx => Some (LossLogistic mn mx)
            | _, _ => None
            end
        | _ => None
        end
      else None
  | None => None
  end.
(** coin.rs:23-27 *)
Definition de_link (v : json) : option link :=
  match jvariant v with
  | Some (k, x) =>
      if str_eqb k (lit "Identity") then if unit_ok x then Some LinkIdentity else None
      else if str_eqb k (lit "Logistic") then if unit_ok x then Some LinkLogistic else None
      else None
  | None => None
  end.
(** coin.rs:38-75 *)
Definition coin_names : list str :=
  [lit "alpha"; lit "beta"; lit "l1Lambda"; lit "l2Lambda"; lit "lossFunction"; lit "linkFunction"].
Definition de_coin (v : json) : option (coin_config O) :=
  match jstruct true coin_names v with
  | Some [a; b; c; d; e; f] =>
      match dflt de_f32 (fl 4) a, dflt de_f32 (fl 1) b, dflt de_f32 f0 c, dflt de_f32 f0 d,
            dflt de_loss LossSquared e, dflt de_link LinkIdentity f with
      | Some al, Some be, Some l1, Some l2, Some lo, Some li => Some (mkCoinCfg al be l1 l2 lo li)
      | _, _, _, _, _, _ => None
      end
  | _ => None
  end.
(** cb_adf.rs:20-26 *)
Definition de_cbtype (v : json) : option cbtype :=
  match jvariant v with
  | Some (k, x) =>
      if str_eqb k (lit "ips") then if unit_ok x then Some Ips else None
      else if str_eqb k (lit "mtr") then if unit_ok x then Some Mtr else None
      else None
  | None => None
  end.
(** reduction_factory.rs:20-26 [JsonReductionConfig]: unknown fields are accepted; a
    missing [Option] is None, but not in an array.  [PascalCaseString] (69-70) is read as
    any string. *)
Definition jrc : Type := (str * option json)%type.
Definition de_jrc (v : json) : option jrc :=
  match jstruct false [lit "typename"; lit "config"] v with
  | Some [t; c] =>
      match req de_str t, v, c with
      | Some ty, JObj _, None => Some (ty, None)
      | Some ty, _, Some x => match de_opt (fun x => Some x) x with Some o => Some (ty, o) | None => None end
      | _, _, _ => None
      end
  | _ => None
  end.

(** *** defaults, as they are serialized *)
Definition jflt (x : O) : json := JNum (mkNum x x None).
Definition juint (n : N) : json := JNum (mkNum (f_of_N n) (f_of_N n) (Some n)).
(** [JsonReductionConfig::new] and its serialized form *)
Definition jrc_json (j : jrc) : json :=
  JObj [(lit "typename", JStr (fst j)); (lit "config", match snd j with Some v => v | None => JNull end)].
(** coin.rs:38-75 *)
Definition coin_json : json :=
  JObj [(lit "alpha", jflt (fl 4)); (lit "beta", jflt (fl 1)); (lit "l1Lambda", jflt f0); (lit "l2Lambda", jflt f0);
        (lit "lossFunction", JObj [(lit "Squared", JObj [])]); (lit "linkFunction", JStr (lit "Identity"))].
(** binary.rs:29-34, cb_adf.rs:58-63, elementwise_interaction.rs:42-47 *)
Definition default_regressor : jrc := (lit "Coin", Some coin_json).
(** cb_adf.rs:28-46 *)
Definition cb_adf_json : json :=
  JObj [(lit "cbType", JStr (lit "mtr")); (lit "regressor", jrc_json default_regressor)].
(** cb_explore_adf_greedy.rs:36-38, softmax.rs:44-46, squarecb.rs:53-55 *)
Definition default_cb_adf : jrc := (lit "CbAdf", Some cb_adf_json).
(** debug.rs:49-51 *)
Definition default_next : jrc := (lit "Unknown", Some (JObj [])).

(** reduction_registry.rs:17-44 *)
Inductive rtype : Type := RCoin | RBinary | RCbAdf | RGreedy | RDebug | RSquareCb | RSoftmax | RElem.
Definition typename (t : rtype) : str :=
  lit match t with
      | RCoin => "Coin"
      | RBinary => "Binary"
      | RCbAdf => "CbAdf"
      | RGreedy => "CbExploreAdfGreedy"
      | RDebug => "Debug"
      | RSquareCb => "CbExploreAdfSquareCb"
      | RSoftmax => "CbExploreAdfSoftmax"
      | RElem => "ElementwiseInteraction"
      end.
Definition registry : list rtype := [RCoin; RBinary; RCbAdf; RGreedy; RDebug; RSquareCb; RSoftmax; RElem].
Definition registry_get (name : str) : option rtype := find (fun t => str_eqb (typename t) name) registry.

(** reduction_factory.rs:173-175 [get_config_default]; the defaults of greedy (23-38),
    softmax (21-46), squarecb (23-55), elementwise (22-51), debug (18-51) *)
Definition config_default (t : rtype) : json :=
  match t with
  | RCoin => coin_json
  | RBinary => JObj [(lit "regressor", jrc_json default_regressor)]
  | RCbAdf => cb_adf_json
  | RGreedy => JObj [(lit "epsilon", jflt (f_lit O 5 100)); (lit "cbAdf", jrc_json default_cb_adf)]
  | RSoftmax => JObj [(lit "uniformEpsilon", jflt f0); (lit "lambda", jflt f1); (lit "cbAdf", jrc_json default_cb_adf)]
  | RSquareCb => JObj [(lit "uniformEpsilon", jflt f0); (lit "gammaScale", jflt (fl 10)); (lit "gammaExponent", jflt (f_lit O 1 2));
                       (lit "cbAdf", jrc_json default_cb_adf)]
  | RElem => JObj [(lit "regressor", jrc_json default_regressor); (lit "one", JStr (lit "Default"));
                   (lit "two", JStr (lit "Default")); (lit "keepOriginalFeatures", JBool false)]
  | RDebug => JObj [(lit "id", JStr []); (lit "prediction", JBool false); (lit "label", JBool false);
                    (lit "features", JBool false); (lit "indent", juint 0); (lit "next", jrc_json default_next)]
  end.

(** *** parse_config *)
Definition opt_cfg (x : option rcfg) : rcfg := match x with Some c => c | None => CBad EJson end.

(** The [parse_config] of the factories (reduction_factory.rs:164-167); [sub] parses the
    configuration of the reduction below (which the [create] functions do first). *)
Definition parse_with (sub : jrc -> rcfg) (t : rtype) (v : json) : rcfg :=
  opt_cfg
  match t with
  | RCoin => match de_coin v with Some c => Some (CCoin c) | None => None end
  | RBinary =>                                              (* binary.rs:20-27 *)
      match jstruct true [lit "regressor"] v with
      | Some [r] => match dflt de_jrc default_regressor r with Some j => Some (CBinary (sub j)) | None => None end
      | _ => None
      end
  | RCbAdf =>                                               (* cb_adf.rs:28-46 *)
      match jstruct true [lit "cbType"; lit "regressor"] v with
      | Some [a; r] =>
          match dflt de_cbtype Mtr a, dflt de_jrc default_regressor r with
          | Some ty, Some j => Some (CCbAdf ty (sub j))
          | _, _ => None
          end
      | _ => None
      end
  | RGreedy =>                                              (* cb_explore_adf_greedy.rs:20-38 *)
      match jstruct true [lit "epsilon"; lit "cbAdf"] v with
      | Some [a; r] =>
          match dflt de_f32 (f_lit O 5 100) a, dflt de_jrc default_cb_adf r with
          | Some e, Some j => Some (CGreedy e (sub j))
          | _, _ => None
          end
      | _ => None
      end
  | RSoftmax =>                                             (* cb_explore_adf_softmax.rs:21-46 *)
      match jstruct true [lit "uniformEpsilon"; lit "lambda"; lit "cbAdf"] v with
      | Some [a; b; r] =>
          match dflt de_f32 f0 a, dflt de_f32 f1 b, dflt de_jrc default_cb_adf r with
          | Some ue, Some la, Some j => Some (CSoftmax ue la (sub j))
          | _, _, _ => None
          end
      | _ => None
      end
  | RSquareCb =>                                            (* cb_explore_adf_squarecb.rs:23-55 *)
      match jstruct true [lit "uniformEpsilon"; lit "gammaScale"; lit "gammaExponent"; lit "cbAdf"] v with
      | Some [a; b; c; r] =>
          match dflt de_f32 f0 a, dflt de_f32 (fl 10) b, dflt de_f32 (f_lit O 1 2) c, dflt de_jrc default_cb_adf r with
          | Some ue, Some gs, Some ge, Some j => Some (CSquareCb ue gs ge (sub j))
          | _, _, _, _ => None
          end
      | _ => None
      end
  | RElem =>                                                (* elementwise_interaction.rs:22-51 *)
      match jstruct true [lit "regressor"; lit "one"; lit "two"; lit "keepOriginalFeatures"] v with
      | Some [r; a; b; c] =>
          match dflt de_jrc default_regressor r, dflt de_nsdef NDDefault a, dflt de_nsdef NDDefault b, dflt de_bool false c with
          | Some j, Some one, Some two, Some keep => Some (CElem one two keep (sub j))
          | _, _, _, _ => None
          end
      | _ => None
      end
  | RDebug =>                                               (* debug.rs:18-51 *)
      match jstruct true [lit "id"; lit "prediction"; lit "label"; lit "features"; lit "indent"; lit "next"] v with
      | Some [a; b; c; d; e; r] =>
          match dflt de_str [] a, dflt de_bool false b, dflt de_bool false c, dflt de_bool false d, dflt de_usize 0 e,
                dflt de_jrc default_next r with
          | Some _, Some _, Some _, Some _, Some _, Some j => Some (CDebug (sub j))
          | _, _, _, _, _, _ => None
          end
      | _ => None
      end
  end.

(** reduction_factory.rs:181-193 [parse_config], to any depth; [n] steps are enough for a
    configuration nested less deeply *)
Fixpoint parse_config (n : nat) (j : jrc) : rcfg :=
  match n with
  | 0%nat => CBad EJson
  | S n =>
      match registry_get (fst j) with
      | None => CBad EInvalidArgument
      | Some t => parse_with (parse_config n) t (match snd j with Some v => v | None => config_default t end)
      end
  end.
Fixpoint jdepth (v : json) : nat :=
  match v with
  | JArr l => S (fold_right (fun x m => Nat.max (jdepth x) m) 0%nat l)
  | JObj l => S (fold_right (fun kv m => Nat.max (jdepth (snd kv)) m) 0%nat l)
  | _ => 0%nat
  end.
(** four steps more for the defaults *)
Definition parse_jrc (j : jrc) : rcfg :=
  parse_config (match snd j with Some v => jdepth v | None => 0%nat end + 4) j.

(** workspace.rs:27-37, 50-57 *)
Definition de_configuration (v : json) : option (gconfig * jrc) :=
  match jstruct true [lit "$schema"; lit "globalConfig"; lit "entryReduction"] v with
  | Some [s; g; e] =>
      match dflt (de_opt de_str) None s, req de_global g, req de_jrc e with
      | Some _, Some gc, Some j => Some (gc, j)
      | _, _, _ => None
      end
  | _ => None
  end.
(** a configuration becomes a workspace: workspace.rs:50-57, 125-138 *)
Definition load (H : hasher) (dbg : bool) (v : json) : out (gconfig * anyred O) :=
  match de_configuration v with
  | None => Er EInvalidConfiguration
  | Some (gc, j) => let* r := ws_new H dbg gc (parse_jrc j) in Ok (gc, r)
  end.

(** config.rs:63-116 [config new]; [url] is the address of the schema *)
Definition global_json : json :=
  JObj [(lit "numBits", juint 18); (lit "hashSeed", juint 0); (lit "constantFeatureEnabled", JBool true); (lit "interactions", JArr [])].
Definition config_new (url name : str) : option json :=
  match registry_get name with
  | None => None
  | Some t =>
      Some (JObj [(lit "$schema", JStr url); (lit "globalConfig", global_json);
                  (lit "entryReduction", JObj [(lit "typename", JStr name); (lit "config", config_default t)])])
  end.
(** config.rs:51-62 [config check] prints "ok" *)
Definition config_check (H : hasher) (dbg : bool) (v : json) : bool := is_ok (load H dbg v).
End Config.
Arguments known {O}. Arguments jstruct {O}. Arguments dflt {O A}. Arguments req {O A}. Arguments de_f32 {O}. Arguments de_bool {O}.
Arguments de_str {O}. Arguments de_uint {O}. Arguments de_u8 {O}. Arguments de_u32 {O}. Arguments de_usize {O}. Arguments de_opt {O A}. Arguments de_all {O A}. Arguments de_vec {O A}.
Arguments jvariant {O}. Arguments unit_ok {O}. Arguments de_nsdef {O}. Arguments de_global {O}. Arguments de_loss {O}.
Arguments de_link {O}. Arguments de_coin {O}. Arguments de_cbtype {O}. Arguments de_jrc {O}. Arguments jflt {O}. Arguments juint {O}.
Arguments jrc_json {O}. Arguments coin_json {O}. Arguments default_regressor {O}. Arguments cb_adf_json {O}. Arguments default_cb_adf {O}.
Arguments default_next {O}. Arguments config_default {O}. Arguments opt_cfg {O}. Arguments parse_with {O}. Arguments parse_config {O}.
Arguments jdepth {O}. Arguments parse_jrc {O}. Arguments de_configuration {O}. Arguments load {O}. Arguments global_json {O}.
Arguments config_new {O}. Arguments config_check {O}.

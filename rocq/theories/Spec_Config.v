(** What a configuration file may contain and what it means, written down independently of
    the parser: the options of every reduction with their defaults, objects with an option
    spelled out, objects with a key that is no option. *)
From Coq Require Import List NArith ZArith Bool String.
From Verif Require Import Base FloatOps Model_Hash Model_Features Model_Weights Model_Loss Model_Interactions
  Model_Types Model_Coin Model_Stack Model_Factory Model_Text Model_Json Model_Config.
Import ListNotations.
Open Scope list_scope.
Open Scope N_scope.

Section Spec.
Context {O : FOps}.
Local Notation json := (json O).
Local Notation obj := (list (str * json)).

(** numbers as they stand in a file *)
Definition num (x : O) : json := JNum (mkNum x x None).
Definition int (n : N) : json := JNum (mkNum (f_of_N n) (f_of_N n) (Some n)).
Definition text (s : string) : json := JStr (lit s).
(** a reduction with nothing said about its options *)
Definition just (ty : string) : json := JObj [(lit "typename", text ty)].

(** every reduction, with its options and their defaults *)
Definition doc : list (string * list (string * json)) :=
  [("Coin", [("alpha", num (fl 4)); ("beta", num (fl 1)); ("l1Lambda", num f0); ("l2Lambda", num f0);
             ("lossFunction", JObj [(lit "Squared", JObj [])]); ("linkFunction", text "Identity")]);
   ("Binary", [("regressor", just "Coin")]);
   ("CbAdf", [("cbType", text "mtr"); ("regressor", just "Coin")]);
   ("CbExploreAdfGreedy", [("epsilon", num (f_lit O 5 100)); ("cbAdf", just "CbAdf")]);
   ("CbExploreAdfSoftmax", [("uniformEpsilon", num f0); ("lambda", num f1); ("cbAdf", just "CbAdf")]);
   ("CbExploreAdfSquareCb", [("uniformEpsilon", num f0); ("gammaScale", num (fl 10)); ("gammaExponent", num (f_lit O 1 2));
                             ("cbAdf", just "CbAdf")]);
   ("ElementwiseInteraction", [("regressor", just "Coin"); ("one", text "Default"); ("two", text "Default");
                               ("keepOriginalFeatures", JBool false)]);
   ("Debug", [("id", JStr []); ("prediction", JBool false); ("label", JBool false); ("features", JBool false);
              ("indent", int 0); ("next", just "Unknown")])]%string.
(** the options that are themselves reductions *)
Definition below : list (string * string) :=
  [("Binary", "regressor"); ("CbAdf", "regressor"); ("CbExploreAdfGreedy", "cbAdf"); ("CbExploreAdfSoftmax", "cbAdf");
   ("CbExploreAdfSquareCb", "cbAdf"); ("ElementwiseInteraction", "regressor"); ("Debug", "next")]%string.
Definition doc_global : list (string * json) :=
  [("numBits", int 18); ("hashSeed", int 0); ("constantFeatureEnabled", JBool true); ("interactions", JArr [])]%string.

(** key [k] occurs in the object, once, with value [x]; it does not occur; its value is
    replaced *)
Definition has (l : obj) (k : string) (x : json) : Prop :=
  exists l1 l2, l = l1 ++ (lit k, x) :: l2 /\ ~ In (lit k) (map fst l1) /\ ~ In (lit k) (map fst l2).
Definition lacks (l : obj) (k : string) : Prop := ~ In (lit k) (map fst l).
Definition swapped (l : obj) (k : string) (x y : json) (l' : obj) : Prop :=
  exists l1 l2, l = l1 ++ (lit k, x) :: l2 /\ l' = l1 ++ (lit k, y) :: l2 /\
    ~ In (lit k) (map fst l1) /\ ~ In (lit k) (map fst l2).

(** The second description of a reduction says more explicitly what the first one says. *)
Inductive spelled : json -> json -> Prop :=
| sp_none : forall l, lacks l "config" -> spelled (JObj l) (JObj (l ++ [(lit "config", JObj [])]))
| sp_null : forall l l', swapped l "config" JNull (JObj []) l' -> spelled (JObj l) (JObj l')
| sp_option : forall l l' o ty ds k d, has l "typename" (text ty) -> In (ty, ds) doc -> In (k, d) ds -> lacks o k ->
    swapped l "config" (JObj o) (JObj (o ++ [(lit k, d)])) l' -> spelled (JObj l) (JObj l')
| sp_below : forall l l' o o' ty k s s', has l "typename" (text ty) -> In (ty, k) below -> spelled s s' ->
    swapped o k s s' o' -> swapped l "config" (JObj o) (JObj o') l' -> spelled (JObj l) (JObj l')
| sp_refl : forall v, spelled v v
| sp_trans : forall u v w, spelled u v -> spelled v w -> spelled u w.
(** The same for a configuration file. *)
Inductive spelled_out : json -> json -> Prop :=
| so_entry : forall l l' s s', spelled s s' -> swapped l "entryReduction" s s' l' -> spelled_out (JObj l) (JObj l')
| so_global : forall l l' o k d, In (k, d) doc_global -> lacks o k ->
    swapped l "globalConfig" (JObj o) (JObj (o ++ [(lit k, d)])) l' -> spelled_out (JObj l) (JObj l')
| so_schema : forall l s, lacks l "$schema" -> spelled_out (JObj l) (JObj (l ++ [(lit "$schema", JStr s)]))
| so_refl : forall v, spelled_out v v
| so_trans : forall u v w, spelled_out u v -> spelled_out v w -> spelled_out u w.

(** A key among the options of a reduction, at any depth, that is none of its options. *)
Inductive misspelled : json -> Prop :=
| mi_here : forall l o ty ds k, has l "typename" (text ty) -> has l "config" (JObj o) -> In (ty, ds) doc ->
    In k (map fst o) -> ~ In k (map (fun kd => lit (fst kd)) ds) -> misspelled (JObj l)
| mi_below : forall l o ty k s, has l "typename" (text ty) -> has l "config" (JObj o) -> In (ty, k) below ->
    has o k s -> misspelled s -> misspelled (JObj l).
(** The same for a configuration file. *)
Inductive misspelled_file : json -> Prop :=
| mf_top : forall l k, In k (map fst l) -> ~ In k [lit "$schema"; lit "globalConfig"; lit "entryReduction"] ->
    misspelled_file (JObj l)
| mf_global : forall l o k, has l "globalConfig" (JObj o) -> In k (map fst o) ->
    ~ In k (map (fun kd => lit (fst kd)) doc_global) -> misspelled_file (JObj l)
| mf_entry : forall l s, has l "entryReduction" s -> misspelled s -> misspelled_file (JObj l).

(** Configurations written out in full. *)
Definition show_nsdef (d : nsdef) : json :=
  match d with NDName s => JObj [(lit "Name", JStr s)] | NDDefault => text "Default" end.
Definition show_loss (l : loss O) : json :=
  match l with
  | LossSquared => JObj [(lit "Squared", JObj [])]
  | LossLogistic a b => JObj [(lit "Logistic", JObj [(lit "min_label", num a); (lit "max_label", num b)])]
  end.
Definition show_link (l : link) : json := text (match l with LinkIdentity => "Identity" | LinkLogistic => "Logistic" end).
Definition show_cbtype (t : cbtype) : json := text (match t with Ips => "ips" | Mtr => "mtr" end).
Definition red_obj (ty : string) (o : obj) : json := JObj [(lit "typename", text ty); (lit "config", JObj o)].
Fixpoint show (c : rcfg O) : json :=
  match c with
  | CCoin g => red_obj "Coin" [(lit "alpha", num (cc_alpha g)); (lit "beta", num (cc_beta g)); (lit "l1Lambda", num (cc_l1 g));
                               (lit "l2Lambda", num (cc_l2 g)); (lit "lossFunction", show_loss (cc_loss g));
                               (lit "linkFunction", show_link (cc_link g))]
  | CBinary c => red_obj "Binary" [(lit "regressor", show c)]
  | CCbAdf ty c => red_obj "CbAdf" [(lit "cbType", show_cbtype ty); (lit "regressor", show c)]
  | CGreedy e c => red_obj "CbExploreAdfGreedy" [(lit "epsilon", num e); (lit "cbAdf", show c)]
  | CSoftmax u l c => red_obj "CbExploreAdfSoftmax" [(lit "uniformEpsilon", num u); (lit "lambda", num l); (lit "cbAdf", show c)]
  | CSquareCb u s e c => red_obj "CbExploreAdfSquareCb" [(lit "uniformEpsilon", num u); (lit "gammaScale", num s);
                                                         (lit "gammaExponent", num e); (lit "cbAdf", show c)]
  | CElem a b k c => red_obj "ElementwiseInteraction" [(lit "one", show_nsdef a); (lit "two", show_nsdef b);
                                                       (lit "keepOriginalFeatures", JBool k); (lit "regressor", show c)]
  | CDebug c => red_obj "Debug" [(lit "next", show c)]
  | CBad _ => JNull
  end.
Fixpoint complete (c : rcfg O) : Prop :=
  match c with
  | CCoin _ => True
  | CBinary c | CCbAdf _ c | CGreedy _ c | CSoftmax _ _ c | CSquareCb _ _ _ c | CElem _ _ _ c | CDebug c => complete c
  | CBad _ => False
  end.
Definition show_global (g : gconfig) : json :=
  JObj [(lit "numBits", int (gc_bits g)); (lit "hashSeed", int (gc_seed g)); (lit "constantFeatureEnabled", JBool (gc_const g));
        (lit "interactions", JArr (map (fun i => JArr (map show_nsdef i)) (gc_inter g)))].
Definition show_file (g : gconfig) (c : rcfg O) : json :=
  JObj [(lit "globalConfig", show_global g); (lit "entryReduction", show c)].

(** Nothing said but the reduction. *)
Definition minimal (ty : string) : json := JObj [(lit "globalConfig", JObj []); (lit "entryReduction", just ty)].

(** No key twice; the size of the weight table and the interactions are ones the program
    supports. *)
Definition supported (g : obj) : Prop :=
  NoDup (map fst g) /\
  (forall n k, has g "numBits" (JNum n) -> jn_u64 n = Some k -> k < 32) /\
  (forall is, has g "interactions" (JArr is) ->
     Forall (fun i => forall a, i = JArr a -> List.length a = 2%nat \/ List.length a = 3%nat) is).
End Spec.

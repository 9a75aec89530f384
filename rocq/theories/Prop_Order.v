(** Property theorems: order of combining features (C25) and configured interactions (C35). *)
From Coq Require Import List NArith ZArith Bool Permutation.
From Verif Require Import Base FloatOps FloatR FloatB32 Model_Hash Model_Features Model_Weights Model_Loss Model_Interactions
  Model_Types Model_Explore Model_Coin Model_Stack Model_Factory Spec_Foreach Spec_Features Spec_Stack Spec_Reductions
  Spec_Order Spec_Inter Proof_StackProps Proof_Order Proof_Inter.
Import ListNotations.
Open Scope N_scope.

(** C25.  Prediction combines an action's features with the shared ones as [a] then [b],
    mtr training as [b] then [a].  Both use the same (index, value) pairs, in another
    order, unless an interaction couples positions of a namespace filled by both. *)
Theorem C25_same_features :
  forall (O : FOps) dbg (a b x y : sfeats O) pairs triples nb const l, built a -> built b -> quiet a -> quiet b ->
  sf_append a b = Ok x -> sf_append b a = Ok y ->
  Forall (pair_safe a b) pairs -> Forall (triple_safe a b) triples ->
  fe_list dbg x pairs triples nb const = Ok l ->
  exists l', fe_list dbg y pairs triples nb const = Ok l' /\ Permutation l l'.
Proof. exact @order_irrelevant. Qed.
Print Assumptions C25_same_features.

(** C25.  In exact arithmetic the predictions are equal. *)
Theorem C25_same_prediction :
  forall dbg (c : coin RF) (a b x y : sfeats RF) p, built a -> built b -> quiet a -> quiet b ->
  sf_append a b = Ok x -> sf_append b a = Ok y ->
  Forall (pair_safe a b) (co_pairs c) -> Forall (triple_safe a b) (co_triples c) ->
  coin_predict dbg c x = Ok p -> coin_predict dbg c y = Ok p.
Proof. exact order_prediction. Qed.
Print Assumptions C25_same_prediction.

Example C25_example : built od_a /\ built od_s /\ quiet od_a /\ quiet od_s /\
  pair_safe od_a od_s (NsDefault, NsNamed 8) /\ triple_safe od_a od_s (NsNamed 8, NsNamed 8, NsDefault) /\
  exists x y l l', sf_append od_a od_s = Ok x /\ sf_append od_s od_a = Ok y /\
  fe_list false x [(NsDefault, NsNamed 8)] [(NsNamed 8, NsNamed 8, NsDefault)] 18 true = Ok l /\
  fe_list false y [(NsDefault, NsNamed 8)] [(NsNamed 8, NsNamed 8, NsDefault)] 18 true = Ok l' /\
  length l = 16%nat /\ map fst l <> map fst l'.
Proof. exact order_example. Qed.

(** C25 is false for an interaction of a namespace with itself that both objects fill:
    training touches a weight that prediction does not use. *)
Theorem C25_pair_refuted : exists x y l l', sf_append od_a od_s = Ok x /\ sf_append od_s od_a = Ok y /\
  fe_list false x [(NsDefault, NsDefault)] [] 18 true = Ok l /\ fe_list false y [(NsDefault, NsDefault)] [] 18 true = Ok l' /\
  exists i, In i (map fst l') /\ ~ In i (map fst l).
Proof. exact order_pair_refuted. Qed.
Print Assumptions C25_pair_refuted.

(** The same for three namespaces, even if only the first one is filled by both. *)
Theorem C25_triple_refuted : exists x y l l', sf_append od_a od_s = Ok x /\ sf_append od_s od_a = Ok y /\
  one_sided od_a od_s (NsNamed 8) /\
  fe_list false x [] [od_triple] 18 true = Ok l /\ fe_list false y [] [od_triple] 18 true = Ok l' /\
  exists i, In i (map fst l') /\ ~ In i (map fst l).
Proof. exact order_triple_refuted. Qed.
Print Assumptions C25_triple_refuted.

(** C35.  Compiling the configured interactions succeeds exactly if all have two or three
    namespaces, and then gives those of two and those of three in configuration order;
    otherwise it panics. *)
Theorem C35_sorted : forall H seed is,
  (forall ps ts, compile_interactions H seed is = Ok (ps, ts) <-> sorted_into (nsdef_namespace H seed) is ps ts) /\
  (compile_interactions H seed is = Pn PTodo <-> exists i, In i is /\ length i <> 2%nat /\ length i <> 3%nat) /\
  (forall e, compile_interactions H seed is <> Er e) /\
  (forall p, compile_interactions H seed is = Pn p -> p = PTodo).
Proof. exact compile_spec. Qed.
Print Assumptions C35_sorted.

(** C35.  The regressor of any created stack, in any state reached by training, goes
    through the features, the interactions of two namespaces, those of three, and the
    constant, each configured interaction once and in order. *)
Theorem C35_used : forall (O : FOps) H dbg gc (c : rcfg O) R r f l, ws_new H dbg gc c = Ok R -> reach dbg (projT2 R) r ->
  coin_feats dbg (bottom (projT1 R) r) f = Ok l ->
  exists ps ts mk k, sorted_into (nsdef_namespace H (gc_seed gc)) (gc_inter gc) ps ts /\
    mask_from_bits dbg (gc_bits gc) = Ok mk /\
    l = sf_all f ++ concat (map (fe_quadratic mk f) ps) ++ concat (map (fe_cubic mk f) ts) ++ k /\
    length k = (if gc_const gc then 1 else 0)%nat.
Proof. exact @interactions_used. Qed.
Print Assumptions C35_used.

Example C35_example :
  exists ps ts, compile_interactions ex_hash 0 [[NDDefault; NDName [97]]; [NDDefault; NDDefault; NDName [98]]; [NDName [97]; NDName [98]]]
    = Ok (ps, ts) /\ length ps = 2%nat /\ length ts = 1%nat /\
  compile_interactions ex_hash 0 [[NDDefault; NDName [97]]; [NDDefault]] = Pn PTodo.
Proof. do 2 eexists. repeat split; vm_compute; reflexivity. Qed.

(** C09, C10, C11: property theorems about the enumeration of interactions. *)
From Coq Require Import List NArith ZArith Bool Lia.
From Verif Require Import Base FloatOps FloatB32 Model_Hash Model_Features Model_Weights Spec_Foreach Proof_Foreach.
Import ListNotations.
Open Scope N_scope.

(** C09.  The pairs used are given by a list of positions without repetition that
    contains exactly the positions (i, j), with i <= j if the namespaces are equal.
    ([feats_of] is empty for a missing or inactive namespace.) *)
Theorem C09_pairs_once :
  forall (O : FOps) (mk : N) (m : sfeats O) (n1 n2 : namespace),
  exists ps : list (nat * nat), NoDup ps /\
    (forall i j, In (i, j) ps <->
       (i < length (feats_of n1 m) /\ j < length (feats_of n2 m) /\ (n1 = n2 -> i <= j))%nat) /\
    fe_quadratic mk m (n1, n2) =
    map (fun p => (mask mk (quadratic_feature_hash (fidx (feats_of n1 m) (fst p)) (fidx (feats_of n2 m) (snd p))),
                   f_mul O (fval (feats_of n1 m) (fst p)) (fval (feats_of n2 m) (snd p)))) ps.
Proof. exact @pairs_once. Qed.
Print Assumptions C09_pairs_once.

Example C09_example :
  fe_quadratic 1023 c10_m (c10_ns1, c10_ns1) =
  [(mask 1023 (quadratic_feature_hash 10 10), bv 4); (mask 1023 (quadratic_feature_hash 10 11), bv 6);
   (mask 1023 (quadratic_feature_hash 11 11), bv 9)].
Proof. vm_compute. reflexivity. Qed.

(** C09.  Hence each unordered pair of positions of one namespace is used once. *)
Theorem C09_unordered_pairs_once :
  forall (ps : list (nat * nat)) (n : nat),
  (forall i j, In (i, j) ps <-> (i < n /\ j < n /\ i <= j)%nat) ->
  forall i j, (i < n)%nat -> (j < n)%nat ->
    (In (i, j) ps \/ In (j, i) ps) /\ (In (i, j) ps -> In (j, i) ps -> i = j).
Proof. exact pairs_unordered. Qed.
Print Assumptions C09_unordered_pairs_once.

(** C10.  Exactly which triples are used: note the condition [i <= k] (not [j <= k])
    when the second and third namespace are equal.  For three different namespaces
    every triple is used once; for the first two equal, each unordered pair of the
    first two with each of the third. *)
Theorem C10_triples_visited :
  forall (O : FOps) (mk : N) (m : sfeats O) (n1 n2 n3 : namespace),
  exists ps : list (nat * nat * nat), NoDup ps /\
    (forall i j k, In (i, j, k) ps <->
       (i < length (feats_of n1 m) /\ j < length (feats_of n2 m) /\ k < length (feats_of n3 m)
        /\ (n1 = n2 -> i <= j) /\ (n2 = n3 -> i <= k))%nat) /\
    fe_cubic mk m (n1, n2, n3) =
    map (fun p => let '(i, j, k) := p in
        (mask mk (cubic_feature_hash (fidx (feats_of n1 m) i) (fidx (feats_of n2 m) j) (fidx (feats_of n3 m) k)),
         f_mul O (f_mul O (fval (feats_of n1 m) i) (fval (feats_of n2 m) j)) (fval (feats_of n3 m) k))) ps.
Proof. exact @triples_visited. Qed.
Print Assumptions C10_triples_visited.

Example C10_example :
  length (fe_cubic 1023 c10_m (c10_ns1, c10_ns1, c10_ns2)) = 6%nat /\
  feats_of c10_ns1 c10_m = [(10, bv 2); (11, bv 3)].
Proof. split; vm_compute; reflexivity. Qed.

(** C10 is false when the second and third namespace are equal: here the namespaces
    have features with values 2, 3 and 5, 7, and the combination 3*5*5 is not used. *)
Theorem C10_missing_refuted : forall mk,
  length (fe_cubic mk c10_m (c10_ns1, c10_ns2, c10_ns2)) = 6%nat /\
  existsb (fun p => f_eqb BF0 (snd p) (bv 75)) (fe_cubic mk c10_m (c10_ns1, c10_ns2, c10_ns2)) = false.
Proof. exact triples_missing. Qed.
Print Assumptions C10_missing_refuted.

(** C10 is false for three equal namespaces: two features have four unordered
    triples, five are used. *)
Theorem C10_repeated_refuted : forall mk,
  length (fe_cubic mk c10_m (c10_ns1, c10_ns1, c10_ns1)) = 5%nat.
Proof. exact triples_repeated. Qed.
Print Assumptions C10_repeated_refuted.

(** C11.  If all feature indices were masked with the workspace's mask, every index
    enumerated, for any interactions, is inside the table and its state can be read. *)
Theorem C11_indices_in_table :
  forall (O : FOps) (dbg : bool) (m : sfeats O) pairs triples (nb : N) (const : bool)
         (mk fsize msize ssize : N) (w : dweights O),
  mask_from_bits dbg nb = Ok mk -> bits_to_max_feature_index dbg nb = Ok fsize ->
  0 < msize < 2 ^ 8 -> 0 < ssize < 2 ^ 8 ->
  dw_new O dbg fsize msize ssize = Ok w ->
  (forall i v, In (i, v) (sf_all m) -> exists h, i = mask mk h) ->
  exists l, fe_list dbg m pairs triples nb const = Ok l /\
    forall i v, In (i, v) l ->
      i < fsize /\
      forall mi, mi < msize -> exists st, dw_state_at dbg w i mi = Ok st /\ length st = N.to_nat ssize.
Proof. exact @indices_in_table. Qed.
Print Assumptions C11_indices_in_table.

Example C11_satisfiable :
  mask_from_bits true 5 = Ok 31 /\ bits_to_max_feature_index true 5 = Ok 32 /\
  (exists w, dw_new BF0 true 32 1 6 = Ok w) /\
  (forall i v, In (i, v) (sf_all c10_m) -> exists h, i = mask 31 h) /\ sf_all c10_m <> [].
Proof.
  split; [reflexivity|]. split; [reflexivity|]. split; [eexists; reflexivity|]. split; [|discriminate].
  intros i v H. exists i. simpl in H.
  repeat (destruct H as [H|H]; [inversion H; reflexivity|]). contradiction.
Qed.

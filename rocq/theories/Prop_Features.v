(** C01, C03: property theorems about feature objects. *)
From Coq Require Import List NArith ZArith Bool.
From Verif Require Import Base FloatOps FloatB32 Model_Hash Model_Features Spec_Features Proof_FeaturesHist.
Import ListNotations.

(** C01.  For every history of API calls producing objects [a] (an action) and [s]
    (the shared features): appending and removing never fail, and an observer sees
    the action restored exactly if every namespace active in [s] has a proper entry
    in [a] (active exactly if it has features).  Any float record, both build
    profiles. *)
Theorem C01_append_remove_restores :
  forall (O : FOps) (dbg : bool) (h : list (fop O)) (st : fstore O) (a s : nat),
  fops_run dbg h fstore0 = Ok st ->
  exists A' A'',
    sf_append (st a) (st s) = Ok A' /\ sf_remove dbg A' (st s) = Ok A'' /\
    (same_view A'' (st a) <->
     (forall k, sf_get k (st s) <> None -> proper_entry k (st a))).
Proof. exact @append_remove_restores. Qed.
Print Assumptions C01_append_remove_restores.

(** An action and shared features with a common namespace meet the condition. *)
Example C01_satisfiable :
  exists st, fops_run true [FAdd 0 (NsNamed 7) 5%N (@f1 BF0); FAdd 1 (NsNamed 7) 6%N (@f1 BF0);
                            FAdd 1 NsDefault 8%N (@f1 BF0)] fstore0 = Ok st /\
    (forall k, sf_get k (st 1%nat) <> None -> proper_entry k (st 0%nat)) /\
    sf_get (NsNamed 7) (st 0%nat) <> None /\ sf_get (NsNamed 7) (st 1%nat) <> None.
Proof.
  eexists. split; [reflexivity|]. split.
  - intros k _ s H. cbn in H. destruct (ns_eqb k (NsNamed 7)); inversion H; subst; cbn.
    split; [discriminate|reflexivity].
  - split; discriminate.
Qed.

(** C01 without the condition is false: an active empty namespace is lost. *)
Theorem C01_unconditional_refuted :
  exists (st : fstore BF0) A' A'', fops_run true refute_hist fstore0 = Ok st /\
    sf_append (st 0%nat) (st 1%nat) = Ok A' /\ sf_remove true A' (st 1%nat) = Ok A'' /\
    sf_get nsA (st 0%nat) <> None /\ sf_get nsA A'' = None.
Proof. exact append_remove_unrestored. Qed.
Print Assumptions C01_unconditional_refuted.

(** C03, feature part.  After any history [h], clearing object [r] (what the pool
    does on return) or replacing it with a new object makes no difference to any
    later history [h'] of API calls: same outcome (also the same panic), and at the
    end every object looks the same and compares the same. *)
Theorem C03_recycled_like_new :
  forall (O : FOps) (dbg : bool) (h : list (fop O)) (st : fstore O) (r : nat) (h' : list (fop O)),
  fops_run dbg h fstore0 = Ok st ->
  orel (fun st1 st2 => forall i, same_view (st1 i) (st2 i) /\ same_compare (st1 i) (st2 i))
    (fops_run dbg (FClear r :: h') st) (fops_run dbg (FNew r :: h') st).
Proof. exact @recycled_like_new. Qed.
Print Assumptions C03_recycled_like_new.

Example C03_satisfiable :
  exists st st1, fops_run true [FAdd 0 (NsNamed 7) 5%N (@f1 BF0)] fstore0 = Ok st /\
    fops_run true [FClear 0; FAdd 0 (NsNamed 7) 6%N (@f1 BF0); FAppend 1 0] st = Ok st1 /\
    sf_all (st1 1%nat) = [(6%N, f1)].
Proof. eexists. eexists. repeat split. Qed.

(** What the recycled object does show: [namespaces()] still lists the old keys and
    [remove_namespace] returns the stale entry. *)
Theorem C03_namespaces_refuted :
  exists (h : list (fop BF0)) st1 st2,
    fops_run true (h ++ [FClear 0]) fstore0 = Ok st1 /\
    fops_run true (h ++ [FNew 0]) fstore0 = Ok st2 /\
    sf_namespaces (st1 0%nat) <> sf_namespaces (st2 0%nat) /\
    fst (sf_remove_ns nsA (st1 0%nat)) <> fst (sf_remove_ns nsA (st2 0%nat)).
Proof. exact recycled_namespaces_differ. Qed.
Print Assumptions C03_namespaces_refuted.

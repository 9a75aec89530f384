(** C70. *)
From Coq Require Import List NArith PeanoNat Bool Lia.
From Verif Require Import Base FloatOps FloatB32 Model_Hash Model_Features Model_Types Model_Json Spec_JsonLabel Proof_StackRestore.
Import ListNotations.

Section Labels.
Context {O : FOps}.

Lemma str_eqb_eq' : forall a b, str_eqb a b = true <-> a = b.
Proof.
  induction a as [|c a IH]; intros [|d b]; simpl; split; intros H; try discriminate; auto.
  - apply andb_true_iff in H. destruct H as (H1 & H2). apply N.eqb_eq in H1. apply IH in H2. congruence.
  - inversion H; subst. rewrite N.eqb_refl. simpl. now apply IH.
Qed.

Lemma find_first : forall k (l : list (str * json O)) e, find (fun kv => str_eqb k (fst kv)) l = Some e <->
  exists l1 l2, l = l1 ++ e :: l2 /\ fst e = k /\ ~ In k (map fst l1).
Proof.
  intros k l e. induction l as [|y l IH]; simpl.
  - split; [discriminate|]. intros (l1 & l2 & E & _). destruct l1; discriminate.
  - destruct (str_eqb k (fst y)) eqn:Q.
    + apply str_eqb_eq' in Q. split.
      * intros E. inversion E; subst. exists [], l. simpl. auto.
      * intros (l1 & l2 & E & F & N). destruct l1 as [|z l1]; simpl in E; inversion E; subst; auto. exfalso. apply N. now left.
    + rewrite IH. split.
      * intros (l1 & l2 & E & F & N). exists (y :: l1), l2. split; [simpl; now rewrite E|]. split; auto.
        intros [X|X]; [|contradiction]. assert (str_eqb k (fst y) = true) by (apply str_eqb_eq'; congruence). congruence.
      * intros (l1 & l2 & E & F & N). destruct l1 as [|z l1]; simpl in E; inversion E; subst.
        { rewrite (proj2 (str_eqb_eq' _ _) eq_refl) in Q. discriminate. }
        exists l1, l2. split; auto. split; auto. intros X. apply N. now right.
Qed.
Lemma find_no : forall k (l : list (str * json O)), find (fun kv => str_eqb k (fst kv)) l = None <-> ~ In k (map fst l).
Proof.
  induction l as [|y l IH]; simpl; [tauto|]. destruct (str_eqb k (fst y)) eqn:Q.
  - apply str_eqb_eq' in Q. split; [discriminate|]. intros H. exfalso. apply H. left. auto.
  - rewrite IH. split; [|tauto]. intros H [X|X]; [|contradiction].
    assert (str_eqb k (fst y) = true) by (apply str_eqb_eq'; congruence). congruence.
Qed.

Lemma jget_first : forall k (v x : json O), x <> JNull -> (jget k v = x <-> first_entry k v x).
Proof.
  intros k v x Nx. unfold first_entry. split.
  - intros E. destruct v as [| | | | |l]; cbn [jget] in E; try congruence.
    destruct (find (fun kv => str_eqb k (fst kv)) l) as [(k' & y)|] eqn:F; [|congruence].
    simpl in E. subst y. apply find_first in F. destruct F as (l1 & l2 & -> & F & N). simpl in F. subst k'. eauto.
  - intros (l1 & l2 & -> & N). cbn [jget]. rewrite (proj2 (find_first k (l1 ++ (k, x) :: l2) (k, x))); auto. exists l1, l2. auto.
Qed.
Lemma jget_null : forall k (v : json O), jget k v = JNull <-> no_entry k v \/ first_entry k v JNull.
Proof.
  intros k v. unfold no_entry, first_entry. split.
  - intros E. destruct v as [| | | | |l]; try (left; intros; discriminate). cbn [jget] in E.
    destruct (find (fun kv => str_eqb k (fst kv)) l) as [(k' & y)|] eqn:F.
    + simpl in E. subst y. apply find_first in F. destruct F as (l1 & l2 & -> & F & N). simpl in F. subst k'. right. eauto.
    + left. intros l' E'. inversion E'; subst. now apply find_no.
  - intros [H|(l1 & l2 & -> & N)].
    + destruct v as [| | | | |l]; auto. cbn [jget]. rewrite (proj2 (find_no k l)); auto.
    + cbn [jget]. rewrite (proj2 (find_first k (l1 ++ (k, JNull) :: l2) (k, JNull))); auto. exists l1, l2. auto.
Qed.
Lemma jfield_last : forall k (l : list (str * json O)) x, jfield O k l = Some x <-> last_entry k (JObj l) x.
Proof.
  intros k l x. unfold jfield, last_entry. split.
  - intros E. destruct (find (fun kv => str_eqb k (fst kv)) (rev l)) as [(k' & y)|] eqn:F; [|discriminate].
    simpl in E. inversion E; subst. apply find_first in F. destruct F as (l1 & l2 & Q & F & N). simpl in F. subst k'.
    exists (rev l2), (rev l1). split.
    + f_equal. rewrite <- (rev_involutive l), Q, rev_app_distr. simpl. now rewrite <- app_assoc.
    + intros X. apply N. rewrite map_rev in X. now apply in_rev in X.
  - intros (l1 & l2 & Q & N). inversion Q; subst.
    rewrite (proj2 (find_first k (rev (l1 ++ (k, x) :: l2)) (k, x))); auto.
    exists (rev l2), (rev l1). rewrite rev_app_distr. simpl. rewrite <- app_assoc. split; auto. split; auto.
    intros X. apply N. rewrite map_rev in X. now apply in_rev.
Qed.

(** members of a struct, by name or position *)
Lemma fields2 : forall n1 n2 (v a b : json O), jfields O [n1; n2] v = Some [a; b] <->
  (last_entry n1 v a /\ last_entry n2 v b) \/ v = JArr [a; b].
Proof.
  intros n1 n2 v a b. destruct v as [| | | |l|l]; cbn [jfields fold_right].
  1-4: split; [discriminate|intros [((? & ? & E & _) & _)|E]; discriminate].
  - split.
    + destruct (Nat.eqb_spec (length l) (length [n1; n2])); intros E; inversion E; subst; auto.
    + intros [((? & ? & E & _) & _)|E]; [discriminate|]. inversion E; subst. reflexivity.
  - split.
    + intros E. left. destruct (jfield O n2 l) as [y|] eqn:F2; [|destruct (jfield O n1 l); discriminate].
      destruct (jfield O n1 l) as [z|] eqn:F1; inversion E; subst. split; now apply jfield_last.
    + intros [(A & B)|E]; [|discriminate]. apply jfield_last in A, B. now rewrite A, B.
Qed.
Lemma fields3 : forall n1 n2 n3 (v a b c : json O), jfields O [n1; n2; n3] v = Some [a; b; c] <->
  (last_entry n1 v a /\ last_entry n2 v b /\ last_entry n3 v c) \/ v = JArr [a; b; c].
Proof.
  intros n1 n2 n3 v a b c. destruct v as [| | | |l|l]; cbn [jfields fold_right].
  1-4: split; [discriminate|intros [((? & ? & E & _) & _)|E]; discriminate].
  - split.
    + destruct (Nat.eqb_spec (length l) (length [n1; n2; n3])); intros E; inversion E; subst; auto.
    + intros [((? & ? & E & _) & _)|E]; [discriminate|]. inversion E; subst. reflexivity.
  - split.
    + intros E. left. destruct (jfield O n3 l) as [y|] eqn:F3; [|destruct (jfield O n1 l), (jfield O n2 l); discriminate].
      destruct (jfield O n2 l) as [z|] eqn:F2; [|destruct (jfield O n1 l); discriminate].
      destruct (jfield O n1 l) as [w|] eqn:F1; inversion E; subst. repeat split; now apply jfield_last.
    + intros [(A & B & C)|E]; [|discriminate]. apply jfield_last in A, B, C. now rewrite A, B, C.
Qed.

(** the simple and the bandit case without the case analysis on the value *)
Definition simple_fields (val : json O) : out (option (label O)) :=
  match jfields O [s_value; s_weight] val with
  | Some [a; b] => let* x := opt_or PErr (jf32 O a) in let* w := opt_or PErr (jf32 O b) in Ok (Some (LbSimple x w))
  | _ => Pn PErr
  end.
Definition cb_fields (val : json O) : out (option (label O)) :=
  match jfields O [s_action; s_cost; s_probability] val with
  | Some [a; b; c] => let* i := opt_or PErr (jusize O a) in let* x := opt_or PErr (jf32 O b) in let* p := opt_or PErr (jf32 O c) in
      Ok (Some (LbCb i x p))
  | _ => Pn PErr
  end.
Lemma simple_fields_ok : forall val lb, simple_fields val = Ok lb <->
  exists a b, jfields O [s_value; s_weight] val = Some [JNum a; JNum b] /\ lb = Some (LbSimple (jn_f32 a) (jn_f32 b)).
Proof.
  intros val lb. unfold simple_fields. split.
  - destruct (jfields O [s_value; s_weight] val) as [[|a [|b [|? ?]]]|]; try discriminate. intros E. binv E. binv E. inversion E; subst.
    destruct a; try discriminate. destruct b; try discriminate. cbn in B, B0. inversion B; inversion B0; subst. eauto.
  - intros (a & b & -> & ->). reflexivity.
Qed.
Lemma cb_fields_ok : forall val lb, cb_fields val = Ok lb <->
  exists a b c i, jfields O [s_action; s_cost; s_probability] val = Some [JNum a; JNum b; JNum c] /\ jn_u64 a = Some i /\
    lb = Some (LbCb i (jn_f32 b) (jn_f32 c)).
Proof.
  intros val lb. unfold cb_fields. split.
  - destruct (jfields O [s_action; s_cost; s_probability] val) as [[|a [|b [|c [|? ?]]]]|]; try discriminate. intros E. binv E. binv E. binv E. inversion E; subst.
    destruct a; try discriminate. destruct b; try discriminate. destruct c; try discriminate. cbn in B, B0, B1.
    destruct (jn_u64 n) as [i|] eqn:Q; inversion B; inversion B0; inversion B1; subst. exists n, n0, n1, v. auto.
  - intros (a & b & c & i & -> & Q & ->). cbn. rewrite Q. reflexivity.
Qed.

Lemma json_label_ok : forall lt v lb, json_label O lt v = Ok lb <-> label_in lt v lb.
Proof.
  intros lt v lb. split.
  - intros E. destruct lt; cbn [json_label] in E; [|discriminate|].
    + destruct (jget s_label v) as [|bo|n|s|l|l] eqn:G.
      * inversion E; subst. apply jget_null in G. destruct G; [apply li_missing|apply li_null]; auto; discriminate.
      * apply simple_fields_ok in E. destruct E as (a & b & E & _). discriminate.
      * inversion E; subst. apply li_number. apply jget_first; auto. discriminate.
      * apply simple_fields_ok in E. destruct E as (a & b & E & _). discriminate.
      * apply simple_fields_ok in E. destruct E as (a & b & E & ->). apply fields2 in E. destruct E as [((? & ? & E & _) & _)|E]; [discriminate|].
        rewrite E in G. apply li_simple_list. apply jget_first; auto. discriminate.
      * apply simple_fields_ok in E. destruct E as (a & b & E & ->). apply fields2 in E. destruct E as [(A & B)|E]; [|discriminate].
        apply li_simple with (JObj l); auto. apply jget_first; auto. discriminate.
    + assert (E' : jget s_label v = JNull /\ lb = None \/ jget s_label v <> JNull /\ cb_fields (jget s_label v) = Ok lb).
      { destruct (jget s_label v); [left; inversion E; auto|right; split; [discriminate|exact E]..]. }
      clear E. destruct E' as [(G & ->)|(G & E)].
      * apply jget_null in G. destruct G; [apply li_missing|apply li_null]; auto; discriminate.
      * apply cb_fields_ok in E. destruct E as (a & b & c & i & E & Q & ->). assert (F : first_entry s_label v (jget s_label v)) by (apply jget_first; auto).
        apply fields3 in E. destruct E as [(A & B & C)|E].
        { apply li_cb with (jget s_label v) a; auto. }
        { rewrite E in F. apply li_cb_list with a; auto. }
  - assert (NO : forall (x : json O) k y, last_entry k x y -> x <> JNull) by (intros x k y (? & ? & -> & _); discriminate).
    intros L. inversion L as [lt' v' N0 Hn|lt' v' N0 Hn|v' n F|v' x a b F A B|v' a b F|v' x a b c i F A B C Q|v' a b c i F Q]; subst.
    + destruct lt; try congruence; cbn [json_label]; rewrite (proj2 (jget_null s_label v)); auto.
    + destruct lt; try congruence; cbn [json_label]; rewrite (proj2 (jget_null s_label v)); auto.
    + apply jget_first in F; [|discriminate]. cbn [json_label]. rewrite F. reflexivity.
    + assert (Nx := NO _ _ _ A). apply jget_first in F; auto. cbn [json_label]. rewrite F.
      assert (S : simple_fields x = Ok (Some (LbSimple (jn_f32 a) (jn_f32 b)))).
      { apply simple_fields_ok. exists a, b. split; auto. apply fields2. auto. }
      destruct x; try exact S; [congruence|]. destruct A as (? & ? & E & _). discriminate.
    + apply jget_first in F; [|discriminate]. cbn [json_label]. rewrite F. reflexivity.
    + assert (Nx := NO _ _ _ A). apply jget_first in F; auto. cbn [json_label]. rewrite F.
      assert (S : cb_fields x = Ok (Some (LbCb i (jn_f32 b) (jn_f32 c)))).
      { apply cb_fields_ok. exists a, b, c, i. split; auto. apply fields3. auto. }
      destruct x; try exact S. congruence.
    + apply jget_first in F; [|discriminate]. cbn [json_label]. rewrite F. cbn. rewrite Q. reflexivity.
Qed.

Lemma json_chunk_label : forall H dbg seed nb al rd ft lt ds chunk x lb,
  json_chunk O H dbg seed nb al rd ft lt ds chunk = Ok (x, lb) <->
  exists v, rd chunk = Some v /\ json_features O H dbg seed nb al ft v ds = Ok x /\ label_in lt v lb.
Proof.
  intros H dbg seed nb al rd ft lt ds chunk x lb. unfold json_chunk. split.
  - intros E. binv E. binv E. binv E. inversion E; subst. destruct (rd chunk) as [w|]; [|discriminate]. cbn in B. inversion B; subst.
    exists v. split; auto. split; auto. now apply json_label_ok.
  - intros (v & -> & F & L). cbn [opt_or bind]. rewrite F. apply json_label_ok in L. cbn [bind]. rewrite L. reflexivity.
Qed.
Lemma json_no_binary : forall H dbg seed nb al rd ft ds chunk r, json_chunk O H dbg seed nb al rd ft LTBinary ds chunk <> Ok r.
Proof.
  intros H dbg seed nb al rd ft ds chunk (x & lb) E. apply json_chunk_label in E. destruct E as (v & _ & _ & L). inversion L; congruence.
Qed.
End Labels.

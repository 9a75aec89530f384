(** The decision service JSON format (C40). *)
From Coq Require Import List NArith PeanoNat Bool Lia.
From Verif Require Import Base FloatOps FloatB32 Model_Hash Model_Features Model_Types Model_Stack Model_Text Model_Metrics Model_Train Model_Json Spec_Features
  Spec_Stack Spec_Text Spec_Json Proof_Hash Proof_Features Proof_FeaturesHist Proof_StackCong Proof_StackRestore Proof_StackProps Proof_Loose Proof_TextParse
  Proof_TextFeats Proof_TextChunk Proof_Train Proof_JsonPlan Proof_Json.
Import ListNotations.
Open Scope N_scope.

Lemma json_rect' : forall A (P : json A -> Prop),
  P JNull -> (forall b, P (JBool b)) -> (forall n, P (JNum n)) -> (forall s, P (JStr s)) ->
  (forall l, Forall P l -> P (JArr l)) -> (forall l, Forall (fun kv => P (snd kv)) l -> P (JObj l)) -> forall v, P v.
Proof.
  intros A P H1 H2 H3 H4 H5 H6. fix rec 1. intros [|b|n|s|l|l].
  - exact H1.
  - apply H2.
  - apply H3.
  - apply H4.
  - apply H5. induction l as [|x l IH]; constructor; [apply rec|exact IH].
  - apply H6. induction l as [|(k & x) l IH]; constructor; [apply rec|exact IH].
Qed.

Lemma bind_ext' : forall A B (x : out A) (f g : A -> out B), (forall a, f a = g a) -> bind x f = bind x g.
Proof. intros A B [a|e|p] f g K; cbn [bind]; auto. Qed.

Section P.
Context {O : FOps} (H : hasher) (dbg : bool) (seed nb : N).
Notation handle := (ds_handle O H dbg seed nb).
Notation add := (ds_add O H dbg nb).

Definition item_step (key : str) (k : namespace) (y : json O) (i : N) (f : sfeats O) (st : list namespace) : out (sfeats O * list namespace) :=
  match y with
  | JNum n => let* f := add (PFAnon (wrap32 i)) (jn_f64 n) [k] f in Ok (f, st)
  | JObj _ => handle y key f st
  | JNull => Ok (f, st)
  | _ => Pn PTodo
  end.
Fixpoint items (key : str) (k : namespace) (l : list (json O)) (i : N) (f : sfeats O) (st : list namespace) : out (sfeats O * list namespace) :=
  match l with
  | [] => Ok (f, st)
  | y :: l => let* x := item_step key k y i f st in items key k l (i + 1) (fst x) (snd x)
  end.
Fixpoint entries (l : list (str * json O)) (f : sfeats O) (st : list namespace) : out (sfeats O * list namespace) :=
  match l with
  | [] => Ok (f, st)
  | y :: l => let* x := handle (snd y) (fst y) f st in entries l (fst x) (snd x)
  end.
Lemma handle_arr : forall l key f st, handle (JArr l) key f st =
  if starts_with 95 key then Ok (f, st) else
  let* x := items key (ns_from_name H key seed) l 0 f (ns_from_name H key seed :: st) in ds_pop O x.
Proof.
  intros l key f st. cbn [ds_handle]. destruct (starts_with 95 key); auto. cbv zeta. f_equal.
  generalize (ns_from_name H key seed :: st) as st'. generalize 0. revert f.
  induction l as [|y l IH]; intros f i st'; auto. cbn [items]. unfold item_step at 1. apply bind_ext'. intros x. apply IH.
Qed.
Lemma handle_obj : forall l key f st, handle (JObj l) key f st =
  if starts_with 95 key then Ok (f, st) else let* x := entries l f (ns_from_name H key seed :: st) in ds_pop O x.
Proof.
  reflexivity.
Qed.
Lemma starts_underscore : forall key, starts_with 95 key = underscore key.
Proof. intros [|c r]; reflexivity. Qed.

(** leaves of lists *)
Fixpoint leaves_items (path : list pstep) (i : N) (l : list (json O)) : list (list pstep * leaf) :=
  match l with [] => [] | y :: r => leaves (PIdx i :: path) y ++ leaves_items path (i + 1) r end.
Fixpoint leaves_entries (path : list pstep) (l : list (str * json O)) : list (list pstep * leaf) :=
  match l with [] => [] | y :: r => leaves (PKey (fst y) :: path) (snd y) ++ leaves_entries path r end.
Lemma leaves_arr : forall path l, leaves path (JArr l) = leaves_items path 0 l.
Proof. intros path l. cbn [leaves]. generalize 0. induction l as [|y l IH]; intros i; auto. cbn [leaves_items]. now rewrite <- IH. Qed.
Lemma leaves_obj : forall path l, leaves path (JObj l) = leaves_entries path l.
Proof. intros path l. cbn [leaves]. induction l as [|y l IH]; auto. cbn [leaves_entries]. now rewrite <- IH. Qed.

(** the features at the leaves *)
Definition feats_of (ls : list (list pstep * leaf)) : list (namespace * (N * O)) :=
  some_of (leaf_feature H seed) (filter (fun x => negb (ignored (fst x))) ls).
Lemma feats_app : forall a b, feats_of (a ++ b) = feats_of a ++ feats_of b.
Proof. intros a b. unfold feats_of, some_of. now rewrite filter_app, flat_map_app. Qed.
Definition plan_of (fs : list (namespace * (N * O))) : list (namespace * list (N * O)) :=
  map (fun x => (fst x, [(fst (snd x) mod 2 ^ nb, snd (snd x))])) fs.
Lemma plan_app : forall a b, plan_of (a ++ b) = plan_of a ++ plan_of b.
Proof. intros. apply map_app. Qed.

Lemma add_ok : forall p v k st f f', nb < 32 -> add p v (k :: st) f = Ok f' ->
  exists h, parsed_feature_hash H dbg p (ns_hash k) = Ok h /\ f' = apply_plan [(k, [(h mod 2 ^ nb, v)])] f.
Proof.
  intros p v k st f f' Hb E. unfold ds_add in E. binv E. rewrite (mask_ok dbg nb Hb) in E. cbn [bind] in E. injection E as <-.
  exists v0. split; auto. rewrite mask_mod. reflexivity.
Qed.

(** The leaf positions: [key] is the innermost key; a scalar is directly below its key. *)
Definition scalar (v : json O) : bool := match v with JArr _ | JObj _ => false | _ => true end.
Definition at_key (path : list pstep) (key : str) (st : list namespace) (v : json O) : Prop :=
  inner_key path = Some key /\ ignored path = underscore key /\
  (scalar v = true -> exists outer, path = PKey key :: outer /\
     match st with [] => True | k :: _ => exists nm, inner_key outer = Some nm /\ k = jkey H seed nm end).
Lemma leaves_ignored : forall (v : json O) path x, ignored path = true -> In x (leaves path v) -> ignored (fst x) = true.
Proof.
  induction v as [|b|n|s|l IH|l IH] using json_rect'; intros path x I X.
  - destruct X.
  - destruct b; [destruct X as [<-|[]]; exact I|destruct X].
  - destruct X as [<-|[]]. exact I.
  - destruct X as [<-|[]]. exact I.
  - rewrite leaves_arr in X. revert X. generalize 0. induction IH as [|y l IHy IHl IH]; intros i X; [destruct X|].
    cbn [leaves_items] in X. apply in_app_or in X. destruct X as [X|X]; [|eapply IH; eauto]. eapply IHy; [|exact X]. exact I.
  - rewrite leaves_obj in X. induction IH as [|y l IHy IHl IH]; [destruct X|].
    cbn [leaves_entries] in X. apply in_app_or in X. destruct X as [X|X]; auto. eapply IHy; [|exact X]. change (underscore (fst y) || ignored path = true). rewrite I. apply orb_true_r.
Qed.
Lemma feats_ignored : forall v path, ignored path = true -> feats_of (leaves path v) = [].
Proof.
  intros v path I. unfold feats_of. replace (filter _ (leaves path v)) with (@nil (list pstep * @leaf O)); auto.
  symmetry. assert (K : forall x, In x (leaves path v) -> ignored (fst x) = true) by (intros; eapply leaves_ignored; eauto).
  induction (leaves path v) as [|x l IH]; auto. cbn [filter]. rewrite (K x (or_introl eq_refl)). cbn [negb]. apply IH. intros; apply K; now right.
Qed.

Lemma hash_simple : forall nm, ns_hash (jkey H seed nm) = key_hash (jkey H seed nm).
Proof. intros. destruct (jkey H seed nm); reflexivity. Qed.
Lemma anon_hash : forall k i h, k < 4294967296 -> add32 dbg k (wrap32 i) = Ok h -> h = (k + i) mod 4294967296.
Proof.
  intros k i h B E. unfold add32, wrap32 in E. change 4294967296 with u32_mod in *. assert (M : u32_mod <> 0) by discriminate.
  generalize dependent u32_mod. intros m B E M.
  assert (Q : (k + i mod m) mod m = (k + i) mod m) by (apply N.add_mod_idemp_r; auto).
  destruct (k + i mod m <? m) eqn:L.
  - apply N.ltb_lt in L. injection E as <-. rewrite <- Q. symmetry. now apply N.mod_small.
  - destruct dbg; [discriminate|]. injection E as <-. exact Q.
Qed.

(** what a successful run adds *)
Lemma handle_ok : nb < 32 -> forall v key path f st f' st', at_key path key st v -> handle v key f st = Ok (f', st') ->
  st' = st /\ f' = apply_plan (plan_of (feats_of (leaves path v))) f.
Proof.
  intros Hb. induction v as [|b|n|s|l IH|l IH] using json_rect'; intros key path f st f' st' (IK & IG & SC) E.
  1-4: cbn [ds_handle] in E; rewrite starts_underscore in E; destruct (underscore key) eqn:U;
    [injection E as <- <-; rewrite feats_ignored by congruence; auto|];
    destruct (SC eq_refl) as (outer & -> & SK); clear SC.
  - discriminate.
  - destruct b; [|injection E as <- <-; auto]. binv E. injection E as <- <-. split; auto. destruct st as [|k st]; [discriminate|].
    destruct SK as (nm & IN & ->). apply (add_ok _ _ _ _ _ _ Hb) in B. destruct B as (h & EH & ->). injection EH as <-.
    unfold feats_of. cbn [leaves filter fst]. rewrite IG. cbn [negb some_of flat_map leaf_feature fst]. rewrite IN. reflexivity.
  - binv E. injection E as <- <-. split; auto. destruct st as [|k st]; [discriminate|].
    destruct SK as (nm & IN & ->). apply (add_ok _ _ _ _ _ _ Hb) in B. destruct B as (h & EH & ->). injection EH as <-.
    unfold feats_of. cbn [leaves filter fst]. rewrite IG. cbn [negb some_of flat_map leaf_feature fst]. rewrite IN. reflexivity.
  - binv E. injection E as <- <-. split; auto. destruct st as [|k st]; [discriminate|].
    destruct SK as (nm & IN & ->). apply (add_ok _ _ _ _ _ _ Hb) in B. destruct B as (h & EH & ->). injection EH as <-.
    unfold feats_of. cbn [leaves filter fst]. rewrite IG. cbn [negb some_of flat_map leaf_feature fst]. rewrite IN. reflexivity.
  - clear SC. rewrite handle_arr, starts_underscore in E. destruct (underscore key) eqn:U.
    { injection E as <- <-. rewrite feats_ignored by congruence. auto. }
    rewrite leaves_arr, (jkey_name H seed) in *. binv E. unfold ds_pop in E. destruct v as (f1 & st1).
    assert (K : st1 = jkey H seed key :: st /\ f1 = apply_plan (plan_of (feats_of (leaves_items path 0 l))) f).
    { clear E. revert f f1 st1 B. generalize 0. induction IH as [|y l IHy IHl IHr]; intros i f f1 st1 B; cbn [items] in B.
      { injection B as <- <-. auto. }
      binv B. destruct v as (f2 & st2). cbn [fst snd] in B. cbn [leaves_items]. rewrite feats_app, plan_app, apply_plan_app.
      assert (Q : st2 = jkey H seed key :: st /\ f2 = apply_plan (plan_of (feats_of (leaves (PIdx i :: path) y))) f).
      { clear B. unfold item_step in B0. destruct y as [|b|n|s|r|r]; try discriminate.
        - injection B0 as <- <-. auto.
        - binv B0. injection B0 as <- <-. split; auto. apply (add_ok _ _ _ _ _ _ Hb) in B. destruct B as (h & EH & ->).
          rewrite hash_simple in EH. apply anon_hash in EH; [|apply jkey_bound]. subst h.
          unfold feats_of. cbn [leaves filter fst]. cbn [ignored existsb]. fold (ignored path). rewrite IG. cbn [orb negb some_of flat_map leaf_feature fst snd].
          rewrite IK. reflexivity.
        - apply IHy with (path := PIdx i :: path) in B0; auto. split; [exact IK|]. split; [rewrite U; exact IG|discriminate]. }
      destruct Q as (-> & ->). apply (IHr (i + 1)); auto. }
    destruct K as (-> & ->). cbn [snd fst] in E. injection E as <- <-. auto.
  - clear SC. rewrite handle_obj, starts_underscore in E. destruct (underscore key) eqn:U.
    { injection E as <- <-. rewrite feats_ignored by congruence. auto. }
    rewrite leaves_obj, (jkey_name H seed) in *. binv E. unfold ds_pop in E. destruct v as (f1 & st1).
    assert (K : st1 = jkey H seed key :: st /\ f1 = apply_plan (plan_of (feats_of (leaves_entries path l))) f).
    { clear E. revert f f1 st1 B. induction IH as [|y l IHy IHl IHr]; intros f f1 st1 B; cbn [entries] in B.
      { injection B as <- <-. auto. }
      binv B. destruct v as (f2 & st2). cbn [fst snd] in B. cbn [leaves_entries]. rewrite feats_app, plan_app, apply_plan_app.
      apply IHy with (path := PKey (fst y) :: path) in B0.
      2: { split; [reflexivity|]. split; [change (underscore (fst y) || ignored path = underscore (fst y)); rewrite IG; apply orb_false_r|]. intros _. exists path. split; auto. exists key. auto. }
      destruct B0 as (-> & ->). apply IHr; auto. }
    destruct K as (-> & ->). cbn [snd fst] in E. injection E as <- <-. auto.
Qed.

(** the root *)
Lemma root_key : forall v, at_key [PKey str_space] str_space [] v.
Proof. intros v. split; [reflexivity|]. split; [reflexivity|]. intros _. exists []. auto. Qed.
Lemma plan_content : forall v k,
  match filter (fun n => ns_eqb k (fst n)) (plan_of (ds_features H seed v)) with [] => None | l => Some (flat_map snd l) end = ds_content H seed nb v k.
Proof.
  intros v k. unfold ds_content. generalize (ds_features H seed v) as fs. intros fs.
  assert (Q : filter (fun n => ns_eqb k (fst n)) (plan_of fs) = plan_of (filter (fun n => ns_eqb k (fst n)) fs)).
  { induction fs as [|(j & l) fs IH]; auto. cbn [plan_of map filter fst snd]. fold (plan_of fs). rewrite IH. destruct (ns_eqb k j); reflexivity. }
  rewrite Q. destruct (filter _ fs) as [|n l]; auto. cbn [plan_of map flat_map snd]. f_equal. unfold masked. cbn [map fst snd app]. f_equal.
  clear. induction l as [|m l IH]; auto. cbn [map flat_map snd app]. f_equal. apply IH.
Qed.
Lemma root_ok : forall v f f' st', nb < 32 -> pooled f -> handle v str_space f [] = Ok (f', st') ->
  st' = [] /\ forall k, sf_get k f' = as_sfn k (ds_content H seed nb v k).
Proof.
  intros v f f' st' Hb P E. apply (handle_ok Hb _ _ [PKey str_space]) in E; [|apply root_key]. destruct E as (-> & ->). split; auto.
  intros k. rewrite apply_plan_new by now apply pooled_new. f_equal. apply plan_content.
Qed.

(** entries whose key starts with an underscore make no difference *)
Lemma handle_prune : forall v key f st, handle (prune v) key f st = handle v key f st.
Proof.
  induction v as [|b|n|s|l IH|l IH] using json_rect'; intros key f st; auto.
  - cbn [prune]. rewrite !handle_arr. destruct (starts_with 95 key); auto. f_equal.
    generalize (ns_from_name H key seed :: st) as st'. generalize 0. revert f.
    induction IH as [|y l IHy IHl IHr]; intros f i st'; auto. cbn [map items].
    assert (Q : item_step key (ns_from_name H key seed) (prune y) i f st' = item_step key (ns_from_name H key seed) y i f st').
    { destruct y; auto. exact (IHy key f st'). }
    rewrite Q. destruct (item_step _ _ y i f st'); auto. cbn [bind]. apply IHr.
  - cbn [prune]. rewrite !handle_obj. destruct (starts_with 95 key); auto. f_equal.
    generalize (ns_from_name H key seed :: st) as st'. revert f.
    induction IH as [|(k & y) l IHy IHl IHr]; intros f st'; auto. cbn [entries fst snd].
    destruct (underscore k) eqn:U.
    + assert (Q : handle y k f st' = Ok (f, st')) by (destruct y; cbn [ds_handle]; rewrite starts_underscore, U; reflexivity).
      rewrite Q. cbn [bind fst snd]. apply IHr.
    + cbn [entries fst snd]. cbn [snd] in IHy. rewrite IHy. destruct (handle y k f st'); auto. cbn [bind]. apply IHr.
Qed.

(** *** what is accepted *)
Lemma add_total : forall p v k st f, nb < 32 -> (forall i, p = PFAnon i -> dbg = true -> ns_hash k + i < u32_mod) -> exists f', add p v (k :: st) f = Ok f'.
Proof.
  intros p v k st f Hb A. unfold ds_add. rewrite (mask_ok dbg nb Hb). destruct p as [a|a b|i]; cbn [parsed_feature_hash bind]; eauto.
  unfold add32. specialize (A i eq_refl). destruct (ns_hash k + i <? u32_mod) eqn:E; cbn [bind]; eauto.
  destruct dbg; cbn [bind]; eauto. apply N.ltb_ge in E. specialize (A eq_refl). lia.
Qed.
Lemma wrap_small : forall k i, k + i < 4294967296 -> wrap32 i = i.
Proof. intros k i L. unfold wrap32. change 4294967296 with u32_mod in L. generalize dependent u32_mod. intros m L. apply N.mod_small. lia. Qed.

Definition below (v : json O) (st : list namespace) : Prop := st <> [] \/ ds_root v.
Lemma handle_accepts : nb < 32 -> forall v key path f st, ds_fine key v -> inner_key path = Some key -> ignored path = underscore key -> below v st ->
  (dbg = true -> ds_fits H seed path v) -> exists f', handle v key f st = Ok (f', st).
Proof.
  intros Hb. induction v as [|b|n|s|l IH|l IH] using json_rect'; intros key path f st FN IK IG NE FT.
  1-4: cbn [ds_handle]; rewrite starts_underscore; destruct (underscore key) eqn:U; [eauto|].
  - inversion FN; congruence.
  - destruct b; [|eauto]. destruct st as [|k st]; [destruct NE as [NE|[]]; congruence|].
    destruct (add_total (PFSimple key) f1 k st f Hb ltac:(discriminate)) as (f' & E). rewrite E. cbn [bind]. eauto.
  - destruct st as [|k st]; [destruct NE as [NE|[]]; congruence|].
    destruct (add_total (PFSimple key) (jn_f64 n) k st f Hb ltac:(discriminate)) as (f' & E). rewrite E. cbn [bind]. eauto.
  - destruct st as [|k st]; [destruct NE as [NE|[]]; congruence|].
    destruct (add_total (PFSimpleStr key s) f1 k st f Hb ltac:(discriminate)) as (f' & E). rewrite E. cbn [bind]. eauto.
  - rewrite handle_arr, starts_underscore. destruct (underscore key) eqn:U; [eauto|]. rewrite (jkey_name H seed).
    inversion FN as [? ? U'| | | | |? ? F]; subst; [congruence|].
    assert (K : forall i f, (dbg = true -> forall j outer x nm, In (PIdx j :: outer, x) (leaves_items path i l) -> ignored outer = false ->
         inner_key outer = Some nm -> key_hash (jkey H seed nm) + j < 4294967296) ->
       exists f', items key (jkey H seed key) l i f (jkey H seed key :: st) = Ok (f', jkey H seed key :: st)).
    { clear FT FN. induction IH as [|y l IHy IHl IHr]; intros i f0 FT; cbn [items]; [eauto|]. inversion F as [|? ? F1 F2]; subst. cbn [leaves_items] in FT.
      assert (Q : exists f', item_step key (jkey H seed key) y i f0 (jkey H seed key :: st) = Ok (f', jkey H seed key :: st)).
      { destruct F1 as [(n & ->)|[->|(e & -> & F1)]]; cbn [item_step]; [|eauto|].
        - destruct (add_total (PFAnon (wrap32 i)) (jn_f64 n) (jkey H seed key) [] f0 Hb) as (f' & E).
          { intros j EJ D. injection EJ as <-. assert (B : key_hash (jkey H seed key) + i < 4294967296).
            { apply (FT D i path (LNum n) key); auto. apply in_or_app. left. now left. }
            rewrite (wrap_small _ _ B), hash_simple. exact B. }
          rewrite E. cbn [bind]. eauto.
        - apply (IHy key (PIdx i :: path)); [exact F1|exact IK|rewrite U; exact IG|left; discriminate|]. intros D j outer x nm I. apply (FT D j outer x nm). apply in_or_app. now left. }
      destruct Q as (f' & ->). cbn [bind fst snd]. apply IHr; auto. intros D j outer x nm I. apply (FT D j outer x nm). apply in_or_app. now right. }
    destruct (K 0 f) as (f' & ->).
    { intros D. rewrite <- leaves_arr. exact (FT D). }
    cbn [bind ds_pop snd fst]. eauto.
  - rewrite handle_obj, starts_underscore. destruct (underscore key) eqn:U; [eauto|]. rewrite (jkey_name H seed).
    inversion FN as [? ? U'| | | |? ? F|]; subst; [congruence|].
    assert (K : forall f, (dbg = true -> forall j outer x nm, In (PIdx j :: outer, x) (leaves_entries path l) -> ignored outer = false ->
         inner_key outer = Some nm -> key_hash (jkey H seed nm) + j < 4294967296) ->
       exists f', entries l f (jkey H seed key :: st) = Ok (f', jkey H seed key :: st)).
    { clear FT FN. induction IH as [|y l IHy IHl IHr]; intros f0 FT; cbn [entries]; [eauto|]. inversion F as [|? ? F1 F2]; subst. cbn [leaves_entries] in FT.
      assert (Q : exists f', handle (snd y) (fst y) f0 (jkey H seed key :: st) = Ok (f', jkey H seed key :: st)).
      { apply (IHy (fst y) (PKey (fst y) :: path)); [exact F1|reflexivity|..].
        - change (underscore (fst y) || ignored path = underscore (fst y)). rewrite IG. apply orb_false_r.
        - left; discriminate.
        - intros D j outer x nm I. apply (FT D j outer x nm). apply in_or_app. now left. }
      destruct Q as (f' & ->). cbn [bind fst snd]. apply IHr; auto. intros D j outer x nm I. apply (FT D j outer x nm). apply in_or_app. now right. }
    destruct (K f) as (f' & ->).
    { intros D. rewrite <- leaves_obj. exact (FT D). }
    cbn [bind ds_pop snd fst]. eauto.
Qed.
Lemma handle_fine : forall v key f st x, handle v key f st = Ok x -> ds_fine key v /\ (underscore key = false -> below v st).
Proof.
  induction v as [|b|n|s|l IH|l IH] using json_rect'; intros key f st x E.
  1-4: cbn [ds_handle] in E; rewrite starts_underscore in E; destruct (underscore key) eqn:U; [split; [now constructor|discriminate]|].
  - discriminate.
  - split; [apply df_bool|]. intros _. destruct b; [|right; exact Logic.I]. destruct st; [discriminate|left; discriminate].
  - split; [apply df_num|]. intros _. destruct st; [discriminate|left; discriminate].
  - split; [apply df_str|]. intros _. destruct st; [discriminate|left; discriminate].
  - split; [|intros _; right; exact Logic.I]. rewrite handle_arr, starts_underscore in E. destruct (underscore key) eqn:U; [now constructor|]. binv E. clear E.
    apply df_arr. revert f v B. generalize (ns_from_name H key seed :: st) as st'. generalize 0.
    induction IH as [|y l IHy IHl IHr]; intros i st' f v B; constructor; cbn [items] in B; binv B.
    + unfold item_step in B0. destruct y as [|b|n|s|r|r]; try discriminate; eauto. right. right. exists r. split; auto. eapply IHy; eauto.
    + eapply IHr; eauto.
  - split; [|intros _; right; exact Logic.I]. rewrite handle_obj, starts_underscore in E. destruct (underscore key) eqn:U; [now constructor|]. binv E. clear E.
    apply df_obj. revert f v B. generalize (ns_from_name H key seed :: st) as st'.
    induction IH as [|y l IHy IHl IHr]; intros st' f v B; constructor; cbn [entries] in B; binv B.
    + eapply IHy; eauto.
    + eapply IHr; eauto.
Qed.
Lemma root_accepts : forall v f, nb < 32 -> (dbg = true -> ds_fits H seed [PKey str_space] v) ->
  ((exists f' st', handle v str_space f [] = Ok (f', st')) <-> ds_fine str_space v /\ ds_root v).
Proof.
  intros v f Hb FT. split.
  - intros (f' & st' & E). apply handle_fine in E. destruct E as (F & B). split; auto. destruct (B eq_refl) as [B'|]; auto. congruence.
  - intros (F & R). destruct (handle_accepts Hb v str_space [PKey str_space] f [] F eq_refl eq_refl (or_intror R) FT) as (f' & E). eauto.
Qed.

(** *** recycled objects *)
(** what is added does not depend on the object *)
Notation pl := (list (namespace * list (N * O))).
Definition noraws (st : list namespace) : Prop := Forall (fun k => ~ israw k) st.
Definition planned (run : sfeats O -> out (sfeats O * list namespace)) : Prop :=
  exists r : out (pl * list namespace), (forall f, run f = let* x := r in Ok (apply_plan (fst x) f, snd x)) /\
    forall x, r = Ok x -> Forall (fun n => ~ israw (fst n)) (fst x) /\ noraws (snd x).
Lemma planned_ok : forall st, noraws st -> planned (fun f => Ok (f, st)).
Proof. intros st N. exists (Ok ([], st)). split; auto. intros x E. injection E as <-. split; auto. constructor. Qed.
Lemma planned_pn : forall p, planned (fun f => Pn p).
Proof. intros p. exists (Pn p). split; auto. discriminate. Qed.
Lemma planned_bind : forall run next, planned run -> (forall st, noraws st -> planned (fun f => next (f, st))) ->
  planned (fun f => let* x := run f in next x).
Proof.
  intros run next (r & R & C) K. destruct r as [(p & st)|e|q].
  - destruct (C _ eq_refl) as (C1 & C2). cbn [fst snd] in *. destruct (K st C2) as (r' & R' & C'). destruct r' as [(p' & st')|e|q].
    + exists (Ok (p ++ p', st')). destruct (C' _ eq_refl) as (D1 & D2). split.
      * intros f. rewrite R. cbn [bind fst snd]. rewrite R'. cbn [bind fst snd]. now rewrite apply_plan_app.
      * intros x E. injection E as <-. split; auto. apply Forall_app. auto.
    + exists (Er e). split; [|discriminate]. intros f. rewrite R. cbn [bind fst snd]. now rewrite R'.
    + exists (Pn q). split; [|discriminate]. intros f. rewrite R. cbn [bind fst snd]. now rewrite R'.
  - exists (Er e). split; [|discriminate]. intros f. now rewrite R.
  - exists (Pn q). split; [|discriminate]. intros f. now rewrite R.
Qed.
Lemma planned_add : forall p v st st0, noraws st -> noraws st0 -> planned (fun f => let* f := add p v st f in Ok (f, st0)).
Proof.
  intros p v st st0 N N0. destruct st as [|k st]; [apply (planned_pn PNone)|]. unfold ds_add.
  destruct (parsed_feature_hash H dbg p (ns_hash k)) as [h|e|q]; cbn [bind];
    [|exists (Er e); split; [reflexivity|discriminate]|apply planned_pn].
  destruct (mask_from_bits dbg nb) as [mk|e|q]; cbn [bind]; [|exists (Er e); split; [reflexivity|discriminate]|apply planned_pn].
  exists (Ok ([(k, [(mask mk h, v)])], st0)). split; [reflexivity|]. intros x E. injection E as <-. inversion N; subst. split; [constructor; [assumption|constructor]|exact N0].
Qed.
Lemma planned_pop : forall st, noraws st -> planned (fun f => ds_pop O (f, st)).
Proof. intros st N. unfold ds_pop. cbn [fst snd]. destruct N; [apply planned_pn|now apply planned_ok]. Qed.
Lemma planned_eq : forall run run', (forall f, run f = run' f) -> planned run' -> planned run.
Proof. intros run run' E (r & R & C). exists r. split; auto. intros f. now rewrite E. Qed.
Lemma name_clean : forall key, ~ israw (ns_from_name H key seed).
Proof. intros key. exact (name_not_raw (O := O) H (fun _ => None) key seed). Qed.
Lemma handle_planned : forall v key st, noraws st -> planned (fun f => handle v key f st).
Proof.
  induction v as [|b|n|s|l IH|l IH] using json_rect'; intros key st N.
  1-4: cbn [ds_handle]; destruct (starts_with 95 key); [now apply planned_ok|].
  - apply planned_pn.
  - destruct b; [now apply planned_add|now apply planned_ok].
  - now apply planned_add.
  - now apply planned_add.
  - eapply planned_eq; [intros f; apply handle_arr|]. destruct (starts_with 95 key); [now apply planned_ok|].
    set (k := ns_from_name H key seed). assert (NK : ~ israw k) by apply name_clean.
    apply planned_bind; [|apply planned_pop].
    assert (N' : noraws (k :: st)) by now constructor. revert N'. generalize (k :: st) as st'. clear st N. generalize 0.
    induction IH as [|y l IHy IHl IHr]; intros i st N; cbn [items]; [now apply planned_ok|].
    apply planned_bind.
    + destruct y; cbn [item_step]; try apply planned_pn; [now apply planned_ok| |now apply IHy].
      apply planned_add; auto. now constructor.
    + intros st' N'. cbn [fst snd]. now apply IHr.
  - eapply planned_eq; [intros f; apply handle_obj|]. destruct (starts_with 95 key); [now apply planned_ok|].
    set (k := ns_from_name H key seed). assert (NK : ~ israw k) by apply name_clean.
    apply planned_bind; [|apply planned_pop].
    assert (N' : noraws (k :: st)) by now constructor. revert N'. generalize (k :: st) as st'. clear st N.
    induction IH as [|y l IHy IHl IHr]; intros st N; cbn [entries]; [now apply planned_ok|].
    apply planned_bind; [now apply IHy|]. intros st' N'. cbn [fst snd]. now apply IHr.
Qed.
Definition dsim (f g : sfeats O) : Prop := fsim f g /\ pclean f /\ pclean g.
Lemma handle_sim : forall v key f g, looks_new f -> looks_new g ->
  orel (fun x y => dsim (fst x) (fst y) /\ snd x = snd y) (handle v key f []) (handle v key g []).
Proof.
  intros v key f g Lf Lg. destruct (handle_planned v key [] ltac:(constructor)) as (r & R & C). rewrite !R.
  destruct r as [(p & st)| |]; cbn [bind fst snd]; constructor. destruct (C _ eq_refl) as (C1 & _). cbn [fst snd] in *. split; auto.
  split; [apply apply_plan_sim; eapply fsim_trans; [exact Lf|apply fsim_sym; exact Lg]|].
  split; apply apply_plan_clean; auto; now apply looks_new_clean.
Qed.
Lemma tl_new : forall ds : list (sfeats O), Forall looks_new ds -> Forall looks_new (tl ds).
Proof. intros ds F. destruct F; [constructor|assumption]. Qed.
Lemma ds_actions_sim : forall l ds es, Forall looks_new ds -> Forall looks_new es ->
  orel (Forall2 dsim) (ds_actions O H dbg seed nb l ds) (ds_actions O H dbg seed nb l es).
Proof.
  induction l as [|a l IH]; intros ds es Fd Fe; cbn [ds_actions]; [constructor; constructor|].
  eapply orel_bind; [apply handle_sim; now apply hd_new|]. intros (f & st) (g & st') (S & E). cbn [fst snd] in *. subst st'.
  destruct st; cbn [bind]; [|constructor]. eapply orel_bind; [apply IH; now apply tl_new|]. intros xs ys F. constructor. now constructor.
Qed.
Lemma ds_chunk_sim : forall rd ds es chunk, Forall looks_new ds -> Forall looks_new es ->
  orel (fun u v => fl_sim u v /\ pgood (fst u) /\ pgood (fst v)) (ds_chunk O H dbg seed nb rd ds chunk) (ds_chunk O H dbg seed nb rd es chunk).
Proof.
  intros rd ds es chunk Fd Fe. unfold ds_chunk. destruct (rd chunk) as [v|]; cbn [opt_or bind]; [|constructor]. unfold ds_value.
  eapply orel_bind; [apply handle_sim; now apply hd_new|]. intros (f & st) (g & st') (S & E). cbn [fst snd] in *. subst st'.
  destruct st; cbn [bind]; [|constructor]. destruct (jget s_multi (jget s_c v)) as [| | | |l|]; cbn [bind]; try constructor.
  eapply orel_bind; [apply ds_actions_sim; now apply tl_new|]. intros xs ys F.
  destruct (ds_label O v) as [lb| |]; cbn [bind]; constructor. cbn [fst snd]. destruct S as (S1 & S2 & S3).
  assert (F1 : Forall2 fsim xs ys) by (clear -F; induction F as [|a b xs ys C F IH]; constructor; auto; apply C).
  assert (F2 : Forall pclean xs /\ Forall pclean ys).
  { clear -F. induction F as [|a b xs ys C F (IH1 & IH2)]; split; constructor; auto; apply C. }
  split; [split; auto; split; auto|]. split; apply clean_loosef; auto; apply F2.
Qed.
Lemma ds_chunk_ok : forall rd ds chunk f lb, nb < 32 -> Forall pooled ds -> ds_chunk O H dbg seed nb rd ds chunk = Ok (f, lb) ->
  exists v acts sh fs, rd chunk = Some v /\ jget s_multi (jget s_c v) = JArr acts /\ f = FtsCb (Some sh) fs /\
    (forall k, sf_get k sh = as_sfn k (ds_content H seed nb (jget s_c v) k)) /\
    Forall2 (fun a x => forall k, sf_get k x = as_sfn k (ds_content H seed nb a k)) acts fs /\
    match lb with
    | None => jget s_label_cost v = JNull /\ jget s_label_prob v = JNull /\ jget s_label_index v = JNull
    | Some l => exists c p a i, jget s_label_cost v = JNum c /\ jget s_label_prob v = JNum p /\ jget s_label_index v = JNum a /\
        jn_u64 a = Some i /\ l = LbCb i (jn_f64 c) (jn_f64 p)
    end.
Proof.
  intros rd ds chunk f lb Hb P E. unfold ds_chunk in E. destruct (rd chunk) as [v|]; [|discriminate]. cbn [opt_or bind] in E. unfold ds_value in E.
  binv E. destruct v0 as (sh & st). cbn [fst snd] in E. destruct st; [|discriminate]. cbn [bind] in E.
  destruct (jget s_multi (jget s_c v)) as [| | | |acts|] eqn:EM; try discriminate. cbn [bind] in E. binv E. binv E. injection E as <- <-.
  apply (root_ok _ _ _ _ Hb) in B.
  2: { destruct P; [now left|assumption]. }
  exists v, acts, sh, v0. split; auto. split; auto. split; auto. split; [apply B|]. split.
  - assert (PT : Forall pooled (tl ds)) by (destruct P; [constructor|assumption]). clear -Hb B0 PT. revert B0. generalize dependent (tl ds). revert v0.
    induction acts as [|a acts IH]; intros fs es PT E; cbn [ds_actions] in E; [injection E as <-; constructor|].
    binv E. binv E. binv E. injection E as <-. destruct v as (x & st). apply (root_ok _ _ _ _ Hb) in B.
    2: { destruct PT; [now left|assumption]. }
    constructor; [apply B|]. eapply IH; [|exact B1]. destruct PT; [constructor|assumption].
  - unfold ds_label in B1. destruct (jget s_label_cost v) as [| |c| | |], (jget s_label_prob v) as [| |p| | |], (jget s_label_index v) as [| |a| | |];
      try discriminate; [injection B1 as <-; auto|]. destruct (jn_u64 a) as [i|] eqn:EI; [|discriminate]. cbn [opt_or bind] in B1. injection B1 as <-.
    exists c, p, a, i. auto.
Qed.
End P.

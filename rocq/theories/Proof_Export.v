(** Models as JSON: writing, replacing the weights, reading back. *)
From Coq Require Import String List NArith ZArith Bool Lia PeanoNat Permutation.
From Verif Require Import Base FloatOps Model_Hash Model_Features Model_Weights Model_Loss Model_Interactions
  Model_Types Model_Explore Model_Coin Model_Stack Model_Factory Model_Text Model_Json Model_Config Model_Save Model_Export
  Spec_Config Spec_Weights Spec_Reductions Spec_Export Proof_TextParse Proof_InvHash Proof_Weights Proof_WeightsProps Proof_DsJson Proof_Config.
Import ListNotations.
Open Scope list_scope.
Open Scope N_scope.

(** *** keys *)
Lemma undec_snoc : forall s c, undec (s ++ [c]) = 10 * undec s + (c - 48).
Proof. intros. unfold undec. now rewrite fold_left_app. Qed.
Lemma digits_ok : forall k n, n < 2 ^ N.of_nat k -> undec (digits k n) = n /\ forallb (fun c => (48 <=? c) && (c <=? 57)) (digits k n) = true.
Proof.
  induction k as [|k IH]; intros n L.
  - assert (n = 0) by (cbn in L; lia). subst. auto.
  - cbn [digits]. assert (M : n mod 10 < 10) by (apply N.mod_lt; lia).
    rewrite undec_snoc, forallb_app. cbn [forallb].
    match goal with |- 10 * undec ?y + _ = _ /\ _ =>
      assert (D : forallb (fun c => (48 <=? c) && (c <=? 57)) y = true /\ undec y = n / 10) end.
    { destruct (n <? 10) eqn:T.
      - apply N.ltb_lt in T. rewrite N.div_small by lia. auto.
      - destruct (IH (n / 10)); auto. rewrite Nat2N.inj_succ, N.pow_succ_r' in L.
        apply N.div_lt_upper_bound; lia. }
    destruct D as (D1 & D2). rewrite D1, D2. split.
    + pose proof (N.div_mod n 10 ltac:(lia)) as DM.
      clear - DM. rewrite (N.add_comm 48), N.add_sub. symmetry. exact DM.
    + rewrite !andb_true_r. cbn [andb]. clear - M. revert M. generalize (n mod 10). intros m M.
      apply andb_true_iff. split; apply N.leb_le; lia.
Qed.
Lemma read_dec : forall b n, n < b -> read_key b (dec n) = Some n.
Proof.
  intros b n L. unfold read_key.
  destruct (digits_ok (S (N.to_nat (N.log2 n))) n) as (U & F).
  { rewrite Nat2N.inj_succ, N2Nat.id. destruct n as [|p]; [cbn; lia|]. apply N.log2_spec. lia. }
  fold (dec n) in U, F. rewrite U, F, str_eqb_refl, (proj2 (N.ltb_lt _ _) L). reflexivity.
Qed.

(** the fields of a concrete object *)
Ltac look k l := match l with (k, ?v) :: _ => v | _ :: ?t => look k t end.
Ltac looks ns l :=
  match ns with
  | ?k :: ?t => let v := look k l in let r := looks t l in constr:(Some v :: r)
  | @nil _ => match type of l with list (_ * ?T) => constr:(@nil (option T)) end
  end.
Ltac js :=
  repeat match goal with
  | |- context [jstruct ?b ?ns (JObj ?l)] => let r := looks ns l in change (jstruct b ns (JObj l)) with (Some r)
  end.

Section Export.
Context {O : FOps}.
Local Notation json := (json O).

(** *** replacing the weights *)
Definition same_json (v : json) : Prop := forall f, rewrite_json f v = Ok v.
Definition rwo (f : json -> out json) : list (str * json) -> out (list (str * json)) :=
  fix go l :=
  match l with
  | [] => Ok []
  | (k, x) :: l => let* y := rewrite_json f x in let* l' := go l in Ok ((k, y) :: l')
  end.
Definition rwa (f : json -> out json) : list json -> out (list json) :=
  fix go l :=
  match l with
  | [] => Ok []
  | x :: l => let* y := rewrite_json f x in let* l' := go l in Ok (y :: l')
  end.
Lemma rw_obj : forall f l, rewrite_json f (JObj l) = if is_table l then f (JObj l) else let* l' := rwo f l in Ok (JObj l').
Proof. reflexivity. Qed.
Lemma rw_arr : forall f l, rewrite_json f (JArr l) = let* l' := rwa f l in Ok (JArr l').
Proof. reflexivity. Qed.
Lemma rwo_same : forall f l, Forall (fun kv => same_json (snd kv)) l -> rwo f l = Ok l.
Proof. intros f l F. induction F as [|[k x] l Hx F IH]; auto. cbn [rwo]. cbn [snd] in Hx. now rewrite Hx, IH. Qed.
Lemma rwa_same : forall f l, Forall same_json l -> rwa f l = Ok l.
Proof. intros f l F. induction F as [|x l Hx F IH]; auto. cbn [rwa]. now rewrite Hx, IH. Qed.
Lemma same_obj : forall l, is_table l = false -> Forall (fun kv => same_json (snd kv)) l -> same_json (JObj l).
Proof. intros l T F f. now rewrite rw_obj, T, rwo_same. Qed.
Lemma same_arr : forall l, Forall same_json l -> same_json (JArr l).
Proof. intros l F f. now rewrite rw_arr, rwa_same. Qed.
Lemma same_arr_map : forall A (w : A -> json) l, (forall x, same_json (w x)) -> same_json (JArr (map w l)).
Proof. intros A w l F. apply same_arr. apply Forall_forall. intros v I. apply in_map_iff in I. destruct I as (x & <- & _). apply F. Qed.

Lemma is_table_keys : forall l : list (str * json), is_table l = true -> forall k, In k table_keys -> In (lit k) (map fst l).
Proof.
  intros l T k I. unfold is_table in T. rewrite forallb_forall in T.
  assert (J : In (lit k) shape_names) by (apply (in_map lit) in I; exact I).
  specialize (T _ J). apply existsb_exists in T. destruct T as ((k' & x) & In' & E). apply str_eqb_eq in E. cbn in E. subst k'.
  apply in_map_iff. exists (lit k, x). auto.
Qed.
Lemma keys_is_table : forall l : list (str * json), (forall k, In k table_keys -> In (lit k) (map fst l)) -> is_table l = true.
Proof.
  intros l T. unfold is_table. apply forallb_forall. intros nm I.
  change shape_names with (map lit table_keys) in I. apply in_map_iff in I. destruct I as (k & <- & I).
  specialize (T k I). apply in_map_iff in T. destruct T as ((k' & x) & E & In'). cbn in E. subst k'.
  apply existsb_exists. exists (lit k, x). split; auto. apply str_eqb_refl.
Qed.
Lemma same_plain : forall v : json, ~ holds_table v -> same_json v.
Proof.
  induction v as [|b|n|s|l IH|l IH] using json_rect'; intro N; try (intro f; reflexivity).
  - apply same_arr. rewrite Forall_forall in *. intros x I. apply IH; auto. intro T. apply N. eapply ht_item; eauto.
  - apply same_obj.
    + destruct (is_table l) eqn:T; auto. exfalso. apply N. apply ht_here. now apply is_table_keys.
    + rewrite Forall_forall in *. intros (k & x) I. apply (IH (k, x)); auto. intro T. apply N. eapply ht_field; eauto.
Qed.

Lemma same_f32 : forall x : O, same_json (w_f32 x).
Proof. intros x f. unfold w_f32. destruct (_ || _); reflexivity. Qed.
Lemma same_uint : forall n, same_json (juint n). Proof. intros n f. reflexivity. Qed.
Lemma same_str : forall s, same_json (JStr s). Proof. intros s f. reflexivity. Qed.
Lemma same_wstr : forall s, same_json (w_str s). Proof. intros s f. reflexivity. Qed.
Lemma same_bool : forall b, same_json (JBool b). Proof. intros b f. reflexivity. Qed.
Lemma same_null : same_json JNull. Proof. intro f. reflexivity. Qed.
Hint Resolve same_f32 same_uint same_str same_wstr same_bool same_null : sj.
Ltac sobj := apply same_obj; [reflexivity|repeat (apply Forall_cons || apply Forall_nil); cbn [snd]; auto with sj].
Ltac sarr := apply same_arr; repeat (apply Forall_cons || apply Forall_nil); auto with sj.
Lemma same_tdesc : forall t, same_json (w_tdesc t).
Proof. intros [[] [[]|] [] [[]|] [[]|] []]; intro f; reflexivity. Qed.
Lemma same_ns : forall n, same_json (w_ns n).
Proof. intros []; cbn [w_ns]; auto with sj; sobj. Qed.
Lemma same_loss : forall l : loss O, same_json (w_loss l).
Proof. intros []; sobj; sobj. Qed.
Lemma same_link : forall l, same_json (w_link l). Proof. intros l f. reflexivity. Qed.
Hint Resolve same_tdesc same_ns same_loss same_link : sj.
Lemma same_coin_cfg : forall c : coin_config O, same_json (w_coin_cfg c).
Proof. intros c. unfold w_coin_cfg. sobj. Qed.
Lemma same_nsdef : forall d, same_json (w_nsdef d).
Proof. intros []; cbn [w_nsdef]; auto with sj; sobj. Qed.
Hint Resolve same_coin_cfg same_nsdef same_arr_map : sj.
Lemma same_global : forall g, same_json (w_global g).
Proof. intro g. unfold w_global. sobj. Qed.
Lemma same_jrc_json : forall j : jrc O, (forall v, snd j = Some v -> ~ holds_table v) -> same_json (jrc_json j).
Proof. intros (ty & [v|]) P; unfold jrc_json; sobj. apply same_plain. now apply P. Qed.

Ltac rwstep := rewrite rw_obj; match goal with |- context [is_table ?l] => change (is_table l) with false end; cbn [rwo].
Lemma rw_wrapper : forall f t w (body : json),
  rewrite_json f (w_wrapper t w body) = let* b := rewrite_json f body in Ok (w_wrapper t w b).
Proof.
  intros f t w body. unfold w_wrapper. rwstep. rewrite same_str, same_tdesc, same_uint. cbn [bind].
  rewrite rw_obj. replace (is_table [(impl_name t, body)]) with false by (destruct t; reflexivity). cbn [rwo].
  destruct (rewrite_json f body); reflexivity.
Qed.
Lemma rw_kind : forall f x k (ch : json), (forall v, snd (x_child x) = Some v -> ~ holds_table v) ->
  rewrite_json f (w_kind x k ch) = let* c := rewrite_json f ch in Ok (w_kind x k c).
Proof.
  intros f x k ch P. pose proof (same_jrc_json (x_child x) P) as J.
  destruct k; cbn [w_kind]; rwstep.
  - destruct (rewrite_json f ch); reflexivity.
  - unfold w_cbtype. rewrite same_wstr. cbn [bind]. destruct (rewrite_json f ch); reflexivity.
  - rewrite same_f32. cbn [bind]. destruct (rewrite_json f ch); reflexivity.
  - rwstep. rewrite !same_f32, same_uint, J. cbn [bind]. destruct (rewrite_json f ch); reflexivity.
  - rwstep. rewrite !same_f32, same_uint, J. cbn [bind]. destruct (rewrite_json f ch); reflexivity.
  - destruct (rewrite_json f ch); cbn [bind]; auto. rewrite rw_arr. cbn [rwa]. rewrite !same_ns. reflexivity.
  - rewrite !same_str, same_uint, !same_bool. cbn [bind]. destruct (rewrite_json f ch); reflexivity.
Qed.
Lemma rw_coin : forall f wj (c : coin O), (forall w, rewrite_json f (wj w) = f (wj w)) ->
  rewrite_json f (w_coin wj c) = let* W := f (wj (co_w c)) in Ok (w_coin (fun _ => W) c).
Proof.
  intros f wj c E. unfold w_coin. rwstep. rewrite E. destruct (f (wj (co_w c))); cbn [bind]; auto.
  assert (S1 : same_json (JArr (map (fun p : O * O => JObj [(lit "normalized_sum_norm_x", w_f32 (fst p)); (lit "total_weight", w_f32 (snd p))]) (co_states c))))
    by (apply same_arr_map; intro; sobj).
  assert (S2 : same_json (JArr (map (fun p => JArr [w_ns (fst p); w_ns (snd p)]) (co_pairs c)))) by (apply same_arr_map; intro; sarr).
  assert (S3 : same_json (JArr (map (fun p => JArr [w_ns (fst (fst p)); w_ns (snd (fst p)); w_ns (snd p)]) (co_triples c))))
    by (apply same_arr_map; intro; sarr).
  rewrite same_coin_cfg, S1, !same_f32, same_loss, S2, S3, same_uint, same_bool. reflexivity.
Qed.
Lemma rw_red : forall f wj ex, (forall w, rewrite_json f (wj w) = f (wj w)) -> plain ex -> forall n (r : red O n),
  rewrite_json f (w_red wj ex n r) = let* W := f (wj (co_w (bottom n r))) in Ok (w_red (fun _ => W) ex n r).
Proof.
  intros f wj ex E P. induction n as [|n IH]; intro r; cbn [w_red]; rewrite rw_wrapper.
  - rewrite rw_coin by exact E. cbn [bottom]. destruct (f _); reflexivity.
  - rewrite rw_kind by (intros; eapply P; eauto). rewrite IH. cbn [bottom]. destruct (f _); reflexivity.
Qed.
Lemma rw_workspace : forall f wj ex g (R : anyred O), (forall w, rewrite_json f (wj w) = f (wj w)) -> plain ex ->
  rewrite_json f (w_workspace wj ex g R) =
  let* W := f (wj (co_w (bottom (projT1 R) (projT2 R)))) in Ok (w_workspace (fun _ => W) ex g R).
Proof.
  intros f wj ex g R E P. unfold w_workspace. rwstep. rewrite same_global, rw_red by auto. cbn [bind].
  destruct (f _); reflexivity.
Qed.
Lemma rw_shape : forall f (W : json) a b c d e, rewrite_json f (w_shape W a b c d e) = f (w_shape W a b c d e).
Proof. intros. unfold w_shape. rewrite rw_obj. reflexivity. Qed.

(** *** reading back *)
Definition finb (x : O) : bool := negb (f_isnan O x || f_isinf O x).
Lemma finb_iff : forall x, finb x = true <-> finite x.
Proof. intro x. unfold finb, finite. destruct (f_isnan O x), (f_isinf O x); cbn; intuition discriminate. Qed.
Lemma rd_f32 : forall x : O, de_f32 (w_f32 x) = if finb x then Some x else None.
Proof. intro x. unfold w_f32, finb. destruct (_ || _); reflexivity. Qed.
Lemma rd_uint : forall b n, n < b -> de_uint (O:=O) b (juint n) = Some n.
Proof. intros b n L. cbn. now rewrite (proj2 (N.ltb_lt _ _) L). Qed.
Lemma rd_tdesc : forall t, de_tdesc (O:=O) (w_tdesc t) = Some t.
Proof. intros [[] [[]|] [] [[]|] [[]|] []]; reflexivity. Qed.
Definition ns_fits (n : namespace) : Prop := match n with NsNamed h | NsRawHash h => h < u32_mod | NsDefault => True end.
Lemma rd_ns : forall n, ns_fits n -> de_ns (O:=O) (w_ns n) = Some n.
Proof.
  intros [h|h|] F; cbn [ns_fits] in F.
  - change (de_ns (w_ns (NsNamed h))) with (option_map NsNamed (de_uint (O:=O) u32_mod (juint h))). now rewrite rd_uint.
  - change (de_ns (w_ns (NsRawHash h))) with (option_map NsRawHash (de_uint (O:=O) u32_mod (juint h))). now rewrite rd_uint.
  - reflexivity.
Qed.
Lemma rd_loss : forall l : loss O, de_loss (w_loss l) = if forallb finb (loss_numbers l) then Some l else None.
Proof.
  intros [|a b]; [reflexivity|].
  change (de_loss (w_loss (LossLogistic a b))) with
    (match de_f32 (w_f32 a), de_f32 (w_f32 b) with Some mn, Some mx => Some (LossLogistic mn mx) | _, _ => None end).
  rewrite !rd_f32. cbn [loss_numbers forallb]. destruct (finb a), (finb b); reflexivity.
Qed.
Lemma rd_coin_cfg : forall c : coin_config O, de_coin (w_coin_cfg c) =
  if forallb finb ([cc_alpha c; cc_beta c; cc_l1 c; cc_l2 c] ++ loss_numbers (cc_loss c)) then Some c else None.
Proof.
  intros [a b l1 l2 lo li]. unfold de_coin, w_coin_cfg, coin_names. js. cbn [dflt].
  rewrite !rd_f32, rd_loss. cbn [cc_alpha cc_beta cc_l1 cc_l2 cc_loss app forallb].
  destruct (finb a); cbn [andb]; auto. destruct (finb b); cbn [andb]; auto. destruct (finb l1); cbn [andb]; auto.
  destruct (finb l2); cbn [andb]; auto. destruct (forallb finb (loss_numbers lo)); auto. destruct li; reflexivity.
Qed.
Lemma rd_all : forall A (w : A -> json) de (g : A -> bool) l, (forall x, In x l -> de (w x) = if g x then Some x else None) ->
  de_all de (map w l) = if forallb g l then Some l else None.
Proof.
  intros A w de g l E. induction l as [|x l IH]; auto. cbn [map de_all forallb]. rewrite E by (left; auto).
  rewrite IH by (intros; apply E; right; auto). destruct (g x), (forallb g l); reflexivity.
Qed.
Lemma rd_all_some : forall A (w : A -> json) de l, (forall x, In x l -> de (w x) = Some x) -> de_all de (map w l) = Some l.
Proof. intros A w de l E. rewrite (rd_all _ w de (fun _ => true)) by exact E. now rewrite (proj2 (forallb_forall _ _)). Qed.
Lemma rd_states : forall l : list (O * O),
  de_vec de_state (JArr (map (fun p => JObj [(lit "normalized_sum_norm_x", w_f32 (fst p)); (lit "total_weight", w_f32 (snd p))]) l)) =
  if forallb finb (flat_map (fun s => [fst s; snd s]) l) then Some l else None.
Proof.
  intro l. cbn [de_vec]. rewrite (rd_all _ _ _ (fun p => finb (fst p) && finb (snd p))).
  - replace (forallb (fun p => finb (fst p) && finb (snd p)) l) with (forallb finb (flat_map (fun s : O * O => [fst s; snd s]) l)); auto.
    induction l as [|p l IH]; auto. cbn [flat_map app forallb]. rewrite IH. now rewrite andb_assoc.
  - intros (a & b) _. unfold de_state. js. cbn [req fst snd]. rewrite !rd_f32. destruct (finb a), (finb b); reflexivity.
Qed.

(** the weights *)
Definition norm (w : dweights O) : dweights O :=
  mkDw (map znorm (dw_w w)) (dw_fsize w) (dw_msize w) (dw_ssize w) (dw_mshift w) (dw_sshift w).
Definition shape_fits (w : dweights O) : Prop :=
  dw_fsize w < u32_mod /\ dw_msize w < 256 /\ dw_ssize w < 256 /\ dw_mshift w < 256 /\ dw_sshift w < 256.
Context (zf : forall x : O, f_eqb O x f0 = true -> finite x).
Lemma rd_pairs : forall l i, N.of_nat (length l) + i <= 18446744073709551616 ->
  de_all (fun p : json => match p with JArr [i; x] => match de_usize i, de_f32 x with Some i, Some x => Some (i, x) | _, _ => None end
                              | _ => None end)
    (map (fun p => JArr [juint (fst p); w_f32 (snd p)]) (filter (fun p => negb (f_eqb O (snd p) f0)) (enum_from i l))) =
  if forallb finb l then Some (filter (fun p => negb (f_eqb O (snd p) f0)) (enum_from i l)) else None.
Proof.
  induction l as [|x l IH]; intros i L; auto. cbn [enum_from filter snd forallb]. cbn [length] in L.
  destruct (f_eqb O x f0) eqn:E; cbn [negb].
  - rewrite IH by lia. now rewrite (proj2 (finb_iff x) (zf x E)).
  - cbn [map de_all fst snd]. unfold de_usize at 1. rewrite rd_uint by lia. rewrite rd_f32.
    destruct (finb x); auto. cbn [andb]. rewrite IH by lia. destruct (forallb finb l); reflexivity.
Qed.
Lemma rd_dense : forall w : dweights O, shape_fits w -> 4 * N.of_nat (length (dw_w w)) < 9223372036854775808 ->
  de_dense (w_dense w) = if forallb finb (dw_w w) then Ok (norm w) else Er EJson.
Proof.
  intros [l f m s ms ss] (F1 & F2 & F3 & F4 & F5) L. cbn [dw_w dw_fsize dw_msize dw_ssize dw_mshift dw_sshift] in *.
  unfold de_dense, w_dense, de_shape, w_shape, shape_names. js.
  cbn [req dw_w dw_fsize dw_msize dw_ssize dw_mshift dw_sshift]. unfold de_u32, de_u8. rewrite !rd_uint by auto.
  unfold de_sparse, w_sparse. js. cbn [req sv_from_dense sv_len sv_pairs]. unfold de_usize at 1. rewrite rd_uint by lia.
  cbn [de_vec]. rewrite rd_pairs by lia.
  destruct (forallb finb l); auto. cbn [bind].
  match goal with |- (let* l0 := sv_to_dense ?x in _) = _ => change x with (sv_from_dense l) end.
  rewrite (sparse_roundtrip l L). reflexivity.
Qed.
Lemma rd_rows : forall l : list (N * list (list O)), (forall r, In r l -> fst r < u32_mod /\ forall st x, In st (snd r) -> In x st -> finb x = true) ->
  de_rows (map (fun r => (dec (fst r), JArr (map (fun st => JArr (map w_f32 st)) (snd r)))) l) = Some l.
Proof.
  induction l as [|(i & sts) l IH]; intro F; auto. cbn [map de_rows fst snd].
  destruct (F _ (or_introl eq_refl)) as (F1 & F2). cbn [fst snd] in F1, F2. rewrite read_dec by exact F1.
  replace (de_vec (de_vec de_f32) (JArr (map (fun st => JArr (map w_f32 st)) sts))) with (Some sts).
  - rewrite IH by (intros; apply F; right; auto). reflexivity.
  - symmetry. cbn [de_vec]. apply rd_all_some. intros st I. apply rd_all_some. intros x J. rewrite rd_f32.
    now rewrite (F2 st x I J).
Qed.
Lemma rd_nd : forall d : ndweights O,
  (forall r, In r (nd_map d) -> fst r < u32_mod /\ forall st x, In st (snd r) -> In x st -> finb x = true) ->
  nd_fsize d < u32_mod -> nd_msize d < 256 -> nd_ssize d < 256 -> nd_mshift d < 256 -> nd_sshift d < 256 ->
  de_nd (w_nd d) = Some d.
Proof.
  intros [l f m s ms ss] F F1 F2 F3 F4 F5. cbn [nd_map nd_fsize nd_msize nd_ssize nd_mshift nd_sshift] in *.
  unfold de_nd, w_nd, de_shape, w_shape, shape_names. js. cbn [req nd_map nd_fsize nd_msize nd_ssize nd_mshift nd_sshift].
  unfold de_u32, de_u8. rewrite !rd_uint by auto. cbn [w_rows]. now rewrite rd_rows.
Qed.

(** the whole stack *)
Definition put_w (c : coin O) (w : dweights O) : coin O :=
  mkCoin w (co_cfg c) (co_states c) (co_avg c) (co_min c) (co_max c) (co_loss c) (co_pairs c) (co_triples c) (co_bits c) (co_const c).
Fixpoint put (n : nat) : red O n -> dweights O -> red O n :=
  match n with
  | 0%nat => fun r w => (fst r, put_w (snd r) w)
  | S m => fun r w => (fst r, put m (snd r) w)
  end.
Definition coin_fits (c : coin O) : Prop :=
  co_bits c < 256 /\ (forall p, In p (co_pairs c) -> ns_fits (fst p) /\ ns_fits (snd p)) /\
  (forall p, In p (co_triples c) -> ns_fits (fst (fst p)) /\ ns_fits (snd (fst p)) /\ ns_fits (snd p)).
Definition usz : N := 18446744073709551616.
Definition kind_fits (k : kind O) : Prop :=
  match k with
  | KCbAdf _ a e => a < usz /\ e < usz
  | KSoftmax _ _ c | KSquareCb _ _ _ c => c < usz
  | KElem a b _ nb => ns_fits a /\ ns_fits b /\ nb < 256
  | KBinary | KGreedy _ | KDebug => True
  end.
Fixpoint fits (n : nat) : red O n -> Prop :=
  match n with
  | 0%nat => fun r => w_below (fst r) < 256 /\ coin_fits (snd r)
  | S m => fun r => w_below (fst (fst r)) < 256 /\ kind_fits (snd (fst r)) /\ fits m (snd r)
  end.

Lemma rd_coin : forall (c : coin O) W, coin_fits c ->
  de_coin_model (w_coin (fun _ => W) c) =
  if forallb finb (coin_numbers c) then (let* w := de_dense W in Ok (put_w c w)) else Er EJson.
Proof.
  intros [w cfg ss av mn mx lo ps ts nb cf] W (F1 & F2 & F3). cbn [co_bits co_pairs co_triples] in *.
  unfold de_coin_model, w_coin. js. cbn [req co_w co_cfg co_states co_avg co_min co_max co_loss co_pairs co_triples co_bits co_const].
  unfold de_u8. rewrite rd_coin_cfg, rd_states, !rd_f32, rd_loss, rd_uint by exact F1.
  unfold coin_numbers; cbn [co_w co_cfg co_states co_avg co_min co_max co_loss co_pairs co_triples co_bits co_const].
  rewrite !forallb_app.
  destruct (forallb finb ([cc_alpha cfg; cc_beta cfg; cc_l1 cfg; cc_l2 cfg])); cbn [andb]; auto.
  destruct (forallb finb (loss_numbers (cc_loss cfg))); cbn [andb]; auto.
  destruct (forallb finb (flat_map _ ss)); cbn [andb]; auto.
  cbn [forallb]. destruct (finb av); cbn [andb]; auto. destruct (finb mn); cbn [andb]; auto. destruct (finb mx); cbn [andb]; auto.
  destruct (forallb finb (loss_numbers lo)); auto.
  cbn [de_vec]. rewrite rd_all_some.
  - rewrite rd_all_some.
    + reflexivity.
    + intros ((a & b) & c) I. destruct (F3 _ I) as (G1 & G2 & G3). cbn [fst snd] in *. cbn [de_triple]. now rewrite !rd_ns.
  - intros (a & b) I. destruct (F2 _ I) as (G1 & G2). cbn [fst snd] in *. cbn [de_pair]. now rewrite !rd_ns.
Qed.

Lemma rd_jrc : forall j : jrc O, exists j', de_jrc (jrc_json j) = Some j'.
Proof. intros (ty & [v|]); unfold jrc_json; rewrite de_jrc_obj; cbn [fst snd]; eexists; reflexivity. Qed.
Lemma rd_kind : forall x k (ch : json), kind_fits k -> x_indent x < 2 ^ 64 ->
  de_kind (kind_type k) (w_kind x k ch) = if forallb finb (kind_numbers k) then Some (k, ch) else None.
Proof.
  intros x k ch F X. destruct (rd_jrc (x_child x)) as (j & J).
  destruct k as [|ty a e|e|ue la c|ue gs ge c|a b keep nb|]; cbn [kind_type w_kind kind_fits kind_numbers] in *; unfold de_kind.
  - reflexivity.
  - js. cbn [req]. unfold de_mtr. js. cbn [req]. unfold de_usize. rewrite !rd_uint by tauto. destruct ty; reflexivity.
  - js. cbn [req]. rewrite rd_f32. cbn [forallb]. destruct (finb e); reflexivity.
  - js. cbn [req cfg_in]. unfold de_usize. rewrite rd_uint by exact F. unfold parse_with. js. cbn [dflt]. rewrite !rd_f32, J. cbn [forallb].
    destruct (finb ue), (finb la); reflexivity.
  - js. cbn [req cfg_in]. unfold de_usize. rewrite rd_uint by exact F. unfold parse_with. js. cbn [dflt]. rewrite !rd_f32, J. cbn [forallb].
    destruct (finb ue), (finb gs), (finb ge); reflexivity.
  - js. cbn [req de_pair de_bool]. destruct F as (F1 & F2 & F3). rewrite !rd_ns by auto. unfold de_u8. rewrite rd_uint by auto. reflexivity.
  - js. cbn [req de_str de_bool]. unfold de_usize. rewrite rd_uint by exact X. reflexivity.
Qed.
Lemma impl_find : forall t, find (fun t' => str_eqb (impl_name t') (impl_name t)) registry = Some t.
Proof. destruct t; reflexivity. Qed.
Lemma kind_not_coin : forall k : kind O, kind_type k <> RCoin.
Proof. intros [] ; discriminate. Qed.

Lemma rd_red : forall ex W, plain ex -> forall n (r : red O n) fuel, (n < fuel)%nat -> fits n r ->
  de_red fuel (w_red (fun _ => W) ex n r) =
  if forallb finb (numbers n r) then (let* w := de_dense W in Ok (existT (red O) n (put n r w))) else Er EJson.
Proof.
  intros ex W P. induction n as [|n IH]; intros r fuel L F; (destruct fuel as [|fuel]; [lia|]).
  - destruct r as (wi & c). destruct F as (F1 & F2). cbn [w_red fst snd] in *. unfold w_wrapper. cbn [de_red]. js.
    cbn [req de_str]. rewrite rd_tdesc. unfold de_u8. rewrite rd_uint by exact F1. rewrite impl_find.
    rewrite rd_coin by exact F2. cbn [numbers snd]. destruct (forallb finb (coin_numbers c)); auto.
    destruct (de_dense W); cbn [bind]; auto. destruct wi; reflexivity.
  - destruct r as ((wi & k) & ch). destruct F as (F1 & F2 & F3). cbn [w_red fst snd] in *. unfold w_wrapper. cbn [de_red]. js.
    cbn [req de_str]. rewrite rd_tdesc. unfold de_u8. rewrite rd_uint by exact F1. rewrite impl_find.
    pose proof (rd_kind (ex (S n)) k (w_red (fun _ => W) ex n ch) F2 (proj1 (P (S n)))) as K.
    pose proof (kind_not_coin k) as NC. destruct (kind_type k); try congruence; rewrite K;
    cbn [numbers fst snd]; rewrite forallb_app;
    (destruct (forallb finb (kind_numbers k)); cbn [andb]; [|reflexivity]; rewrite IH by (auto; lia);
     destruct (forallb finb (numbers n ch)); [|reflexivity]; destruct (de_dense W); cbn [bind]; auto; destruct wi; reflexivity).
Qed.
Lemma depth_field : forall (l : list (str * json)) k v, In (k, v) l -> (jdepth v < jdepth (JObj l))%nat.
Proof.
  intros l k v I. pose proof (fold_max_in _ (fun kv : str * json => jdepth (snd kv)) l _ I) as M. cbn in M |- *. lia.
Qed.
Lemma w_red_depth : forall wj ex n (r : red O n), (n < jdepth (w_red wj ex n r))%nat.
Proof.
  induction n as [|n IH]; intro r; cbn [w_red]; unfold w_wrapper.
  - match goal with |- context [JObj ?l] => pose proof (depth_field l (lit "typename") (JStr (typename RCoin)) (or_introl eq_refl)) end. lia.
  - match goal with |- context [jdepth (JObj ?l)] =>
      pose proof (depth_field l (lit "reduction") (JObj [(impl_name (kind_type (snd (fst r))), w_kind (ex (S n)) (snd (fst r)) (w_red wj ex n (snd r)))])
                    (or_intror (or_introl eq_refl))) as D1 end.
    match type of D1 with (jdepth (JObj ?l) < _)%nat => pose proof (depth_field l _ _ (or_introl eq_refl)) as D2 end.
    assert (D3 : (jdepth (w_red wj ex n (snd r)) < jdepth (w_kind (ex (S n)) (snd (fst r)) (w_red wj ex n (snd r))))%nat).
    { destruct (snd (fst r)); cbn [w_kind];
      match goal with |- (jdepth ?v < jdepth (JObj ?l))%nat => let k := match l with context [(?k, v)] => k end in apply (depth_field l k v) end;
      cbn [In]; auto 10. }
    pose proof (IH (snd r)). lia.
Qed.
Lemma rd_global : forall g, gc_bits g < 256 -> gc_seed g < 2 ^ 32 -> de_global (O:=O) (w_global g) = Some g.
Proof.
  exact (show_global_ok (O:=O)).
Qed.
Lemma rd_workspace : forall ex W g (R : anyred O), plain ex -> gc_bits g < 256 -> gc_seed g < 2 ^ 32 -> fits _ (projT2 R) ->
  de_workspace (w_workspace (fun _ => W) ex g R) =
  if forallb finb (numbers _ (projT2 R)) then (let* w := de_dense W in Ok (g, existT (red O) _ (put _ (projT2 R) w))) else Er EJson.
Proof.
  intros ex W g (n & r) P A B F. unfold de_workspace, w_workspace. js. cbn [req projT1 projT2] in *. rewrite rd_global by auto.
  rewrite rd_red; auto.
  - destruct (forallb finb _); [|reflexivity]. destruct (de_dense W); reflexivity.
  - pose proof (w_red_depth (fun _ => W) ex n r). lia.
Qed.

(** *** the two conversions *)
Context (zz : f_eqb O f0 f0 = true).
Lemma norm_norm : forall w, norm (norm w) = norm w.
Proof.
  intros [l f m s ms ss]. unfold norm; cbn [dw_w dw_fsize dw_msize dw_ssize dw_mshift dw_sshift]. f_equal. rewrite map_map.
  apply map_ext. intro x. unfold znorm. destruct (f_eqb O x f0) eqn:E; [now rewrite zz|now rewrite E].
Qed.
Lemma norm_wf : forall w : dweights O, dw_wf w -> dw_wf (norm w).
Proof. intros w W. unfold dw_wf, norm in *; cbn [dw_w dw_fsize dw_msize dw_ssize dw_mshift dw_sshift] in *. now rewrite map_length. Qed.
Lemma znorm_f0 : znorm (f0 : O) = f0. Proof. unfold znorm. now rewrite zz. Qed.
Lemma norm_pad : forall w : dweights O, pad_zero w -> pad_zero (norm w).
Proof.
  intros w P j J. unfold norm; cbn [dw_w]. rewrite <- znorm_f0 at 1. rewrite map_nth, (P j J). apply znorm_f0.
Qed.
Lemma znorm_finb : forall x : O, finb x = true -> finb (znorm x) = true.
Proof. intros x F. unfold znorm. destruct (f_eqb O x f0); auto. apply finb_iff, zf, zz. Qed.
Lemma norm_finb : forall w, forallb finb (dw_w w) = true -> forallb finb (dw_w (norm w)) = true.
Proof.
  intros w F. rewrite forallb_forall in *. intros x I. cbn [norm dw_w] in I. apply in_map_iff in I. destruct I as (y & <- & I).
  apply znorm_finb; auto.
Qed.
Lemma zero_same_norm : forall l l' : list O, Forall2 zero_same (map znorm l) l' -> l' = map znorm l.
Proof.
  intros l. induction l as [|x l IH]; intros l' F; inversion F as [|? ? ? ? Z F']; subst; auto. cbn [map]. f_equal; auto.
  destruct Z as [->|(E & ->)]; auto. unfold znorm in *. destruct (f_eqb O x f0) eqn:X; auto. congruence.
Qed.
Lemma wf_fits : forall w : dweights O, dw_wf w -> shape_fits w.
Proof.
  intros w (A & B & C & D & E & F & G & H & I). unfold shape_fits. change u32_mod with (2 ^ 32). change 256 with (2 ^ 8).
  assert (dw_mshift w <= 8) by (rewrite G; apply size_le_bits; lia).
  assert (dw_sshift w <= 8) by (rewrite H; apply size_le_bits; lia).
  change (2 ^ 8) with 256 in *. repeat split; lia.
Qed.

Lemma in_slice : forall A (x : A) a b l, In x (firstn a (skipn b l)) -> In x l.
Proof.
  intros A x a b l I. rewrite <- (firstn_skipn b l). apply in_or_app. right. rewrite <- (firstn_skipn a (skipn b l)).
  apply in_or_app. auto.
Qed.
Definition rows (w : dweights O) : list (N * list (list O)) := filter nonzero_row (map (full_row w) (N_range (dw_fsize w))).
Lemma rows_fine : forall w : dweights O, dw_wf w -> forallb finb (dw_w w) = true -> forall r, In r (rows w) ->
  fst r < u32_mod /\ forall st x, In st (snd r) -> In x st -> finb x = true.
Proof.
  intros w W F r I. unfold rows in I. apply filter_In in I. destruct I as (I & _). apply in_map_iff in I. destruct I as (i & <- & I).
  apply in_range in I. split.
  - destruct W as (_ & _ & _ & W & _). change u32_mod with (2 ^ 32). cbn [fst full_row]. lia.
  - intros st x J K. unfold full_row in J. cbn [snd] in J. apply in_map_iff in J. destruct J as (j & <- & _).
    unfold read in K. apply in_slice in K. rewrite forallb_forall in F. auto.
Qed.
Definition as_rows (ord : list (N * list (list O)) -> list (N * list (list O))) (w : dweights O) : json :=
  w_nd (mkNd (ord (rows (norm w))) (dw_fsize w) (dw_msize w) (dw_ssize w) (dw_mshift w) (dw_sshift w)).
Lemma to_rows_ok : forall dbg ord (w : dweights O), dw_wf w -> 4 * N.of_nat (length (dw_w w)) < 9223372036854775808 ->
  to_rows dbg ord (w_dense w) = if forallb finb (dw_w w) then Ok (as_rows ord w) else Pn PErr.
Proof.
  intros dbg ord w W L. unfold to_rows. rewrite rd_dense by auto using wf_fits.
  destruct (forallb finb (dw_w w)); [|reflexivity]. cbn [unwrap_res bind].
  rewrite export_ok by auto using norm_wf. reflexivity.
Qed.
Lemma to_sparse_ok : forall dbg ord ord' (w : dweights O), dw_wf w -> pad_zero w -> forallb finb (dw_w w) = true ->
  any_order ord -> any_order ord' -> to_sparse dbg ord' (as_rows ord w) = Ok (w_dense (norm w)).
Proof.
  intros dbg ord ord' w W P F A A'. unfold to_sparse, as_rows. destruct (wf_fits w W) as (F1 & F2 & F3 & F4 & F5).
  rewrite rd_nd; cbn [nd_map nd_fsize nd_msize nd_ssize nd_mshift nd_sshift]; auto.
  - destruct (import_export dbg (norm w) (ord' (ord (rows (norm w))))) as (w' & E & (S1 & S2 & S3 & S4 & S5) & Z); auto using norm_wf, norm_pad.
    { etransitivity; [apply A'|apply A]. }
    cbn [norm dw_w dw_fsize dw_msize dw_ssize dw_mshift dw_sshift] in *. rewrite E. cbn [bind]. apply zero_same_norm in Z.
    do 2 f_equal. destruct w' as [l1 f1 m1 s1 ms1 ss1]; cbn [dw_w dw_fsize dw_msize dw_ssize dw_mshift dw_sshift] in *. subst. reflexivity.
  - intros r I. eapply rows_fine; [apply norm_wf, W|apply norm_finb, F|].
    eapply Permutation_in; [apply A|exact I].
Qed.
Lemma dense_norm : forall w : dweights O, w_dense (norm w) = w_dense w.
Proof.
  intros [l f m s ms ss]. unfold w_dense, norm; cbn [dw_w dw_fsize dw_msize dw_ssize dw_mshift dw_sshift]. f_equal. f_equal.
  unfold sv_from_dense. rewrite map_length. f_equal. generalize 0. induction l as [|x l IH]; intros z; [reflexivity|].
  cbn [map enum_from filter snd]. unfold znorm at 1 2. destruct (f_eqb O x f0) eqn:E; rewrite ?zz, ?E; cbn [negb]; now rewrite IH.
Qed.

(** *** exporting and importing *)
Section Stack.
Context (ex : nat -> extra O) (PX : plain ex) (g : gconfig) (n : nat) (r : red O n).
Let w := co_w (bottom n r).
Context (B : gc_bits g < 256) (S0 : gc_seed g < 2 ^ 32) (F : fits n r) (W : dw_wf w) (P : pad_zero w)
        (L : 4 * N.of_nat (length (dw_w w)) < 9223372036854775808).

Lemma export_eq : forall dbg ord, ws_export dbg ord ex g (existT (red O) n r) =
  if forallb finb (dw_w w) then Ok (w_workspace (fun _ => as_rows ord w) ex g (existT (red O) n r)) else Pn PErr.
Proof.
  intros dbg ord. unfold ws_export. rewrite rw_workspace by (exact PX || (intro; apply rw_shape)).
  cbn [projT1 projT2]. fold w. rewrite to_rows_ok by auto. destruct (forallb finb (dw_w w)); reflexivity.
Qed.
Lemma import_eq : forall dbg ord ord', any_order ord -> any_order ord' -> forallb finb (dw_w w) = true ->
  ws_import dbg ord' (w_workspace (fun _ => as_rows ord w) ex g (existT (red O) n r)) =
  if forallb finb (numbers n r) then Ok (g, existT (red O) n (put n r (norm w))) else Er EInvalidConfiguration.
Proof.
  intros dbg ord ord' A A' FW. unfold ws_import. rewrite rw_workspace by (exact PX || (intro; apply rw_shape)).
  rewrite to_sparse_ok by auto. cbn [bind]. rewrite rd_workspace by auto. cbn [projT1 projT2].
  destruct (forallb finb (numbers n r)); [|reflexivity]. rewrite dense_norm, rd_dense, FW by auto using wf_fits. reflexivity.
Qed.
End Stack.
Lemma put_load : forall n (r : red O n), 4 * N.of_nat (length (dw_w (co_w (bottom n r)))) < 9223372036854775808 ->
  ws_load n (ws_save n r) = Ok (put n r (norm (co_w (bottom n r)))).
Proof.
  induction n as [|n IH]; intros r L; cbn [ws_load ws_save put bottom fst snd] in *.
  - unfold coin_load, coin_save; cbn [fst snd]. rewrite sparse_roundtrip by exact L. destruct r as (wi & []). reflexivity.
  - rewrite IH by exact L. reflexivity.
Qed.
Lemma w_red_put : forall ex n (r : red O n), w_red w_dense ex n (put n r (norm (co_w (bottom n r)))) = w_red w_dense ex n r.
Proof.
  induction n as [|n IH]; intro r; cbn [w_red put bottom fst snd].
  - f_equal. unfold w_coin, put_w; cbn [co_w co_cfg co_states co_avg co_min co_max co_loss co_pairs co_triples co_bits co_const]. now rewrite dense_norm.
  - now rewrite IH.
Qed.
End Export.

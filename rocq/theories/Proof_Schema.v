(** The schema of configuration files and the loader (C65). *)
From Coq Require Import List NArith Bool String Lia PeanoNat.
From Verif Require Import Base FloatOps Model_Hash Model_Features Model_Weights Model_Loss Model_Interactions Model_Types Model_Coin
  Model_Stack Model_Factory Model_Text Model_Json Model_Config Spec_Config Spec_Schema Model_Schema Proof_TextParse Proof_Config.
Import ListNotations.
Open Scope list_scope.
Open Scope N_scope.

(** ** three-valued logic *)
Lemma kall_true : forall A (f : A -> option bool) l, kall f l = Some true <-> forall x, In x l -> f x = Some true.
Proof.
  intros A f l. induction l as [|a l IH]; cbn.
  - split; auto. intros _ x [].
  - fold (kall f l). split.
    + intros E x [-> |I]; [|apply IH; auto]; destruct (f x) as [[]|]; destruct (kall f l) as [[]|]; cbn in E; try discriminate; auto.
      all: destruct (f a) as [[]|]; cbn in E; try discriminate; auto.
    + intros Q. rewrite (Q a (or_introl eq_refl)). rewrite (proj2 IH); auto.
Qed.
Lemma kall_false : forall A (f : A -> option bool) l x, In x l -> f x = Some false -> kall f l = Some false.
Proof.
  intros A f l x. induction l as [|a l IH]; cbn; [tauto|]. fold (kall f l). intros [-> |I] E.
  - now rewrite E.
  - rewrite (IH I E). destruct (f a) as [[]|]; reflexivity.
Qed.
Lemma kall_mono : forall A (f g : A -> option bool) l b, (forall x c, In x l -> f x = Some c -> g x = Some c) ->
  kall f l = Some b -> kall g l = Some b.
Proof.
  intros A f g l. induction l as [|a l IH]; intros b M E; auto. cbn in *. fold (kall f l) in E. fold (kall g l).
  assert (Ma : forall c, f a = Some c -> g a = Some c) by (intros c; apply M; auto).
  assert (Ml : forall c, kall f l = Some c -> kall g l = Some c) by (intros c Q; apply IH; auto; intros; apply M; auto).
  destruct (f a) as [ba|], (kall f l) as [bl|].
  - rewrite (Ma _ eq_refl), (Ml _ eq_refl). exact E.
  - rewrite (Ma _ eq_refl). destruct ba; cbn in E; try discriminate. now destruct (kall g l).
  - rewrite (Ml _ eq_refl). destruct bl; cbn in E; try discriminate. destruct (g a) as [[]|]; auto.
  - discriminate.
Qed.
Lemma kcount_mono : forall A (f g : A -> option bool) l n, (forall x c, In x l -> f x = Some c -> g x = Some c) ->
  kcount (map f l) = Some n -> kcount (map g l) = Some n.
Proof.
  intros A f g l. induction l as [|a l IH]; intros n M E; auto. cbn in *.
  destruct (f a) as [ba|] eqn:Ea; [|discriminate]. destruct (kcount (map f l)) as [k|] eqn:Ek; [|discriminate].
  rewrite (M a ba (or_introl eq_refl) Ea). rewrite (IH k); auto.
Qed.

Section Sem.
Context {O : FOps} (isint nonneg : jnum O -> bool) (rx : str -> str -> bool).
Local Notation json := (json O).
Local Notation obj := (list (str * json)).
Section Defs.
Context (defs : sdefs).
Local Notation EV := (ev isint nonneg rx defs).
Local Notation V := (valid isint nonneg rx defs).
Local Notation NV := (invalid isint nonneg rx defs).
Definition kw (n : nat) (k : keyword) (v : json) : option bool := holds isint nonneg rx defs (EV n) k v.
Definition KV (k : keyword) (v : json) : Prop := exists n, kw n k v = Some true.
Definition KNV (k : keyword) (v : json) : Prop := exists n, kw n k v = Some false.

Lemma holds_mono : forall r r' k v b, (forall s x c, r s x = Some c -> r' s x = Some c) ->
  holds isint nonneg rx defs r k v = Some b -> holds isint nonneg rx defs r' k v = Some b.
Proof.
  intros r r' k v b M. destruct k; cbn; auto.
  - destruct (sget name defs); auto.
  - destruct v; auto. apply kall_mono. intros [k x] c _. cbn. destruct (sget k ps); [apply M|]. destruct rest; auto.
  - destruct v; auto. apply kall_mono. auto.
  - destruct (kcount (map (fun s => r s v) l)) as [n|] eqn:E; [|discriminate]. intros Q.
    rewrite (kcount_mono _ (fun s => r s v) (fun s => r' s v) l n); auto.
  - apply kall_mono. auto.
Qed.
Lemma ev_mono1 : forall n s v b, EV n s v = Some b -> EV (S n) s v = Some b.
Proof.
  induction n as [|n IH]; intros s v b E; [discriminate|].
  cbn [ev] in E |- *. destruct s; auto. revert E. apply kall_mono. intros k c _. apply holds_mono. intros; now apply IH.
Qed.
Lemma ev_mono : forall n m s v b, (n <= m)%nat -> EV n s v = Some b -> EV m s v = Some b.
Proof. intros n m s v b L. induction L; auto. intros. now apply ev_mono1, IHL. Qed.
Lemma kw_mono : forall n m k v b, (n <= m)%nat -> kw n k v = Some b -> kw m k v = Some b.
Proof. intros n m k v b L. apply holds_mono. intros. eapply ev_mono; eauto. Qed.

Lemma all_bound : forall A (f : nat -> A -> option bool) l,
  (forall n m x b, (n <= m)%nat -> f n x = Some b -> f m x = Some b) ->
  (forall x, In x l -> exists n, f n x = Some true) -> exists n, forall x, In x l -> f n x = Some true.
Proof.
  intros A f l M. induction l as [|a l IH]; intros Q; [exists 0%nat; intros x []|].
  destruct IH as (n & Hn); [intros; apply Q; now right|]. destruct (Q a (or_introl eq_refl)) as (m & Hm).
  exists (n + m)%nat. intros x [-> |I]; [eapply M; [|exact Hm]; lia|eapply M; [|apply Hn, I]; lia].
Qed.

Lemma V_bool : forall b v, V (SBool b) v <-> b = true.
Proof. intros b v. split; [intros ([|n] & E); cbn in E; congruence|intros ->; now exists 1%nat]. Qed.
Lemma V_obj : forall ks v, V (SObj ks) v <-> forall k, In k ks -> KV k v.
Proof.
  intros ks v. split.
  - intros ([|n] & E) k I; [discriminate|]. cbn [ev] in E. exists n. exact (proj1 (kall_true _ _ _) E k I).
  - intros Q. destruct (all_bound _ (fun n k => kw n k v) ks) as (n & Hn); auto; [intros; eapply kw_mono; eauto|].
    exists (S n). cbn [ev]. apply kall_true. exact Hn.
Qed.
Lemma NV_obj : forall ks v k, In k ks -> KNV k v -> NV (SObj ks) v.
Proof. intros ks v k I (n & E). exists (S n). cbn [ev]. eapply kall_false; [exact I|exact E]. Qed.
Lemma V_NV : forall s v, V s v -> NV s v -> False.
Proof.
  intros s v (n & A) (m & B). pose proof (ev_mono n (n + m) s v true ltac:(lia) A). pose proof (ev_mono m (n + m) s v false ltac:(lia) B). congruence.
Qed.
Lemma K_const : forall k v b, (forall n, kw n k v = Some b) -> KV k v <-> b = true.
Proof. intros k v b Q. split; [intros (n & E); rewrite Q in E; congruence|intros ->; exists 0%nat; apply Q]. Qed.
Lemma K_type : forall t v, KV (KType t) v <-> has_type isint t v = true.
Proof. intros. now apply K_const. Qed.
Lemma K_enum : forall l v, KV (KEnum l) v <-> is_text l v = true.
Proof. intros. now apply K_const. Qed.
Lemma K_constant : forall s v, KV (KConst s) v <-> is_text [s] v = true.
Proof. intros. now apply K_const. Qed.
Lemma K_ref : forall r v, KV (KRef r) v <-> exists s, sget r defs = Some s /\ V s v.
Proof.
  intros r v. unfold KV, kw. cbn [holds]. destruct (sget r defs) as [s|].
  - split; [intros (n & E); exists s; split; auto; now exists n|intros (s' & E & Q); inversion E; subst; exact Q].
  - split; [intros (n & E); discriminate|intros (s & E & _); discriminate].
Qed.
Lemma K_required : forall l v, KV (KRequired l) v <-> forall o, v = JObj o -> forall k, In k l -> In k (map fst o).
Proof.
  intros l v. unfold KV, kw. cbn [holds]. destruct v as [| | | | |o]; try (split; [intros _ o Q; discriminate|intros _; now exists 0%nat]).
  split.
  - intros (_ & E) o' Q k I. inversion Q; subst o'. inversion E as [E']. rewrite forallb_forall in E'. specialize (E' k I).
    rewrite existsb_exists in E'. destruct E' as ([k' x] & I' & Q'). cbn in Q'. apply str_eqb_eq in Q'. subst k'.
    apply in_map_iff. exists (k, x). auto.
  - intros Q. exists 0%nat. f_equal. apply forallb_forall. intros k I. apply existsb_exists.
    specialize (Q o eq_refl k I). apply in_map_iff in Q. destruct Q as ([k' x] & <- & I'). exists (k', x). split; auto. now apply str_eqb_eq.
Qed.
Definition prop_schema (ps : sdefs) (rest : option schema) (k : str) : option schema :=
  match sget k ps with Some s => Some s | None => rest end.
Lemma K_properties : forall ps rest v, KV (KProperties ps rest) v <->
  forall o, v = JObj o -> forall k x, In (k, x) o -> forall s, prop_schema ps rest k = Some s -> V s x.
Proof.
  intros ps rest v. unfold KV, kw. cbn [holds]. destruct v as [| | | | |o]; try (split; [intros _ o Q; discriminate|intros _; now exists 0%nat]).
  split.
  - intros (n & E) o' Q k x I s Es. inversion Q; subst o'. rewrite kall_true in E. specialize (E (k, x) I). cbn in E.
    unfold prop_schema in Es. destruct (sget k ps); [inversion Es; subst; now exists n|]. rewrite Es in E. now exists n.
  - intros Q. specialize (Q o eq_refl).
    destruct (all_bound _ (fun n kv => match sget (fst kv) ps, rest with Some s, _ | None, Some s => EV n s (snd kv) | None, None => Some true end) o) as (n & Hn).
    + intros n m [k x] b L. cbn. destruct (sget k ps); [apply ev_mono; auto|]. destruct rest; auto. apply ev_mono; auto.
    + intros [k x] I. specialize (Q k x I). unfold prop_schema in Q. cbn. destruct (sget k ps) as [s|]; [exact (Q s eq_refl)|].
      destruct rest as [s|]; [exact (Q s eq_refl)|now exists 0%nat].
    + exists n. apply kall_true. exact Hn.
Qed.
Lemma KN_properties : forall ps rest o k x s, In (k, x) o -> prop_schema ps rest k = Some s -> NV s x ->
  KNV (KProperties ps rest) (JObj o).
Proof.
  intros ps rest o k x s I Es (n & E). exists n. unfold kw. cbn [holds]. eapply kall_false; [exact I|]. cbn.
  unfold prop_schema in Es. destruct (sget k ps); [inversion Es; now subst|]. now rewrite Es.
Qed.
Lemma K_items : forall s v, KV (KItems s) v <-> forall l, v = JArr l -> forall x, In x l -> V s x.
Proof.
  intros s v. unfold KV, kw. cbn [holds]. destruct v as [| | | |l|]; try (split; [intros _ o Q; discriminate|intros _; now exists 0%nat]).
  split.
  - intros (n & E) l' Q x I. inversion Q; subst l'. rewrite kall_true in E. exists n. auto.
  - intros Q. specialize (Q l eq_refl). destruct (all_bound _ (fun n x => EV n s x) l) as (n & Hn); auto.
    + intros. eapply ev_mono; eauto.
    + exists n. apply kall_true. exact Hn.
Qed.
Lemma K_allof : forall l v, KV (KAllOf l) v <-> forall s, In s l -> V s v.
Proof.
  intros l v. unfold KV, kw. cbn [holds]. split.
  - intros (n & E) s I. rewrite kall_true in E. exists n. auto.
  - intros Q. destruct (all_bound _ (fun n s => EV n s v) l) as (n & Hn); auto.
    + intros. eapply ev_mono; eauto.
    + exists n. apply kall_true. exact Hn.
Qed.
Lemma kcount_map : forall A (f : A -> option bool) (l : list A), (forall x, In x l -> f x = Some false) -> kcount (map f l) = Some 0%nat.
Proof.
  intros A f l. induction l as [|a l IH]; intros Q; auto. cbn. rewrite (Q a (or_introl eq_refl)), IH; auto. intros; apply Q; now right.
Qed.
Lemma kcount_all : forall A (f : A -> option bool) (l : list A), (forall x, In x l -> f x = Some true) -> kcount (map f l) = Some (List.length l).
Proof.
  intros A f l. induction l as [|a l IH]; intros Q; auto. cbn. rewrite (Q a (or_introl eq_refl)), IH; auto. intros; apply Q; now right.
Qed.
Lemma kcount_app : forall l1 l2 n1 n2, kcount l1 = Some n1 -> kcount l2 = Some n2 -> kcount (l1 ++ l2) = Some (n1 + n2)%nat.
Proof.
  induction l1 as [|b l1 IH]; intros l2 n1 n2 E1 E2; cbn in *; [inversion E1; now subst|].
  destruct b as [b|]; [|discriminate]. destruct (kcount l1) as [k|] eqn:Ek; [|discriminate]. inversion E1; subst. rewrite (IH l2 k n2); auto. now destruct b.
Qed.
Lemma all_false_bound : forall l v, (forall s, In s l -> NV s v) -> exists n, forall s, In s l -> EV n s v = Some false.
Proof.
  intros l v. induction l as [|a l IH]; intros Q; [exists 0%nat; intros x []|].
  destruct IH as (n & Hn); [intros; apply Q; now right|]. destruct (Q a (or_introl eq_refl)) as (m & Hm).
  exists (n + m)%nat. intros x [-> |I]; [eapply ev_mono; [|exact Hm]; lia|eapply ev_mono; [|apply Hn, I]; lia].
Qed.
Lemma K_oneof_intro : forall l1 s l2 v, V s v -> (forall s', In s' (l1 ++ l2) -> NV s' v) -> KV (KOneOf (l1 ++ s :: l2)) v.
Proof.
  intros l1 s l2 v (n & E) Q. destruct (all_false_bound _ v Q) as (m & Hm). exists (n + m)%nat. unfold kw. cbn [holds].
  rewrite map_app. cbn [map]. rewrite (kcount_app _ _ 0 1); auto.
  - apply kcount_map. intros x I. eapply ev_mono; [|apply Hm, in_or_app; now left]. lia.
  - cbn [kcount]. rewrite (ev_mono n (n + m) s v true ltac:(lia) E).
    rewrite kcount_map; auto. intros x I. eapply ev_mono; [|apply Hm, in_or_app; now right]. lia.
Qed.
Lemma K_oneof_elim : forall l v, KV (KOneOf l) v -> exists s, In s l /\ V s v.
Proof.
  intros l v (n & E). unfold kw in E. cbn [holds] in E.
  destruct (kcount (map (fun s => EV n s v) l)) as [k|] eqn:Ek; [|discriminate]. inversion E as [Q]. apply Nat.eqb_eq in Q. subst k. clear E.
  induction l as [|a l IH]; cbn in Ek; [discriminate|]. destruct (EV n a v) as [[]|] eqn:Ea; [| |discriminate].
  - exists a. split; [now left|now exists n].
  - destruct (kcount (map (fun s => EV n s v) l)) as [k|]; [|discriminate]. inversion Ek; subst. destruct (IH eq_refl) as (s & I & Vs).
    exists s. split; auto. now right.
Qed.
Lemma K_oneof_many : forall l v, (forall s, In s l -> V s v) -> List.length l <> 1%nat -> KNV (KOneOf l) v.
Proof.
  intros l v Q L. destruct (all_bound _ (fun n s => EV n s v) l) as (n & Hn); auto; [intros; eapply ev_mono; eauto|].
  exists n. unfold kw. cbn [holds]. rewrite kcount_all by auto. f_equal. now apply Nat.eqb_neq.
Qed.
Lemma K_oneof_none : forall l v, (forall s, In s l -> NV s v) -> KNV (KOneOf l) v.
Proof.
  intros l v Q. destruct (all_false_bound l v Q) as (n & Hn). exists n. unfold kw. cbn [holds]. now rewrite kcount_map.
Qed.
Lemma KV_KNV : forall k v, KV k v -> KNV k v -> False.
Proof.
  intros k v (n & A) (m & B). pose proof (kw_mono n (n + m) k v true ltac:(lia) A). pose proof (kw_mono m (n + m) k v false ltac:(lia) B). congruence.
Qed.
Lemma NV_bool : forall v, NV (SBool false) v.
Proof. intros v. now exists 1%nat. Qed.
Lemma V_ref : forall r v s, sget r defs = Some s -> V (sref r) v <-> V s v.
Proof.
  intros r v s E. unfold sref. rewrite V_obj. split.
  - intros Q. specialize (Q _ (or_introl eq_refl)). apply K_ref in Q. destruct Q as (s' & E' & Q). congruence.
  - intros Q k [<- |[]]. apply K_ref. eauto.
Qed.
Lemma NV_ref : forall r v s, sget r defs = Some s -> NV s v -> NV (sref r) v.
Proof. intros r v s E (n & Q). eapply NV_obj; [left; reflexivity|]. exists n. unfold kw. cbn [holds]. now rewrite E. Qed.
Lemma V_sfield : forall r v, V (sfield r) v <-> V (sref r) v.
Proof.
  intros r v. unfold sfield. rewrite V_obj. split.
  - intros Q. specialize (Q _ (or_introl eq_refl)). rewrite K_allof in Q. apply Q. now left.
  - intros Q k [<- |[]]. apply K_allof. intros s [<- |[]]. exact Q.
Qed.
End Defs.
End Sem.

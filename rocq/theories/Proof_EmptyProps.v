(** Empty namespaces: from the simulation to the statements of C75. *)
From Coq Require Import List NArith ZArith PeanoNat Bool Lia.
From Verif Require Import Base FloatOps FloatB32 Model_Hash Model_Features Model_Weights Model_Types Model_Explore
  Model_Coin Model_Stack Model_Factory Model_Text Model_Train Spec_Features Spec_Stack Spec_Text Spec_Progress Spec_Values Spec_Empty
  Proof_Features Proof_FeaturesHist Proof_StackCong Proof_StackRestore Proof_StackPtl Proof_StackShape Proof_StackProps Proof_Loose
  Proof_TextFeats Proof_TextChunk Proof_Train Proof_Empty.
Import ListNotations.

Section E.
Context {O : FOps}.
Implicit Types (a b sh : sfeats O) (f g h : features O).

Lemma in_ns_item : forall k a, in_ns k a = sfn_iter (item k a).
Proof. intros k a. unfold in_ns, item. now destruct (fm_get k a). Qed.
Lemma sound_self : forall a, sound a -> esim a a.
Proof. intros a (B & N). apply esim_refl; [now apply built_wf|]. apply open_no_hidden; auto. now apply built_wf. Qed.
Lemma content_esim : forall a b, esim a a -> esim b b -> same_content a b -> esim a b.
Proof.
  intros a b (Wa & _ & Oa & _) (Wb & _ & Ob & _) Sc. split; auto. split; auto. split; auto. split; auto.
  intros k. specialize (Sc k). rewrite !in_ns_item in Sc. unfold sfn_iter in Sc.
  destruct (item_wf k a Wa) as (_ & L1), (item_wf k b Wb) as (_ & L2).
  assert (Q := f_equal (@split _ _) Sc). rewrite !combine_split in Q by auto. now inversion Q.
Qed.
Lemma esim_content : forall a b, esim a b -> same_content a b.
Proof. intros a b (_ & _ & _ & _ & E) k. rewrite !in_ns_item. unfold sfn_iter. destruct (E k) as (-> & ->). reflexivity. Qed.
Lemma ee_content : forall a b, ee a b -> same_content a b.
Proof.
  intros a b [E|E]; [|now apply esim_content]. intros k. rewrite !in_ns_item. now rewrite (fsim_item a b k E).
Qed.
Lemma F2_content : forall x y : list (sfeats O), Forall2 esim x x -> Forall2 esim y y -> Forall2 same_content x y -> Forall2 esim x y.
Proof.
  intros x y A B F. induction F; constructor; inversion A; inversion B; subst; auto. now apply content_esim.
Qed.
Lemma F2_self : forall x : list (sfeats O), (forall a, In a x -> sound a) -> Forall2 esim x x.
Proof. induction x; intros K; constructor; [apply sound_self, K; now left|apply IHx; intros; apply K; now right]. Qed.
Lemma sound_fte : forall f g, sound_fts f -> sound_fts g -> same_contents f g -> fte f g.
Proof.
  intros [a|s x] [b|t y]; simpl; try tauto.
  - intros A B C. right. apply content_esim; auto using sound_self.
  - intros (A & A') (B & B') (C & C'). destruct s as [s|], t as [t|]; try tauto.
    + split; [apply content_esim; auto using sound_self|]. apply F2_content; auto using F2_self.
    + clear C. assert (Q : Forall2 esim x y) by (apply F2_content; auto using F2_self). induction Q; constructor; [now right|].
      apply IHQ; intros; [apply A|apply B|]; try (now right). now inversion C'.
Qed.
Lemma F2e_content : forall x y : list (sfeats O), Forall2 esim x y -> Forall2 same_content x y.
Proof. intros x y F. induction F; constructor; auto. now apply esim_content. Qed.
Lemma fte_contents : forall f g, fte f g -> same_contents f g.
Proof.
  intros [a|[s|] x] [b|[t|] y]; simpl; try tauto; [apply ee_content| |].
  - intros (E & F). split; [now apply esim_content|now apply F2e_content].
  - intros F. split; auto. induction F; constructor; auto. now apply ee_content.
Qed.

Lemma predict_alike : forall n (r : red O n) f g, elem_free n r -> fte f g ->
  orel (fun x y => fst x = fst y /\ hold f (snd x) /\ hold g (snd y)) (ws_predict false r f) (ws_predict false r g).
Proof.
  intros n r f g K E. unfold ws_predict. eapply orel_bind; [now apply predict_e|].
  intros ((p & f') & d) ((q & g') & e) (E1 & E2 & E3 & E4). cbn [fst snd] in *. subst. constructor. auto.
Qed.
Lemma learn_alike : forall n (r : red O n) f g lb, elem_free n r -> fte f g ->
  orel (fun x y => fst x = fst y /\ hold f (snd x) /\ hold g (snd y)) (ws_learn false r f lb) (ws_learn false r g lb).
Proof.
  intros n r f g lb K E. unfold ws_learn. eapply orel_bind; [now apply learn_e|].
  intros ((p & f') & d) ((q & g') & e) (E1 & E2 & E3 & E4). cbn [fst snd] in *. subst. constructor. auto.
Qed.
Lemma ptl_alike : forall n (r : red O n) f g lb, elem_free n r -> fte f g ->
  orel (fun x y => fst x = fst y /\ hold f (snd x) /\ hold g (snd y)) (ws_ptl false r f lb) (ws_ptl false r g lb).
Proof.
  intros n r f g lb K E. unfold ws_ptl. eapply orel_bind; [now apply ptl_e|].
  intros (((p & r1) & f') & d) (((q & r2) & g') & e) (E1 & E2 & E3 & E4). cbn [fst snd] in *. inversion E1; subst. constructor. auto.
Qed.
Lemma to_alike : forall X (u v : out (X * features O)) f g, fte f g ->
  orel (fun x y => fst x = fst y /\ hold f (snd x) /\ hold g (snd y)) u v -> alike u v.
Proof. intros X u v f g E Q. eapply orel_mono; [exact Q|]. intros x y (A & B & C). split; auto. apply fte_contents. eapply fte_hold; eauto. Qed.

Lemma fte_alike : forall n (r : red O n) f g lb, elem_free n r -> fte f g ->
  alike (ws_predict false r f) (ws_predict false r g) /\ alike (ws_learn false r f lb) (ws_learn false r g lb) /\
  alike (ws_ptl false r f lb) (ws_ptl false r g lb).
Proof.
  intros n r f g lb K E. split; [|split]; apply (to_alike _ _ _ f g E); [now apply predict_alike|now apply learn_alike|now apply ptl_alike].
Qed.
Lemma empty_namespaces : forall n (r : red O n) f g lb, elem_free n r -> sound_fts f -> sound_fts g -> same_contents f g ->
  alike (ws_predict false r f) (ws_predict false r g) /\ alike (ws_learn false r f lb) (ws_learn false r g lb) /\
  alike (ws_ptl false r f lb) (ws_ptl false r g lb).
Proof. intros n r f g lb K A B C. apply fte_alike; auto. now apply sound_fte. Qed.

Lemma contents_refl : forall f, same_contents f f.
Proof.
  assert (A : forall x : list (sfeats O), Forall2 same_content x x) by (induction x; constructor; auto; intros k; reflexivity).
  intros [a|[s|] x]; simpl; auto; try (split; auto); intros k; reflexivity.
Qed.
Lemma contents_restored : forall n (r : red O n) f lb, elem_free n r -> sound_fts f ->
  (forall p f', ws_predict false r f = Ok (p, f') -> same_contents f f') /\
  (forall r' f', ws_learn false r f lb = Ok (r', f') -> same_contents f f') /\
  (forall p r' f', ws_ptl false r f lb = Ok (p, r', f') -> same_contents f f').
Proof.
  intros n r f lb K A.
  assert (E : fte f f) by (apply sound_fte; auto using contents_refl).
  assert (W : forall g, hold f g -> same_contents f g) by (intros; now apply fte_contents, hold_fte).
  split; [|split].
  - intros p f' Q. pose proof (predict_alike n r f f K E) as L. rewrite Q in L. inversion L as [? ? (_ & L1 & _)| |]; subst. now apply W.
  - intros p f' Q. pose proof (learn_alike n r f f lb K E) as L. rewrite Q in L. inversion L as [? ? (_ & L1 & _)| |]; subst. now apply W.
  - intros p r' f' Q. pose proof (ptl_alike n r f f lb K E) as L. rewrite Q in L. inversion L as [? ? (_ & L1 & _)| |]; subst. now apply W.
Qed.

Lemma empty_training : forall n (r : red O n) exs exs', elem_free n r -> Forall2 same_example exs exs' -> now false r exs = now false r exs'.
Proof.
  intros n r exs exs' K F. revert r K. induction F as [|(f & l) (g & l') exs exs' (A & B & C & D) F IH]; intros r K; auto.
  cbn [fst snd] in *. subst l'. unfold now in *. cbn [foldm fst snd].
  pose proof (learn_alike n r f g l K (sound_fte f g A B C)) as Q.
  destruct (ws_learn false r f l) as [(r1 & f1)| |] eqn:E1, (ws_learn false r g l) as [(r2 & g1)| |] eqn:E2; inversion Q as [? ? (Q1 & _)| |]; subst; auto.
  cbn [bind fst snd] in *. subst r2. apply IH. apply ws_learn_ok in E1. apply learn_shape in E1. eapply free_shape; eauto.
Qed.

(** ** lines of text *)
Context (H : hasher) (pf : str -> option O).
Lemma tn_content_nil : forall seed nb n, tn_feats n = [] -> tn_content H pf seed nb n = [].
Proof. intros seed nb n E. unfold tn_content. now rewrite E. Qed.
Lemma content_with : forall seed nb ns k,
  match line_content H pf seed nb ns k with Some l => l | None => [] end =
  flat_map (tn_content H pf seed nb) (filter (fun n => ns_eqb k (tn_key H seed n)) (with_feats ns)).
Proof.
  intros seed nb ns k. unfold line_content.
  assert (A : forall l, match l with [] => @nil (N * O) | _ => flat_map (tn_content H pf seed nb) l end = flat_map (tn_content H pf seed nb) l) by now destruct l.
  transitivity (flat_map (tn_content H pf seed nb) (filter (fun n => ns_eqb k (tn_key H seed n)) ns)).
  { rewrite <- A. now destruct (filter _ ns). }
  clear A. induction ns as [|n ns IH]; auto. cbn [with_feats filter]. fold (with_feats ns).
  destruct (tn_feats n) eqn:E.
  - rewrite <- IH. destruct (ns_eqb k (tn_key H seed n)); auto. cbn [flat_map]. now rewrite tn_content_nil.
  - cbn [filter]. destruct (ns_eqb k (tn_key H seed n)); auto. cbn [flat_map]. now rewrite IH.
Qed.
Lemma chunk_clean : forall dbg seed nb ft ds chunk d lb, Forall looks_new ds ->
  parse_chunk H pf dbg seed nb ft LTSimple ds chunk = Ok (FtsSimple d, lb) -> esim d d.
Proof.
  intros dbg seed nb ft ds chunk d lb F E. unfold parse_chunk in E. destruct (is_multiline ft LTSimple) eqn:M; [destruct ft; discriminate|].
  binv E. destruct v as (l & d0). apply parse_line_clean in B; [|now apply looks_new_clean, hd_new].
  unfold finalize_single in E. cbn [fst snd] in E. destruct B as (B1 & _ & B2). destruct l as [[x w|s a]|]; inversion E; subst; now apply esim_refl.
Qed.
Lemma open_get : forall (d : sfeats O) k, esim d d -> in_ns k d = match sf_get k d with Some s => sfn_iter s | None => [] end.
Proof.
  intros d k (W & _ & Q & _). unfold in_ns, sf_get. destruct (fm_get k d) as [s|] eqn:E; auto. destruct (sfn_active s) eqn:A; auto.
  destruct (Nat.eq_dec (sfn_size s) 0) as [Z|Z].
  - unfold sfn_iter. unfold sfn_size in Z. now destruct (sfn_idx s).
  - pose proof (Q k s E Z). congruence.
Qed.
Lemma as_sfn_iter : forall k (l : option (list (N * O))),
  match as_sfn k l with Some s => sfn_iter s | None => [] end = match l with Some l => l | None => [] end.
Proof.
  intros k [l|]; auto. unfold as_sfn, sfn_iter. cbn [sfn_idx sfn_val]. induction l as [|(i & v) l IH]; auto. cbn. now rewrite IH.
Qed.
Lemma empty_text : forall seed nb ft ds initial ns ns' ws s,
  (nb < 32)%N -> Forall pooled ds -> ~ In 124%N initial -> label_words initial ws -> simple_label pf ws s ->
  Forall (tn_ok pf) ns -> Forall (tn_ok pf) ns' -> with_feats ns = with_feats ns' ->
  exists f g lb, parse_chunk H pf false seed nb ft LTSimple ds (line_text initial ns) = Ok (f, lb) /\
    parse_chunk H pf false seed nb ft LTSimple ds (line_text initial ns') = Ok (g, lb) /\
    forall n (r : red O n) l, elem_free n r ->
      alike (ws_predict false r f) (ws_predict false r g) /\ alike (ws_learn false r f l) (ws_learn false r g l) /\
      alike (ws_ptl false r f l) (ws_ptl false r g l).
Proof.
  intros seed nb ft ds initial ns ns' ws s B P NI LW SL T1 T2 E.
  assert (LN : Forall looks_new ds) by (eapply Forall_impl; [|exact P]; intros; now apply pooled_new).
  destruct (chunk_simple_ok H pf seed nb false ft ds initial ns ws s B P NI LW SL T1) as (d & E1 & G1); [discriminate|].
  destruct (chunk_simple_ok H pf seed nb false ft ds initial ns' ws s B P NI LW SL T2) as (d' & E2 & G2); [discriminate|].
  eexists _, _, _. split; [exact E1|]. split; [exact E2|]. intros n r l K. apply fte_alike; auto. right.
  pose proof (chunk_clean _ _ _ _ _ _ _ _ LN E1) as C1. pose proof (chunk_clean _ _ _ _ _ _ _ _ LN E2) as C2.
  apply content_esim; auto. intros k. rewrite !open_get, G1, G2, !as_sfn_iter, !content_with by auto. now rewrite E.
Qed.
End E.

(** examples *)
Lemma ex_sound_empty : sound_fts ex_fts_empty.
Proof.
  assert (Q : forall i, i = 0%nat \/ i = 1%nat \/ i = 2%nat -> sound (ex_store_empty i)).
  { intros i Hi. split; [apply ex_built_empty|]. intros k s. destruct Hi as [->|[->| ->]]; concrete; intros Q; inversion Q; subst; auto. }
  split; [|apply Q; auto]. intros a Ha. simpl in Ha. destruct Ha as [<-|[<-|[]]]; apply Q; auto.
Qed.
Lemma ex_sound : sound_fts ex_fts.
Proof.
  assert (Q : forall i, i = 0%nat \/ i = 1%nat \/ i = 2%nat -> sound (ex_store i)).
  { intros i Hi. split; [apply ex_built|]. intros k s. destruct Hi as [->|[->| ->]]; concrete; intros Q; inversion Q; subst; auto. }
  split; [|apply Q; auto]. intros a Ha. simpl in Ha. destruct Ha as [<-|[<-|[]]]; apply Q; auto.
Qed.
Lemma ex_same_contents : same_contents ex_fts ex_fts_empty /\ ex_fts <> ex_fts_empty.
Proof.
  split; [|intros E; vm_compute in E; discriminate].
  split; [intros k; vm_compute; reflexivity|]. constructor; [intros k; vm_compute; reflexivity|]. constructor; [|constructor].
  intros k. unfold in_ns. concrete; reflexivity.
Qed.

Lemma debug_differs : exists R, ws_new ex_hash true ex_gc ex_cfg = Ok R /\ elem_free (projT1 R) (projT2 R) /\
  ok_of (ws_predict true (projT2 R) ex_fts) = true /\ ws_predict true (projT2 R) ex_fts_empty = Pn PAssert.
Proof.
  destruct (ws_new ex_hash true ex_gc ex_cfg) as [R|e|e] eqn:E; [|vm_compute in E; discriminate..].
  exists R. split; [reflexivity|]. vm_compute in E. inversion E; subst; clear E. split; [|split; vm_compute; reflexivity].
  cbn. repeat split; intros; discriminate.
Qed.

Definition el_hist (more : bool) : list (fop BF0) := FAdd 0 (Proof_StackProps.ex_ns 97) 1%N f1 :: if more then [FCreate 0 (Proof_StackProps.ex_ns 98)] else [].
Definition el_fts (more : bool) : features BF0 :=
  FtsSimple match fops_run true (el_hist more) fstore0 with Ok st => st 0%nat | _ => sf_new end.
Lemma el_sound : forall more, sound_fts (el_fts more).
Proof.
  intros more. split.
  - exists true, (el_hist more), (match fops_run true (el_hist more) fstore0 with Ok st => st | _ => fstore0 end), 0%nat.
    destruct more; split; reflexivity.
  - intros k s. destruct more; concrete; intros Q; inversion Q; subst; auto.
Qed.
Lemma elem_differs : sound_fts (el_fts true) /\ sound_fts (el_fts false) /\ same_contents (el_fts true) (el_fts false) /\
  exists R, ws_new ex_hash false ex_gc ex_raw_cfg = Ok R /\
  ok_of (ws_predict false (projT2 R) (el_fts true)) = true /\ ws_predict false (projT2 R) (el_fts false) = Pn PNone.
Proof.
  split; [apply el_sound|]. split; [apply el_sound|]. split; [intros k; unfold in_ns; concrete; reflexivity|].
  destruct (ws_new ex_hash false ex_gc ex_raw_cfg) as [R|e|e] eqn:E; [|vm_compute in E; discriminate..].
  exists R. split; [reflexivity|]. vm_compute in E. inversion E; subst; clear E. split; vm_compute; reflexivity.
Qed.
Lemma ex_free : exists R, ws_new ex_hash false ex_gc ex_cfg = Ok R /\ elem_free (projT1 R) (projT2 R) /\
  ok_of (ws_predict false (projT2 R) ex_fts) = true /\ ok_of (now false (projT2 R) [(ex_fts, ex_lb); (ex_fts, ex_lb)]) = true.
Proof.
  destruct (ws_new ex_hash false ex_gc ex_cfg) as [R|e|e] eqn:E; [|vm_compute in E; discriminate..].
  exists R. split; [reflexivity|]. vm_compute in E. inversion E; subst; clear E. split; [|split; vm_compute; reflexivity].
  cbn. repeat split; intros; discriminate.
Qed.
(** "1 |a x:2  :3| y|a:4<tab>z:q " with and without another "|a" at the end *)
Definition empty_ns : tns := mkTns (Some ([97%N], None)) [] [].

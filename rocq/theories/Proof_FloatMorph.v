(** Maps between float records that respect the operations also respect the exploration
    policies; in particular the policies on the floats and on all values of [SpecFloat]. *)
From Coq Require Import List NArith ZArith Bool Lia PeanoNat.
From Coq Require Import Floats.SpecFloat.
From Verif Require Import Base FloatOps FloatB32 FloatV32 Model_Explore Model_Stack Spec_FloatReal Proof_FloatOrder Proof_StackRestore.
Import ListNotations.
Open Scope N_scope.

Record fmorph (A B : FOps) (h : A -> B) : Prop := mkFmorph {
  fm_lit : forall n d, h (f_lit A n d) = f_lit B n d;
  fm_add : forall a b, h (f_add A a b) = f_add B (h a) (h b);
  fm_sub : forall a b, h (f_sub A a b) = f_sub B (h a) (h b);
  fm_mul : forall a b, h (f_mul A a b) = f_mul B (h a) (h b);
  fm_div : forall a b, h (f_div A a b) = f_div B (h a) (h b);
  fm_neg : forall a, h (f_neg A a) = f_neg B (h a);
  fm_exp : forall a, h (f_exp A a) = f_exp B (h a);
  fm_pow : forall a b, h (f_pow A a b) = f_pow B (h a) (h b);
  fm_eqb : forall a b, f_eqb A a b = f_eqb B (h a) (h b);
  fm_ltb : forall a b, f_ltb A a b = f_ltb B (h a) (h b);
  fm_nan : forall a, f_isnan A a = f_isnan B (h a)
}.

Section Morph.
Context {A B : FOps} (h : A -> B) (M : fmorph A B h).

Definition he (e : N * A) : N * B := (fst e, h (snd e)).
Definition hi (e : N * (N * A)) : N * (N * B) := (fst e, he (snd e)).
Definition om {X Y} (g : X -> Y) (x : out X) : out Y :=
  match x with Ok v => Ok (g v) | Er e => Er e | Pn p => Pn p end.

Lemma om_bind : forall X Y Z W (g : X -> Y) (k : Z -> W) (x : out X) (f : X -> out Z) (f' : Y -> out W),
  (forall v, om k (f v) = f' (g v)) -> om k (bind x f) = bind (om g x) f'.
Proof. intros X Y Z W g k [v|e|p] f f' H; cbn; auto. Qed.

Lemma h0 : h f0 = f0. Proof. apply (fm_lit _ _ _ M). Qed.
Lemma h1 : h f1 = f1. Proof. apply (fm_lit _ _ _ M). Qed.
Lemma hN : forall n, h (f_of_N n) = f_of_N n. Proof. intros. apply (fm_lit _ _ _ M). Qed.
Lemma hn : forall n, h (f_of_nat n) = f_of_nat n. Proof. intros. apply (fm_lit _ _ _ M). Qed.
Lemma hmax : forall a b, h (f_max a b) = f_max (h a) (h b).
Proof.
  intros a b. unfold f_max. rewrite !(fm_nan _ _ _ M), (fm_ltb _ _ _ M).
  destruct (f_isnan B (h a)), (f_isnan B (h b)), (f_ltb B (h a) (h b)); reflexivity.
Qed.
Lemma hgtb : forall a b, f_gtb a b = f_gtb (h a) (h b).
Proof. intros. apply (fm_ltb _ _ _ M). Qed.

Lemma insert_h : forall x l, map he (insert_by (fun x y => f_ltb A (snd x) (snd y)) x l)
  = insert_by (fun x y => f_ltb B (snd x) (snd y)) (he x) (map he l).
Proof.
  induction l as [|y l IH]; [reflexivity|]. cbn [insert_by map he snd]. rewrite (fm_ltb _ _ _ M).
  destruct (f_ltb B _ _); [cbn [map]; now rewrite IH|reflexivity].
Qed.
Lemma sort_h : forall l, map he (sort_by (fun x y => f_ltb A (snd x) (snd y)) l)
  = sort_by (fun x y => f_ltb B (snd x) (snd y)) (map he l).
Proof.
  induction l as [|x l IH]; [reflexivity|]. unfold sort_by in *. cbn [fold_right map]. rewrite insert_h. now rewrite IH.
Qed.
Lemma existsb_h : forall l : list (N * A), existsb (fun e => f_isnan A (snd e)) l = existsb (fun e => f_isnan B (snd e)) (map he l).
Proof. induction l as [|x l IH]; [reflexivity|]. cbn [existsb map he snd]. now rewrite (fm_nan _ _ _ M), IH. Qed.
Lemma sort_desc_h : forall l, om (map he) (sort_desc l) = sort_desc (map he l).
Proof.
  intros l. unfold sort_desc. rewrite map_length, existsb_h. destruct (_ && _); [reflexivity|]. cbn [om]. now rewrite sort_h.
Qed.
Lemma rho_h : forall dbg cons sup minp l idx run rho,
  om he (rho_loop dbg cons sup minp l idx run rho) = rho_loop dbg cons sup (h minp) (map he l) idx (h run) (he rho).
Proof.
  induction l as [|(a & p) l IH]; intros idx run rho; [reflexivity|]. cbn [rho_loop map he snd fst].
  rewrite (fm_eqb _ _ _ M), h0. destruct (_ && _); [reflexivity|].
  destruct (usub dbg sup idx) as [d|e|q]; cbn [bind om]; auto. destruct (usub dbg d 1) as [d1|e|q]; cbn [bind om]; auto.
  rewrite IH. rewrite hgtb. repeat rewrite ?(fm_add _ _ _ M), ?(fm_sub _ _ _ M), ?(fm_mul _ _ _ M), ?(fm_div _ _ _ M), ?hN, ?h1.
  match goal with |- context [if ?c then _ else _] => destruct c end; unfold he; cbn [fst snd]; rewrite ?(fm_add _ _ _ M); reflexivity.
Qed.
Lemma counts_h : forall c p, counts (O:=A) c p = counts (O:=B) c (h p).
Proof. intros c p. unfold counts. now rewrite hgtb, h0. Qed.
Lemma support_h : forall c l, support_size (O:=A) c l = support_size (O:=B) c (map he l).
Proof.
  intros c l. unfold support_size. rewrite map_length. destruct c; auto.
  assert (E : length (filter (fun e : N * A => f_eqb A (snd e) f0) l) = length (filter (fun e : N * B => f_eqb B (snd e) f0) (map he l))); [|now rewrite E].
  induction l as [|x l IH]; [reflexivity|]. cbn [filter map he snd]. rewrite (fm_eqb _ _ _ M), h0.
  destruct (f_eqb B _ _); cbn [length]; rewrite IH; reflexivity.
Qed.
Lemma enforce_h : forall dbg eps c l, om (map he) (enforce_min_prob (O:=A) dbg eps c l) = enforce_min_prob (O:=B) dbg (h eps) c (map he l).
Proof.
  intros dbg eps c l. unfold enforce_min_prob. destruct l as [|x l]; [reflexivity|]. remember (x :: l) as ll eqn:EL.
  destruct (map he ll) as [|y m] eqn:EM; [subst; discriminate|]. rewrite <- EM. clear EM y m.
  rewrite (fm_eqb _ _ _ M), h0. destruct (f_eqb B (h eps) f0); [reflexivity|].
  rewrite (fm_ltb _ _ _ M), hgtb, h0, h1. destruct (_ || _); [reflexivity|].
  rewrite hgtb. unfold lit_0999. rewrite (fm_lit _ _ _ M). rewrite support_h.
  destruct (f_gtb (h eps) _).
  - cbn [om]. f_equal. rewrite !map_map. apply map_ext. intros (a & p). cbn [he fst snd]. rewrite counts_h.
    destruct (counts c (h p)); auto. unfold he. cbn [fst snd]. now rewrite (fm_div _ _ _ M), h1, hN.
  - rewrite <- sort_desc_h. destruct (sort_desc ll) as [so|e|q]; cbn [bind om]; auto.
    destruct so as [|(a0 & p0) so]; cbn [hd_error opt_or bind map]; auto. change (he (a0, p0)) with (a0, h p0). cbn [snd].
    set (sup := support_size c (map he ll)) in *. set (minp := f_div A eps (f_of_N sup)).
    assert (EP : f_div B (h eps) (f_of_N sup) = h minp) by (unfold minp; now rewrite (fm_div _ _ _ M), hN). rewrite EP.
    change ((a0, h p0) :: map he so) with (map he ((a0, p0) :: so)). rewrite <- h0. change (0, h p0) with (he (0, p0)). rewrite <- rho_h.
    destruct (rho_loop dbg c sup minp ((a0, p0) :: so) 0 f0 (0, p0)) as [(ri & rs)|e|q]; cbn [bind om]; auto.
    cbn [he fst snd]. f_equal. rewrite !map_map. apply map_ext. intros (a & p). cbn [he fst snd]. rewrite counts_h.
    destruct (counts c (h p)); auto. unfold he. cbn [fst snd]. rewrite hmax.
    repeat rewrite ?(fm_add _ _ _ M), ?(fm_sub _ _ _ M), ?(fm_mul _ _ _ M), ?(fm_div _ _ _ M), ?hN, ?h1. reflexivity.
Qed.

Lemma min_by_from_h : forall (g : A -> A -> out bool) (g' : B -> B -> out bool), (forall a b, g a b = g' (h a) (h b)) ->
  forall l b, om hi (min_by_from g b l) = min_by_from g' (hi b) (map hi l).
Proof.
  intros g g' G. induction l as [|y l IH]; intros b; [reflexivity|]. cbn [min_by_from map]. rewrite G.
  change (snd (snd (hi b))) with (h (snd (snd b))). change (snd (snd (hi y))) with (h (snd (snd y))).
  destruct (g' _ _) as [[]|e|q]; cbn [bind om]; auto.
Qed.
Lemma enum_h : forall l i, map hi (enum_from i l) = enum_from i (map he l).
Proof. induction l as [|x l IH]; intros i; [reflexivity|]. cbn [enum_from map]. now rewrite IH. Qed.
Lemma min_by_h : forall (g : A -> A -> out bool) (g' : B -> B -> out bool), (forall a b, g a b = g' (h a) (h b)) ->
  forall l, om hi (min_by g l) = min_by g' (map he l).
Proof.
  intros g g' G l. unfold min_by. rewrite <- enum_h. destruct (enum_from 0 l) as [|x r]; [reflexivity|].
  cbn [map]. now apply min_by_from_h.
Qed.
Lemma gt_partial_h : forall a b, gt_partial a b = gt_partial (h a) (h b).
Proof. intros a b. unfold gt_partial, f_pcmp. now rewrite !(fm_nan _ _ _ M), !(fm_ltb _ _ _ M). Qed.
Lemma gt_total_h : forall a b, gt_total a b = gt_total (h a) (h b).
Proof. intros a b. unfold gt_total. now rewrite hgtb. Qed.
Lemma upd_h : forall X Y (g : X -> Y) i x l, map g (upd i x l) = upd i (g x) (map g l).
Proof. intros X Y g. induction i as [|i IH]; intros x [|y l]; cbn; auto. now rewrite IH. Qed.
Lemma unwrap_h : forall X Y (g : X -> Y) x, om g (unwrap_res x) = unwrap_res (om g x).
Proof. intros X Y g [v|e|p]; reflexivity. Qed.

Lemma greedy_h : forall eps l, om (map he) (greedy_probs (O:=A) eps l) = greedy_probs (O:=B) (h eps) (map he l).
Proof.
  intros eps l. unfold greedy_probs. rewrite <- (min_by_h gt_total gt_total gt_total_h). apply om_bind. intros (i & (a & s)).
  rewrite map_length, map_map. cbn [hi fst snd].
  assert (E : map (fun x => (fst (he x), f_div B (h eps) (f_of_nat (length l)))) l
    = map he (map (fun s => (fst s, f_div A eps (f_of_nat (length l)))) l)).
  { rewrite map_map. apply map_ext. intros x. unfold he. cbn [fst snd]. now rewrite (fm_div _ _ _ M), hn. }
  rewrite E. set (l1 := map (fun s => (fst s, f_div A eps (f_of_nat (length l)))) l). clearbody l1. clear E.
  rewrite nth_error_map. destruct (nth_error l1 (N.to_nat i)) as [(b & q)|]; [|reflexivity].
  cbn [option_map om he fst snd]. rewrite upd_h. f_equal. f_equal. unfold he. cbn [fst snd]. now rewrite (fm_add _ _ _ M), (fm_sub _ _ _ M), h1.
Qed.
Lemma gamma_h : forall gs ge c, h (squarecb_gamma (O:=A) gs ge c) = squarecb_gamma (O:=B) (h gs) (h ge) c.
Proof. intros. unfold squarecb_gamma. now rewrite (fm_mul _ _ _ M), (fm_pow _ _ _ M), hN. Qed.
Lemma square_h : forall dbg ueps ga l, om (map he) (squarecb_probs (O:=A) dbg ueps ga l) = squarecb_probs (O:=B) dbg (h ueps) (h ga) (map he l).
Proof.
  intros dbg ueps ga l. unfold squarecb_probs. rewrite <- (min_by_h gt_partial gt_partial gt_partial_h). apply om_bind. intros (i & (ba & bs)).
  cbn [hi he fst snd]. cbv zeta. rewrite map_length, map_map.
  set (st := fun s : N * A => if fst s =? ba then snd s else f_div A f1 (f_add A (f_of_nat (length l)) (f_mul A ga (f_sub A (snd s) bs)))).
  match goal with |- _ = match nth_error ?z _ with _ => _ end =>
    assert (E : z = map he (map (fun s => (fst s, st s)) l)) end.
  { rewrite map_map. apply map_ext. intros x. unfold he, st. cbn [fst snd]. destruct (fst x =? ba); auto.
    now rewrite (fm_div _ _ _ M), (fm_add _ _ _ M), (fm_mul _ _ _ M), (fm_sub _ _ _ M), hn, h1. }
  rewrite E. set (l1 := map (fun s => (fst s, st s)) l).
  match goal with |- om _ (match nth_error ?z _ with _ => _ end) = _ => change z with l1 end.
  rewrite nth_error_map. destruct (nth_error l1 (N.to_nat i)) as [(b & q)|]; [|reflexivity].
  cbn [option_map he fst snd]. rewrite unwrap_h, enforce_h, upd_h. f_equal. f_equal. f_equal. unfold he at 1. cbn [fst snd]. f_equal.
  rewrite (fm_sub _ _ _ M), h1. f_equal. rewrite <- h0. generalize (f0 : A). clearbody l1. clear E.
  induction l1 as [|x l1 IH]; intros acc; [reflexivity|]. cbn [fold_left map he fst snd]. rewrite IH. f_equal.
  destruct (fst x =? ba); auto. apply (fm_add _ _ _ M).
Qed.
Lemma soft_h : forall dbg ueps la l, om (map he) (softmax_probs (O:=A) dbg ueps la l) = softmax_probs (O:=B) dbg (h ueps) (h la) (map he l).
Proof.
  intros dbg ueps la l. unfold softmax_probs. rewrite <- (min_by_h gt_partial gt_partial gt_partial_h). apply om_bind. intros (i & (ba & bs)).
  cbn [hi he fst snd]. cbv zeta. rewrite unwrap_h, enforce_h. f_equal. f_equal. rewrite (map_map he).
  set (ex := fun s : N * A => f_exp A (f_mul A (f_neg A la) (f_sub A (snd s) bs))).
  assert (E : map (fun x : N * A => (fst (he x), f_exp B (f_mul B (f_neg B (h la)) (f_sub B (snd (he x)) (h bs))))) l
    = map he (map (fun s => (fst s, ex s)) l)).
  { rewrite map_map. apply map_ext. intros x. unfold he, ex. cbn [fst snd].
    now rewrite (fm_exp _ _ _ M), (fm_mul _ _ _ M), (fm_neg _ _ _ M), (fm_sub _ _ _ M). }
  rewrite E. set (l1 := map (fun s => (fst s, ex s)) l).
  match goal with |- map he (map _ ?z) = _ => change z with l1 end. clearbody l1. rewrite !map_map.
  assert (T : h (fold_left (fun acc s => f_add A acc (snd s)) l1 f0) = fold_left (fun acc s => f_add B acc (snd s)) (map he l1) f0).
  { rewrite <- h0. generalize (f0 : A). clear E. induction l1 as [|x l1 IH]; intros acc; [reflexivity|].
    cbn [fold_left map he fst snd]. rewrite IH. f_equal. apply (fm_add _ _ _ M). }
  apply map_ext. intros x. unfold he at 1. cbn [fst snd]. rewrite (fm_div _ _ _ M), T. reflexivity.
Qed.
End Morph.

(** ** the floats *)
Definition lift1 (f : v32 -> v32) (x : b32) : b32 :=
  match bool_dec (valid_binary 24 128 x) true with left H => un (f (exist _ x H)) | right _ => S754_nan end.
Definition lift2 (f : v32 -> v32 -> v32) (x y : b32) : b32 :=
  match bool_dec (valid_binary 24 128 x) true, bool_dec (valid_binary 24 128 y) true with
  | left H, left K => un (f (exist _ x H) (exist _ y K)) | _, _ => S754_nan end.
Lemma exist_un : forall (a : v32) (H : valid_binary 24 128 (un a) = true), exist _ (un a) H = a.
Proof. intros a H. now apply un_inj. Qed.
Lemma lift1_un : forall f a, lift1 f (un a) = un (f a).
Proof. intros f a. unfold lift1. destruct (bool_dec _ _) as [H|H]; [now rewrite exist_un|]. exfalso. apply H. exact (proj2_sig a). Qed.
Lemma lift2_un : forall f a b, lift2 f (un a) (un b) = un (f a b).
Proof.
  intros f a b. unfold lift2. destruct (bool_dec _ _) as [H|H]; [|exfalso; apply H; exact (proj2_sig a)].
  destruct (bool_dec _ _) as [K|K]; [|exfalso; apply K; exact (proj2_sig b)]. now rewrite !exist_un.
Qed.
Lemma un_morph : forall e l p, fmorph (VF e l p) (BF (lift1 e) (lift1 l) (lift2 p)) un.
Proof. intros e l p. constructor; intros; try reflexivity; cbn [f_exp f_pow VF BF]; [now rewrite lift1_un|now rewrite lift2_un]. Qed.
Lemma VF_ford : forall e l p, ford (VF e l p).
Proof.
  intros e l p. pose proof (BF_ford (lift1 e) (lift1 l) (lift2 p)) as [a1 a2 a3 a4 a5 a6 a7].
  constructor; cbn [f_leb f_ltb f_isnan VF BF] in *.
  - intros a b. apply a1.
  - intros a. apply a2.
  - intros a b c. apply a3.
  - intros a b. apply a4.
  - intros a b. apply a5.
  - intros a b. apply a6.
  - exact a7.
Qed.

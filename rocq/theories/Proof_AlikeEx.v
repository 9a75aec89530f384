(** Examples for C100. *)
From Coq Require Import List NArith ZArith Bool Lia Reals Lra Permutation.
From Verif Require Import Base FloatOps FloatR FloatB32 Model_Hash Model_Features Model_Weights Model_Loss Model_Interactions
  Model_Types Model_Explore Model_Coin Model_Stack Model_Factory Spec_Inter Spec_Foreach Spec_Features Spec_Coin Spec_Stack Spec_Total Spec_Reductions Spec_Values Spec_Empty Spec_Shuffle Spec_Merge Spec_Elem Spec_ElemStack Spec_Trained Spec_Unseen Spec_Alike Proof_Reductions Spec_Lifetime
  Proof_Features Proof_Weights Proof_Inter Proof_StackProps Proof_Total Proof_EmptyProps Proof_LearnEx Proof_FloatOrder Spec_Delegate Proof_StackRestore Proof_Shuffle Proof_ShuffleEx Proof_Builds Proof_MergeEx Proof_UnseenMore Proof_UnseenEx Proof_CbExplore Proof_Lifetime.
Import ListNotations.
Open Scope N_scope.

(** a bare contextual bandit, and the three policies on top *)
Definition al_cfg (x : nat) : rcfg RF :=
  let c := CCbAdf Mtr (CCoin (@coin_default RF)) in
  match x with
  | 0%nat => c
  | 1%nat => CGreedy (1 / 2 : RF)%R c
  | 2%nat => CSoftmax (1 / 2 : RF)%R (1 : RF)%R c
  | _ => CSquareCb (1 / 2 : RF)%R (10 : RF)%R (1 / 2 : RF)%R c
  end.
(** the last two actions differ in a feature that is not seen in training; the first one is the
    one that is learned from *)
Definition al_acts (all : bool) : list (sfeats RF) := if all then [us_store 2%nat; us_store 3%nat; us_store 4%nat] else [us_store 3%nat; us_store 4%nat].
Definition al_ctx : option (sfeats RF) := Some (us_store 0%nat).
Lemma al_sound : forall b, sound_fts (FtsCb al_ctx (al_acts b)).
Proof. intros b. split; [|apply us_sound]. intros a Ha. destruct b; cbn [al_acts al_ctx parts In app] in Ha; repeat (destruct Ha as [<-|Ha]; [apply us_sound|]); contradiction. Qed.
Lemma al_below : forall b, all_below (2 ^ gc_bits sh_gc) (FtsCb al_ctx (al_acts b)).
Proof.
  intros b a Ha j v Hin. destruct b; cbn [al_acts al_ctx parts In app] in Ha; repeat (destruct Ha as [<-|Ha]; [cbn in Hin; repeat (destruct Hin as [K|Hin]; [inversion K; reflexivity|]); contradiction|]); contradiction.
Qed.
Lemma al_plain : forall b, plain (FtsCb al_ctx (al_acts b)).
Proof.
  intros b. split.
  - split; [|apply us_built]. intros a Ha. destruct b; cbn [al_acts al_ctx parts In app] in Ha; repeat (destruct Ha as [<-|Ha]; [apply us_built|]); contradiction.
  - assert (N0 : forall j, no_composite (us_store j)).
    { intros [|[|[|[|[|j]]]]] h s H; cbn in H; discriminate. }
    split; [intros a Ha; destruct b; cbn [al_acts al_ctx parts In app] in Ha; repeat (destruct Ha as [<-|Ha]; [apply N0|]); contradiction|]. split; [apply N0|].
    intros a Ha. split; intros k H s Hs; exfalso; apply fm_get_in in Hs; destruct b; cbn [al_acts al_ctx parts In app] in Ha;
      repeat (destruct Ha as [<-|Ha]; [repeat (destruct Hs as [Hs|Hs]; [inversion Hs; subst; apply H; reflexivity|]); destruct Hs|]); contradiction.
Qed.
Lemma al_new : forall x, exists R0 : anyred RF, ws_new ex_hash false sh_gc (al_cfg x) = Ok R0 /\
  elem_free (projT1 R0) (projT2 R0) /\ uses_elem (projT2 R0) = false /\
  red_types (projT2 R0) = (match x with 0%nat => td_cb_adf | _ => td_explore end) /\
  meets 0 _ (projT2 R0) (us_fts 0%nat) [us_shown].
Proof.
  intros x. unfold ws_new.
  destruct (@dw_new_ok RF false 256 1 6) as (w & E & _); try lia.
  destruct x as [|[|[|x]]]; cbn [al_cfg create]; unfold coin_new; cbn [bind];
  change (compile_interactions ex_hash (gc_seed sh_gc) (gc_inter sh_gc)) with (Ok ([(ex_ns 97, NsDefault)], @nil (namespace * namespace * namespace))); cbn [bind];
  change (bits_to_max_feature_index false (gc_bits sh_gc)) with (Ok 256%N : out N); cbn [bind cc_loss coin_default];
  rewrite E; cbn [bind]; eexists.
  all: split; [reflexivity|]; split; [cbn; repeat split; discriminate|]; split; [reflexivity|]; split; [reflexivity|].
  all: cbn [projT1 projT2 meets snd fst]; exists (us_store 0%nat), [us_store 2%nat; us_store 3%nat], (us_store 2%nat), us_shown;
    split; [reflexivity|]; split; [reflexivity|]; split; [apply us_joins; apply us_built|]; cbn [finds]; exists us_shown; auto.
Qed.
Lemma al_alike : forall x (R0 : anyred RF), ws_new ex_hash false sh_gc (al_cfg x) = Ok R0 -> forall a b, In a (al_acts false) -> In b (al_acts false) ->
  alike (bottom _ (projT2 R0)) (seen (bottom _ (projT2 R0)) (concat [[us_shown]])) al_ctx a b.
Proof.
  intros x R0 E. destruct (new_good ex_hash sh_gc _ R0 _ E (reach_refl _ _)) as (_ & S & B & C).
  destruct (sorted_fun _ _ _ _ S [(ex_ns 97, NsDefault)] []) as (Ep & Et); [repeat constructor|].
  assert (SN : forall i, seen (bottom _ (projT2 R0)) (concat [[us_shown]]) i -> In i (map fst (match fe_list false us_shown [(ex_ns 97, NsDefault)] [] 8 true with Ok l => l | _ => [] end))).
  { intros i (t & Ht & (l & v & L & Hin)). rewrite Ep, Et, B, C in L. cbn [concat app] in Ht. destruct Ht as [<-|[]]. change (gc_bits sh_gc) with 8 in L. change (gc_const sh_gc) with true in L. rewrite L. apply in_map_iff. exists (i, v). auto. }
  intros a b Ha Hb u v U V l k L K i Hi. apply SN in Hi. clear SN.
  rewrite Ep, Et, B, C in L, K. change (gc_bits sh_gc) with 8 in L, K. change (gc_const sh_gc) with true in L, K.
  cbn [al_acts In] in Ha, Hb. destruct Ha as [<-|[<-|[]]], Hb as [<-|[<-|[]]];
    vm_compute in U; inversion U; subst u; clear U; vm_compute in V; inversion V; subst v; clear V;
    vm_compute in L; inversion L; subst l; clear L; vm_compute in K; inversion K; subst k; clear K; vm_compute in Hi.
  all: repeat (destruct Hi as [<-|Hi]; [cbn [value_at N.eqb Pos.eqb]; lra|]); contradiction.
Qed.
Lemma al_differ : us_store 3%nat <> us_store 4%nat.
Proof. intros Q. assert (X : length (sf_all (us_store 3%nat)) = length (sf_all (us_store 4%nat))) by now rewrite Q. discriminate X. Qed.
Lemma al_sane : forall x, (x < 3)%nat -> sane (al_cfg (S x)).
Proof. intros [|[|[|x]]] Hx; try lia; cbn; repeat split; lra. Qed.
Lemma al_numbered : forall (sc : list (N * R)) n, map fst sc = map N.of_nat (seq 0 n) -> NoDup (map fst sc).
Proof. intros sc n ->. apply FinFun.Injective_map_NoDup; [intros a b; apply Nat2N.inj|apply seq_NoDup]. Qed.
Lemma al_returns : forall x all R0 r, (x < 4)%nat -> ws_new ex_hash false sh_gc (al_cfg x) = Ok R0 -> reach false (projT2 R0) r -> uses_elem (projT2 R0) = false ->
  red_types (projT2 R0) = (match x with 0%nat => td_cb_adf | _ => td_explore end) ->
  exists p g, ws_predict false r (FtsCb al_ctx (al_acts all)) = Ok (p, g) /\ match x with 0%nat => exists sc, p = PrScores sc | _ => exists q, p = PrProbs q end.
Proof.
  intros [|x] all R0 r Hx E Q U T.
  - destruct (predict_returns (O := RF) RF_ford lr_se ex_hash false sh_gc _ R0 r (FtsCb al_ctx (al_acts all)) 256%N E Q) as (p & f' & P & Tp & _);
      [exact U|apply (scores_not_weighted (O := RF)); [|now rewrite T]|reflexivity|apply al_plain|apply al_below|rewrite T; reflexivity|rewrite T; discriminate|discriminate|].
    { exact (proj1 (proj1 (reach_inv RF_ford _ _ _ _ _ _ _ E (reach_refl _ _) (eq_refl : bits_to_max_feature_index false (gc_bits sh_gc) = Ok 256%N) U))). }
    rewrite T in Tp. exists p, f'. split; [exact P|]. destruct p; try discriminate. eauto.
  - destruct (scores_reached (O := RF) RF_ford ex_hash sh_gc _ R0 r (FtsCb al_ctx (al_acts all)) 256%N E Q U eq_refl (proj1 (al_plain all)) (al_below all) eq_refl) as (k0 & k & m & ch & sc & f1 & K0 & Sk & Tm & Ps & Nm & _);
      [now rewrite T|].
    assert (Ne : (sc : list (N * R)) <> []) by (intros ->; destruct all; discriminate).
    assert (Pr : exists q, probs_of false k sc = Ok q).
    { destruct x as [|[|[|x]]]; try lia; cbn in K0; inversion K0; subst k0; destruct k; cbn in Sk; try contradiction; cbn [probs_of].
      - subst. destruct (greedy_spec (1 / 2) sc Ne) as (i & q & _ & G & _). exists q. exact G.
      - destruct Sk; subst. destruct (softmax_main false (1 / 2) 1 sc Ne ltac:(lra)) as (q & G & _). exists q. exact G.
      - destruct Sk as (? & ? & ?); subst. destruct (squarecb_spec false (1 / 2) 10 (1 / 2) counter sc ltac:(lra) ltac:(right; lra) Ne (al_numbered _ _ Nm) ltac:(lra)) as (i & q & _ & G & _). exists q. exact G. }
    destruct Pr as (q & Pr). exists (PrProbs q), f1. split; [|eauto]. unfold ws_predict.
    rewrite (top_predict (O := RF) _ r k m ch _ f1 sc q Tm (same_is _ _ Sk) Ps Pr). reflexivity.
Qed.
Lemma al_example : forall x all, (x < 4)%nat -> exists (R0 : anyred RF) r p g, ws_new ex_hash false sh_gc (al_cfg x) = Ok R0 /\
  elem_free (projT1 R0) (projT2 R0) /\ Forall2 (shows (projT2 R0)) [(us_fts 0%nat, LbCb 0 (@f1 RF) (@f1 RF))] [[us_shown]] /\
  learn_all false (projT2 R0) [(us_fts 0%nat, LbCb 0 (@f1 RF) (@f1 RF))] = Ok r /\
  (forall a b, In a (al_acts false) -> In b (al_acts false) ->
    alike (bottom _ (projT2 R0)) (seen (bottom _ (projT2 R0)) (concat [[us_shown]])) al_ctx a b) /\
  ws_predict false r (FtsCb al_ctx (al_acts all)) = Ok (p, g) /\
  match x with 0%nat => exists sc, p = PrScores sc | _ => exists q, p = PrProbs q end.
Proof.
  intros x all Hx. destruct (al_new x) as (R0 & E & EF & U & T & M).
  destruct (learn_returns (O := RF) RF_ford lr_gt lr_se ex_hash false sh_gc _ R0 (projT2 R0) (us_fts 0%nat) (LbCb 0%N (@f1 RF) (@f1 RF)) 256%N E (reach_refl _ _)) as (r & g1 & L & _);
    [exact U|reflexivity|apply us_plain; lia|apply us_below; lia|rewrite T; destruct x; reflexivity|rewrite T; destruct x; reflexivity| |discriminate|].
  { intros _. do 5 eexists. split; [reflexivity|]. split; [reflexivity|]. cbn [length]. lia. }
  assert (Q : reach false (projT2 R0) r) by (eapply reach_learn; [apply reach_refl|exact L]).
  destruct (al_returns x all R0 r Hx E Q U T) as (p & f' & P & Tp).
  exists R0, r, p, f'. split; [exact E|]. split; [exact EF|].
  split; [constructor; [split; [apply (us_plain 0%nat); lia|exact M]|constructor]|]. split; [cbn [learn_all]; rewrite L; reflexivity|].
  split; [exact (al_alike x R0 E)|]. split; [exact P|exact Tp].
Qed.
Lemma al_untrained : forall x all, (x < 3)%nat -> exists (R0 : anyred RF) q g, ws_new ex_hash false sh_gc (al_cfg (S x)) = Ok R0 /\ elem_free (projT1 R0) (projT2 R0) /\
  ws_predict false (projT2 R0) (FtsCb al_ctx (al_acts all)) = Ok (PrProbs q, g).
Proof.
  intros x all Hx. destruct (al_new (S x)) as (R0 & E & EF & U & T & M).
  destruct (al_returns (S x) all R0 (projT2 R0) ltac:(lia) E (reach_refl _ _) U T) as (p & f' & P & (q & ->)). exists R0, q, f'. auto.
Qed.

(** C94: concrete runs. *)
From Coq Require Import List NArith ZArith Bool Lia Reals Lra.
From Verif Require Import Base FloatOps FloatR FloatB32 Model_Hash Model_Features Model_Weights Model_Loss
  Model_Interactions Model_Types Model_Coin Spec_Coin Proof_StackProps Proof_Coin Proof_CoinR Spec_Scale Spec_Zero.
Import ListNotations.
Open Scope N_scope.

Definition sc_run (O : FOps) : list (example O) := [mkEx (other O) f1 f1; mkEx (other O) f1 f1].
(** twice the labels do not give twice the prediction *)
Lemma scale_refuted : forall ex lx px, let O := BF ex lx px in
  ~ (forall H dbg (cfg : coin_config O) gc nma c0 h f c c' p p', coin_new H dbg cfg gc nma = Ok c0 ->
       train dbg h c0 = Ok c -> train dbg (map (fun e => mkEx (ex_f e) (f_mul O (fl 2) (ex_y e)) (ex_w e)) h) c0 = Ok c' ->
       coin_predict dbg c f = Ok p -> coin_predict dbg c' f = Ok p' ->
       f_eqb O (scalar_of p') (f_mul O (fl 2) (scalar_of p)) = true).
Proof.
  intros ex lx px O K. set (dbl := map (fun e : example O => mkEx (ex_f e) (f_mul O (fl 2) (ex_y e)) (ex_w e))) in *.
  assert (C : match coin_new ex_hash true (@coin_default O) gc16n 1 with
    | Ok c0 => match train true (sc_run O) c0, train true (dbl (sc_run O)) c0 with
      | Ok c, Ok c' => match coin_predict true c (other O), coin_predict true c' (other O) with
           | Ok p, Ok p' => negb (f_eqb O (scalar_of p') (f_mul O (fl 2) (scalar_of p))) | _, _ => false end
      | _, _ => false end
    | _ => false end = true) by (vm_compute; reflexivity).
  destruct (coin_new ex_hash true (@coin_default O) gc16n 1) as [c0|x|x] eqn:E0; try discriminate.
  destruct (train true (sc_run O) c0) as [c|x|x] eqn:E1; try discriminate.
  destruct (train true (dbl (sc_run O)) c0) as [c'|x|x] eqn:E2; try discriminate.
  destruct (coin_predict true c (other O)) as [p|x|x] eqn:E3; try discriminate.
  destruct (coin_predict true c' (other O)) as [p'|x|x] eqn:E4; try discriminate.
  rewrite (K _ _ _ _ _ _ _ _ _ _ _ _ E0 E1 E2 E3 E4) in C. discriminate.
Qed.

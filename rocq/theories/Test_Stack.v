(** Tests of the model against the unit tests of the repository; these are single
    runs in binary32, not proofs of anything. *)
From Coq Require Import List NArith ZArith Bool.
From Verif Require Import Base FloatOps FloatB32 Model_Hash Model_Features Model_Weights Model_Loss
  Model_Interactions Model_Types Model_Explore Model_Coin Model_Stack Model_Factory.
Import ListNotations.
Open Scope N_scope.

Definition test_hash : hasher := fun k s => fold_left (fun a b => wrap32 (a * 31 + b)) k s.
Definition half : BF0 := f_lit BF0 1 2.

(** coin.rs test_learning: three examples, then the prediction is the label *)
Definition t1_feats : sfeats BF0 := [(NsDefault, mkSfn NsDefault [0;1;2;3] [f1;f1;f1;f1] true)].
Definition t1 : out bool :=
  let* r := ws_new test_hash true (mkGc 2 0 false []) (CCoin (@coin_default BF0)) in
  let r := projT2 r in
  let lb := LbSimple half (@f1 BF0) in
  let* x := ws_learn true r (FtsSimple t1_feats) lb in
  let* x := ws_learn true (fst x) (FtsSimple t1_feats) lb in
  let* x := ws_learn true (fst x) (FtsSimple t1_feats) lb in
  let* p := ws_predict true (fst x) (FtsSimple t1_feats) in
  let* s := as_scalar (fst p) in
  Ok (f_eqb BF0 (fst s) half).
Example t1_ok : t1 = Ok true.
Proof. vm_compute. reflexivity. Qed.

(** a contextual bandit stack: greedy over ips over coin; probabilities of two actions *)
Definition t2_act (i : N) : sfeats BF0 := [(NsNamed 5, mkSfn (NsNamed 5) [i] [f1] true)].
Definition t2_shared : sfeats BF0 := [(NsDefault, mkSfn NsDefault [7] [f1] true)].
Definition t2_feats : features BF0 := FtsCb (Some t2_shared) [t2_act 1; t2_act 2].
Definition t2 (ty : cbtype) : out (list N) :=
  let* r := ws_new test_hash true (mkGc 4 0 true [])
              (CGreedy (f_lit BF0 1 10) (CCbAdf ty (CCoin (@coin_default BF0)))) in
  let r := projT2 r in
  let* x := ws_learn true r t2_feats (LbCb 1 (f_neg BF0 f1) half) in
  let* x := ws_learn true (fst x) (snd x) (LbCb 0 f1 half) in
  let* p := ws_predict true (fst x) (snd x) in
  match fst p with
  | PrProbs l => Ok (map (fun s => if f_gtb (snd s) half then 1 else 0) l)
  | _ => Pn PType
  end.
Example t2_ips : t2 Ips = Ok [0; 1].
Proof. vm_compute. reflexivity. Qed.
(** equal scores so far: the first action *)
Example t2_mtr : t2 Mtr = Ok [1; 0].
Proof. vm_compute. reflexivity. Qed.

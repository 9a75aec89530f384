(** What a stack is supposed to be, read off its configuration. *)
From Coq Require Import List NArith Bool.
From Verif Require Import Base FloatOps Model_Hash Model_Features Model_Weights Model_Types Model_Interactions Model_Explore Model_Coin Model_Stack
  Model_Factory Spec_Reductions.
Import ListNotations.

(** The namespace meant by a name in a configuration. *)
Definition meant (H : hasher) (gc : gconfig) (d : nsdef) : namespace :=
  match d with NDDefault => NsDefault | NDName name => NsNamed (hash_bytes H name (gc_seed gc)) end.

(** Layer by layer the configured reduction with the configured settings; only counters,
    and weights and statistics of the regressor, are left open. *)
Inductive follows {O : FOps} (H : hasher) (gc : gconfig) : rcfg O -> forall n, red O n -> Prop :=
| fo_coin : forall cfg w c, co_cfg c = cfg -> co_bits c = gc_bits gc -> co_const c = gc_const gc ->
    follows H gc (CCoin cfg) 0 (w, c)
| fo_binary : forall c n w (ch : red O n), follows H gc c n ch -> follows H gc (CBinary c) (S n) (w, KBinary, ch)
| fo_cb : forall ty c n w x y (ch : red O n), follows H gc c n ch -> follows H gc (CCbAdf ty c) (S n) (w, KCbAdf ty x y, ch)
| fo_greedy : forall eps c n w (ch : red O n), follows H gc c n ch -> follows H gc (CGreedy eps c) (S n) (w, KGreedy eps, ch)
| fo_softmax : forall ue la c n w x (ch : red O n), follows H gc c n ch ->
    follows H gc (CSoftmax ue la c) (S n) (w, KSoftmax ue la x, ch)
| fo_square : forall ue gs ge c n w x (ch : red O n), follows H gc c n ch ->
    follows H gc (CSquareCb ue gs ge c) (S n) (w, KSquareCb ue gs ge x, ch)
| fo_elem : forall one two keep c n w (ch : red O n), follows H gc c n ch ->
    follows H gc (CElem one two keep c) (S n) (w, KElem (meant H gc one) (meant H gc two) keep (gc_bits gc), ch)
| fo_debug : forall c n w (ch : red O n), follows H gc c n ch -> follows H gc (CDebug c) (S n) (w, KDebug, ch).

(** Nothing learned yet: all counters 0, all weights and statistics 0. *)
Definition kind_new {A} (k : kind A) : Prop :=
  match k with
  | KCbAdf _ x y => x = 0%N /\ y = 0%N
  | KSoftmax _ _ x | KSquareCb _ _ _ x => x = 0%N
  | _ => True
  end.
Fixpoint untrained {O : FOps} (n : nat) : red O n -> Prop :=
  match n with
  | 0%nat => fun r => Forall (eq f0) (dw_w (co_w (snd r))) /\ Forall (eq (f0, f0)) (co_states (snd r)) /\ co_avg (snd r) = f0
  | S m => fun r => kind_new (snd (fst r)) /\ untrained m (snd r)
  end.

(** The exploration policy of a configuration after t training examples, and what is
    below it. *)
Definition policy {O : FOps} (dbg : bool) (c : rcfg O) (t : N) (scores : list (N * O)) : out (list (N * O)) :=
  match c with
  | CGreedy eps _ => greedy_probs eps scores
  | CSoftmax ue la _ => softmax_probs dbg ue la scores
  | CSquareCb ue gs ge _ => squarecb_probs dbg ue (f_mul O gs (f_pow O (f_of_N t) ge)) scores
  | _ => Pn PTodo
  end.
Definition explorer {O : FOps} (c c' : rcfg O) : Prop :=
  match c with CGreedy _ x | CSoftmax _ _ x | CSquareCb _ _ _ x => x = c' | _ => False end.

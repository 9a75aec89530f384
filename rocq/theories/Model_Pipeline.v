(** Training with several threads: /repo/reductionml-cli/src/train.rs:113-152
    ([ParseResult]) and 325-383 (the three kinds of threads), as a transition system: any
    thread that is not blocked may take the next step.
    - The two [flume] channels are bounded queues; a bound of 0 is a rendezvous, where a
      send completes when a receiver is waiting.
    - [recv] fails when the queue is empty and the sender was dropped.  The receivers
      live in the frame of [execute], so sends never fail.
    - Memory is sequentially consistent.  [await_result] blocks until [ready] is 1 (it
      loops around the futex wait, and [set_result] wakes it); storing the result and
      setting [ready] is one step (the learner looks at the result only afterwards).
    - A panic ends the thread it is in.  The scope (329) ends, and the command goes on or
      panics in turn, only when all threads have ended.
    - Left out: the pool of string buffers (326, 334, 354): [get_next_chunk] clears the
      buffer it is given.
    The parser, what the learner does with an example, and the number of pool objects an
    example takes are arguments, filled in for the train command at the end. *)
From Coq Require Import List NArith Bool.
From Verif Require Import Base FloatOps Model_Hash Model_Features Model_Types Model_Stack Model_Text Model_Metrics Model_Train.
Import ListNotations.
Open Scope nat_scope.

(** lines 113-129 [ParseResult]: one per chunk, shared by a parser and the learner *)
Record cell (C T : Type) : Type := mkCell {
  c_ready : bool;
  c_result : option (out T);
  c_input : option C
}.
Arguments mkCell {C T}. Arguments c_ready {C T}. Arguments c_result {C T}. Arguments c_input {C T}.

(** The input thread (331-346): about to read, sending cell i to the parsers, to the
    learner; it ends normally or by a panic.  Either way it drops the senders. *)
Inductive iphase : Type := IRead | ISendP (i : nat) | ISendL (i : nat) | IDone | IDead.
(** A parser thread (348-360): in [recv]; has cell i; parses chunk [c] of cell i and took
    the objects [objs] from the pool so far; ended; panicked (with cell i). *)
Inductive pphase (C Obj : Type) : Type :=
| PWait | PGot (i : nat) | PWork (i : nat) (c : C) (objs : list Obj) | PExit | PDead (i : nat).
Arguments PWait {C Obj}. Arguments PGot {C Obj}. Arguments PWork {C Obj}. Arguments PExit {C Obj}. Arguments PDead {C Obj}.
(** The learner, i.e. the main thread (362-381): in [recv]; in [await_result] of cell i;
    has an example; puts objects back into the pool; left the loop; panicked. *)
Inductive lphase (Obj T : Type) : Type :=
| LWait | LAwait (i : nat) | LGot (t : T) | LGive (objs : list Obj) | LExit | LDead.
Arguments LWait {Obj T}. Arguments LAwait {Obj T}. Arguments LGot {Obj T}. Arguments LGive {Obj T}.
Arguments LExit {Obj T}. Arguments LDead {Obj T}.

Record pipe (C Obj T S : Type) : Type := mkPipe {
  pi_unread : list C;
  pi_cells : list (cell C T);
  pi_inp : iphase;
  pi_pq : list nat;
  pi_lq : list nat;
  pi_par : list (pphase C Obj);
  pi_learner : lphase Obj T;
  pi_pool : list Obj;
  pi_st : S
}.
Arguments mkPipe {C Obj T S}. Arguments pi_unread {C Obj T S}. Arguments pi_cells {C Obj T S}.
Arguments pi_inp {C Obj T S}. Arguments pi_pq {C Obj T S}. Arguments pi_lq {C Obj T S}.
Arguments pi_par {C Obj T S}. Arguments pi_learner {C Obj T S}. Arguments pi_pool {C Obj T S}. Arguments pi_st {C Obj T S}.

Section Pipeline.
Context (C Obj T S : Type).
(** [rd_ok]: false if reading the data fails after the chunks (335: unwrap);
    [q]: queue size (327-328) *)
Context (fresh : Obj) (need : C -> nat) (parse : list Obj -> C -> out T) (proc : S -> T -> out (S * list Obj))
  (q : nat) (rd_ok : bool).

(** 326-330, 348: n parsers *)
Definition pipe_init (n : nat) (pool : list Obj) (s : S) (chunks : list C) : pipe C Obj T S :=
  mkPipe chunks [] IRead [] [] (repeat PWait n) LWait pool s.

(** The senders were dropped. *)
Definition closed (i : iphase) : Prop := i = IDone \/ i = IDead.

Inductive step : pipe C Obj T S -> pipe C Obj T S -> Prop :=
(* input thread: 333-338 *)
| s_read : forall c u cs pq lq ps l o s,
    step (mkPipe (c :: u) cs IRead pq lq ps l o s)
         (mkPipe u (cs ++ [mkCell false None (Some c)]) (ISendP (length cs)) pq lq ps l o s)
(* 341-345, or the unwrap of 335 *)
| s_end : forall cs pq lq ps l o s,
    step (mkPipe [] cs IRead pq lq ps l o s)
         (mkPipe [] cs (if rd_ok then IDone else IDead) pq lq ps l o s)
(* 339 *)
| s_sendp : forall u cs i pq lq ps l o s, length pq < q ->
    step (mkPipe u cs (ISendP i) pq lq ps l o s) (mkPipe u cs (ISendL i) (pq ++ [i]) lq ps l o s)
| s_handp : forall u cs i lq ps k l o s, nth_error ps k = Some PWait ->
    step (mkPipe u cs (ISendP i) [] lq ps l o s) (mkPipe u cs (ISendL i) [] lq (upd k (PGot i) ps) l o s)
(* 340 *)
| s_sendl : forall u cs i pq lq ps l o s, length lq < q ->
    step (mkPipe u cs (ISendL i) pq lq ps l o s) (mkPipe u cs IRead pq (lq ++ [i]) ps l o s)
| s_handl : forall u cs i pq ps o s,
    step (mkPipe u cs (ISendL i) pq [] ps LWait o s) (mkPipe u cs IRead pq [] ps (LAwait i) o s)
(* parsers: 350-351 *)
| s_recv : forall u cs inp i pq lq ps k l o s, nth_error ps k = Some PWait ->
    step (mkPipe u cs inp (i :: pq) lq ps l o s) (mkPipe u cs inp pq lq (upd k (PGot i) ps) l o s)
(* 352 and 131-134 [get_input] *)
| s_input : forall u cs inp pq lq ps k l o s i c r, nth_error ps k = Some (PGot i) ->
    nth_error cs i = Some (mkCell false r (Some c)) ->
    step (mkPipe u cs inp pq lq ps l o s)
         (mkPipe u (upd i (mkCell false r None) cs) inp pq lq (upd k (PWork i c []) ps) l o s)
| s_input_fails : forall u cs inp pq lq ps k l o s i x, nth_error ps k = Some (PGot i) ->
    nth_error cs i = Some x -> c_ready x = true \/ c_input x = None ->
    step (mkPipe u cs inp pq lq ps l o s) (mkPipe u cs inp pq lq (upd k (PDead i) ps) l o s)
(* 353: taking an object from the pool *)
| s_take : forall u cs inp pq lq ps k l o s i c objs, nth_error ps k = Some (PWork i c objs) ->
    length objs < need c ->
    step (mkPipe u cs inp pq lq ps l o s)
         (mkPipe u cs inp pq lq (upd k (PWork i c (objs ++ [fst (pool_get fresh o)])) ps) l (snd (pool_get fresh o)) s)
(* 353-355 and 144-151 [set_result]; a parse that fails may have taken fewer objects *)
| s_set : forall u cs inp pq lq ps k l o s i c objs r x, nth_error ps k = Some (PWork i c objs) ->
    parse objs c = x -> is_pn x = false -> (is_ok x = true -> length objs = need c) ->
    nth_error cs i = Some r -> c_ready r = false ->
    step (mkPipe u cs inp pq lq ps l o s)
         (mkPipe u (upd i (mkCell true (Some x) (c_input r)) cs) inp pq lq (upd k PWait ps) l o s)
| s_set_fails : forall u cs inp pq lq ps k l o s i c objs r, nth_error ps k = Some (PWork i c objs) ->
    is_pn (parse objs c) = false ->
    nth_error cs i = Some r -> c_ready r = true ->
    step (mkPipe u cs inp pq lq ps l o s) (mkPipe u cs inp pq lq (upd k (PDead i) ps) l o s)
| s_panic : forall u cs inp pq lq ps k l o s i c objs, nth_error ps k = Some (PWork i c objs) ->
    is_pn (parse objs c) = true ->
    step (mkPipe u cs inp pq lq ps l o s) (mkPipe u cs inp pq lq (upd k (PDead i) ps) l o s)
(* 357 *)
| s_leave : forall u cs inp lq ps k l o s, nth_error ps k = Some PWait -> closed inp ->
    step (mkPipe u cs inp [] lq ps l o s) (mkPipe u cs inp [] lq (upd k PExit ps) l o s)
(* learner: 363-365 *)
| s_next : forall u cs inp pq i lq ps o s,
    step (mkPipe u cs inp pq (i :: lq) ps LWait o s) (mkPipe u cs inp pq lq ps (LAwait i) o s)
(* 366 and 136-142 [await_result] *)
| s_await : forall u cs inp pq lq ps o s i inpt t, nth_error cs i = Some (mkCell true (Some (Ok t)) inpt) ->
    step (mkPipe u cs inp pq lq ps (LAwait i) o s)
         (mkPipe u (upd i (mkCell true None inpt) cs) inp pq lq ps (LGot t) o s)
| s_await_fails : forall u cs inp pq lq ps o s i x, nth_error cs i = Some x -> c_ready x = true ->
    (forall t, c_result x <> Some (Ok t)) ->
    step (mkPipe u cs inp pq lq ps (LAwait i) o s)
         (mkPipe u (upd i (mkCell true None (c_input x)) cs) inp pq lq ps LDead o s)
(* 367-376: the first part of [process_example], then giving objects back (434) *)
| s_proc : forall u cs inp pq lq ps o s t s' objs, proc s t = Ok (s', objs) ->
    step (mkPipe u cs inp pq lq ps (LGot t) o s) (mkPipe u cs inp pq lq ps (LGive objs) o s')
| s_proc_fails : forall u cs inp pq lq ps o s t, is_ok (proc s t) = false ->
    step (mkPipe u cs inp pq lq ps (LGot t) o s) (mkPipe u cs inp pq lq ps LDead o s)
| s_give : forall u cs inp pq lq ps o s x objs,
    step (mkPipe u cs inp pq lq ps (LGive (x :: objs)) o s) (mkPipe u cs inp pq lq ps (LGive objs) (pool_return x o) s)
| s_given : forall u cs inp pq lq ps o s,
    step (mkPipe u cs inp pq lq ps (LGive []) o s) (mkPipe u cs inp pq lq ps LWait o s)
(* 378 *)
| s_stop : forall u cs inp pq ps o s, closed inp ->
    step (mkPipe u cs inp pq [] ps LWait o s) (mkPipe u cs inp pq [] ps LExit o s).

(** Finitely many steps. *)
Inductive steps : pipe C Obj T S -> pipe C Obj T S -> Prop :=
| steps_refl : forall p, steps p p
| steps_next : forall p p' p'', steps p p' -> step p' p'' -> steps p p''.

(** No thread can move any more. *)
Definition stuck (p : pipe C Obj T S) : Prop := forall p', ~ step p p'.

(** All threads have ended, so the scope is left; and all ended normally, so the command
    continues. *)
Definition all_ended (p : pipe C Obj T S) : Prop :=
  closed (pi_inp p) /\ (forall x, In x (pi_par p) -> x = PExit \/ exists i, x = PDead i) /\
  (pi_learner p = LExit \/ pi_learner p = LDead).
Definition all_done (p : pipe C Obj T S) : Prop :=
  pi_inp p = IDone /\ (forall x, In x (pi_par p) -> x = PExit) /\ pi_learner p = LExit.
End Pipeline.
Arguments pipe_init {C Obj T S}. Arguments step {C Obj T S}. Arguments steps {C Obj T S}. Arguments stuck {C Obj T S}.
Arguments all_ended {C Obj T S}. Arguments all_done {C Obj T S}.

(** The train command: the features given back (types.rs:203-211, 360-369), and the
    learner's part of an example. *)
Definition fts_objects {O : FOps} (f : features O) : list (sfeats O) :=
  match f with
  | FtsSimple s => [s]
  | FtsCb sh acts => match sh with Some s => s :: acts | None => acts end
  end.
Definition learner_proc {O : FOps} (dbg : bool) (md : tmode) (n : nat) (st : tstate O n) (x : features O * option (label O))
  : out (tstate O n * list (sfeats O)) :=
  let* y := process_example dbg md st (fst x) (snd x) in
  Ok (fst y, map sf_clear (fts_objects (snd y))).
(** the moves of the command with parser [ps], which needs [need chunk] pooled objects for a chunk, and the runs
    up to some point: [k] parser threads, [st] the learner's state at the start *)
Definition train_step {O : FOps} (dbg : bool) (md : tmode) (ps : parser O) (need : str -> nat) (n : nat) (q : nat) (rd_ok : bool) :=
  step sf_new need ps (learner_proc dbg md n) q rd_ok.
Definition train_run {O : FOps} (dbg : bool) (md : tmode) (ps : parser O) (need : str -> nat) (n : nat) (q : nat) (rd_ok : bool)
    (k : nat) (pool : list (sfeats O)) (st : tstate O n) (chunks : list str) :=
  steps sf_new need ps (learner_proc dbg md n) q rd_ok (pipe_init k pool st chunks).

(** Reductions and reduction stacks: /repo/reductionml-core/src/reduction.rs and
    reductions/*.rs.  A stack is a coin regressor under a chain of reductions, each
    with one child; every level carries the fields of its [ReductionWrapper].
    Printing of the debug reduction (debug.rs:125-141) is not modelled. *)
From Coq Require Import List NArith ZArith Bool.
From Verif Require Import Base FloatOps Model_Hash Model_Features Model_Weights Model_Loss
  Model_Interactions Model_Types Model_Explore Model_Coin.
Import ListNotations.
Open Scope N_scope.

(** u8 arithmetic: a panic with overflow checks, else modulo 256. *)
Definition u8_mul (dbg : bool) (a b : N) : out N :=
  if a * b <? 256 then Ok (a * b) else if dbg then Pn POverflow else Ok ((a * b) mod 256).
Definition u8_add (dbg : bool) (a b : N) : out N :=
  if a + b <? 256 then Ok (a + b) else if dbg then Pn POverflow else Ok ((a + b) mod 256).
Definition u8_sub (dbg : bool) (a b : N) : out N :=
  if b <=? a then Ok (a - b) else if dbg then Pn POverflow else Ok ((a + 256 - b) mod 256).

(** reduction.rs:15-20 [DepthInfo::increment], [decrement]; the offset is a u8 *)
Definition depth_inc (dbg : bool) (d nmb i : N) : out N :=
  let* m := u8_mul dbg nmb i in u8_add dbg d m.
Definition depth_dec (dbg : bool) (d nmb i : N) : out N :=
  let* m := u8_mul dbg nmb i in u8_sub dbg d m.

(** u32 subtraction and usize addition *)
Definition sub32 (dbg : bool) (a b : N) : out N :=
  if b <=? a then Ok (a - b) else if dbg then Pn POverflow else Ok (a + u32_mod - b).
Definition add64 (dbg : bool) (a b : N) : out N :=
  if a + b <? u64_mod then Ok (a + b) else if dbg then Pn POverflow else Ok ((a + b) mod u64_mod).

(** reduction.rs:128-136 [ReductionTypeDescription] *)
Record tdesc : Type := mkTd {
  td_in_label : label_type;
  td_out_label : option label_type;
  td_in_feats : feat_type;
  td_out_feats : option feat_type;
  td_in_pred : option pred_type;
  td_out_pred : pred_type
}.

(** reduction.rs:231-255 [check_and_get_reason]; only whether there is a reason *)
Definition opt_is {A} (eqb : A -> A -> bool) (x : option A) (y : A) : bool :=
  match x with Some a => eqb a y | None => false end.
Definition td_bad (t base : tdesc) : bool :=
  negb (opt_is label_type_eqb (td_out_label t) (td_in_label base))
  || negb (opt_is feat_type_eqb (td_out_feats t) (td_in_feats base))
  || negb (opt_is pred_type_eqb (td_in_pred t) (td_out_pred base)).

(** reduction.rs:265-271 [ReductionWrapper] without the boxed reduction; the type
    name is the constructor *)
Record winfo : Type := mkW { w_types : tdesc; w_below : N }.

(** cb_adf.rs:20-25 *)
Inductive cbtype : Type := Ips | Mtr.

(** The own fields of each reduction with a child. *)
Inductive kind (A : Type) : Type :=
| KBinary                                                   (* binary.rs:36-39 *)
| KCbAdf (ty : cbtype) (action_sum event_sum : N)           (* cb_adf.rs:65-77 *)
| KGreedy (eps : A)                                         (* cb_explore_adf_greedy.rs:50-54 *)
| KSoftmax (ueps lambda : A) (counter : N)                  (* cb_explore_adf_softmax.rs:58-63 *)
| KSquareCb (ueps gscale gexp : A) (counter : N)            (* cb_explore_adf_squarecb.rs:67-72 *)
| KElem (one two : namespace) (keep : bool) (nb : N)        (* elementwise_interaction.rs:53-59 *)
| KDebug.                                                   (* debug.rs:63-71 *)
Arguments KBinary {A}. Arguments KCbAdf {A}. Arguments KGreedy {A}. Arguments KSoftmax {A}.
Arguments KSquareCb {A}. Arguments KElem {A}. Arguments KDebug {A}.

(** A stack of [n] reductions above the coin regressor. *)
Fixpoint red (A : Type) (n : nat) : Type :=
  match n with
  | O => (winfo * coin A)%type
  | S m => (winfo * kind A * red A m)%type
  end.

Definition red_w {A} {n : nat} : red A n -> winfo :=
  match n with
  | O => fun r => fst r
  | S m => fun r => fst (fst r)
  end.
Definition red_types {A} {n : nat} (r : red A n) : tdesc := w_types (red_w r).

Section Stack.
Context (O : FOps).
Local Notation features := (features O).
Local Notation label := (label O).
Local Notation prediction := (prediction O).
Local Notation red := (red O).
Local Notation kind := (kind O).

(** What a predict call returns: prediction, features afterwards, depth afterwards. *)
Definition pres (X : Type) : Type := (X * features * N)%type.

(** reduction.rs:33-57 (predict), 58-86 (predict_then_learn), 87-110 (learn): the
    wrapper around a call; in debug builds the features are compared with a copy. *)
Definition wrap {X} (dbg : bool) (nmb mo : N) (f : features) (d : N)
    (body : features -> N -> out (pres X)) : out (pres X) :=
  let* d1 := depth_inc dbg d nmb mo in
  let* r := body f d1 in
  let '(x, f', d2) := r in
  let* d3 := depth_dec dbg d2 nmb mo in
  if dbg && negb (fts_absdiffeq f32_eps f' f) then Pn PAssert
  else Ok (x, f', d3).

(** A borrowed simple features object after a call through [Features::SparseSimpleRef]. *)
Definition back_simple (old : sfeats O) (f : features) : sfeats O :=
  match f with FtsSimple s => s | _ => old end.

(** [Iterator::min_by]: the first minimum; [gt] says the comparator answers Greater. *)
Fixpoint min_by_from (gt : O -> O -> out bool) (best : N * (N * O)) (l : list (N * (N * O)))
  : out (N * (N * O)) :=
  match l with
  | [] => Ok best
  | y :: r =>
      let* g := gt (snd (snd best)) (snd (snd y)) in
      min_by_from gt (if g then y else best) r
  end.
Definition min_by (gt : O -> O -> out bool) (l : list (N * O)) : out (N * (N * O)) :=
  match enum_from 0 l with
  | [] => Pn PNone           (* min_by(..).unwrap() on nothing *)
  | x :: r => min_by_from gt x r
  end.
(** comparators: greedy.rs:129-137, and [partial_cmp(..).unwrap()] *)
Definition gt_total (a b : O) : out bool := Ok (f_gtb a b).
Definition gt_partial (a b : O) : out bool :=
  match f_pcmp a b with
  | None => Pn PNone
  | Some Gt => Ok true
  | Some _ => Ok false
  end.

(** cb_explore_adf_greedy.rs:121-149 [action_scores_to_probs] *)
Definition greedy_probs (eps : O) (scores : list (N * O)) : out (list (N * O)) :=
  let* best := min_by gt_total scores in
  let equal := f_div O eps (f_of_nat (length scores)) in
  let l := map (fun s => (fst s, equal)) scores in
  let i := N.to_nat (fst best) in
  match nth_error l i with
  | None => Pn PIndex
  | Some s => Ok (upd i (fst s, f_add O (snd s) (f_sub O f1 eps)) l)
  end.

(** cb_explore_adf_squarecb.rs:142-170 *)
Definition squarecb_gamma (gscale gexp : O) (counter : N) : O :=
  f_mul O gscale (f_pow O (f_of_N counter) gexp).
Definition squarecb_probs (dbg : bool) (ueps gamma : O) (scores : list (N * O))
  : out (list (N * O)) :=
  let* best := min_by gt_partial scores in
  let '(bi, (bact, bscore)) := best in
  let n := f_of_nat (length scores) in
  let step s := if fst s =? bact then snd s
                else f_div O f1 (f_add O n (f_mul O gamma (f_sub O (snd s) bscore))) in
  let l := map (fun s => (fst s, step s)) scores in
  let total := fold_left (fun acc s => if fst s =? bact then acc else f_add O acc (snd s)) l f0 in
  match nth_error l (N.to_nat bi) with
  | None => Pn PIndex
  | Some s => unwrap_res (enforce_min_prob dbg ueps false
                            (upd (N.to_nat bi) (fst s, f_sub O f1 total) l))
  end.

(** cb_explore_adf_softmax.rs:124-144 *)
Definition softmax_probs (dbg : bool) (ueps lambda : O) (scores : list (N * O))
  : out (list (N * O)) :=
  let* best := min_by gt_partial scores in
  let bscore := snd (snd best) in
  let l := map (fun s => (fst s, f_exp O (f_mul O (f_neg O lambda) (f_sub O (snd s) bscore)))) scores in
  let total := fold_left (fun acc s => f_add O acc (snd s)) l f0 in
  unwrap_res (enforce_min_prob dbg ueps false (map (fun s => (fst s, f_div O (snd s) total)) l)).

(** elementwise_interaction.rs:144-172: the merge loop *)
Fixpoint elem_merge (dbg : bool) (b1 b2 cb : N) (l1 : list (N * O))
  : list (N * O) -> sfn O -> out (sfn O) :=
  fix go (l2 : list (N * O)) (dest : sfn O) : out (sfn O) :=
    match l1, l2 with
    | (i1, v1) :: r1, (i2, v2) :: r2 =>
        let* idx1 := sub32 dbg i1 b1 in
        let* idx2 := sub32 dbg i2 b2 in
        let* di := add32 dbg cb idx1 in
        if idx1 =? idx2 then elem_merge dbg b1 b2 cb r1 r2 (sfn_add di (f_mul O v1 v2) dest)
        else if idx1 <? idx2 then elem_merge dbg b1 b2 cb r1 l2 dest
        else go r2 dest
    | _, _ => Ok dest
    end.

(** elementwise_interaction.rs:133-139: the composite namespace *)
Definition elem_ns (one two : namespace) : namespace :=
  NsRawHash (wrap32 (ns_hash one * ns_hash two)).

(** elementwise_interaction.rs:126-175 [elementwise_multiply] *)
Definition elem_multiply (dbg : bool) (nb : N) (f : sfeats O) (one two : namespace)
  : out (sfn O) :=
  let* mk := mask_from_bits dbg nb in
  let b1 := mask mk (ns_hash one) in
  let b2 := mask mk (ns_hash two) in
  let cns := elem_ns one two in
  let cb := mask mk (ns_hash cns) in
  let* n1 := opt_or PNone (sf_get one f) in
  let* n2 := opt_or PNone (sf_get two f) in
  elem_merge dbg b1 b2 cb (sfn_iter n1) (sfn_iter n2) (sfn_new cns).

(** elementwise_interaction.rs:185-209 (predict), 219-249 (predict_then_learn),
    259-279 (learn): the same frame around the call of the regressor *)
Definition elem_frame {X} (dbg : bool) (one two : namespace) (keep : bool) (nb : N)
    (call : features -> out (pres X)) (f : features) : out (pres X) :=
  let* s := as_simple f in
  let cns := elem_ns one two in
  let* dest := elem_multiply dbg nb s one two in
  let s1 := sf_set_ns cns dest s in
  if keep then
    let* r := call (FtsSimple s1) in
    let '(x, f', d') := r in
    Ok (x, FtsSimple (snd (sf_remove_ns cns (back_simple s1 f'))), d')
  else
    let (o1, s2) := sf_remove_ns one s1 in
    let* n1 := opt_or PNone o1 in
    let (o2, s3) := sf_remove_ns two s2 in
    let* n2 := opt_or PNone o2 in
    let* r := call (FtsSimple s3) in
    let '(x, f', d') := r in
    let s4 := snd (sf_remove_ns cns (back_simple s3 f')) in
    Ok (x, FtsSimple (sf_set_ns two n2 (sf_set_ns one n1 s4)), d').

(** binary.rs:96-100 *)
Definition binary_label (b : bool) : label :=
  LbSimple (if b then f1 else f_neg O f1) f1.

(** cb_adf.rs:127-134 [generate_ips_simple_label] *)
Definition ips_label (dbg : bool) (action : N) (cost prob : O) (i : N) : out label :=
  if i =? action then
    if dbg && negb (f_gtb prob f0) then Pn PAssert
    else Ok (LbSimple (f_div O cost prob) f1)
  else Ok (LbSimple f0 f1).

(** cb_adf.rs:148-150, 157-159: with a context, append it and remove it *)
Definition append_opt (f : sfeats O) (shared : option (sfeats O)) : out (sfeats O) :=
  match shared with Some s => sf_append f s | None => Ok f end.
Definition remove_opt (dbg : bool) (f : sfeats O) (shared : option (sfeats O)) : out (sfeats O) :=
  match shared with Some s => sf_remove dbg f s | None => Ok f end.

(** cb_adf.rs:147-160: the loop over actions *)
Fixpoint cb_predict_loop (dbg : bool) (child : features -> N -> N -> out (pres prediction))
    (shared : option (sfeats O)) (actions : list (sfeats O)) (i d : N)
  : out (list (N * O) * list (sfeats O) * N) :=
  match actions with
  | [] => Ok ([], [], d)
  | a :: rest =>
      let* a1 := append_opt a shared in
      let* r := child (FtsSimple a1) d 0 in
      let '(p, f', d') := r in
      let* sc := as_scalar p in
      let* a2 := remove_opt dbg (back_simple a1 f') shared in
      let* t := cb_predict_loop dbg child shared rest (i + 1) d' in
      let '(scores, acts, d'') := t in
      Ok ((i, snd sc) :: scores, a2 :: acts, d'')
  end.

(** cb_adf.rs:177-191: the loop of ips learning *)
Fixpoint cb_ips_loop {X} (dbg : bool) (learn : X -> features -> label -> N -> N -> out (pres X))
    (action : N) (cost prob : O)
    (shared : option (sfeats O)) (actions : list (sfeats O)) (i : N) (child : X) (d : N)
  : out (X * list (sfeats O) * N) :=
  match actions with
  | [] => Ok (child, [], d)
  | a :: rest =>
      let* a1 := append_opt a shared in
      let* lb := ips_label dbg action cost prob i in
      let* r := learn child (FtsSimple a1) lb d 0 in
      let '(child', f', d') := r in
      let* a2 := remove_opt dbg (back_simple a1 f') shared in
      let* t := cb_ips_loop dbg learn action cost prob shared rest (i + 1) child' d' in
      let '(child'', acts, d'') := t in
      Ok (child'', a2 :: acts, d'')
  end.

(** The [predict] of a reduction with a child (not the wrapper). *)
Definition kind_predict (dbg : bool) (k : kind) (child : features -> N -> N -> out (pres prediction))
    (f : features) (d mo : N) : out (pres prediction) :=
  match k with
  | KBinary =>                                             (* binary.rs:104-114 *)
      let* r := child f d 0 in
      let '(p, f', d') := r in
      let* sc := as_scalar p in
      Ok (PrBinary (f_gtb (fst sc) f0), f', d')
  | KCbAdf _ _ _ =>                                        (* cb_adf.rs:138-163 *)
      let* sa := as_cb f in
      let* r := cb_predict_loop dbg child (fst sa) (snd sa) 0 d in
      let '(scores, acts, d') := r in
      Ok (PrScores scores, FtsCb (fst sa) acts, d')
  | KGreedy eps =>                                         (* cb_explore_adf_greedy.rs:154-163 *)
      let* r := child f d 0 in
      let '(p, f', d') := r in
      let* sc := as_scores p in
      let* pr := greedy_probs eps sc in
      Ok (PrProbs pr, f', d')
  | KSoftmax ueps lambda _ =>                              (* cb_explore_adf_softmax.rs:117-147 *)
      let* r := child f d 0 in
      let '(p, f', d') := r in
      let* sc := as_scores p in
      let* pr := softmax_probs dbg ueps lambda sc in
      Ok (PrProbs pr, f', d')
  | KSquareCb ueps gs ge counter =>                        (* cb_explore_adf_squarecb.rs:136-173 *)
      let* r := child f d 0 in
      let '(p, f', d') := r in
      let* sc := as_scores p in
      let* pr := squarecb_probs dbg ueps (squarecb_gamma gs ge counter) sc in
      Ok (PrProbs pr, f', d')
  | KElem one two keep nb =>                               (* elementwise_interaction.rs:179-210 *)
      elem_frame dbg one two keep nb (fun f => child f d 0) f
  | KDebug => child f d 0                                  (* debug.rs:145-170 *)
  end.

(** coin.rs:187-219 *)
Definition coin_predict_body (dbg : bool) (c : coin O) (f : features) (d : N) : out (pres prediction) :=
  let* s := as_simple f in
  let* p := coin_predict dbg c s in
  Ok (p, f, d).

(** reduction.rs:33-57 with the [predict] of each reduction *)
Fixpoint predict (dbg : bool) (n : nat) : red n -> features -> N -> N -> out (pres prediction) :=
  match n with
  | 0%nat => fun r f d mo => wrap dbg (w_below (fst r)) mo f d (coin_predict_body dbg (snd r))
  | S m => fun r f d mo =>
      let '(w, k, ch) := r in
      wrap dbg (w_below w) mo f d (fun f d => kind_predict dbg k (predict dbg m ch) f d mo)
  end.

(** The [learn] of a reduction with a child; returns its new fields and child. *)
Definition kind_learn {X} (dbg : bool) (k : kind)
    (learn : X -> features -> label -> N -> N -> out (pres X)) (ch : X)
    (f : features) (lb : label) (d mo : N) : out (pres (kind * X)) :=
  match k with
  | KBinary =>                                             (* binary.rs:137-152 *)
      let* b := as_binary_label lb in
      let* r := learn ch f (binary_label b) d 0 in
      let '(ch', f', d') := r in Ok ((KBinary, ch'), f', d')
  | KCbAdf ty asum esum =>                                 (* cb_adf.rs:165-222 *)
      let* sa := as_cb f in
      let* l := as_cb_label lb in
      let '(action, cost, prob) := l in
      let '(shared, actions) := sa in
      match ty with
      | Ips =>
          let* r := cb_ips_loop dbg learn action cost prob shared actions 0 ch d in
          let '(ch', acts, d') := r in
          Ok ((KCbAdf Ips asum esum, ch'), FtsCb shared acts, d')
      | Mtr =>
          let* asum' := add64 dbg asum (N.of_nat (length actions)) in
          let* esum' := add64 dbg esum 1 in
          let weight := f_mul O (f_div O f1 prob) (f_div O (f_of_N esum') (f_of_N asum')) in
          match shared with
          | None => Pn PTodo
          | Some s =>
              let* a := opt_or PNone (nth_error actions (N.to_nat action)) in
              let* s1 := sf_append s a in
              let* r := learn ch (FtsSimple s1) (LbSimple cost weight) d 0 in
              let '(ch', f', d') := r in
              let* s2 := sf_remove dbg (back_simple s1 f') a in
              Ok ((KCbAdf Mtr asum' esum', ch'), FtsCb (Some s2) actions, d')
          end
      end
  | KGreedy _ | KSoftmax _ _ _ =>        (* cb_explore_adf_greedy.rs:165-173, softmax.rs:149-157 *)
      let* r := learn ch f lb d 0 in
      let '(ch', f', d') := r in Ok ((k, ch'), f', d')
  | KSquareCb ue gs ge counter =>                          (* cb_explore_adf_squarecb.rs:175-189 *)
      let* l := as_cb_label lb in
      let '(action, cost, prob) := l in
      let* r := learn ch f (LbCb action cost f1) d 0 in
      let '(ch', f', d') := r in
      let* counter' := add64 dbg counter 1 in
      Ok ((KSquareCb ue gs ge counter', ch'), f', d')
  | KElem one two keep nb =>                               (* elementwise_interaction.rs:252-280 *)
      let* r := elem_frame dbg one two keep nb (fun f => learn ch f lb d 0) f in
      let '(ch', f', d') := r in Ok ((k, ch'), f', d')
  | KDebug =>                                              (* debug.rs:211-236 *)
      let* r := learn ch f lb d 0 in
      let '(ch', f', d') := r in Ok ((k, ch'), f', d')
  end.

(** coin.rs:221-240 *)
Definition coin_learn_body (dbg : bool) (c : coin O) (f : features) (lb : label) (d : N)
  : out (pres (coin O)) :=
  let* s := as_simple f in
  let* l := as_simple_label lb in
  let* c' := coin_learn dbg c s (fst l) (snd l) in
  Ok (c', f, d).

(** reduction.rs:87-110 with the [learn] of each reduction *)
Fixpoint learn (dbg : bool) (n : nat) : red n -> features -> label -> N -> N -> out (pres (red n)) :=
  match n with
  | 0%nat => fun r f lb d mo =>
      let '(w, c) := r in
      wrap dbg (w_below w) mo f d (fun f d =>
        let* x := coin_learn_body dbg c f lb d in
        let '(c', f', d') := x in Ok ((w, c'), f', d'))
  | S m => fun r f lb d mo =>
      let '(w, k, ch) := r in
      wrap dbg (w_below w) mo f d (fun f d =>
        let* x := kind_learn dbg k (learn dbg m) ch f lb d mo in
        let '((k', ch'), f', d') := x in Ok ((w, k', ch'), f', d'))
  end.

(** reduction.rs:313-328: the default [predict_then_learn] of a reduction from its
    own predict and learn *)
Definition default_ptl {X} (p : features -> N -> out (pres prediction))
    (l : features -> N -> out (pres X)) (f : features) (d : N)
  : out (pres (prediction * X)) :=
  let* r := p f d in
  let '(pr, f1, d1) := r in
  let* s := l f1 d1 in
  let '(x, f2, d2) := s in
  if d2 =? d then Ok ((pr, x), f2, d2) else Pn PAssert.

(** The [predict_then_learn] of a reduction with a child. *)
Definition kind_ptl {X} (dbg : bool) (k : kind)
    (predict : X -> features -> N -> N -> out (pres prediction))
    (learn : X -> features -> label -> N -> N -> out (pres X))
    (ptl : X -> features -> label -> N -> N -> out (pres (prediction * X)))
    (ch : X) (f : features) (lb : label) (d mo : N) : out (pres (prediction * (kind * X))) :=
  match k with
  | KBinary =>                                             (* binary.rs:116-135 *)
      let* b := as_binary_label lb in
      let* r := ptl ch f (binary_label b) d 0 in
      let '((p, ch'), f', d') := r in
      let* sc := as_scalar p in
      Ok ((PrBinary (f_gtb (fst sc) f0), (KBinary, ch')), f', d')
  | KElem one two keep nb =>                               (* elementwise_interaction.rs:212-250 *)
      let* r := elem_frame dbg one two keep nb (fun f => ptl ch f lb d 0) f in
      let '((p, ch'), f', d') := r in Ok ((p, (k, ch')), f', d')
  | KDebug =>                                              (* debug.rs:172-209: passes model_offset on *)
      let* r := ptl ch f lb d mo in
      let '((p, ch'), f', d') := r in Ok ((p, (k, ch')), f', d')
  | _ => default_ptl (fun f d => kind_predict dbg k (predict ch) f d mo)
                     (fun f d => kind_learn dbg k learn ch f lb d mo) f d
  end.

(** reduction.rs:58-86 with the [predict_then_learn] of each reduction *)
Fixpoint predict_then_learn (dbg : bool) (n : nat)
  : red n -> features -> label -> N -> N -> out (pres (prediction * red n)) :=
  match n with
  | 0%nat => fun r f lb d mo =>
      let '(w, c) := r in
      wrap dbg (w_below w) mo f d (fun f d =>
        let* x := default_ptl (coin_predict_body dbg c) (fun f d => coin_learn_body dbg c f lb d) f d in
        let '((p, c'), f', d') := x in Ok ((p, (w, c')), f', d'))
  | S m => fun r f lb d mo =>
      let '(w, k, ch) := r in
      wrap dbg (w_below w) mo f d (fun f d =>
        let* x := kind_ptl dbg k (predict dbg m) (learn dbg m) (predict_then_learn dbg m) ch f lb d mo in
        let '((p, (k', ch')), f', d') := x in Ok ((p, (w, k', ch')), f', d'))
  end.

(** reduction.rs:117-128, 340-352 and coin.rs:247-276 [sensitivity] *)
Fixpoint sensitivity (dbg : bool) (n : nat) : red n -> features -> out O :=
  match n with
  | 0%nat => fun r f => let* s := as_simple f in coin_sensitivity dbg (snd r) s
  | S m => fun r f => sensitivity dbg m (snd r) f
  end.

(** workspace.rs:170-186: the entry points, depth 0 and model offset 0; the features
    object is returned. *)
Definition ws_predict (dbg : bool) {n} (r : red n) (f : features) : out (prediction * features) :=
  let* x := predict dbg n r f 0 0 in
  let '(p, f', _) := x in Ok (p, f').
Definition ws_learn (dbg : bool) {n} (r : red n) (f : features) (lb : label) : out (red n * features) :=
  let* x := learn dbg n r f lb 0 0 in
  let '(r', f', _) := x in Ok (r', f').
Definition ws_ptl (dbg : bool) {n} (r : red n) (f : features) (lb : label)
  : out (prediction * red n * features) :=
  let* x := predict_then_learn dbg n r f lb 0 0 in
  let '((p, r'), f', _) := x in Ok (p, r', f').

End Stack.
Arguments wrap {O X}. Arguments back_simple {O}. Arguments min_by_from {O}. Arguments min_by {O}.
Arguments gt_total {O}. Arguments gt_partial {O}. Arguments greedy_probs {O}.
Arguments squarecb_gamma {O}. Arguments squarecb_probs {O}. Arguments softmax_probs {O}.
Arguments elem_merge {O}. Arguments elem_multiply {O}. Arguments elem_frame {O X}.
Arguments binary_label {O}. Arguments ips_label {O}. Arguments append_opt {O}. Arguments remove_opt {O}.
Arguments cb_predict_loop {O}. Arguments cb_ips_loop {O X}. Arguments kind_predict {O}.
Arguments coin_predict_body {O}. Arguments predict {O}. Arguments kind_learn {O X}.
Arguments coin_learn_body {O}. Arguments learn {O}. Arguments default_ptl {O X}. Arguments kind_ptl {O X}.
Arguments predict_then_learn {O}. Arguments sensitivity {O}.
Arguments ws_predict {O} dbg {n}. Arguments ws_learn {O} dbg {n}. Arguments ws_ptl {O} dbg {n}.

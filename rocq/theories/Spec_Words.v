(** What C98 talks about: examples as they are written, with the same features in another
    order, or given several times. *)
From Coq Require Import List NArith ZArith Permutation Reals.
From Verif Require Import Base FloatOps FloatR Model_Hash Model_Features Model_Interactions Model_Types Model_Weights Model_Loss Model_Explore Model_Coin Model_Stack Model_Text Model_Train Model_Json Model_JsonTrain Model_Save Model_Command
  Spec_Features Spec_Formats Spec_Shuffle.
Import ListNotations.
Open Scope N_scope.

(** What is written apart from the values: a name, a name with a string, or the position of a
    number without a name; and the namespace. *)
Inductive mark : Type := MName (name : str) | MText (name s : str) | MPos (i : N).
Definition word : Type := option str * mark.
Definition word_dec : forall a b : word, {a = b} + {a <> b}.
Proof. repeat decide equality. Defined.

Section Words.
Context {O : FOps}.
Definition item_mark (it : str * fval O) : mark * O :=
  match snd it with
  | VNum x => (MName (fst it), x)
  | VStr s => (MText (fst it) s, f1)
  | VFlag => (MName (fst it), f1)
  end.
Fixpoint numbered (z : N) (xs : list O) : list (mark * O) :=
  match xs with [] => [] | x :: xs => (MPos z, x) :: numbered (N.succ z) xs end.
Definition body_marks (b : body O) : list (mark * O) :=
  match b with BNamed l => map item_mark l | BVector xs => numbered 0 xs end.
(** the words of a part, with their values *)
Definition words (p : part O) : list (word * O) :=
  flat_map (fun e => map (fun m => ((fst e, fst m), snd m)) (body_marks (snd e))) p.

(** two examples of the same shape whose parts are related by [E] *)
Definition exam_with (E : part O -> part O -> Prop) (e e' : exam O) : Prop :=
  match e, e' with
  | ESimple p _, ESimple q _ => E p q
  | EBandit s x _, EBandit t y _ =>
      match s, t with Some p, Some q => E p q | None, None => True | _, _ => False end /\ Forall2 E x y
  | _, _ => False
  end.
(** the same words with the same values, in any order: also with namespaces split or joined *)
Definition same_words (p q : part O) : Prop := Permutation (words p) (words q).
End Words.

(** the sum of the values of a word *)
Fixpoint total (a : word) (l : list (word * RF)) : R :=
  match l with
  | [] => 0%R
  | (b, v) :: l => if word_dec b a then (v + total a l)%R else total a l
  end.
(** the same words, with the same sums of their values *)
Definition same_totals (p q : part RF) : Prop := forall a,
  (In a (map fst (words p)) <-> In a (map fst (words q))) /\ total a (words p) = total a (words q).

(** no index twice in what a parser without recycled objects makes of the chunk *)
Definition clash_free {O : FOps} (H : hasher) (pf : str -> option O) (rd : str -> option (json O)) (al : alloc) (fmt : format) (gc : gconfig)
    {n} (r : red O n) (c : str) : Prop := forall ps need f lb,
  get_parser H pf rd al false fmt gc r = Ok (ps, need) -> ps [] c = Ok (f, lb) -> no_clash_fts H gc f.

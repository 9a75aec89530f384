(** Common definitions: outcomes of Rust calls and list helpers.
    Nothing here models a particular function of /repo. *)
From Coq Require Import List NArith ZArith Bool Lia.
Import ListNotations.

(** Why a call panicked.  [PType] is the panic of [as_inner().unwrap()] /
    [try_into().unwrap()] on a value of the wrong variant
    (/repo/reductionml-core/src/types.rs:9-32, 213-251). *)
Inductive panic : Type :=
| PType        (* wrong enum variant *)
| PNone        (* unwrap / expect on None *)
| PErr         (* unwrap / expect on Err *)
| PNaN         (* partial_cmp(..).unwrap() on NaN, or clamp with bad bounds *)
| PIndex       (* slice index out of bounds *)
| POverflow    (* arithmetic overflow with overflow checks on *)
| PAssert      (* assert! / debug_assert! failed *)
| PTodo        (* todo!() / explicit panic!() *)
| PAlloc.      (* capacity overflow *)

(** Errors returned as [Err]; the message text is not modelled.
    /repo/reductionml-core/src/error.rs *)
Inductive error : Type :=
| EInvalidArgument
| EInvalidConfiguration
| EParser
| EJson.

(** Outcome of a call: a value, a returned [Err], or a panic. *)
Inductive out (A : Type) : Type :=
| Ok (a : A)
| Er (e : error)
| Pn (p : panic).
Arguments Ok {A} a.
Arguments Er {A} e.
Arguments Pn {A} p.

Definition bind {A B} (x : out A) (f : A -> out B) : out B :=
  match x with
  | Ok a => f a
  | Er e => Er e
  | Pn p => Pn p
  end.

Declare Scope out_scope.
Delimit Scope out_scope with out.
Notation "'let*' x := e 'in' f" := (bind e (fun x => f))
  (at level 200, x pattern, e at level 100, f at level 200, right associativity) : out_scope.
Open Scope out_scope.

Definition opt_or {A} (p : panic) (x : option A) : out A :=
  match x with Some a => Ok a | None => Pn p end.

Definition is_ok {A} (x : out A) : bool := match x with Ok _ => true | _ => false end.
Definition is_pn {A} (x : out A) : bool := match x with Pn _ => true | _ => false end.

(** [unwrap] on a [Result]. *)
Definition unwrap_res {A} (x : out A) : out A :=
  match x with Ok a => Ok a | Er _ => Pn PErr | Pn p => Pn p end.

(** Monadic iteration. *)
Fixpoint foldm {A B} (f : B -> A -> out B) (l : list A) (b : B) : out B :=
  match l with
  | [] => Ok b
  | a :: r => let* b' := f b a in foldm f r b'
  end.

Fixpoint mapm {A B} (f : A -> out B) (l : list A) : out (list B) :=
  match l with
  | [] => Ok []
  | a :: r => let* b := f a in let* bs := mapm f r in Ok (b :: bs)
  end.

(** Replace element [i]; unchanged when out of range. *)
Fixpoint upd {A} (i : nat) (x : A) (l : list A) : list A :=
  match l, i with
  | [], _ => []
  | _ :: r, O => x :: r
  | a :: r, S j => a :: upd j x r
  end.

(** [enumerate()] starting at [n]. *)
Fixpoint enum_from {A} (n : N) (l : list A) : list (N * A) :=
  match l with
  | [] => []
  | a :: r => (n, a) :: enum_from (N.succ n) r
  end.

Definition list_eqb {A} (eqb : A -> A -> bool) : list A -> list A -> bool :=
  fix go l1 l2 :=
    match l1, l2 with
    | [], [] => true
    | a :: r, b :: s => eqb a b && go r s
    | _, _ => false
    end.

Lemma bind_ok : forall A B (x : out A) (f : A -> out B) b,
  bind x f = Ok b -> exists a, x = Ok a /\ f a = Ok b.
Proof. intros A B [a|e|p] f b H; simpl in H; try discriminate; eauto. Qed.

Lemma foldm_app : forall A B (f : B -> A -> out B) l1 l2 b,
  foldm f (l1 ++ l2) b = bind (foldm f l1 b) (foldm f l2).
Proof.
  induction l1 as [|a l1 IH]; intros l2 b; simpl; auto.
  destruct (f b a); simpl; auto.
Qed.

Lemma upd_length : forall A i (x : A) l, length (upd i x l) = length l.
Proof. intros A i x l; revert i; induction l; intros [|i]; simpl; auto. Qed.

Lemma nth_error_upd_eq : forall A i (x : A) l,
  (i < length l)%nat -> nth_error (upd i x l) i = Some x.
Proof.
  intros A i x l; revert i; induction l as [|a l IH]; intros i Hi; [inversion Hi|].
  destruct i; simpl in *; auto. apply IH; lia.
Qed.

Lemma nth_error_upd_ne : forall A i j (x : A) l,
  i <> j -> nth_error (upd i x l) j = nth_error l j.
Proof.
  intros A i j x l; revert i j; induction l as [|a l IH]; intros i j Hij; destruct i, j; simpl; auto.
  - congruence.
Qed.

Lemma nth_upd_eq : forall A i (x d : A) l,
  (i < length l)%nat -> nth i (upd i x l) d = x.
Proof.
  intros. apply nth_error_nth with (d := d). now apply nth_error_upd_eq.
Qed.

Lemma nth_upd_ne : forall A i j (x d : A) l,
  i <> j -> nth j (upd i x l) d = nth j l d.
Proof.
  intros A i j x d l; revert i j; induction l as [|a l IH]; intros i j Hij; destruct i, j; simpl; auto.
  - congruence.
Qed.

Lemma enum_from_length : forall A (l : list A) n, length (enum_from n l) = length l.
Proof. induction l; simpl; auto. Qed.

Lemma enum_from_snd : forall A (l : list A) n, map snd (enum_from n l) = l.
Proof. induction l as [|a l IH]; simpl; intros; auto. now rewrite IH. Qed.

Lemma enum_from_nth : forall A (l : list A) n k,
  nth_error (enum_from n l) k =
  match nth_error l k with Some a => Some ((n + N.of_nat k)%N, a) | None => None end.
Proof.
  induction l as [|a l IH]; intros n k; destruct k; simpl; auto.
  - now rewrite N.add_0_r.
  - rewrite IH. destruct (nth_error l k); auto. do 2 f_equal. lia.
Qed.

Lemma mapm_length : forall A B (f : A -> out B) l r,
  mapm f l = Ok r -> length r = length l.
Proof.
  induction l as [|a l IH]; simpl; intros r H.
  - now inversion H.
  - apply bind_ok in H. destruct H as (b & _ & H).
    apply bind_ok in H. destruct H as (bs & H & E). inversion E; subst. simpl. f_equal. auto.
Qed.

Lemma mapm_nth : forall A B (f : A -> out B) l r k a,
  mapm f l = Ok r -> nth_error l k = Some a ->
  exists b, nth_error r k = Some b /\ f a = Ok b.
Proof.
  induction l as [|x l IH]; simpl; intros r k a H Hk; [destruct k; discriminate|].
  apply bind_ok in H. destruct H as (b & Hb & H).
  apply bind_ok in H. destruct H as (bs & Hbs & E). inversion E; subst.
  destruct k; simpl in *.
  - inversion Hk; subst. eauto.
  - eapply IH; eauto.
Qed.

(** Two outcomes are related: both values related, or the same failure. *)
Inductive orel {A B : Type} (R : A -> B -> Prop) : out A -> out B -> Prop :=
| orel_ok : forall a b, R a b -> orel R (Ok a) (Ok b)
| orel_er : forall e, orel R (Er e) (Er e)
| orel_pn : forall p, orel R (Pn p) (Pn p).

Lemma orel_bind : forall A B C D (R : A -> B -> Prop) (Q : C -> D -> Prop) x y f g,
  orel R x y -> (forall a b, R a b -> orel Q (f a) (g b)) -> orel Q (bind x f) (bind y g).
Proof. intros A B C D R Q x y f g H K; inversion H; subst; simpl; auto; constructor. Qed.

Lemma orel_eq : forall A (x y : out A), orel eq x y <-> x = y.
Proof.
  intros; split; intros H.
  - inversion H; subst; auto.
  - subst. destruct y; constructor; auto.
Qed.

Lemma orel_refl : forall A (R : A -> A -> Prop) (x : out A), (forall a, R a a) -> orel R x x.
Proof. intros A R [a|e|p] H; constructor; auto. Qed.

Lemma orel_mono : forall A B (R Q : A -> B -> Prop) x y,
  orel R x y -> (forall a b, R a b -> Q a b) -> orel Q x y.
Proof. intros A B R Q x y H K; inversion H; subst; constructor; auto. Qed.

Lemma orel_foldm : forall A B1 B2 (R : B1 -> B2 -> Prop) (f : B1 -> A -> out B1) (g : B2 -> A -> out B2) l b1 b2,
  R b1 b2 -> (forall a c1 c2, In a l -> R c1 c2 -> orel R (f c1 a) (g c2 a)) ->
  orel R (foldm f l b1) (foldm g l b2).
Proof.
  induction l as [|a l IH]; simpl; intros b1 b2 H K.
  - constructor; auto.
  - apply orel_bind with (R := R).
    + apply K; auto.
    + intros c1 c2 Hc. apply IH; auto.
Qed.

Lemma mapm_ext : forall A B (f g : A -> out B) l,
  (forall a, In a l -> f a = g a) -> mapm f l = mapm g l.
Proof.
  induction l as [|a l IH]; simpl; intros H; auto.
  rewrite H by auto. destruct (g a); simpl; auto. rewrite IH by auto. reflexivity.
Qed.

Lemma foldm_inv : forall A B (P : B -> Prop) (f : B -> A -> out B) l b r,
  P b -> (forall a b b', In a l -> P b -> f b a = Ok b' -> P b') ->
  foldm f l b = Ok r -> P r.
Proof.
  induction l as [|a l IH]; simpl; intros b r Hb Hf H.
  - inversion H; subst; auto.
  - apply bind_ok in H. destruct H as (b' & H1 & H2).
    eapply IH; [| |exact H2]; eauto.
Qed.

Lemma flat_map_ext_in : forall A B (f g : A -> list B) l,
  (forall a, In a l -> f a = g a) -> flat_map f l = flat_map g l.
Proof.
  induction l as [|a l IH]; intros H; simpl; auto. rewrite H by (left; auto). rewrite IH; auto.
  intros; apply H; right; auto.
Qed.

Lemma map_flat_map : forall A B C (f : B -> C) (g : A -> list B) l,
  map f (flat_map g l) = flat_map (fun a => map f (g a)) l.
Proof. induction l as [|a l IH]; simpl; auto. now rewrite map_app, IH. Qed.

(** * Rust results, panics and 64-bit arithmetic.

    Conventions shared by all model files.  Nothing here is specific to Panacea:
    it models the part of Rust's semantics the crate relies on
    ([src/num_types.rs:3-5]: [Scalar = u64], [SignedScalar = i64]). *)
From Coq Require Export List Arith ZArith Lia Bool.
Export ListNotations.
Open Scope Z_scope.

(** Why a Rust function panicked. *)
Inductive panic : Set :=
| PAssert      (* assert! / assert_eq! *)
| PIndex       (* slice or vector index out of range *)
| PUnwrap      (* unwrap() on None *)
| PExplicit    (* panic!("..") *)
| POverflow    (* arithmetic overflow with overflow checks on *)
| PTodo        (* todo!() *)
| PDivZero.    (* division or remainder by zero *)

(** A function that may panic. *)
Inductive res (A : Type) : Type :=
| Ok (a : A)
| Panic (p : panic).
Arguments Ok {A} a.
Arguments Panic {A} p.

Definition bind {A B} (x : res A) (f : A -> res B) : res B :=
  match x with Ok a => f a | Panic p => Panic p end.
Notation "x <- e ;; f" := (bind e (fun x => f)) (at level 61, e at next level, right associativity).
Notation "' x <- e ;; f" := (bind e (fun x => f)) (at level 61, x pattern, e at next level, right associativity).
Notation "e ;;; f" := (bind e (fun _ => f)) (at level 61, right associativity).

(** [assert!(b)] *)
Definition rassert (b : bool) : res unit := if b then Ok tt else Panic PAssert.

(** Iterator [map(..).collect()] with a panicking body, left to right. *)
Fixpoint mapM {A B} (f : A -> res B) (l : list A) : res (list B) :=
  match l with
  | [] => Ok []
  | x :: l' => y <- f x ;; ys <- mapM f l' ;; Ok (y :: ys)
  end.

(** A [for] loop over [l] updating a mutable state. *)
Fixpoint foldM {A S} (f : S -> A -> res S) (l : list A) (s : S) : res S :=
  match l with
  | [] => Ok s
  | x :: l' => s' <- f s x ;; foldM f l' s'
  end.

(** [v[i]]: panics out of range. *)
Definition index {A} (l : list A) (i : nat) : res A :=
  match nth_error l i with Some a => Ok a | None => Panic PIndex end.

(** [v[i] = x] without the bounds check (identity out of range). *)
Fixpoint upd {A} (l : list A) (i : nat) (x : A) : list A :=
  match l, i with
  | [], _ => []
  | _ :: l', O => x :: l'
  | y :: l', S i' => y :: upd l' i' x
  end.

(** [v[i] = x]: panics out of range. *)
Definition set_index {A} (l : list A) (i : nat) (x : A) : res (list A) :=
  if (i <? length l)%nat then Ok (upd l i x) else Panic PIndex.

(** ** Words *)

(** Number of values of [u64]; [Scalar::BITS = 64]. *)
Definition q : Z := 2 ^ 64.
Definition BITS : Z := 64.
(** [Scalar::MAX] *)
Definition MAXW : Z := q - 1.
Definition wrap (x : Z) : Z := x mod q.
Definition is_word (x : Z) : Prop := 0 <= x < q.

(** [wrapping_add], [wrapping_sub], [wrapping_mul] on u64. *)
Definition wadd (a b : Z) : Z := wrap (a + b).
Definition wsub (a b : Z) : Z := wrap (a - b).
Definition wmul (a b : Z) : Z := wrap (a * b).

(** Overflow checks on ([Checked], dev and test profiles) or off ([Wrapping], release profile). *)
Inductive mode : Set := Checked | Wrapping.

Definition overflow (m : mode) (x : Z) : res Z :=
  match m with Checked => Panic POverflow | Wrapping => Ok (wrap x) end.

(** Plain [a + b], [a - b], [a * b] on u64/usize. *)
Definition uadd (m : mode) (a b : Z) : res Z :=
  if a + b <? q then Ok (a + b) else overflow m (a + b).
Definition usub (m : mode) (a b : Z) : res Z :=
  if b <=? a then Ok (a - b) else overflow m (a - b).
Definition umul (m : mode) (a b : Z) : res Z :=
  if a * b <? q then Ok (a * b) else overflow m (a * b).

(** [a << s] and [a >> s] on u64: bits shifted out are lost; a shift of 64 or more panics in
    checked mode and is taken modulo 64 otherwise. *)
Definition ushl (m : mode) (a s : Z) : res Z :=
  if s <? BITS then Ok (wrap (a * 2 ^ s))
  else match m with Checked => Panic POverflow | Wrapping => Ok (wrap (a * 2 ^ (s mod BITS))) end.
Definition ushr (m : mode) (a s : Z) : res Z :=
  if s <? BITS then Ok (a / 2 ^ s)
  else match m with Checked => Panic POverflow | Wrapping => Ok (a / 2 ^ (s mod BITS)) end.

(** [a / b] on u64: panics on zero in every mode. *)
Definition udiv (a b : Z) : res Z := if b =? 0 then Panic PDivZero else Ok (a / b).

(** [x as i64] (two's complement). *)
Definition to_signed (x : Z) : Z := if x <? 2 ^ 63 then x else x - q.

Lemma q_pos : 0 < q. Proof. reflexivity. Qed.
Lemma q_val : q = 18446744073709551616. Proof. reflexivity. Qed.

Lemma wrap_word x : is_word (wrap x).
Proof. unfold is_word, wrap. apply Z.mod_pos_bound, q_pos. Qed.

Lemma wrap_id x : is_word x -> wrap x = x.
Proof. unfold is_word, wrap. intros H. apply Z.mod_small; exact H. Qed.

(** ** Facts about the loops *)

Lemma bind_Ok {A B} (x : res A) (f : A -> res B) b :
  bind x f = Ok b -> exists a, x = Ok a /\ f a = Ok b.
Proof. destruct x; cbn; intros H; [eauto | discriminate]. Qed.

Lemma mapM_length {A B} (f : A -> res B) l r : mapM f l = Ok r -> length r = length l.
Proof.
  revert r; induction l as [|x l IH]; cbn; intros r H.
  - injection H as <-; reflexivity.
  - apply bind_Ok in H as (y & Hy & H). apply bind_Ok in H as (ys & Hys & H).
    injection H as <-. cbn. f_equal. apply IH; exact Hys.
Qed.

Lemma mapM_nth {A B} (f : A -> res B) l r i x :
  mapM f l = Ok r -> nth_error l i = Some x ->
  exists y, f x = Ok y /\ nth_error r i = Some y.
Proof.
  revert r i; induction l as [|a l IH]; cbn; intros r i H Hi.
  - destruct i; discriminate.
  - apply bind_Ok in H as (y & Hy & H). apply bind_Ok in H as (ys & Hys & H).
    injection H as <-. destruct i as [|i]; cbn in *.
    + injection Hi as <-. eauto.
    + eapply IH; eauto.
Qed.

Lemma mapM_ok {A B} (f : A -> res B) (g : A -> B) l :
  (forall x, In x l -> f x = Ok (g x)) -> mapM f l = Ok (map g l).
Proof.
  induction l as [|x l IH]; cbn; intros H; [reflexivity|].
  rewrite (H x (or_introl eq_refl)). cbn. rewrite IH; [reflexivity|].
  intros y Hy; apply H; right; exact Hy.
Qed.

Lemma mapM_ext {A B} (f g : A -> res B) l :
  (forall x, In x l -> f x = g x) -> mapM f l = mapM g l.
Proof.
  induction l as [|x l IH]; cbn; intros H; [reflexivity|].
  rewrite (H x (or_introl eq_refl)), IH; [reflexivity|]. intros y Hy; apply H; right; exact Hy.
Qed.

Lemma mapM_Forall {A B} (f : A -> res B) (Q : B -> Prop) l :
  (forall x, In x l -> exists y, f x = Ok y /\ Q y) ->
  exists r, mapM f l = Ok r /\ Forall Q r.
Proof.
  induction l as [|x l IH]; cbn; intros H; [exists []; auto|].
  destruct (H x (or_introl eq_refl)) as (y & -> & HQ). cbn.
  destruct IH as (r & -> & Hr); [intros z Hz; apply H; right; exact Hz|].
  cbn. eauto.
Qed.

Lemma upd_length {A} (l : list A) i x : length (upd l i x) = length l.
Proof. revert i; induction l as [|y l IH]; intros [|i]; cbn; auto. Qed.

Lemma nth_error_upd {A} (l : list A) i j x :
  nth_error (upd l i x) j =
  if (i =? j)%nat then (match nth_error l j with Some _ => Some x | None => None end)
  else nth_error l j.
Proof.
  revert i j; induction l as [|y l IH]; intros i j.
  - destruct i, j; cbn; try reflexivity; destruct (Nat.eqb _ _); reflexivity.
  - destruct i as [|i], j as [|j]; cbn; try reflexivity. apply IH.
Qed.

Lemma nth_upd {A} (l : list A) i j x d : (i < length l)%nat ->
  nth j (upd l i x) d = if (i =? j)%nat then x else nth j l d.
Proof.
  revert i j; induction l as [|y l IH]; intros i j H; cbn in H; [lia|].
  destruct i as [|i], j as [|j]; cbn; try reflexivity. apply IH. lia.
Qed.

(** * Specification: how often a course of a server operation does something. *)
From Verif Require Import MBase MRlwe MSched SpecShape SpecView.
Local Open Scope nat_scope.

Definition same_event (a b : event) : {a = b} + {a <> b}.
Proof. repeat decide equality. Defined.
(** The number of times some worker does [e] in the course [c] (SpecShape): e.g. [ELoad r j], read the cell of row [r] and column [j]; [EStore r j],
    write it. *)
Fixpoint times (e : event) (c : course) : nat :=
  match c with
  | CEnd => 0
  | CLoop _ obs rest => count_occ same_event (map snd obs) e + times e rest
  | CRed _ rest => times e rest
  end.

(** How often a step of a history (SpecView) reads, and writes, the cell of row [r], which is the first copy of its item or not: [hc] copies of every
    item, only row 0 is used by the calls that are not batches. *)
Definition reads_of (k : kind) (hc r : nat) (first : bool) : nat :=
  match k with
  | KOne => if r =? 0 then 3 else 0
  | KMany x => if r =? 0 then 2 * x + 1 else 0
  | KBatch => if first then hc + 4 else 4
  end.
Definition writes_of (k : kind) (r : nat) : nat :=
  match k with
  | KOne | KMany _ => if r =? 0 then 1 else 0
  | KBatch => 2
  end.

(** * Specification: what chance means here. *)
From Coq Require Import Permutation.
From Verif Require Import MBase MHash MShuffle.

(** All words of 32 bits and all streams of [m] of them: equally likely, the generator being taken as perfect. *)
Definition words : list Z := map Z.of_nat (seq 0 (Z.to_nat (2 ^ 32))).
Fixpoint streams (m : nat) : list (list Z) :=
  match m with O => [[]] | S m' => flat_map (fun v => map (cons v) (streams m')) words end.
(** The hash functions that [NaiveHash::new] makes when it uses up exactly [m] words, one for each of the streams that
    lead to it: how often one occurs here, out of [2 ^ (32 m)], is its probability. *)
Definition made_from (hc dom : nat) (ws : list Z) : list nhash :=
  match nh_draw hc dom ws with Ok (Some (nh, [])) => [nh] | _ => [] end.
Definition outcomes (hc dom m : nat) : list nhash := flat_map (made_from hc dom) (streams m).
(** The cells: where [nh] puts the [h]-th copy of item [x] for the pairs given. *)
Definition cells (nh : nhash) (slots : list (nat * nat)) : list (res nat) := map (fun hx => hash nh (fst hx) (snd hx)) slots.
(** A slot that exists. *)
Definition slot_ok (hc dom : nat) (hx : nat * nat) : Prop := (fst hx < hc)%nat /\ (snd hx < dom)%nat.
Definition same_hash (a b : nhash) : {a = b} + {a <> b}.
Proof. decide equality; try apply Nat.eq_dec; apply list_eq_dec, Nat.eq_dec. Defined.
(** How many of the outcomes are [nh]. *)
Definition occurrences (nh : nhash) (l : list nhash) : nat := count_occ same_hash l nh.
(** How many of the outcomes put the slots into these cells. *)
Definition same_cells (a b : list (res nat)) : {a = b} + {a <> b}.
Proof. apply list_eq_dec. decide equality; [apply Nat.eq_dec|decide equality]. Defined.
Definition placed (slots : list (nat * nat)) (cs : list nat) (l : list nhash) : nat :=
  count_occ same_cells (map (fun nh => cells nh slots) l) (map Ok cs).

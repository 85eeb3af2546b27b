(** * Specification: how often a batch request serves an item. *)
From Verif Require Import MBase MHash.

(** [x (x - 1) .. (x - k + 1)]: in how many ways [k] of [x] places can be taken one after the other. *)
Fixpoint falling (x k : nat) : nat := match k with O => 1 | S k' => x * falling (x - 1) k' end.
(** With the hash functions [nh] and rows of [cols] cells, the batch request for [is] gets an answer for item [j]. *)
Definition served (nh : nhash) (is : list nat) (cols j : nat) : bool :=
  match hash_to_mapping nh is cols with Ok m => existsb (fun e => (snd (snd e) =? j)%nat) m | Panic _ => false end.
Definition dropped (is : list nat) (cols j : nat) (nh : nhash) : bool := negb (served nh is cols j).

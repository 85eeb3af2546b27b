(** * Model of src/utils.rs *)
From Verif Require Import MBase.

(** [usize::leading_zeros] (64-bit target). *)
Definition leading_zeros (x : Z) : Z := if x =? 0 then 64 else 63 - Z.log2 x.

(** [log2], src/utils.rs:20-23: [size_of::<usize>() * 8 - leading_zeros(input) - 1].
    The second subtraction underflows for input 0. *)
Definition ulog2 (md : mode) (x : Z) : res Z :=
  a <- usub md 64 (leading_zeros x) ;; usub md a 1.

(** [mul_const], src/utils.rs:11-18: every coefficient times [c], wrapping. *)
Definition mul_const (p : list Z) (c : Z) : list Z := map (fun x => wmul x c) p.

(** [u64::is_power_of_two] / [usize::is_power_of_two]. *)
Definition is_power_of_two (t : Z) : bool := (0 <? t) && (2 ^ Z.log2 t =? t).

(** [Iterator::next().unwrap()] on every row iterator, one after the other: the inner closure of
    [transpose], src/utils.rs:64-69.  Returns the collected heads and the advanced iterators. *)
Fixpoint next_all {T} (iters : list (list T)) : res (list T * list (list T)) :=
  match iters with
  | [] => Ok ([], [])
  | [] :: _ => Panic PUnwrap
  | (x :: r) :: its => ' (hs, ts) <- next_all its ;; Ok (x :: hs, r :: ts)
  end.

(** The outer map over [0..len], src/utils.rs:63-70. *)
Fixpoint take_columns {T} (len : nat) (iters : list (list T)) : res (list (list T)) :=
  match len with
  | O => Ok []
  | S len' => ' (col, iters') <- next_all iters ;;
              cols <- take_columns len' iters' ;; Ok (col :: cols)
  end.

(** [transpose], src/utils.rs:59-71. *)
Definition transpose {T} (v : list (list T)) : res (list (list T)) :=
  match v with
  | [] => Panic PAssert
  | r0 :: _ => take_columns (length r0) v
  end.

(** Body of the loop of [pt_to_lossy_u64], src/utils.rs:90-93; [i] comes from [enumerate]. *)
Fixpoint lossy_loop (md : mode) (i : Z) (l : list Z) (out : Z) : res Z :=
  match l with
  | [] => Ok out
  | x :: l' =>
      rassert ((x =? 0) || (x =? 1)) ;;;
      p <- ushl md 1 i ;;
      y <- umul md x p ;;
      out' <- uadd md out y ;;
      lossy_loop md (i + 1) l' out'
  end.

(** [pt_to_lossy_u64], src/utils.rs:88-95: [take(64)]. *)
Definition pt_to_lossy_u64 (md : mode) (pt : list Z) : res Z := lossy_loop md 0 (firstn 64 pt) 0.

(** One iteration of the loop of [eval_x_k_in_memory], src/utils.rs:46-56.  [i * k] is a [usize]
    product; the model uses unbounded [nat] (all callers pass [i < n], [k <= n + 1] with [n] the
    polynomial size, far below 2^32). *)
Definition eval_x_k_step (n k : nat) (poly : list Z) (out : list Z) (i : nat) : res (list Z) :=
  let j := ((i * k) mod n)%nat in
  let sign := if ((((i * k) / n) mod 2) =? 0)%nat then 1 else MAXW in
  c <- index poly i ;;
  set_index out j (wmul sign c).

(** [eval_x_k_in_memory], src/utils.rs:36-57. *)
Definition eval_x_k_in_memory (out poly : list Z) (k : nat) : res (list Z) :=
  let n := length poly in
  rassert ((k mod 2 =? 1)%nat) ;;;
  rassert (is_power_of_two (Z.of_nat n)) ;;;
  c0 <- index poly 0 ;;
  out <- set_index out 0 c0 ;;
  foldM (eval_x_k_step n k poly) (seq 1 (n - 1)) out.

(** [eval_x_k], src/utils.rs:26-33: allocates zeros and calls the in-memory version. *)
Definition eval_x_k (poly : list Z) (k : nat) : res (list Z) :=
  eval_x_k_in_memory (repeat 0 (length poly)) poly k.

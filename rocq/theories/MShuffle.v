(** * Model of the shuffle behind [NaiveHash::new] (src/naive_hash.rs:14-24).
    [tables.shuffle(&mut rng)], src/naive_hash.rs:18, is [SliceRandom::shuffle] of rand 0.8.5 (Cargo.lock), and [rng] is
    [rand::thread_rng()], src/naive_hash.rs:16.  The crate is not in the sandbox; this is its code as published.  The
    generator (ChaCha12, reseeded by the system) is a stream of 32-bit words; a 64-bit word is two of them, the low half first. *)
From Verif Require Import MBase MHash.

(** [range << range.leading_zeros()) - 1] for words of [w] bits: rand's uniform.rs, [sample_single_inclusive]. *)
Definition leading_zeros (w r : Z) : Z := w - 1 - Z.log2 r.
Definition zone (w r : Z) : Z := r * 2 ^ leading_zeros w r - 1.
(** One turn of its loop: [(hi, lo) = v.wmul(range); if lo <= zone { return low + hi }] with [low = 0]. *)
Definition accept (w r v : Z) : option nat :=
  if (v * r) mod 2 ^ w <=? zone w r then Some (Z.to_nat ((v * r) / 2 ^ w)) else None.

(** The loop on a stream, for a u32 and for a usize.  [None]: the stream given ends before it does. *)
Fixpoint sample32 (r : Z) (ws : list Z) : option (nat * list Z) :=
  match ws with
  | [] => None
  | v :: ws' => match accept 32 r v with Some k => Some (k, ws') | None => sample32 r ws' end
  end.
Fixpoint sample64 (r : Z) (ws : list Z) : option (nat * list Z) :=
  match ws with
  | a :: b :: ws' => match accept 64 r (a + 2 ^ 32 * b) with Some k => Some (k, ws') | None => sample64 r ws' end
  | _ => None
  end.
(** [gen_index(rng, ubound)] of rand's seq/mod.rs: a 32-bit sample is used when the bound fits. *)
Definition gen_index (ubound : nat) (ws : list Z) : option (nat * list Z) :=
  if Z.of_nat ubound <=? 2 ^ 32 - 1 then sample32 (Z.of_nat ubound) ws else sample64 (Z.of_nat ubound) ws.

(** [slice::swap]: panics out of range. *)
Definition swap (l : list nat) (i j : nat) : res (list nat) :=
  a <- index l i ;; b <- index l j ;; Ok (upd (upd l i b) j a).
(** [shuffle]: [for i in (1..len).rev() { self.swap(i, gen_index(rng, i + 1)) }]; [Ok None]: words are missing. *)
Fixpoint shuffle_from (i : nat) (l : list nat) (ws : list Z) : res (option (list nat * list Z)) :=
  match i with
  | O => Ok (Some (l, ws))
  | S i' =>
      match gen_index (i + 1) ws with
      | None => Ok None
      | Some (k, ws') => l' <- swap l i k ;; shuffle_from i' l' ws'
      end
  end.
Definition shuffle (l : list nat) (ws : list Z) : res (option (list nat * list Z)) := shuffle_from (length l - 1) l ws.

(** [NaiveHash::new], src/naive_hash.rs:14-24, on the words its generator gives; also the words left. *)
Definition nh_draw (h_count input_domain : nat) (ws : list Z) : res (option (nhash * list Z)) :=
  rassert (0 <? h_count)%nat ;;;
  t <- shuffle (seq 0 (h_count * input_domain)) ws ;;
  Ok (match t with
      | None => None
      | Some (tables, ws') => Some ({| nh_tables := tables; nh_h_count := h_count; nh_input_domain := input_domain |}, ws')
      end).

(** * Model of the generators of src/context.rs:147-238 and of the key generation they call.
    The random generators are streams of uniform words, given as arguments; a generator returns the
    value and the rest of the stream. *)
From Verif Require Import MBase MCodec MPoly MRlwe MHash MParams MOram MMain.
Local Open Scope Z_scope.

Definition words := nat -> Z.
Definition advance (w : words) (m : nat) : words := fun i => w (m + i)%nat.
(** [fill_tensor_with_random_*] of concrete-core: one value per coefficient. *)
Definition fill_random (n : nat) (f : Z -> Z) (w : words) : list Z := map (fun i => f (w i)) (seq 0 n).

(** concrete-core's distributions, as functions of a uniform word: the lowest bit; the lowest [b] bits;
    one of 0, 1, -1 (concrete-core rejects and redraws the fourth value of two random bits: any sequence
    of accepted values is realised by some words here). *)
Definition uniform_binary (w : Z) : Z := w mod 2.
Definition uniform_n_lsb (b w : Z) : Z := w mod 2 ^ b.
Definition uniform_ternary (w : Z) : Z := if w mod 3 =? 0 then 0 else if w mod 3 =? 1 then 1 else MAXW.

(** [lwe_dim], [lwe_size], [plaintext_count], src/context.rs:147-158. *)
Definition lwe_dim (cx : ctx) : nat := c_n cx.
Definition lwe_size (cx : ctx) : nat := (c_n cx + 1)%nat.
Definition plaintext_count (cx : ctx) : nat := c_n cx.

(** [gen_binary_pt], src/context.rs:161-167. *)
Definition gen_binary_pt (cx : ctx) (w : words) : poly * words :=
  (fill_random (plaintext_count cx) uniform_binary w, advance w (plaintext_count cx)).
(** [gen_pt], src/context.rs:171-179. *)
Definition gen_pt (cx : ctx) (w : words) : poly * words :=
  (fill_random (plaintext_count cx) (uniform_n_lsb (pt_modulus_bits (c_codec cx))) w, advance w (plaintext_count cx)).
(** [gen_scalar_binary_pt], src/context.rs:182-184. *)
Definition gen_scalar_binary_pt (w : words) : Z * words := (uniform_binary (w 0%nat), advance w 1).
(** [gen_demuxed_pt], src/context.rs:187-194: writing the coefficient of a monomial that does not exist
    panics. *)
Definition gen_demuxed_pt (cx : ctx) (i : nat) : res poly := set_index (poly_zero (plaintext_count cx)) i 1.
(** [gen_ternary_ptxt], src/context.rs:197-203. *)
Definition gen_ternary_ptxt (cx : ctx) (w : words) : poly * words :=
  (fill_random (plaintext_count cx) uniform_ternary w, advance w (plaintext_count cx)).
(** [gen_unit_pt], src/context.rs:206-213. *)
Definition gen_unit_pt (cx : ctx) : res poly := set_index (poly_zero (plaintext_count cx)) 0 1.
(** [gen_scalar_unit_pt], src/context.rs:216-218. *)
Definition gen_scalar_unit_pt : Z := 1.
(** [gen_zero_pt], [gen_scalar_zero_pt], src/context.rs:221-228. *)
Definition gen_zero_pt (cx : ctx) : poly := poly_zero (plaintext_count cx).
Definition gen_scalar_zero_pt : Z := 0.
(** [gen_rlwe_sk], [gen_lwe_sk], src/context.rs:231-238, with [RLWESecretKey::generate_binary]
    (src/rlwe.rs:310-319) and [LWESecretKey::generate_binary] (src/lwe.rs:91-96): uniform bits. *)
Definition gen_rlwe_sk (cx : ctx) (w : words) : poly * words :=
  (fill_random (c_n cx) uniform_binary w, advance w (c_n cx)).
Definition gen_lwe_sk (cx : ctx) (w : words) : list Z * words :=
  (fill_random (lwe_dim cx) uniform_binary w, advance w (lwe_dim cx)).

(** [i] calls of [gen_pt] (resp. [gen_binary_pt]) have been made: the result of the next one. *)
Fixpoint nth_draw (gen : words -> poly * words) (w : words) (i : nat) : poly :=
  match i with O => fst (gen w) | S i' => nth_draw gen (snd (gen w)) i' end.

(** The randomness of a run of a driver (src/main.rs), drawn with the generators: the key from the
    secret generator [ws] (src/oram.rs:72), the items with [gen_pt] one after the other
    (src/oram.rs:105-107) and the dummy data of the queries with [gen_binary_pt] (src/oram.rs:164) from
    the random generator.  [wq j i] is the state of that generator when query [i] of iteration [j] is
    made.  The shuffle and the encryption randomness come from generators of their own. *)
Definition drawn_coins (cx : ctx) (sh : list nat -> list nat) (ws wr : words) (wq : nat -> nat -> words)
    (t0 : tape) (t : nat -> nat -> tape) : coins :=
  {| co_shuffle := sh; co_sk := fst (gen_rlwe_sk cx ws); co_items := nth_draw (gen_pt cx) wr; co_setup := t0;
     co_dummy := fun j i r => nth_draw (gen_binary_pt cx) (wq j i) r; co_tape := t |}.

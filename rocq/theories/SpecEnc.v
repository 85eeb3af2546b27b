(** * Vocabulary for encrypted trees and demultiplexing *)
From Verif Require Import MBase MCodec MPoly MRlwe MTree.
From Verif Require Export SpecLwe SpecTree.
Local Open Scope Z_scope.

(** A bit as an integer. *)
Definition b2z (b : bool) : Z := if b then 1 else 0.

(** [g] is an RGSW encryption of the constant [x], with the given decomposition parameters and row noise
    at most [E]. *)
Definition const_ct (n : nat) (s : poly) (base level : nat) (E : Z) (x : Z) (g : rgsw) : Prop :=
  rgsw_encrypts n s g (pcst x) E /\ g_base g = base /\ g_level g = level.

(** [g] encrypts the outcome of a tree node's comparison (threshold, feature, index, operator) on the
    features [fs]: 1 if the feature is at most the threshold, 0 otherwise. *)
Definition decision_ct (n : nat) (s : poly) (base level : nat) (E : Z) (fs : list nat)
    (g : rgsw) (nd : nat * nat * nat * opk) : Prop :=
  let '(th, f, _, op) := nd in
  op = LEQ /\ exists v, nth_error fs f = Some v /\ const_ct n s base level E (b2z (v <=? th)%nat) g.

(** Depths (number of internal nodes above) of the leaves of a tree, left to right. *)
Fixpoint leaf_depths (t : node) : list nat :=
  match t with
  | Leaf _ => [0%nat]
  | Internal _ _ _ _ l r =>
      map Datatypes.S ((match l with Some a => leaf_depths a | None => [] end) ++
                       (match r with Some a => leaf_depths a | None => [] end))
  end.

(** The number a list of bits denotes, most significant bit first. *)
Fixpoint msb_value (bits : list bool) : nat :=
  match bits with
  | [] => O
  | b :: bits' => ((if b then 2 ^ length bits' else 0) + msb_value bits')%nat
  end.

(** Parameters the homomorphic operations accept: ring dimension 2^lg, plaintext modulus 2^k, all
    decompositions within 64 bits, with room for the factor n in the gadget of the expansion, and the
    encryption of -s in the same base as the rest (see C23). *)
Definition params_ok (cx : ctx) (lg : nat) (k : Z) : Prop :=
  c_n cx = (2 ^ lg)%nat /\ (1 <= lg)%nat /\ (c_base cx * c_level cx + lg <= 64)%nat /\
  decomp_ok (c_base cx) (c_level cx) /\ decomp_ok (c_ks_base cx) (c_ks_level cx) /\
  decomp_ok (c_base cx) (c_negs_level cx) /\ c_negs_base cx = c_base cx /\
  1 <= k <= 63 /\ codec_new (c_mode cx) (2 ^ k) = Ok (c_codec cx).

(** The floating-point FFT is precise to [eps] on everything these parameters make it compute. *)
Definition fft_for (cx : ctx) (fft : fftT) (eps : Z) : Prop :=
  fft_ok (c_n cx) fft (2 ^ (Z.of_nat (Nat.max (c_base cx) (c_ks_base cx)) - 1))
         (Nat.max (2 * c_level cx) (Nat.max (2 * c_negs_level cx) (c_ks_level cx + 1))) eps.

(** Row noise of a decision bit produced by comparing an encrypted feature (fresh noise [E]) and
    expanding the result. *)
Definition decision_noise (cx : ctx) (S E eps : Z) : Z :=
  expand_bound (c_n cx) S (Z.of_nat (c_n cx) * E + (1 + S) * eps)
    (ks_bound (c_n cx) (c_ks_base cx) (c_ks_level cx) S S E eps)
    (ep_bound (c_n cx) (c_base cx) (c_negs_level cx) S S E eps).

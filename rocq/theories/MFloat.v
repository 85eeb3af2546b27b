(** * Model of the floating-point computation of the number of result bits, src/decision_tree.rs:378:
    [((self.max_leaf() + 1) as f64).log2().ceil() as usize].  [rnd] is the conversion of an integer to f64, [lg] the logarithm of the
    platform's mathematical library (Rust does not specify its precision): both are arguments.  The sum overflows for the largest usize; the
    logarithm of 0 is minus infinity, which the cast turns into 0. *)
From Coq Require Import Reals.
From Flocq Require Import Core.Raux.
From Verif Require Import MBase MUtils MCodec MPoly MRlwe MTree MEncTree.
Local Open Scope Z_scope.

Definition label_bits (md : mode) (rnd lg : R -> R) (m : nat) : res nat :=
  s <- uadd md (Z.of_nat m) 1 ;;
  Ok (if s =? 0 then 0%nat else Z.to_nat (Zceil (lg (rnd (IZR s))))).

(** [EncNode::eval], src/decision_tree.rs:377-386, with this number of bits ([enc_eval] in MEncTree has the exact logarithm). *)
Definition enc_eval_float (rnd lg : R -> R) (fft : fftT) (cx : ctx) (t : enc_node rgsw) : res (list rlwe) :=
  bits <- label_bits (c_mode cx) rnd lg (max_leaf t) ;;
  let out := repeat (rlwe_allocate (c_n cx)) bits in
  c <- trivial_one cx ;;
  Ok (eval_enc_node fft (c_n cx) out t c).

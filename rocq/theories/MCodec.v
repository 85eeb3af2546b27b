(** * Model of src/codec.rs *)
From Verif Require Import MBase MUtils.
From Coq Require Import Floats.SpecFloat.

(** ** concrete-core's [SignedDecomposer] (not in the sandbox; documented behaviour) *)

(** [SignedDecomposer::closest_representable]: keep the [base_log * level] top bits, rounding half
    up on the first dropped bit. *)
Definition closest_representable (md : mode) (base_log level x : Z) : res Z :=
  nr <- usub md 64 (base_log * level) ;;
  nr1 <- usub md nr 1 ;;
  top <- ushr md x nr1 ;;
  let msb := top mod 2 in
  r <- ushr md x nr ;;
  r <- uadd md r msb ;;
  ushl md r nr.

(** ** struct Codec, src/codec.rs:8-11 (the decomposer has one level of [base_log] bits) *)
Record codec := { cd_base_log : Z; cd_delta : Z }.

(** [Codec::new], src/codec.rs:14-25. *)
Definition codec_new (md : mode) (t : Z) : res codec :=
  if negb (is_power_of_two t) then Panic PExplicit
  else
    logt <- ulog2 md t ;;
    s <- usub md 64 logt ;;
    d <- ushl md 1 s ;;
    Ok {| cd_base_log := logt; cd_delta := d |}.

(** [largest_error], src/codec.rs:27-29. *)
Definition largest_error (c : codec) : Z := cd_delta c / 2.
(** [pt_modulus_bits], src/codec.rs:31-33. *)
Definition pt_modulus_bits (c : codec) : Z := cd_base_log c.
(** [pt_modulus], src/codec.rs:35-37. *)
Definition pt_modulus (md : mode) (c : codec) : res Z := ushl md 1 (cd_base_log c).

(** [encode], src/codec.rs:39-44. *)
Definition encode (md : mode) (c : codec) (x : Z) : res Z :=
  t <- pt_modulus md c ;;
  if t <=? x then Panic PExplicit else umul md x (cd_delta c).

(** [decode], src/codec.rs:46-49. *)
Definition decode (md : mode) (c : codec) (x : Z) : res Z :=
  tmp <- closest_representable md (cd_base_log c) 1 x ;;
  udiv tmp (cd_delta c).

(** ** Ternary constants: f64 arithmetic, with the IEEE-754 binary64 of the standard library *)

(** [x as f64] for an unsigned integer (round to nearest even). *)
Definition f64_of_Z (x : Z) : spec_float := binary_normalize 53 1024 x 0 false.
Definition f64_div : spec_float -> spec_float -> spec_float := SFdiv 53 1024.
(** [x as u64] for a float: truncation, saturating; NaN gives 0. *)
Definition f64_to_u64 (x : spec_float) : Z :=
  match x with
  | S754_finite false m e => Z.min MAXW (if 0 <=? e then Z.pos m * 2 ^ e else Z.pos m / 2 ^ (- e))
  | S754_infinity false => MAXW
  | _ => 0
  end.

(** [THIRD] of [ternary_encode], src/codec.rs:53. *)
Definition ENC_THIRD : Z := f64_to_u64 (f64_div (f64_of_Z MAXW) (f64_of_Z 3)).
(** [SIXTH], [THIRD], [HALF] of [ternary_decode], src/codec.rs:66-68. *)
Definition DEC_SIXTH : Z := f64_to_u64 (f64_div (f64_of_Z MAXW) (f64_of_Z 6)).
Definition DEC_THIRD : Z := DEC_SIXTH + DEC_SIXTH.
Definition DEC_HALF : Z := MAXW / 2.

(** [ternary_encode], src/codec.rs:52-63. *)
Definition ternary_encode (md : mode) (x : Z) : res Z :=
  if x =? 0 then Ok 0
  else if x =? 1 then Ok ENC_THIRD
  else if x =? MAXW then umul md 2 ENC_THIRD
  else Panic PExplicit.

(** [ternary_decode], src/codec.rs:65-76 ([HALF + THIRD] does not overflow). *)
Definition ternary_decode (x : Z) : Z :=
  if (DEC_SIXTH <? x) && (x <=? DEC_HALF) then 1
  else if (DEC_HALF <? x) && (x <=? DEC_HALF + DEC_THIRD) then MAXW
  else 0.

(** [poly_encode] .. [poly_ternary_decode], src/codec.rs:79-114: coefficient by coefficient. *)
Definition poly_encode (md : mode) (c : codec) (p : list Z) : res (list Z) := mapM (encode md c) p.
Definition poly_decode (md : mode) (c : codec) (p : list Z) : res (list Z) := mapM (decode md c) p.
Definition poly_ternary_encode (md : mode) (p : list Z) : res (list Z) := mapM (ternary_encode md) p.
Definition poly_ternary_decode (p : list Z) : list Z := map ternary_decode p.

(** * Model of src/lwe.rs and of expand_slow in src/rlwe.rs *)
From Verif Require Import MBase MUtils MCodec MPoly MRlwe.
Local Open Scope Z_scope.

(** [LWECiphertext], src/lwe.rs:31-32. *)
Record lwe := { l_mask : list Z; l_body : Z }.
(** [allocate], src/lwe.rs:35-37; [clear], 60-62 ([size] counts the body). *)
Definition lwe_allocate (size : nat) : lwe := {| l_mask := repeat 0 (size - 1); l_body := 0 |}.
Definition lwe_clear (c : lwe) : lwe := {| l_mask := repeat 0 (length (l_mask c)); l_body := 0 |}.
(** [fill_with_tensor(as_tensor())], src/lwe.rs:73-82: overwritten by a copy. *)
Definition lwe_fill_with_tensor (self other : lwe) : lwe := other.

(** One draw of LWE encryption randomness: a uniform mask and an error. *)
Record ldraw := { ld_mask : list Z; ld_noise : Z }.

(** Multisum [<mask, s>] modulo 2^64. *)
Definition dot (a b : list Z) : Z := wrap (sum_list (map2 Z.mul a b)).
(** [encrypt_lwe], src/lwe.rs:98-107 (concrete-core: body = <mask, s> + noise + pt). *)
Definition encrypt_lwe (s : list Z) (pt : Z) (d : ldraw) : lwe :=
  {| l_mask := ld_mask d; l_body := wadd (wadd (ld_noise d) (dot (ld_mask d) s)) pt |}.
(** [encode_encrypt_lwe], src/lwe.rs:109-118. *)
Definition encode_encrypt_lwe (cx : ctx) (s : list Z) (pt : Z) (d : ldraw) : res lwe :=
  e <- encode (c_mode cx) (c_codec cx) pt ;; Ok (encrypt_lwe s e d).
(** [decrypt_lwe], src/lwe.rs:120-122. *)
Definition decrypt_lwe (s : list Z) (c : lwe) : Z := wsub (l_body c) (dot (l_mask c) s).
(** [decode_decrypt_lwe], src/lwe.rs:125-133. *)
Definition decode_decrypt_lwe (cx : ctx) (s : list Z) (c : lwe) : res Z :=
  decode (c_mode cx) (c_codec cx) (decrypt_lwe s c).
(** [to_rlwe_sk], src/lwe.rs:135-139: the same coefficients. *)
Definition to_rlwe_sk (s : list Z) : poly := s.

(** concrete-core's [fill_with_glwe_sample_extraction] for GLWE dimension 1, as called in
    src/lwe.rs:64-71: copy body coefficient [d]; reverse the mask, negate its first [n-d-1] entries,
    rotate left by [n-d-1].  Reading coefficient [d >= n] panics. *)
Definition sample_extract (c : rlwe) (d : nat) : res lwe :=
  b <- index (body c) d ;;
  let n := length (mask c) in
  let k := (n - d - 1)%nat in
  let r := rev (mask c) in
  let r' := poly_neg (firstn k r) ++ skipn k r in
  Ok {| l_mask := skipn k r' ++ firstn k r'; l_body := b |}.
(** [fill_with_const_sample_extract]. *)
Definition const_sample_extract (c : rlwe) : res lwe := sample_extract c 0.

(** [LWEtoRLWEKeyswitchKey::fill_with_keyswitching_key], src/lwe.rs:164-176: one RGSW encryption of
    each key coefficient, in the key-switching gadget. *)
Definition fill_with_keyswitching_key (cx : ctx) (s : list Z) (t : tape) : res (list rgsw) :=
  rassert (c_n cx =? length s)%nat ;;;
  Ok (map (fun i => encrypt_constant_rgsw (c_n cx) (to_rlwe_sk s) (c_ks_base cx) (c_ks_level cx) (nth i s 0) (split t i))
          (seq 0 (length s))).

(** The iterator of src/lwe.rs:195-202: the second row of every level, last level first (copied into
    zero ciphertexts by additions). *)
Definition body_rows_rev (n : nat) (g : rgsw) : list rlwe :=
  map (fun i => let r := nth (2 * (g_level g - 1 - i) + 1) (g_rows g) {| mask := []; body := [] |} in
                update_body_with_add (update_mask_with_add (rlwe_allocate n) (mask r)) (body r))
      (seq 0 (g_level g)).
(** Inner loop body, src/lwe.rs:204-222: [out -= ct * digit]. *)
Definition conv_inner (out : rlwe) (cd : rlwe * Z) : rlwe :=
  let (ct, digit) := cd in
  let m := mul_const (mask ct) digit in
  let b := mul_const (body ct) digit in
  {| mask := poly_sub (mask out) m; body := poly_sub (body out) b |}.
(** Outer loop body, src/lwe.rs:185-223; the scalar is rounded before and again inside [decompose]. *)
Definition conv_outer (cx : ctx) (out : rlwe) (ka : rgsw * Z) : rlwe :=
  let (ksk, a) := ka in
  let closest_a := closest (c_ks_base cx) (c_ks_level cx) a in
  let digits := decompose (c_ks_base cx) (c_ks_level cx) closest_a in
  fold_left conv_inner (combine (body_rows_rev (c_n cx) ksk) digits) out.
(** [conv_lwe_to_rlwe], src/lwe.rs:178-235. *)
Definition conv_lwe_to_rlwe (cx : ctx) (ksks : list rgsw) (l : lwe) : rlwe :=
  let out := fold_left (conv_outer cx) (combine ksks (l_mask l)) (rlwe_allocate (c_n cx)) in
  update_body_with_add out (poly_mono (c_n cx) 0 (l_body l)).

(** [expand_slow], src/rlwe.rs:1035-1057. *)
Definition expand_slow (fft : fftT) (cx : ctx) (ksks : list rgsw) (neg_s : rgsw) (cs : list rlwe) : res rgsw :=
  rassert (c_n cx =? length ksks)%nat ;;;
  rassert (length cs =? c_level cx)%nat ;;;
  index cs 0 ;;;
  cts <- mapM (fun c => l <- const_sample_extract c ;; Ok (conv_lwe_to_rlwe cx ksks l)) cs ;;
  decomposed_rlwe_to_rgsw fft cx cts neg_s.

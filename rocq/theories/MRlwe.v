(** * Model of src/rlwe.rs, src/rgsw.rs and the parts of src/context.rs they use *)
From Verif Require Import MBase MUtils MCodec MPoly.
Local Open Scope Z_scope.

(** ** Context, src/context.rs:42-62 (public parameters only; the random generators are tapes,
    see below; [std] only influences the noise, which is arbitrary here). *)
Record ctx := {
  c_mode : mode;           (* overflow checks on or off: not a field of the struct *)
  c_n : nat;               (* poly_size *)
  c_base : nat; c_level : nat;            (* base_log, level_count *)
  c_ks_base : nat; c_ks_level : nat;      (* ks_base_log, ks_level_count *)
  c_negs_base : nat; c_negs_level : nat;  (* negs_base_log, negs_level_count *)
  c_codec : codec
}.

(** ** Randomness.  One encryption consumes one draw: a uniform mask and an error polynomial, both
    arbitrary.  A tape is an infinite supply; [split] gives independent sub-tapes (any assignment of
    draws to encryptions is realised by some tape since the pairing is injective). *)
Record draw := { d_mask : poly; d_noise : poly }.
Definition tape := nat -> draw.
Definition cpair (i j : nat) : nat := ((i + j) * (i + j + 1) / 2 + j)%nat.
Definition split (t : tape) (i : nat) : tape := fun j => t (cpair i j).

(** ** RLWE ciphertexts, src/rlwe.rs:40-41 *)
Record rlwe := { mask : poly; body : poly }.

(** [allocate], src/rlwe.rs:44-49. *)
Definition rlwe_allocate (n : nat) : rlwe := {| mask := poly_zero n; body := poly_zero n |}.
(** [clear], src/rlwe.rs:71-73. *)
Definition rlwe_clear (c : rlwe) : rlwe :=
  {| mask := poly_zero (length (mask c)); body := poly_zero (length (body c)) |}.
(** [fill_with_copy], src/rlwe.rs:75-77: the target is overwritten. *)
Definition rlwe_fill_with_copy (self other : rlwe) : rlwe := other.
(** [update_mask_with_add] .. [update_body_with_sub], src/rlwe.rs:86-103, 130-143. *)
Definition update_mask_with_add (c : rlwe) (p : poly) : rlwe := {| mask := poly_add (mask c) p; body := body c |}.
Definition update_mask_with_sub (c : rlwe) (p : poly) : rlwe := {| mask := poly_sub (mask c) p; body := body c |}.
Definition update_body_with_add (c : rlwe) (p : poly) : rlwe := {| mask := mask c; body := poly_add (body c) p |}.
Definition update_body_with_sub (c : rlwe) (p : poly) : rlwe := {| mask := mask c; body := poly_sub (body c) p |}.
(** [update_with_add] / [update_with_sub], src/rlwe.rs:158-166. *)
Definition rlwe_add (c d : rlwe) : rlwe := update_body_with_add (update_mask_with_add c (mask d)) (body d).
Definition rlwe_sub (c d : rlwe) : rlwe := update_body_with_sub (update_mask_with_sub c (mask d)) (body d).

(** [naive_update_with_mul_acc], src/rlwe.rs:1181-1192. *)
Definition naive_update_with_mul_acc (n : nat) (out p1 p2 : poly) : poly := poly_add out (poly_mul n p1 p2).
(** [naive_update_with_mul], src/rlwe.rs:1194-1202. *)
Definition naive_update_with_mul (n : nat) (p1 p2 : poly) : poly := poly_mul n p1 p2.

(** [update_mask_with_mul], src/rlwe.rs:105-119: the mask is copied, cleared, and the product of the
    copy accumulated into it. *)
Definition update_mask_with_mul (n : nat) (c : rlwe) (p : poly) : rlwe :=
  let buffer := mask c in
  let cleared := poly_zero (length (mask c)) in
  {| mask := naive_update_with_mul_acc n cleared buffer p; body := body c |}.
(** [update_body_with_mul], src/rlwe.rs:145-152: the body is copied to a buffer that is never used,
    cleared, and then multiplied. *)
Definition update_body_with_mul (n : nat) (c : rlwe) (p : poly) : rlwe :=
  let cleared := poly_zero (length (body c)) in
  {| mask := mask c; body := naive_update_with_mul n cleared p |}.

(** [fourier_update_with_mul], src/rlwe.rs:1077-1115 and [fourier_update_with_mul_acc],
    src/rlwe.rs:1117-1157. *)
Definition fourier_update_with_mul (fft : fftT) (p1 p2 : poly) : poly := fft [(p1, p2)].
Definition fourier_update_with_mul_acc (fft : fftT) (out p1 p2 : poly) : poly := add_backward fft out [(p1, p2)].
(** [update_mask_with_mul_with_buf], src/rlwe.rs:120-128; [update_body_with_mul_with_buf], 154-156. *)
Definition update_mask_with_mul_with_buf (fft : fftT) (c : rlwe) (p : poly) : rlwe :=
  {| mask := fourier_update_with_mul fft (mask c) p; body := body c |}.
Definition update_body_with_mul_with_buf (fft : fftT) (c : rlwe) (p : poly) : rlwe :=
  {| mask := mask c; body := fourier_update_with_mul fft (body c) p |}.

(** [update_with_monomial_div], src/rlwe.rs:168-176. *)
Definition rlwe_monomial_div (c : rlwe) (m : nat) : rlwe :=
  {| mask := monomial_div (mask c) m; body := monomial_div (body c) m |}.

(** The comparison polynomial of [less_eq_than], src/rlwe.rs:247-254: t[0] = 1, then
    t[n-d..n] = -1. *)
Definition less_eq_poly (n d : nat) : poly :=
  map (fun k => if (n - d <=? k)%nat then MAXW else if (k =? 0)%nat then 1 else 0) (seq 0 n).
(** [less_eq_than], src/rlwe.rs:244-258. *)
Definition less_eq_than (n : nat) (fft : fftT) (c : rlwe) (d : nat) : res rlwe :=
  rassert (d <? n)%nat ;;;
  let t := less_eq_poly n d in
  Ok (update_mask_with_mul_with_buf fft (update_body_with_mul_with_buf fft c t) t).
(** The polynomial of [eq_to], src/rlwe.rs:265-273. *)
Definition eq_poly (n d : nat) : poly :=
  if (d =? 0)%nat then poly_mono n 0 1 else poly_mono n (n - d) MAXW.
(** [eq_to], src/rlwe.rs:262-277. *)
Definition eq_to (n : nat) (fft : fftT) (c : rlwe) (d : nat) : res rlwe :=
  rassert (d <? n)%nat ;;;
  let t := eq_poly n d in
  Ok (update_mask_with_mul_with_buf fft (update_body_with_mul_with_buf fft c t) t).

(** Adding to the first coefficient ([first_mut]; the polynomial is never empty). *)
Definition add_first (p : poly) (x : Z) : poly :=
  match p with [] => [] | y :: p' => wadd y x :: p' end.
(** [not_in_place], src/rlwe.rs:282-289. *)
Definition rlwe_not_in_place (c : rlwe) : rlwe :=
  {| mask := poly_neg (mask c); body := add_first (poly_neg (body c)) (2 ^ 63) |}.
(** [not], src/rlwe.rs:292-301: subtracts from a zero ciphertext. *)
Definition rlwe_not (n : nat) (c : rlwe) : rlwe :=
  let out := rlwe_allocate n in
  {| mask := poly_sub (mask out) (mask c); body := add_first (poly_sub (body out) (body c)) (2 ^ 63) |}.

(** ** Secret keys, src/rlwe.rs:303-507.  A key is its polynomial. *)

(** [encrypt_rlwe], src/rlwe.rs:373-382 (concrete-core [encrypt_glwe]: body = mask * s + noise + pt). *)
Definition encrypt_rlwe (n : nat) (s : poly) (pt : poly) (d : draw) : rlwe :=
  {| mask := d_mask d; body := poly_add (poly_add (d_noise d) (poly_mul n (d_mask d) s)) pt |}.
(** [encode_encrypt_rlwe], src/rlwe.rs:337-352. *)
Definition encode_encrypt_rlwe (cx : ctx) (s : poly) (pt : poly) (d : draw) : res rlwe :=
  e <- poly_encode (c_mode cx) (c_codec cx) pt ;; Ok (encrypt_rlwe (c_n cx) s e d).
(** [ternary_encrypt_rlwe], src/rlwe.rs:355-369. *)
Definition ternary_encrypt_rlwe (cx : ctx) (s : poly) (pt : poly) (d : draw) : res rlwe :=
  e <- poly_ternary_encode (c_mode cx) pt ;; Ok (encrypt_rlwe (c_n cx) s e d).
(** [encrypt_constant_rlwe], src/rlwe.rs:385-402 (no encoding, despite the variable's name). *)
Definition encrypt_constant_rlwe (n : nat) (s : poly) (pt : Z) (d : draw) : rlwe :=
  encrypt_rlwe n s (poly_mono n 0 pt) d.
(** [decrypt_rlwe], src/rlwe.rs:405-407. *)
Definition decrypt_rlwe (n : nat) (s : poly) (c : rlwe) : poly := poly_sub (body c) (poly_mul n (mask c) s).
(** [decrypt_decode_rlwe], src/rlwe.rs:410-418. *)
Definition decrypt_decode_rlwe (cx : ctx) (s : poly) (c : rlwe) : res poly :=
  poly_decode (c_mode cx) (c_codec cx) (decrypt_rlwe (c_n cx) s c).
(** [ternary_decrypt_rlwe], src/rlwe.rs:421-428. *)
Definition ternary_decrypt_rlwe (n : nat) (s : poly) (c : rlwe) : poly :=
  poly_ternary_decode (decrypt_rlwe n s c).

(** ** RGSW ciphertexts, src/rgsw.rs:22-26: [rows] is the flat list of the [2 * level] RLWE rows, row
    [2*(l-1)] and [2*(l-1)+1] belonging to level [l]. *)
Record rgsw := { g_base : nat; g_level : nat; g_rows : list rlwe }.

(** [allocate], src/rgsw.rs:28-41. *)
Definition rgsw_allocate (n base level : nat) : rgsw :=
  {| g_base := base; g_level := level; g_rows := repeat (rlwe_allocate n) (2 * level) |}.

(** [1 << (64 - base_log * level)] (the decomposition parameters satisfy base_log * level <= 64). *)
Definition gadget (base level : nat) : Z := 2 ^ (64 - Z.of_nat (base * level)).

(** concrete-core's [encrypt_constant_ggsw] for a constant [m], called by [encrypt_constant_rgsw],
    src/rlwe.rs:431-441: for level l = 1..level the row of the mask encrypts [-m * g_l * s] and the
    row of the body the constant [m * g_l].  The decomposition parameters are those of the target. *)
Definition encrypt_constant_rgsw (n : nat) (s : poly) (base level : nat) (m : Z) (t : tape) : rgsw :=
  {| g_base := base; g_level := level;
     g_rows := map (fun i =>
       let f := wmul m (gadget base (i / 2 + 1)) in
       if Nat.even i then encrypt_rlwe n s (mul_const s (wsub 0 f)) (t i)
       else encrypt_rlwe n s (poly_mono n 0 f) (t i)) (seq 0 (2 * level)) |}.

(** Loop body of [encrypt_rgsw], src/rlwe.rs:453-470, on row number [i]; the shift uses
    [ctx.base_log], whatever the base of the target is. *)
Definition encrypt_rgsw_row (cx : ctx) (encoded : poly) (i : nat) (r : rlwe) : res rlwe :=
  shift <- usub (c_mode cx) 64 (Z.of_nat (c_base cx * (i / 2 + 1))) ;;
  f <- ushl (c_mode cx) 1 shift ;;
  let buf := mul_const encoded f in
  Ok (if Nat.even i then update_mask_with_add r buf else update_body_with_add r buf).
Fixpoint mapiM {A B} (f : nat -> A -> res B) (i : nat) (l : list A) : res (list B) :=
  match l with
  | [] => Ok []
  | x :: l' => y <- f i x ;; ys <- mapiM f (S i) l' ;; Ok (y :: ys)
  end.
(** [encrypt_rgsw], src/rlwe.rs:444-471, on a target allocated with [base], [level]. *)
Definition encrypt_rgsw (cx : ctx) (s : poly) (base level : nat) (encoded : poly) (t : tape) : res rgsw :=
  let out := encrypt_constant_rgsw (c_n cx) s base level 0 t in
  rows <- mapiM (encrypt_rgsw_row cx encoded) 0 (g_rows out) ;;
  Ok {| g_base := base; g_level := level; g_rows := rows |}.

(** [encrypt_constant_rgsw_vec], src/rlwe.rs:474-488. *)
Definition encrypt_constant_rgsw_vec (cx : ctx) (s : poly) (v : list Z) (t : tape) : list rgsw :=
  map (fun im => encrypt_constant_rgsw (c_n cx) s (c_base cx) (c_level cx) (snd im) (split t (fst im)))
      (combine (seq 0 (length v)) v).

(** [neg_gsw], src/rlwe.rs:494-506: [y * Scalar::MAX] is a checked multiplication. *)
Definition neg_gsw (cx : ctx) (s : poly) (t : tape) : res rgsw :=
  neg_sk <- mapM (fun y => umul (c_mode cx) y MAXW) s ;;
  encrypt_rgsw cx s (c_negs_base cx) (c_negs_level cx) neg_sk t.

(** [update_with_add] on RGSW ciphertexts, src/rgsw.rs:58-62. *)
Definition rgsw_add (a b : rgsw) : rgsw :=
  {| g_base := g_base a; g_level := g_level a; g_rows := map2 rlwe_add (g_rows a) (g_rows b) |}.

(** The products accumulated in the Fourier domain by concrete-core's [external_product]: for the
    levels from the last to the first, mask digit times mask row, body digit times body row. *)
Definition ep_terms (sel : rlwe -> poly) (g : rgsw) (d : rlwe) : fourier :=
  let B := g_base g in
  let l := g_level g in
  let dm := decompose_poly B l (mask d) in
  let db := decompose_poly B l (body d) in
  let zero := {| mask := []; body := [] |} in
  flat_map (fun i =>
    let lev := (l - 1 - i)%nat in
    [ (sel (nth (2 * lev) (g_rows g) zero), nth i dm []);
      (sel (nth (2 * lev + 1) (g_rows g) zero), nth i db []) ]) (seq 0 l).
(** [external_product_with_buf_glwe], src/rgsw.rs:64-102 (also [external_product_with_buf] and
    [external_product], 104-116): accumulates onto [out]. *)
Definition external_product (fft : fftT) (g : rgsw) (out d : rlwe) : rlwe :=
  {| mask := add_backward fft (mask out) (ep_terms mask g d);
     body := add_backward fft (body out) (ep_terms body g d) |}.

(** [cmux] / [cmux_with_buf], src/rgsw.rs:118-143: [out] is overwritten. *)
Definition cmux (fft : fftT) (g : rgsw) (ct0 ct1 : rlwe) : res rlwe :=
  rassert (length (body ct0) =? length (body ct1))%nat ;;;
  let tmp := rlwe_sub ct1 ct0 in
  Ok (external_product fft g ct0 tmp).

(** [get_nth_row] / [get_last_row], src/rgsw.rs:176-194. *)
Definition get_nth_row (g : rgsw) (i : nat) : res rlwe :=
  match nth_error (g_rows g) i with Some r => Ok r | None => Panic PUnwrap end.
Definition get_last_row (g : rgsw) : res rlwe := get_nth_row g (g_level g * 2 - 1).

(** ** Key switching keys, src/rlwe.rs:511-718 *)
Record kskey := { k_base : nat; k_level : nat; k_n : nat; k_subs : nat; k_ksks : list rlwe }.

(** [fill_with_keyswitch_key], src/rlwe.rs:566-592, on a key allocated with [base], [level]:
    level l encrypts [before * g_l] under [after]. *)
Definition fill_with_keyswitch_key (n base level : nat) (before after : poly) (t : tape) : kskey :=
  {| k_base := base; k_level := level; k_n := n; k_subs := 0;
     k_ksks := map (fun i => encrypt_rlwe n after (mul_const before (gadget base (i + 1))) (t i)) (seq 0 level) |}.
(** [fill_with_subs_keyswitch_key], src/rlwe.rs:549-562. *)
Definition fill_with_subs_keyswitch_key (n base level : nat) (after : poly) (k : nat) (t : tape) : res kskey :=
  before <- eval_x_k after k ;;
  let key := fill_with_keyswitch_key n base level before after t in
  Ok {| k_base := base; k_level := level; k_n := n; k_subs := k; k_ksks := k_ksks key |}.

(** Loop body of [keyswitch_ciphertext], src/rlwe.rs:662-688; the digits come from [next_term], which
    panics when exhausted. *)
Definition keyswitch_step (fft : fftT) (n : nat) (acc : rlwe * list poly) (ksk : rlwe) : res (rlwe * list poly) :=
  match snd acc with
  | [] => Panic PExplicit
  | term :: terms =>
      let poly_mask := fourier_update_with_mul_acc fft (poly_zero n) (mask ksk) term in
      let poly_body := fourier_update_with_mul_acc fft (poly_zero n) (body ksk) term in
      Ok (update_body_with_sub (update_mask_with_sub (fst acc) poly_mask) poly_body, terms)
  end.
(** [keyswitch_ciphertext], src/rlwe.rs:643-689. *)
Definition keyswitch_ciphertext (fft : fftT) (key : kskey) (before : rlwe) : res rlwe :=
  let n := k_n key in
  let after := update_body_with_add (rlwe_allocate n) (body before) in
  let terms := decompose_poly (k_base key) (k_level key) (mask before) in
  r <- foldM (keyswitch_step fft n) (rev (k_ksks key)) (after, terms) ;;
  Ok (fst r).
(** [subs], src/rlwe.rs:693-709. *)
Definition subs (fft : fftT) (key : kskey) (before : rlwe) : res rlwe :=
  m <- eval_x_k (mask before) (k_subs key) ;;
  b <- eval_x_k (body before) (k_subs key) ;;
  keyswitch_ciphertext fft key {| mask := m; body := b |}.

(** HashMap<usize, key>: an association list (keys are inserted once each). *)
Definition ksk_map := list (nat * kskey).
Fixpoint kget (m : ksk_map) (k : nat) : option kskey :=
  match m with [] => None | (k', v) :: m' => if (k' =? k)%nat then Some v else kget m' k end.

(** [n / (1 << (i - 1)) + 1], the exponent of step [i] in src/rlwe.rs:184, 222, 948 and 973. *)
Definition trace_k (n i : nat) : nat := (n / 2 ^ (i - 1) + 1)%nat.

(** Loop body of [trace1], src/rlwe.rs:183-189. *)
Definition trace1_step (fft : fftT) (n : nat) (m : ksk_map) (out : rlwe) (i : nat) : res rlwe :=
  let k := trace_k n i in
  match kget m k with
  | None => Panic PUnwrap
  | Some ksk =>
      rassert (k_subs ksk =? k)%nat ;;;
      buf <- subs fft ksk out ;;
      Ok (rlwe_add out buf)
  end.
(** [trace1], src/rlwe.rs:179-191; [log2 n] steps ([n] is the polynomial size, a power of two). *)
Definition trace1 (fft : fftT) (m : ksk_map) (c : rlwe) : res rlwe :=
  let n := length (body c) in
  foldM (trace1_step fft n m) (seq 1 (Nat.log2 n)) c.

(** [gen_all_subs_ksk], src/rlwe.rs:941-961. *)
Definition gen_all_subs_ksk (cx : ctx) (s : poly) (t : tape) : res ksk_map :=
  let n := c_n cx in
  mapM (fun i =>
    let k := trace_k n i in
    ksk <- fill_with_subs_keyswitch_key n (c_ks_base cx) (c_ks_level cx) s k (split t i) ;;
    Ok (k, ksk)) (seq 1 (Nat.log2 n)).

(** ** Fourier domain, src/rlwe.rs:720-933.  [into_fourier] (595-640) converts every polynomial of the
    key with [forward_as_torus]; a Fourier key is modelled by the torus polynomials it comes from. *)
Record frlwe := { f_mask : fourier; f_body : fourier }.

(** The multiply-accumulate loop of src/rlwe.rs:855-912: keys are taken two at a time. *)
Fixpoint fourier_loop (ksks : list rlwe) (terms : list poly) (acc : frlwe) : res frlwe :=
  match ksks with
  | first :: second :: ksks' =>
      match terms with
      | term1 :: term2 :: terms' =>
          fourier_loop ksks' terms'
            {| f_mask := f_mask acc ++ [(mask first, term1); (mask second, term2)];
               f_body := f_body acc ++ [(body first, term1); (body second, term2)] |}
      | _ => Panic PUnwrap
      end
  | [first] =>
      match terms with
      | term1 :: _ =>
          Ok {| f_mask := f_mask acc ++ [(mask first, term1)];
                f_body := f_body acc ++ [(body first, term1)] |}
      | _ => Panic PUnwrap
      end
  | [] => Ok acc
  end.
(** [FourierRLWEKeyswitchKey::keyswitch_ciphertext], src/rlwe.rs:783-913: the digits are negated. *)
Definition keyswitch_fourier (key : kskey) (before : rlwe) : res frlwe :=
  let terms := map poly_neg (decompose_poly (k_base key) (k_level key) (mask before)) in
  fourier_loop (rev (k_ksks key)) terms
    {| f_mask := []; f_body := [torus_term (k_n key) (body before)] |}.
(** [FourierRLWEKeyswitchKey::subs], src/rlwe.rs:917-933. *)
Definition subs_fourier (key : kskey) (before : rlwe) : res frlwe :=
  m <- eval_x_k (mask before) (k_subs key) ;;
  b <- eval_x_k (body before) (k_subs key) ;;
  keyswitch_fourier key {| mask := m; body := b |}.
(** [FourierRLWECiphertext::backward_as_torus], src/rlwe.rs:740-769. *)
Definition frlwe_backward (fft : fftT) (n : nat) (c : frlwe) : rlwe :=
  {| mask := add_backward fft (poly_zero n) (f_mask c); body := add_backward fft (poly_zero n) (f_body c) |}.

(** Loop body of [trace1_fourier], src/rlwe.rs:219-237. *)
Definition trace1_fourier_step (fft : fftT) (n : nat) (m : ksk_map) (out : rlwe) (i : nat) : res rlwe :=
  let k := trace_k n i in
  match kget m k with
  | None => Panic PUnwrap
  | Some ksk =>
      rassert (k_subs ksk =? k)%nat ;;;
      buf <- subs_fourier ksk out ;;
      Ok {| mask := add_backward fft (mask out) (f_mask buf); body := add_backward fft (body out) (f_body buf) |}
  end.
(** [trace1_fourier], src/rlwe.rs:195-238: [out] is overwritten by a copy of the input first. *)
Definition trace1_fourier (fft : fftT) (m : ksk_map) (c : rlwe) : res rlwe :=
  let n := length (body c) in
  foldM (trace1_fourier_step fft n m) (seq 1 (Nat.log2 n)) c.
(** [gen_all_subs_ksk_fourier], src/rlwe.rs:965-985: the same keys, converted. *)
Definition gen_all_subs_ksk_fourier (cx : ctx) (s : poly) (t : tape) : res ksk_map := gen_all_subs_ksk cx s t.

(** ** Expansion to RGSW *)

(** Rows of [expand] and [decomposed_rlwe_to_rgsw], src/rlwe.rs:997-1006 and 1065-1074. *)
Definition decomposed_rlwe_to_rgsw (fft : fftT) (cx : ctx) (cs : list rlwe) (neg_s : rgsw) : res rgsw :=
  rows <- mapM (fun i =>
    c <- index cs (i / 2) ;;
    Ok (if Nat.even i then external_product fft neg_s (rlwe_allocate (c_n cx)) c else c))
    (seq 0 (2 * c_level cx)) ;;
  Ok {| g_base := c_base cx; g_level := c_level cx; g_rows := rows |}.
(** [expand], src/rlwe.rs:989-1007 ([cs[0]] for the buffer panics on an empty slice). *)
Definition expand (fft : fftT) (cx : ctx) (m : ksk_map) (neg_s : rgsw) (cs : list rlwe) : res rgsw :=
  index cs 0 ;;;
  cs' <- mapM (trace1 fft m) cs ;;
  decomposed_rlwe_to_rgsw fft cx cs' neg_s.
(** One row of [expand_fourier], src/rlwe.rs:1020-1028; the state is the shared [c_prime]. *)
Definition expand_fourier_row (fft : fftT) (cx : ctx) (m : ksk_map) (neg_s : rgsw) (cs : list rlwe)
    (acc : rlwe * list rlwe) (i : nat) : res (rlwe * list rlwe) :=
  if Nat.even i then
    c <- index cs (i / 2) ;;
    c' <- trace1_fourier fft m c ;;
    Ok (c', snd acc ++ [external_product fft neg_s (rlwe_allocate (c_n cx)) c'])
  else Ok (fst acc, snd acc ++ [fst acc]).
(** [expand_fourier], src/rlwe.rs:1011-1030. *)
Definition expand_fourier (fft : fftT) (cx : ctx) (m : ksk_map) (neg_s : rgsw) (cs : list rlwe) : res rgsw :=
  index cs 0 ;;;
  r <- foldM (expand_fourier_row fft cx m neg_s cs) (seq 0 (2 * c_level cx)) (rlwe_allocate (c_n cx), []) ;;
  Ok {| g_base := c_base cx; g_level := c_level cx; g_rows := snd r |}.

(** [make_decomposed_rlwe_ct], src/rlwe.rs:1205-1227; [tern] supplies [gen_ternary_ptxt] (its
    coefficient 0 is overwritten).  [logn] is 0 for [make_decomposed_rlwe_ct2] (1231-1251), which has
    no assertion. *)
Definition make_decomposed_gen (cx : ctx) (s : poly) (bit : Z) (logn : nat) (check : bool)
    (tern : nat -> poly) (t : tape) : res (list rlwe) :=
  rassert ((bit =? 1) || (bit =? 0)) ;;;
  mapM (fun i =>
    let level := (i + 1)%nat in
    rassert (negb check || (c_base cx * level + logn <=? 64)%nat) ;;;
    sh0 <- usub (c_mode cx) 64 (Z.of_nat (c_base cx * level)) ;;
    shift <- usub (c_mode cx) sh0 (Z.of_nat logn) ;;
    v <- ushl (c_mode cx) bit shift ;;
    Ok (encrypt_rlwe (c_n cx) s (upd (tern i) 0 v) (t i))) (seq 0 (c_level cx)).
Definition make_decomposed_rlwe_ct (cx : ctx) (s : poly) (bit : Z) := make_decomposed_gen cx s bit (Nat.log2 (c_n cx)) true.
Definition make_decomposed_rlwe_ct2 (cx : ctx) (s : poly) (bit : Z) := make_decomposed_gen cx s bit 0 false.

(** [from_keyswitch_key], src/rgsw.rs:196-225. *)
Definition from_keyswitch_key (key : kskey) : res rgsw :=
  rassert (length (k_ksks key) =? k_level key)%nat ;;;
  rows <- mapM (fun i =>
    ks <- index (k_ksks key) (i / 2) ;;
    let z := rlwe_allocate (k_n key) in
    Ok (if Nat.even i
        then update_body_with_sub (update_mask_with_sub z (mask ks)) (body ks)
        else {| mask := mask z; body := upd (body z) 0 (gadget (k_base key) (i / 2 + 1)) |}))
    (seq 0 (2 * k_level key)) ;;
  Ok {| g_base := k_base key; g_level := k_level key; g_rows := rows |}.
(** [RGSWCiphertext::keyswitch_ciphertext(_with_buf)], src/rgsw.rs:228-240. *)
Definition rgsw_keyswitch_ciphertext (fft : fftT) (g : rgsw) (after before : rlwe) : rlwe :=
  external_product fft g after before.

(** ** Noise measurement (before the final [log2] to f64) *)

(** [(x as i64).abs()]: overflow at the minimum. *)
Definition iabs (md : mode) (x : Z) : res Z :=
  let z := to_signed x in
  if z =? - 2 ^ 63 then match md with Checked => Panic POverflow | Wrapping => Ok z end
  else Ok (Z.abs z).
(** [compute_noise], src/rlwe.rs:1255-1280: [max_e]. *)
Definition compute_noise (md : mode) (n : nat) (s : poly) (c : rlwe) (encoded : poly) : res Z :=
  foldM (fun max_e x => z <- iabs md x ;; Ok (if max_e <? z then z else max_e))
        (poly_sub (decrypt_rlwe n s c) encoded) 0.
(** [compute_noise_ternary], src/rlwe.rs:1282-1294. *)
Definition compute_noise_ternary (md : mode) (n : nat) (s : poly) (c : rlwe) (pt : poly) : res Z :=
  compute_noise md n s c (poly_ternary_decode pt).
(** [compute_noise_encoded], src/rlwe.rs:1299-1312. *)
Definition compute_noise_encoded (cx : ctx) (s : poly) (c : rlwe) (pt : poly) : res Z :=
  e <- poly_encode (c_mode cx) (c_codec cx) pt ;; compute_noise (c_mode cx) (c_n cx) s c e.
(** The per-level values averaged by [compute_noise_rgsw1], src/rgsw.rs:245-255 (noise against the
    unit plaintext; context parameters). *)
Definition compute_noise_rgsw1_levels (cx : ctx) (s : poly) (g : rgsw) : res (list Z) :=
  mapM (fun level =>
    row <- get_nth_row g (level * 2 + 1) ;;
    compute_noise (c_mode cx) (c_n cx) s row (mul_const (poly_mono (c_n cx) 0 1) (gadget (c_base cx) (level + 1))))
    (seq 0 (c_level cx)).

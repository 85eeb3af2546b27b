(** * Specification vocabulary for ciphertexts *)
From Verif Require Import MBase MCodec MPoly MRlwe.
From Verif Require Export SpecRing.
Local Open Scope Z_scope.

(** Coefficients bounded as signed integers. *)
Definition sbound (D : Z) (p : list Z) : Prop := Forall (fun x => - D <= to_signed x <= D) p.

(** The exact value of an accumulation of products. *)
Definition fexact (n : nat) (ts : fourier) : P :=
  fold_right (fun ab acc => padd (pmul n (tof (fst ab)) (tof (snd ab))) acc) pzero ts.

(** [fft] computes sums of at most [L] products, with integer operands of absolute value at most [D],
    up to an error of [eps] per coefficient.  Nothing else is assumed about the floating-point FFT. *)
Definition fft_ok (n : nat) (fft : fftT) (D : Z) (L : nat) (eps : Z) : Prop :=
  forall ts, (length ts <= L)%nat ->
    Forall (fun ab => wfp n (fst ab) /\ wfp n (snd ab) /\ sbound D (snd ab)) ts ->
    wfp n (fft ts) /\ near n (tof (fft ts)) (fexact n ts) eps.

(** The exact FFT (error 0), used to show that hypotheses are satisfiable. *)
Definition exact_fft (n : nat) : fftT :=
  fun ts => fold_right (fun ab acc => poly_add (poly_mul n (fst ab) (snd ab)) acc) (poly_zero n) ts.

(** Well-formed ciphertexts of dimension [n]. *)
Definition wfc (n : nat) (c : rlwe) : Prop := wfp n (mask c) /\ wfp n (body c).

(** What a ciphertext decrypts to, before decoding: body - mask * s. *)
Definition phase (n : nat) (s : poly) (c : rlwe) : P := psub (tof (body c)) (pmul n (tof (mask c)) (tof s)).

(** A binary secret key of [n] coefficients. *)
Definition binary_key (n : nat) (s : poly) : Prop := length s = n /\ Forall (fun x => x = 0 \/ x = 1) s.

(** Decomposition parameters accepted by the library: at least one bit and level, fewer than 64 bits. *)
Definition decomp_ok (base level : nat) : Prop := (1 <= base /\ 1 <= level /\ base * level < 64)%nat.

(** A draw with a well-formed mask and noise at most [E]; a tape of such draws. *)
Definition draw_ok (n : nat) (E : Z) (d : draw) : Prop :=
  wfp n (d_mask d) /\ wfp n (d_noise d) /\ bd n (tof (d_noise d)) E.
Definition tape_ok (n : nat) (E : Z) (t : tape) : Prop := forall i, draw_ok n E (t i).

(** Well-formed RGSW ciphertexts. *)
Definition wfg (n : nat) (g : rgsw) : Prop :=
  decomp_ok (g_base g) (g_level g) /\ length (g_rows g) = (2 * g_level g)%nat /\ Forall (wfc n) (g_rows g).

(** The rows of level [i+1]. *)
Definition row0 (g : rgsw) (i : nat) : rlwe := nth (2 * i) (g_rows g) {| mask := []; body := [] |}.
Definition row1 (g : rgsw) (i : nat) : rlwe := nth (2 * i + 1) (g_rows g) {| mask := []; body := [] |}.

(** [g] is an RGSW encryption under [s] of the polynomial [m] with row noise at most [E], in the gadget
    2^(64 - base), 2^(64 - 2 base), .. of its own decomposition parameters. *)
Definition rgsw_encrypts (n : nat) (s : poly) (g : rgsw) (m : P) (E : Z) : Prop :=
  wfg n g /\
  forall i, (i < g_level g)%nat ->
    near n (phase n s (row0 g i)) (popp (pmul n (pcst (gadget (g_base g) (i + 1))) (pmul n m (tof s)))) E /\
    near n (phase n s (row1 g i)) (pmul n (pcst (gadget (g_base g) (i + 1))) m) E.

(** Same rows, but in the gadget of base [gb], whatever the parameters recorded in [g]. *)
Definition rgsw_rows (n : nat) (s : poly) (g : rgsw) (gb : nat) (m : P) (E : Z) : Prop :=
  forall i, (i < g_level g)%nat ->
    near n (phase n s (row0 g i)) (popp (pmul n (pcst (gadget gb (i + 1))) (pmul n m (tof s)))) E /\
    near n (phase n s (row1 g i)) (pmul n (pcst (gadget gb (i + 1))) m) E.

(** [key] switches from [before] to [after] with row noise at most [E]. *)
Definition ksk_switches (n : nat) (before : P) (after : poly) (key : kskey) (E : Z) : Prop :=
  k_n key = n /\ decomp_ok (k_base key) (k_level key) /\ length (k_ksks key) = k_level key /\
  Forall (wfc n) (k_ksks key) /\
  forall i, (i < k_level key)%nat ->
    near n (phase n after (nth i (k_ksks key) {| mask := []; body := [] |}))
           (pmul n (pcst (gadget (k_base key) (i + 1))) before) E.

(** ** Error bounds.  [S] bounds the sum of the absolute values of the key coefficients ([n] for binary
    keys), [M] that of the message polynomial. *)

(** External product. *)
Definition ep_bound (n base level : nat) (S M E eps : Z) : Z :=
  Z.of_nat level * (2 * (Z.of_nat n * 2 ^ (Z.of_nat base - 1) * E))
  + M * ((1 + S) * 2 ^ (63 - Z.of_nat (base * level)))
  + (1 + S) * eps.

(** RLWE key switching: [Sb] for the key before, [Sa] for the key after, [F] Fourier roundings. *)
Definition ks_bound (n base level : nat) (Sb Sa E : Z) (F : Z) : Z :=
  Z.of_nat level * (Z.of_nat n * 2 ^ (Z.of_nat base - 1) * E)
  + Sb * 2 ^ (63 - Z.of_nat (base * level))
  + (1 + Sa) * F.

(** The message part of the phase under a key given as a polynomial. *)
Definition phaseP (n : nat) (s : P) (c : rlwe) : P := psub (tof (body c)) (pmul n (tof (mask c)) s).

(** A map of substitution keys for the exponents used by the trace, of noise at most [E]. *)
Definition subs_map_ok (n : nat) (s : poly) (m : ksk_map) (base level : nat) (E : Z) : Prop :=
  forall i, (1 <= i <= Nat.log2 n)%nat ->
    exists key, kget m (trace_k n i) = Some key /\ k_subs key = trace_k n i /\
      k_base key = base /\ k_level key = level /\
      ksk_switches n (psubst n (trace_k n i) (tof s)) s key E.

(** Noise of the rows produced by [expand]: [E] noise of the inputs' constant terms, [K] that of one
    key switch, [EP] that of the external product with the encryption of -s. *)
Definition expand_bound (n : nat) (S E K EP : Z) : Z :=
  (1 + S) * (Z.of_nat n * E + (Z.of_nat n - 1) * K) + EP.

(** Plaintexts: [n] coefficients below the modulus 2^k; their ideal encoding. *)
Definition plaintext (n : nat) (k : Z) (pt : list Z) : Prop := length pt = n /\ Forall (fun x => 0 <= x < 2 ^ k) pt.
Definition scaled (k : Z) (pt : list Z) : P := fun i => nth i pt 0 * 2 ^ (64 - k).

(** Inputs of [expand] for the bit [b] at ring dimension n = 2^lg: the ciphertext for level i+1 has the
    constant term b * 2^(64 - base * (i+1) - lg) up to [E]; its other coefficients are arbitrary. *)
Definition expand_inputs (n lg : nat) (cx : ctx) (s : poly) (b : Z) (E : Z) (cs : list rlwe) : Prop :=
  length cs = c_level cx /\ Forall (wfc n) cs /\
  forall i, (i < c_level cx)%nat ->
    nrm (phase n s (nth i cs {| mask := []; body := [] |}) 0%nat
         - b * 2 ^ (64 - Z.of_nat (c_base cx * (i + 1)) - Z.of_nat lg)) <= E.

(** LWE to RLWE conversion: [n] key coefficients, each decomposed into [level] digits. *)
Definition conv_bound (n base level : nat) (S E : Z) : Z :=
  Z.of_nat n * (Z.of_nat level * (2 ^ (Z.of_nat base - 1) * E)) + S * 2 ^ (63 - Z.of_nat (base * level)).

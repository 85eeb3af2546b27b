(** * Model of the noise figures as floating-point numbers: src/rlwe.rs:1279 takes the logarithm of the largest error, src/main.rs:82-89, 101-108,
    149-156, 164-171 and src/rgsw.rs:245-255 average such logarithms.  [MRlwe] and [MMain] return the integers before the logarithm.
    The logarithm [f64::log2] is an argument. *)
From Coq Require Import ZArith List.
From Flocq Require Import IEEE754.BinarySingleNaN.
From Verif Require Import MBase MPoly MRlwe MIeee.
Import ListNotations.
Local Open Scope Z_scope.

(** [a / b] and [a < b] of f64. *)
Definition f_quot : f64 -> f64 -> f64 := Bdiv mode_NE.
Definition f_less (a b : f64) : bool := Bltb a b.
(** [(max_e as f64).log2()], src/rlwe.rs:1279. *)
Definition noise_log (lg : f64 -> f64) (max_e : Z) : f64 := lg (f_of_int max_e).
(** [let mut avg_noise = 0f64; for .. { avg_noise += noise }; avg_noise /= count as f64], src/main.rs:82-89, 101-108, 149-156, 164-171. *)
Definition average_over (lg : f64 -> f64) (count : nat) (es : list Z) : f64 :=
  f_quot (fold_left (fun avg e => f_add avg (noise_log lg e)) es f_zero) (f_of_int (Z.of_nat count)).
Definition average (lg : f64 -> f64) (es : list Z) : f64 := average_over lg (length es) es.
(** [compute_noise_rgsw1], src/rgsw.rs:245-255. *)
Definition compute_noise_rgsw1 (lg : f64 -> f64) (cx : ctx) (s : poly) (g : rgsw) : res f64 :=
  es <- compute_noise_rgsw1_levels cx s g ;; Ok (average_over lg (c_level cx) es).

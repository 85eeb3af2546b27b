(** * Model of the noise generator of concrete-core, which every encryption of the crate calls with [ctx.std]
    (src/rlwe.rs:342-352, 360-369, 373-382, 391-402, 438, 947-981, src/lwe.rs:117, src/rgsw.rs through src/rlwe.rs) and
    [ctx.encryption_generator]; [ctx.std] is made at src/context.rs:123.
    The crate is not in the sandbox; this is its polar method ([Gaussian], random_gaussian) as published.  An f64 is a real
    number; [fl] gives its operations (see [MFft]), [lnf] its logarithm.  Nothing here under- or overflows: the
    numbers lie between 2^-140 and 2^140. *)
From Coq Require Import Reals.
From Verif Require Import MBase MPoly MRlwe MFft.
Local Open Scope R_scope.

(** Pairs of words of the generator's stream. *)
Definition word_pairs := nat -> (Z * Z).

Section Gauss.
Context (fl : float_ops) (lnf : R -> R).
(** A word as a number between -1 and 1: read as signed, converted, scaled. *)
Definition unit_part (w : Z) : R := fl_round fl (fl_round fl (IZR (to_signed w)) * / 2 ^ 63).
(** One pair of words: rejected unless the point lies inside the unit circle (and is not its centre); then two
    independent values of standard deviation [std] and mean 0. *)
Definition gauss (std : R) (ws : Z * Z) : option (R * R) :=
  let rnd := fl_round fl in
  let u := unit_part (fst ws) in let v := unit_part (snd ws) in
  let s := rnd (rnd (u * u) + rnd (v * v)) in
  if Rlt_dec 0 s then if Rlt_dec s 1 then
    let cst := rnd (std * rnd (sqrt (rnd (rnd (- 2 * lnf s) / s)))) in
    Some (rnd (rnd (u * cst) + 0), rnd (rnd (v * cst) + 0))
  else None else None.
(** The loop around it, for at most [fuel] pairs ([None]: all of them rejected), as words of the torus; and the rest of the stream. *)
Fixpoint gauss_pair (std : R) (fuel : nat) (w : word_pairs) : option ((Z * Z) * word_pairs) :=
  match fuel with
  | O => None
  | S fuel' =>
      match gauss std (w 0%nat) with
      | Some (a, b) => Some ((from_torus fl a, from_torus fl b), fun i => w (S i))
      | None => gauss_pair std fuel' (fun i => w (S i))
      end
  end.
(** A slice is filled two by two; the second value is dropped if there is no place for it. *)
Fixpoint fill_noise (std : R) (fuel : nat) (n : nat) (w : word_pairs) : option (poly * word_pairs) :=
  match n with
  | O => Some ([], w)
  | 1%nat => match gauss_pair std fuel w with Some ((a, _), w') => Some ([a], w') | None => None end
  | S (S n') =>
      match gauss_pair std fuel w with
      | None => None
      | Some ((a, b), w') => match fill_noise std fuel n' w' with Some (l, w'') => Some (a :: b :: l, w'') | None => None end
      end
  end.
End Gauss.

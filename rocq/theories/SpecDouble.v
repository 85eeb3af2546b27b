(** * Specification: the numbers of type f64 (IEEE 754 binary64, round to nearest, ties to even), as formalised
    in the library Flocq; exponents are unbounded above (no overflow), not below. *)
From Coq Require Import Reals ZArith.
From Flocq Require Import Core.Zaux Core.Generic_fmt Core.FLT Core.Round_NE.

Definition binary64 (x : R) : R := round radix2 (FLT_exp (-1074) 53) ZnearestE x.

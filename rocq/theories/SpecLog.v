(** * Specification: the base-2 logarithm of a real number, and its value correctly rounded to binary64 *)
From Coq Require Import Reals.
From Verif Require Import SpecDouble.
Local Open Scope R_scope.
Definition log2 (x : R) : R := ln x / ln 2.
Definition rounded_log2 (x : R) : R := binary64 (log2 x).

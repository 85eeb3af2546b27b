(** * Model of [parse_csv] (src/utils.rs:74-86) and of [izip!] (src/macros.rs). *)
From Coq Require Import String Ascii.
From Verif Require Import MBase.
Local Open Scope Z_scope.

(** [usize::from_str] of the Rust standard library, called by [s.parse()] at src/utils.rs:81, on a 64-bit
    target: the bytes after an optional leading ['+'] must be one or more decimal digits; the value is
    accumulated from the left with checked multiplication and addition. [None] stands for [Err(_)]. *)
Definition digit_of (c : ascii) : option Z :=
  let n := Z.of_nat (nat_of_ascii c) in
  if (48 <=? n) && (n <=? 57) then Some (n - 48) else None.
Fixpoint parse_digits (acc : Z) (s : string) : option Z :=
  match s with
  | EmptyString => Some acc
  | String c s' =>
      match digit_of c with
      | None => None
      | Some d => if acc * 10 <? q then if acc * 10 + d <? q then parse_digits (acc * 10 + d) s' else None else None
      end
  end.
Definition parse_usize (s : string) : option Z :=
  match s with
  | EmptyString => None
  | String c s' =>
      if Ascii.eqb c "+"%char then match s' with EmptyString => None | _ => parse_digits 0 s' end
      else parse_digits 0 s
  end.

(** A record as the csv crate splits it out of the file: its fields, and whether they are valid UTF-8.
    (How it splits the bytes, quoting included: MLex.v.) *)
Record csv_record := { rec_fields : list string; rec_utf8 : bool }.

(** [option::unwrap] / [result::unwrap]. *)
Definition unwrap {A} (o : option A) : res A := match o with Some a => Ok a | None => Panic PUnwrap end.

(** [csv::Reader::from_reader(..).records()], src/utils.rs:78-79: the default reader treats the first record
    as a header, which [records] does not yield, and is not flexible: a record whose number of fields differs
    from that of the first one is an error, as is one that is not UTF-8. *)
Definition csv_records (file : list csv_record) : list (option (list string)) :=
  match file with
  | [] => []
  | h :: rs => map (fun r => if rec_utf8 r && (List.length (rec_fields r) =? List.length (rec_fields h))%nat
                             then Some (rec_fields r) else None) rs
  end.

(** [parse_csv], src/utils.rs:74-86; [None] is a file that cannot be opened ([expect], line 75). *)
Definition parse_csv (file : option (list csv_record)) : res (list (list Z)) :=
  records <- unwrap file ;;
  foldM (fun x_test r => record <- unwrap r ;;
                         row <- mapM (fun s => unwrap (parse_usize s)) record ;;
                         Ok (x_test ++ [row]))
        (csv_records records) [].

(** An iterator as far as [zip] is concerned: the items it will yield and its [size_hint]. *)
Record iter (A : Type) := { items : list A; hint : nat * option nat }.
Arguments items {A}. Arguments hint {A}.
(** The iterator of a slice, array or vector. *)
Definition slice_iter {A} (l : list A) : iter A := {| items := l; hint := (List.length l, Some (List.length l)) |}.

(** [assert_same_len], src/macros.rs:2-6; the [debug_assert_eq!]s are compiled only in the debug profile,
    which is the one with overflow checks ([Checked]). *)
Definition opt_eqb (a : option nat) (b : nat) : bool := match a with Some x => (x =? b)%nat | None => false end.
Definition assert_same_len (md : mode) (a b : nat * option nat) : res unit :=
  match md with
  | Wrapping => Ok tt
  | Checked => rassert (opt_eqb (snd a) (fst a)) ;;; rassert (opt_eqb (snd b) (fst b)) ;;; rassert (fst a =? fst b)%nat
  end.

(** [core::iter::zip]: stops with the shorter one; its hint is the smaller of the two, an absent upper bound
    counting as infinite. *)
Definition min_hint (a b : nat * option nat) : nat * option nat :=
  (Nat.min (fst a) (fst b),
   match snd a, snd b with
   | Some x, Some y => Some (Nat.min x y) | Some x, None => Some x | None, o => o
   end).
Definition zip_iter {A B} (a : iter A) (b : iter B) : iter (A * B) :=
  {| items := combine (items a) (items b); hint := min_hint (hint a) (hint b) |}.
(** [ZipChecked::zip_checked], src/macros.rs:8-19. *)
Definition zip_checked {A B} (md : mode) (a : iter A) (b : iter B) : res (iter (A * B)) :=
  assert_same_len md (hint a) (hint b) ;;; Ok (zip_iter a b).

(** [izip!], src/macros.rs:24-51, on two, three and five iterators (the arities used in src/rlwe.rs:823, 1107,
    1152, 1164 and 1176): nested [zip_checked], then a map that flattens the pairs. *)
Definition izip2 {A B} (md : mode) (a : iter A) (b : iter B) : res (list (A * B)) :=
  z <- zip_checked md a b ;; Ok (items z).
Definition izip3 {A B C} (md : mode) (a : iter A) (b : iter B) (c : iter C) : res (list (A * B * C)) :=
  z1 <- zip_checked md a b ;; z2 <- zip_checked md z1 c ;;
  Ok (map (fun '((x, y), z) => (x, y, z)) (items z2)).
Definition izip5 {A B C D E} (md : mode) (a : iter A) (b : iter B) (c : iter C) (d : iter D) (e : iter E)
  : res (list (A * B * C * D * E)) :=
  z1 <- zip_checked md a b ;; z2 <- zip_checked md z1 c ;; z3 <- zip_checked md z2 d ;; z4 <- zip_checked md z3 e ;;
  Ok (map (fun '((((x, y), z), u), v) => (x, y, z, u, v)) (items z4)).

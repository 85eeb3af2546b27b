(** * JSON text, as far as the codebase needs serde_json (version 1.0.108, Cargo.toml:24).
    [serde_json::to_string] is called at src/decision_tree.rs:746, [serde_json::from_reader] at
    src/main.rs:196.  serde_json is a dependency; this file models the JSON values, its compact printer and its
    reader of text.  Texts are sequences of bytes that are assumed to be UTF-8.  Simplifications: an error is
    [None], whatever its kind and position; the values of fields nobody asked for go through the same reader as
    all others (serde_json skips them, which accepts a lone surrogate in a string). *)
From Coq Require Import String Ascii.
From Verif Require Import MBase MCsv.
Local Open Scope Z_scope.

(** JSON values.  Numbers are kept as written; objects keep order and repeated keys. *)
Inductive json : Type :=
| JNull
| JBool (b : bool)
| JNum (token : string)
| JStr (s : string)
| JArr (vs : list json)
| JObj (fs : list (string * json)).

(** Sequencing of steps that may fail with an error. *)
Definition obind {A B} (o : option A) (f : A -> option B) : option B := match o with Some a => f a | None => None end.
Infix "+++" := append (at level 60, right associativity).
Notation "x <-? a ;; b" := (obind a (fun x => b)) (at level 61, a at next level, right associativity).
Notation "' x <-? a ;; b" := (obind a (fun x => b)) (at level 61, x pattern, a at next level, right associativity).

Local Open Scope string_scope.
Local Open Scope Z_scope.

(** ** Printing *)
Definition ch (c : ascii) : string := String c EmptyString.
Definition code (c : ascii) : Z := Z.of_nat (nat_of_ascii c).
Definition byte (z : Z) : ascii := ascii_of_nat (Z.to_nat z).
(** Bytes that need the double quote character are written by code: 34 is the double quote, 92 the backslash. *)
Definition QUOTE : ascii := "034".
Definition BSLASH : ascii := "092".

(** The decimal digits of a machine word (crate itoa): at most twenty. *)
Fixpoint itoa_loop (fuel : nat) (z : Z) (acc : string) : string :=
  match fuel with
  | O => acc
  | S f => let acc' := String (byte (48 + z mod 10)) acc in
           if z / 10 =? 0 then acc' else itoa_loop f (z / 10) acc'
  end.
Definition itoa (z : Z) : string := itoa_loop 20 z EmptyString.

(** Escaping: the two special characters, the five controls with a letter, the other controls as [\u00XX]. *)
Definition hex_digit (z : Z) : ascii := if z <? 10 then byte (48 + z) else byte (87 + z).
Definition escape_char (c : ascii) : string :=
  if Ascii.eqb c QUOTE then String BSLASH (ch QUOTE)
  else if Ascii.eqb c BSLASH then String BSLASH (ch BSLASH)
  else if code c =? 8 then String BSLASH "b"
  else if code c =? 9 then String BSLASH "t"
  else if code c =? 10 then String BSLASH "n"
  else if code c =? 12 then String BSLASH "f"
  else if code c =? 13 then String BSLASH "r"
  else if code c <? 32 then String BSLASH (append "u00" (String (hex_digit (code c / 16)) (ch (hex_digit (code c mod 16)))))
  else ch c.
Fixpoint escape (s : string) : string :=
  match s with EmptyString => EmptyString | String c s' => escape_char c +++ escape s' end.
Definition quoted (s : string) : string := String QUOTE (escape s +++ ch QUOTE).

(** The compact formatter: no white space. *)
Fixpoint render (j : json) : string :=
  match j with
  | JNull => "null"
  | JBool true => "true"
  | JBool false => "false"
  | JNum t => t
  | JStr s => quoted s
  | JArr vs => "[" +++ (fix elems (vs : list json) : string :=
      match vs with
      | [] => ""
      | [v] => render v
      | v :: vs' => render v +++ "," +++ elems vs'
      end) vs +++ "]"
  | JObj fs => "{" +++ (fix members (fs : list (string * json)) : string :=
      match fs with
      | [] => ""
      | [(k, v)] => quoted k +++ ":" +++ render v
      | (k, v) :: fs' => quoted k +++ ":" +++ render v +++ "," +++ members fs'
      end) fs +++ "}"
  end.

(** ** Reading *)
Definition is_space (c : ascii) : bool := (code c =? 32) || (code c =? 10) || (code c =? 9) || (code c =? 13).
Fixpoint skip (s : string) : string :=
  match s with String c s' => if is_space c then skip s' else s | EmptyString => EmptyString end.
(** Consume a given prefix. *)
Fixpoint expect (p s : string) : option string :=
  match p, s with
  | EmptyString, _ => Some s
  | String a p', String b s' => if Ascii.eqb a b then expect p' s' else None
  | String _ _, EmptyString => None
  end.

(** Four hexadecimal digits, upper or lower case. *)
Definition hex_val (c : ascii) : option Z :=
  let n := code c in
  if (48 <=? n) && (n <=? 57) then Some (n - 48)
  else if (97 <=? n) && (n <=? 102) then Some (n - 87)
  else if (65 <=? n) && (n <=? 70) then Some (n - 55)
  else None.
Definition hex4 (s : string) : option (Z * string) :=
  match s with
  | String a (String b (String c (String d s'))) =>
      x <-? hex_val a ;; y <-? hex_val b ;; z <-? hex_val c ;; w <-? hex_val d ;;
      Some (((x * 16 + y) * 16 + z) * 16 + w, s')
  | _ => None
  end.
(** A code point as UTF-8. *)
Definition utf8 (n : Z) : string :=
  if n <? 128 then ch (byte n)
  else if n <? 2048 then String (byte (192 + n / 64)) (ch (byte (128 + n mod 64)))
  else if n <? 65536 then String (byte (224 + n / 4096)) (String (byte (128 + n / 64 mod 64)) (ch (byte (128 + n mod 64))))
  else String (byte (240 + n / 262144)) (String (byte (128 + n / 4096 mod 64)) (String (byte (128 + n / 64 mod 64)) (ch (byte (128 + n mod 64))))).
(** After [\u]: one code unit, or two if it is the first half of a surrogate pair. *)
Definition unicode (s : string) : option (string * string) :=
  ' (n, s1) <-? hex4 s ;;
  if (56320 <=? n) && (n <? 57344) then None
  else if (55296 <=? n) && (n <? 56320) then
    s2 <-? expect (String BSLASH "u") s1 ;;
    ' (m, s3) <-? hex4 s2 ;;
    if (56320 <=? m) && (m <? 57344) then Some (utf8 (65536 + (n - 55296) * 1024 + (m - 56320)), s3) else None
  else Some (utf8 n, s1).
(** After a backslash. *)
Definition unescape (s : string) : option (string * string) :=
  match s with
  | EmptyString => None
  | String c s' =>
      if Ascii.eqb c QUOTE || Ascii.eqb c BSLASH || Ascii.eqb c "/" then Some (ch c, s')
      else if Ascii.eqb c "b" then Some (ch (byte 8), s')
      else if Ascii.eqb c "t" then Some (ch (byte 9), s')
      else if Ascii.eqb c "n" then Some (ch (byte 10), s')
      else if Ascii.eqb c "f" then Some (ch (byte 12), s')
      else if Ascii.eqb c "r" then Some (ch (byte 13), s')
      else if Ascii.eqb c "u" then unicode s'
      else None
  end.
(** After the opening quote; control characters must be escaped.  [fuel] bounds the number of characters. *)
Fixpoint read_string (fuel : nat) (s : string) : option (string * string) :=
  match fuel with
  | O => None
  | S f =>
      match s with
      | EmptyString => None
      | String c s' =>
          if Ascii.eqb c QUOTE then Some (EmptyString, s')
          else if Ascii.eqb c BSLASH then
            ' (x, s1) <-? unescape s' ;; ' (y, s2) <-? read_string f s1 ;; Some (x +++ y, s2)
          else if code c <? 32 then None
          else ' (y, s2) <-? read_string f s' ;; Some (String c y, s2)
      end
  end.

(** The longest run of digits. *)
Definition is_digit (c : ascii) : bool := (48 <=? code c) && (code c <=? 57).
Fixpoint digits (s : string) : string * string :=
  match s with
  | String c s' => if is_digit c then let '(d, r) := digits s' in (String c d, r) else (EmptyString, s)
  | EmptyString => (EmptyString, EmptyString)
  end.
(** At least one digit. *)
Definition digits1 (s : string) : option (string * string) :=
  match digits s with (EmptyString, _) => None | dr => Some dr end.
(** Sign, integer part without leading zeros, fraction, exponent. *)
Definition read_number (s : string) : option (string * string) :=
  let '(sign, s0) := match s with String c s' => if Ascii.eqb c "-" then ("-", s') else ("", s) | EmptyString => ("", s) end in
  ' (int, s1) <-? match s0 with String c s' => if Ascii.eqb c "0" then Some ("0", s') else digits1 s0 | EmptyString => None end ;;
  ' (frac, s2) <-? 
    match s1 with
    | String c s' => if Ascii.eqb c "." then ' (d, r) <-? digits1 s' ;; Some (String "." d, r) else Some ("", s1)
    | EmptyString => Some ("", s1)
    end ;;
  ' (exp, s3) <-?
    match s2 with
    | String c s' =>
        if Ascii.eqb c "e" || Ascii.eqb c "E" then
          let '(sg, s'') := match s' with
                            | String c' r => if Ascii.eqb c' "+" || Ascii.eqb c' "-" then (ch c', r) else ("", s')
                            | EmptyString => ("", s') end in
          ' (d, r) <-? digits1 s'' ;; Some (String c (sg +++ d), r)
        else Some ("", s2)
    | EmptyString => Some ("", s2)
    end ;;
  Some (sign +++ int +++ frac +++ exp, s3).

(** Values, the elements of an array after its first bracket, the members of an object after its first brace
    ([first]: a closing one may follow at once).  [fuel] bounds the number of steps; [read_json] gives enough. *)
Fixpoint read_value (fuel : nat) (s : string) : option (json * string) :=
  match fuel with
  | O => None
  | S f =>
      match skip s with
      | EmptyString => None
      | String c s' =>
          if Ascii.eqb c "n" then r <-? expect "ull" s' ;; Some (JNull, r)
          else if Ascii.eqb c "t" then r <-? expect "rue" s' ;; Some (JBool true, r)
          else if Ascii.eqb c "f" then r <-? expect "alse" s' ;; Some (JBool false, r)
          else if Ascii.eqb c QUOTE then ' (x, r) <-? read_string f s' ;; Some (JStr x, r)
          else if Ascii.eqb c "[" then ' (vs, r) <-? read_elems f true s' ;; Some (JArr vs, r)
          else if Ascii.eqb c "{" then ' (fs, r) <-? read_members f true s' ;; Some (JObj fs, r)
          else ' (t, r) <-? read_number (String c s') ;; Some (JNum t, r)
      end
  end
with read_elems (fuel : nat) (first : bool) (s : string) : option (list json * string) :=
  match fuel with
  | O => None
  | S f =>
      match skip s with
      | EmptyString => None
      | String c s' =>
          if Ascii.eqb c "]" then Some ([], s')
          else if first then ' (v, r) <-? read_value f (String c s') ;; ' (vs, r') <-? read_elems f false r ;; Some (v :: vs, r')
          else if Ascii.eqb c "," then ' (v, r) <-? read_value f s' ;; ' (vs, r') <-? read_elems f false r ;; Some (v :: vs, r')
          else None
      end
  end
with read_members (fuel : nat) (first : bool) (s : string) : option (list (string * json) * string) :=
  match fuel with
  | O => None
  | S f =>
      match skip s with
      | EmptyString => None
      | String c s' =>
          if Ascii.eqb c "}" then Some ([], s')
          else
            s1 <-? (if first then Some (String c s') else if Ascii.eqb c "," then Some (skip s') else None) ;;
            s2 <-? expect (ch QUOTE) s1 ;;
            ' (k, s3) <-? read_string f s2 ;;
            s4 <-? expect ":" (skip s3) ;;
            ' (v, s5) <-? read_value f s4 ;;
            ' (fs, s6) <-? read_members f false s5 ;;
            Some ((k, v) :: fs, s6)
      end
  end.

(** The whole text: one value with white space around it. *)
Definition read_json (s : string) : option json :=
  ' (j, r) <-? read_value (2 * String.length s + 2) s ;;
  match skip r with EmptyString => Some j | _ => None end.

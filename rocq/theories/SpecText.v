(** * Specification: the grammar of JSON texts (RFC 8259). *)
From Coq Require Import String Ascii.
From Verif Require Import MBase MJson.
Local Open Scope Z_scope.
Local Open Scope string_scope.

Definition space (c : ascii) : Prop := c = " "%char \/ c = "009"%char \/ c = "010"%char \/ c = "013"%char.
Fixpoint spaces (s : string) : Prop := match s with EmptyString => True | String c s' => space c /\ spaces s' end.

(** The vocabulary taken over from the model: two characters, the number of a byte, the text of one byte. *)
Example vocabulary : QUOTE = ascii_of_nat 34 /\ BSLASH = ascii_of_nat 92 /\ forall c, code c = Z.of_nat (nat_of_ascii c) /\ ch c = String c "".
Proof. repeat split. Qed.

(** Hexadecimal digits. *)
Definition hex (c : ascii) (x : Z) : Prop :=
  In (c, x) [("0", 0); ("1", 1); ("2", 2); ("3", 3); ("4", 4); ("5", 5); ("6", 6); ("7", 7); ("8", 8); ("9", 9);
    ("a", 10); ("b", 11); ("c", 12); ("d", 13); ("e", 14); ("f", 15); ("A", 10); ("B", 11); ("C", 12); ("D", 13); ("E", 14); ("F", 15)]%char.
(** The bytes of a code point in UTF-8: its bits six at a time, in as few bytes as possible. *)
Definition six (z : Z) : Prop := 0 <= z < 64.
Inductive code_point : Z -> string -> Prop :=
| one_byte a : code a < 128 -> code_point (code a) (ch a)
| two_bytes x y a b : six x -> six y -> 128 <= x * 64 + y < 2048 -> code a = 192 + x -> code b = 128 + y -> code_point (x * 64 + y) (String a (ch b))
| three_bytes x y z a b c : six x -> six y -> six z -> 2048 <= (x * 64 + y) * 64 + z < 65536 ->
    code a = 224 + x -> code b = 128 + y -> code c = 128 + z -> code_point ((x * 64 + y) * 64 + z) (String a (String b (ch c)))
| four_bytes x y z w a b c d : six x -> six y -> six z -> six w -> 65536 <= ((x * 64 + y) * 64 + z) * 64 + w < 1114112 ->
    code a = 240 + x -> code b = 128 + y -> code c = 128 + z -> code d = 128 + w ->
    code_point (((x * 64 + y) * 64 + z) * 64 + w) (String a (String b (String c (ch d)))).

(** One character of a string: what it means, how it is written. *)
Inductive char_text : string -> string -> Prop :=
| plain c : 32 <= code c -> c <> QUOTE -> c <> BSLASH -> char_text (ch c) (ch c)
| short a c : In (a, c) [(QUOTE, QUOTE); (BSLASH, BSLASH); ("/", "/"); ("b", "008"); ("t", "009"); ("n", "010"); ("f", "012"); ("r", "013")]%char ->
    char_text (ch c) (String BSLASH (ch a))
| unit a b c d x y z w t :
    hex a x -> hex b y -> hex c z -> hex d w ->
    ~ (55296 <= x * 4096 + y * 256 + z * 16 + w < 57344) -> code_point (x * 4096 + y * 256 + z * 16 + w) t ->
    char_text t (String BSLASH (String "u" (String a (String b (String c (ch d))))))
| surrogates a b c d x y z w a' b' c' d' x' y' z' w' hi lo t :
    hex a x -> hex b y -> hex c z -> hex d w ->
    hex a' x' -> hex b' y' -> hex c' z' -> hex d' w' ->
    hi = x * 4096 + y * 256 + z * 16 + w -> lo = x' * 4096 + y' * 256 + z' * 16 + w' ->
    55296 <= hi < 56320 -> 56320 <= lo < 57344 -> code_point (65536 + (hi - 55296) * 1024 + (lo - 56320)) t ->
    char_text t
      (String BSLASH (String "u" (String a (String b (String c (String d
        (String BSLASH (String "u" (String a' (String b' (String c' (ch d')))))))))))).
Inductive chars_text : string -> string -> Prop :=
| no_chars : chars_text "" ""
| more_chars x e y s : char_text x e -> chars_text y s -> chars_text (x +++ y) (e +++ s).
Definition string_text (x s : string) : Prop := exists e, chars_text x e /\ s = String QUOTE (e +++ ch QUOTE).

(** Numbers: sign, integer part, fraction, exponent. *)
Fixpoint all_digits (s : string) : Prop := match s with EmptyString => True | String c s' => 48 <= code c <= 57 /\ all_digits s' end.
Definition some_digits (s : string) : Prop := s <> "" /\ all_digits s.
Definition sign_text (s : string) : Prop := s = "" \/ s = "-".
Definition int_text (s : string) : Prop := s = "0" \/ some_digits s /\ (forall s', s <> String "0" s').
Definition frac_text (s : string) : Prop := s = "" \/ exists d, some_digits d /\ s = String "." d.
Definition exp_text (s : string) : Prop :=
  s = "" \/ exists e sg d, (e = "e"%char \/ e = "E"%char) /\ (sg = "" \/ sg = "+" \/ sg = "-") /\ some_digits d /\ s = String e (sg +++ d).
Definition number_text (t : string) : Prop :=
  exists sign int frac exp, sign_text sign /\ int_text int /\ frac_text frac /\ exp_text exp /\ t = sign +++ int +++ frac +++ exp.

(** Values, with white space allowed before every token; what follows [\[] up to [\]], what follows the opening
    brace up to the closing one ([true] for the start, [false] after a first element). *)
Inductive value_text : string -> json -> Prop :=
| value_space c s j : space c -> value_text s j -> value_text (String c s) j
| value_null : value_text "null" JNull
| value_true : value_text "true" (JBool true)
| value_false : value_text "false" (JBool false)
| value_number t : number_text t -> value_text t (JNum t)
| value_string x s : string_text x s -> value_text s (JStr x)
| value_array s vs : elems_text true s vs -> value_text (String "[" s) (JArr vs)
| value_object s fs : members_text true s fs -> value_text (String "{" s) (JObj fs)
with elems_text : bool -> string -> list json -> Prop :=
| elems_space c s b vs : space c -> elems_text b s vs -> elems_text b (String c s) vs
| elems_end b : elems_text b "]" []
| elems_first s r v vs : value_text s v -> elems_text false r vs -> elems_text true (s +++ r) (v :: vs)
| elems_next s r v vs : value_text s v -> elems_text false r vs -> elems_text false (String "," (s +++ r)) (v :: vs)
with members_text : bool -> string -> list (string * json) -> Prop :=
| members_space c s b fs : space c -> members_text b s fs -> members_text b (String c s) fs
| members_end b : members_text b "}" []
| members_first sk w s r k v fs : string_text k sk -> spaces w -> value_text s v -> members_text false r fs ->
    members_text true (sk +++ w +++ String ":" (s +++ r)) ((k, v) :: fs)
| members_next w0 sk w s r k v fs : spaces w0 -> string_text k sk -> spaces w -> value_text s v -> members_text false r fs ->
    members_text false (String "," (w0 +++ sk +++ w +++ String ":" (s +++ r))) ((k, v) :: fs).

(** A JSON text. *)
Definition json_text (s : string) (j : json) : Prop := exists a w, s = a +++ w /\ value_text a j /\ spaces w.

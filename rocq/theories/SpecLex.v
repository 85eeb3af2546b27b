(** * Specification: CSV texts. *)
From Coq Require Import String Ascii.
From Verif Require Import MBase.
Local Open Scope string_scope.

Definition line_end (c : ascii) : Prop := c = ascii_of_nat 13 \/ c = ascii_of_nat 10.
Definition a_quote : ascii := ascii_of_nat 34.
(** No comma, no line end. *)
Fixpoint simple (s : string) : Prop :=
  match s with "" => True | String c s' => c <> ","%char /\ ~ line_end c /\ simple s' end.
Definition begins_with (c : ascii) (s : string) : Prop := exists s', s = String c s'.
(** [b] is [v] with every quote doubled. *)
Inductive doubled : string -> string -> Prop :=
| Q_nil : doubled "" ""
| Q_quote b v : doubled b v -> doubled (String a_quote (String a_quote b)) (String a_quote v)
| Q_other c b v : c <> a_quote -> doubled b v -> doubled (String c b) (String c v).
(** The text of a field and the field: as it is, or quoted (what follows the closing quote belongs to it). *)
Inductive field_text : string -> string -> Prop :=
| F_plain s : simple s -> ~ begins_with a_quote s -> field_text s s
| F_quoted b v s : doubled b v -> simple s -> ~ begins_with a_quote s -> field_text (String a_quote (b ++ String a_quote s)) (v ++ s).
(** A row: fields separated by commas. *)
Inductive row_text : string -> list string -> Prop :=
| R_one s v : field_text s v -> row_text s [v]
| R_more s v t vs : field_text s v -> row_text t vs -> row_text (s ++ String "," t) (v :: vs).
(** The last row of a text may leave a quotation open. *)
Inductive last_row : string -> list string -> Prop :=
| L_row s vs : row_text s vs -> last_row s vs
| L_open b v : doubled b v -> last_row (String a_quote b) [v]
| L_more s v t vs : field_text s v -> last_row t vs -> last_row (s ++ String "," t) (v :: vs).
(** A text: rows that end with CR or LF (so CRLF is an end and a blank line), blank lines do not count, the last end may be missing. *)
Inductive rows_text : string -> list (list string) -> Prop :=
| T_nil : rows_text "" []
| T_blank c t rs : line_end c -> rows_text t rs -> rows_text (String c t) rs
| T_row s vs c t rs : s <> "" -> row_text s vs -> line_end c -> rows_text t rs -> rows_text (s ++ String c t) (vs :: rs)
| T_last s vs : s <> "" -> last_row s vs -> rows_text s [vs].
(** A byte order mark may come first. *)
Definition mark : string := String (ascii_of_nat 239) (String (ascii_of_nat 187) (String (ascii_of_nat 191) "")).
Definition csv_text (text : string) (rs : list (list string)) : Prop :=
  (exists t, text = mark ++ t /\ rows_text t rs) \/ ((forall t, text <> mark ++ t) /\ rows_text text rs).
(** Only bytes below 128. *)
Fixpoint plain_text (s : string) : Prop :=
  match s with "" => True | String c s' => (nat_of_ascii c < 128)%nat /\ plain_text s' end.
(** What is known about the check of a record: plain text is valid UTF-8. *)
Definition utf8_check (utf8 : list string -> bool) : Prop := forall fs, Forall plain_text fs -> utf8 fs = true.
(** Texts separated by commas; lines that end with LF, and with CR and LF. *)
Fixpoint comma_list (fs : list string) : string :=
  match fs with [] => "" | [s] => s | s :: fs' => s ++ String "," (comma_list fs') end.
Fixpoint lines (ending : string) (ls : list string) : string :=
  match ls with [] => "" | l :: ls' => l ++ ending ++ lines ending ls' end.
Definition unix_end : string := String (ascii_of_nat 10) "".
Definition dos_end : string := String (ascii_of_nat 13) (String (ascii_of_nat 10) "").

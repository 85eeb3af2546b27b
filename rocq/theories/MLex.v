(** * Model of how the csv crate splits the bytes of a file into records ([csv::Reader::from_reader], src/utils.rs:78-79).
    csv 1.3 with csv-core 0.1 (Cargo.lock) and the default settings: delimiter comma, the double quote as quote character, doubled quotes, no
    escapes, no comments, record ends CR, LF or CRLF.  The crate is not in the sandbox; this is the automaton of csv-core as published, its
    epsilon transitions merged into the others. *)
From Coq Require Import String Ascii.
From Verif Require Import MBase MCsv.
Local Open Scope string_scope.
Local Open Scope Z_scope.

Definition comma : ascii := ",".
Definition quote : ascii := ascii_of_nat 34.
Definition CR : ascii := ascii_of_nat 13.
Definition LF : ascii := ascii_of_nat 10.
Definition is_end (c : ascii) : bool := Ascii.eqb c CR || Ascii.eqb c LF.

(** NfaState: StartRecord (and EndRecord), CRLF, StartField (and EndFieldDelim), InField, InQuotedField, InDoubleEscapedQuote. *)
Inductive lex_state := StartRecord | AfterCR | StartField | InField | InQuoted | InDouble.
(** What is done with the byte: copied to the field, dropped, or the field or the record ends with it. *)
Inductive lex_io := Copy | Drop | EndField | EndRecord.
Definition in_field (c : ascii) : lex_state * lex_io :=
  if Ascii.eqb c comma then (StartField, EndField)
  else if is_end c then ((if Ascii.eqb c CR then AfterCR else StartRecord), EndRecord)
  else (InField, Copy).
Definition start_field (c : ascii) : lex_state * lex_io := if Ascii.eqb c quote then (InQuoted, Drop) else in_field c.
Definition start_record (c : ascii) : lex_state * lex_io := if is_end c then (StartRecord, Drop) else start_field c.
Definition transition (st : lex_state) (c : ascii) : lex_state * lex_io :=
  match st with
  | StartRecord => start_record c
  | AfterCR => if Ascii.eqb c LF then (StartRecord, Drop) else start_record c
  | StartField => start_field c
  | InField => in_field c
  | InQuoted => if Ascii.eqb c quote then (InDouble, Drop) else (InQuoted, Copy)
  | InDouble => if Ascii.eqb c quote then (InQuoted, Copy) else in_field c
  end.
(** The records of a text; [cur]: the field being read, [fs]: the fields of the record before it. *)
Fixpoint lex (st : lex_state) (cur : string) (fs : list string) (text : string) : list (list string) :=
  match text with
  | EmptyString => match st with StartRecord | AfterCR => [] | _ => [(fs ++ [cur])%list] end
  | String c t =>
      match transition st c with
      | (st', Copy) => lex st' (cur ++ String c "") fs t
      | (st', Drop) => lex st' cur fs t
      | (st', EndField) => lex st' "" (fs ++ [cur])%list t
      | (st', EndRecord) => (fs ++ [cur])%list :: lex st' "" [] t
      end
  end.
(** A byte order mark at the beginning is skipped. *)
Definition strip_bom (text : string) : string :=
  match text with
  | String a (String b (String c t)) =>
      if Ascii.eqb a (ascii_of_nat 239) && Ascii.eqb b (ascii_of_nat 187) && Ascii.eqb c (ascii_of_nat 191) then t else text
  | _ => text
  end.
(** [parse_csv], src/utils.rs:74-86, from the bytes of the file ([None]: it cannot be opened); [utf8]: whether the fields of a record are. *)
Definition parse_csv_text (utf8 : list string -> bool) (file : option string) : res (list (list Z)) :=
  parse_csv (match file with
             | None => None
             | Some text => Some (map (fun fs => {| rec_fields := fs; rec_utf8 := utf8 fs |}) (lex StartRecord "" [] (strip_bom text)))
             end).

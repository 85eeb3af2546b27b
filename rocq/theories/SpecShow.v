(** * Specification: a text of the form "name=value, name=value, ..., name=value".
    A value may contain commas, but no space and no equals sign. *)
From Coq Require Import String Ascii.
From Verif Require Import MBase SpecOut.
Local Open Scope string_scope.
Local Open Scope Z_scope.

(** The comma at the end of [s], if there is one, removed. *)
Fixpoint chop (s : string) : string :=
  match s with
  | EmptyString => EmptyString
  | String c EmptyString => if Ascii.eqb c "," then EmptyString else s
  | String c s' => String c (chop s')
  end.
(** "name=value" as a pair. *)
Definition pair_of (s : string) : option (string * string) := match split "=" s with [n; v] => Some (n, v) | _ => None end.
(** The settings of a text, in order; the value of the setting [name]. *)
Definition settings (text : string) : list (option (string * string)) := map (fun w => pair_of (chop w)) (split " " text).
Fixpoint find (l : list (option (string * string))) (name : string) : option string :=
  match l with
  | [] => None
  | Some (n, v) :: l' => if String.eqb n name then Some v else find l' name
  | None :: l' => find l' name
  end.
Definition setting_of (text name : string) : option string := find (settings text) name.

(** A text that can be a value and does not end in a comma. *)
Definition token (s : string) : Prop := forall c, In c (list_ascii_of_string s) -> c <> " "%char /\ c <> "="%char /\ c <> ","%char.
(** "(a,b)" and "(a)" *)
Definition shows_pair (o : option string) (a b : Z) : Prop :=
  exists s t, o = Some (append "(" (append s (append "," (append t ")")))) /\ decimal_of s a /\ decimal_of t b.
Definition shows_bracketed (o : option string) (a : Z) : Prop := exists s, o = Some (append "(" (append s ")")) /\ decimal_of s a.

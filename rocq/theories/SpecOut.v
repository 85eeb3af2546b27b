(** * Specification: texts as tables. *)
From Coq Require Import String Ascii.
From Verif Require Import MBase MParams PCsv.
Local Open Scope string_scope.
Local Open Scope Z_scope.

(** The pieces of [s] between the characters [c]. *)
Fixpoint split (c : ascii) (s : string) : list string :=
  match s with
  | EmptyString => [EmptyString]
  | String x s' => if Ascii.eqb x c then EmptyString :: split c s'
                   else match split c s' with p :: ps => String x p :: ps | [] => [String x EmptyString] end
  end.
Definition lines : string -> list string := split "010".
Definition fields : string -> list string := split ",".

(** The entry of [row] in the column that [header] calls [name]. *)
Fixpoint entry (names cells : list string) (name : string) : option string :=
  match names, cells with
  | n :: ns, c :: cs => if String.eqb n name then Some c else entry ns cs name
  | _, _ => None
  end.
Definition cell (header row name : string) : option string := entry (fields header) (fields row) name.

(** [s] is the number [z] in decimal. *)
Definition decimal_of (s : string) (z : Z) : Prop :=
  exists ds, ds <> [] /\ Forall (fun d => 0 <= d <= 9) ds /\ s = numeral ds /\ z = value ds.
Definition shows_word (o : option string) (z : Z) : Prop := exists s, o = Some s /\ decimal_of s z.
(** "2^k" for the largest power of two not above [z]. *)
Definition shows_power (o : option string) (z : Z) : Prop :=
  exists s k, o = Some (append "2^" s) /\ decimal_of s k /\ 0 <= k /\ 2 ^ k <= z < 2 ^ (k + 1).
Definition shows_bool (o : option string) (b : bool) : Prop := o = Some (if b then "true" else "false").
Definition shows_nothing (o : option string) : Prop := o = Some "-".

(** A text that can stand in a cell. *)
Definition plain (s : string) : Prop := forall c, In c (list_ascii_of_string s) -> c <> ","%char /\ c <> "010"%char.

(** The columns of the parameters [sp]. *)
Definition shows_params (show_dev : Z -> string) (at_ : string -> option string) (sp : server_params) : Prop :=
  let t := sp_tfhe sp in
  at_ "standard_deviation" = Some (show_dev (tp_standard_deviation t)) /\
  shows_word (at_ "polynomial_size") (tp_polynomial_size t) /\
  shows_word (at_ "base_log") (tp_base_log t) /\ shows_word (at_ "level_count") (tp_level_count t) /\
  shows_word (at_ "key_switch_base_log") (tp_ks_base_log t) /\ shows_word (at_ "key_switch_level_count") (tp_ks_level_count t) /\
  shows_word (at_ "negs_base_log") (tp_negs_base_log t) /\ shows_word (at_ "negs_level_count") (tp_negs_level_count t) /\
  shows_power (at_ "plaintext_modulus") (tp_plaintext_modulus t) /\ shows_bool (at_ "secure_seed") (tp_secure_seed t) /\
  match sp_oram sp with
  | SingleQuery items _ =>
      shows_word (at_ "mode") 0 /\ shows_word (at_ "item_count") items /\ shows_nothing (at_ "query_count") /\
      shows_nothing (at_ "rows") /\ shows_nothing (at_ "cols") /\ shows_power (at_ "n") items
  | MultiQuery items queries _ =>
      shows_word (at_ "mode") 1 /\ shows_word (at_ "item_count") items /\ shows_word (at_ "query_count") queries /\
      shows_nothing (at_ "rows") /\ shows_nothing (at_ "cols") /\ shows_power (at_ "n") items
  | Batched rows cols _ =>
      shows_word (at_ "mode") 2 /\ shows_word (at_ "item_count") (rows * cols / 3) /\ shows_nothing (at_ "query_count") /\
      shows_word (at_ "rows") rows /\ shows_word (at_ "cols") cols /\ shows_power (at_ "n") (rows * cols / 3)
  end.
(** The number of answers that an iteration looks at. *)
Definition answers_of (sp : server_params) : nat :=
  match sp_oram sp with SingleQuery _ _ => 1%nat | MultiQuery _ queries _ => Z.to_nat queries | Batched _ _ _ => 2%nat end.
(** The columns of the measurements: the durations and the noise of the first iteration; nothing in a dry run. *)
Definition shows_results (show_noise : list Z -> string) (at_ : string -> option string) (cl : string * string * string) (out : list (list Z)) : Prop :=
  match out with
  | [] => shows_nothing (at_ "setup_duration") /\ shows_nothing (at_ "server_duration") /\ shows_nothing (at_ "response_duration") /\ shows_nothing (at_ "final_noise")
  | first :: _ => at_ "setup_duration" = Some (fst (fst cl)) /\ at_ "server_duration" = Some (snd (fst cl)) /\ at_ "response_duration" = Some (snd cl) /\
      at_ "final_noise" = Some (show_noise first)
  end.
(** The lines of the other iterations: number [j] is "### mode=..., iter=j, noise=...". *)
Definition mode_of (sp : server_params) : Z := match sp_oram sp with SingleQuery _ _ => 0 | MultiQuery _ _ _ => 1 | Batched _ _ _ => 2 end.
Definition shows_iteration (show_noise : list Z -> string) (sp : server_params) (j : nat) (noises : list Z) (line : string) : Prop :=
  exists m i, decimal_of m (mode_of sp) /\ decimal_of i (Z.of_nat j) /\
    line = append "### mode=" (append m (append ", iter=" (append i (append ", noise=" (show_noise noises))))).

(** All the numbers of a parameter set are machine words. *)
Definition word (z : Z) : Prop := 0 <= z < 2 ^ 64.
Definition set_fits (sp : server_params) : Prop :=
  let t := sp_tfhe sp in
  word (tp_polynomial_size t) /\ word (tp_base_log t) /\ word (tp_level_count t) /\ word (tp_ks_base_log t) /\ word (tp_ks_level_count t) /\
  word (tp_negs_base_log t) /\ word (tp_negs_level_count t) /\ word (tp_plaintext_modulus t) /\
  match sp_oram sp with
  | SingleQuery items it => word items /\ word it
  | MultiQuery items queries it => word items /\ word queries /\ word it
  | Batched rows cols it => word rows /\ word cols /\ word it /\ word (rows * cols)
  end.
(** The number of items, and: neither it nor the plaintext modulus is zero. *)
Definition items_of (sp : server_params) : Z :=
  match sp_oram sp with SingleQuery items _ | MultiQuery items _ _ => items | Batched rows cols _ => rows * cols / 3 end.
Definition nonzero (sp : server_params) : Prop := 0 < tp_plaintext_modulus (sp_tfhe sp) /\ 0 < items_of sp.

(** * The derived [Serialize] and [Deserialize] of src/decision_tree.rs and src/params.rs, on JSON values. *)
From Coq Require Import String Ascii.
From Verif Require Import MBase MCsv MTree MParams MJson.
Local Open Scope nat_scope.
Local Open Scope string_scope.

(** serde_json's guard against deep nesting: a counter [remaining_depth] starts at 128, is decremented when an
    array or object is entered for a value that is wanted, and reaching 0 is an error; so 127 levels can be
    entered.  [d] is how many still can. *)
Definition nesting_limit : nat := 127.
Definition enter (d : nat) : option nat := match d with O => None | S d' => Some d' end.

(** [usize] and [u64]: an unsigned integer literal below 2^64; anything with a sign, a fraction or an exponent,
    and every larger number, is a float and refused. *)
Definition dec_word (j : json) : option Z := match j with JNum (String _ _ as t) => parse_digits 0 t | _ => None end.
Definition dec_usize (j : json) : option nat := z <-? dec_word j ;; Some (Z.to_nat z).
Definition dec_bool (j : json) : option bool := match j with JBool b => Some b | _ => None end.
(** [Vec<T>] and, for [Option<T>], [null] or a [T]. *)
Fixpoint all {A} (l : list (option A)) : option (list A) :=
  match l with [] => Some [] | o :: l' => a <-? o ;; r <-? all l' ;; Some (a :: r) end.
Definition dec_vec {A} (dec : nat -> json -> option A) (d : nat) (j : json) : option (list A) :=
  match j with JArr vs => d' <-? enter d ;; all (map (dec d') vs) | _ => None end.
Definition dec_option {A} (dec : json -> option A) (j : json) : option (option A) :=
  match j with JNull => Some None | _ => a <-? dec j ;; Some (Some a) end.

(** A struct field among the members of an object: missing, present, or an error if it is there twice. *)
Definition field (k : string) (fs : list (string * json)) : option (option json) :=
  match filter (fun e => String.eqb (fst e) k) fs with
  | [] => Some None
  | [(_, v)] => Some (Some v)
  | _ => None
  end.
Definition required {A} (dec : json -> option A) (k : string) (fs : list (string * json)) : option A :=
  o <-? field k fs ;; match o with Some v => dec v | None => None end.
(** A missing field of type [Option] is [None]. *)
Definition optional {A} (dec : json -> option (option A)) (k : string) (fs : list (string * json)) : option (option A) :=
  o <-? field k fs ;; match o with Some v => dec v | None => Some None end.

(** [Op], src/decision_tree.rs:34-40 ([rename_all = "lowercase"]): a string, or an object with a null. *)
Definition op_name (k : string) : option opk :=
  if String.eqb k "leq" then Some LEQ else if String.eqb k "gt" then Some GT else None.
Definition dec_op (d : nat) (j : json) : option opk :=
  match j with
  | JStr k => op_name k
  | JObj [(k, JNull)] => d' <-? enter d ;; op_name k
  | _ => None
  end.

(** [Node], src/decision_tree.rs:42-49: an object whose only key is the variant; [Internal],
    src/decision_tree.rs:203-214: an object with the fields in any order, others ignored, or the array of the
    six field values.  [Box] is transparent. *)
Fixpoint dec_node (d : nat) (j : json) : option node :=
  match d with
  | O => None
  | S d1 =>
      match j with
      | JObj [(k, v)] =>
          if String.eqb k "internal" then
            match d1 with
            | O => None
            | S d2 =>
                match v with
                | JObj fs =>
                    th <-? required dec_usize "threshold" fs ;;
                    f <-? required dec_usize "feature" fs ;;
                    ix <-? required dec_usize "index" fs ;;
                    o <-? required (dec_op d2) "op" fs ;;
                    l <-? optional (dec_option (dec_node d2)) "left" fs ;;
                    r <-? optional (dec_option (dec_node d2)) "right" fs ;;
                    Some (Internal th f ix o l r)
                | JArr [vth; vf; vix; vo; vl; vr] =>
                    th <-? dec_usize vth ;; f <-? dec_usize vf ;; ix <-? dec_usize vix ;; o <-? dec_op d2 vo ;;
                    l <-? dec_option (dec_node d2) vl ;; r <-? dec_option (dec_node d2) vr ;;
                    Some (Internal th f ix o l r)
                | _ => None
                end
            end
          else if String.eqb k "leaf" then x <-? dec_usize v ;; Some (Leaf x)
          else None
      | _ => None
      end
  end.

(** [Serialize]: the fields in the order of their declaration, absent children as [null]. *)
Definition enc_usize (n : nat) : json := JNum (itoa (Z.of_nat n)).
Definition enc_op (o : opk) : json := JStr match o with LEQ => "leq" | GT => "gt" end.
Fixpoint enc_node (t : node) : json :=
  match t with
  | Leaf x => JObj [("leaf", enc_usize x)]
  | Internal th f ix o l r =>
      JObj [("internal", JObj [
        ("threshold", enc_usize th); ("feature", enc_usize f); ("index", enc_usize ix); ("op", enc_op o);
        ("left", match l with Some u => enc_node u | None => JNull end);
        ("right", match r with Some u => enc_node u | None => JNull end)])]
  end.

(** [serde_json::to_string(&node)], as at src/decision_tree.rs:746, and [serde_json::from_str] for a [Node]. *)
Definition tree_to_string (t : node) : string := render (enc_node t).
Definition tree_from_str (s : string) : option node := j <-? read_json s ;; dec_node nesting_limit j.

(** ** Parameter files.  The float [standard_deviation] is an integer in the model (see MParams): [dev] is the
    conversion of a number literal to an f64, or an error if it is out of range. *)
Section PARAMS.
Variable dev : string -> option Z.
Definition dec_dev (j : json) : option Z := match j with JNum t => dev t | _ => None end.

(** [TFHEParameters], src/params.rs:3-15: ten fields, or an array of ten. *)
Definition dec_tfhe (d : nat) (j : json) : option tfhe_params :=
  match j with
  | JObj fs =>
      _ <-? enter d ;;
      sd <-? required dec_dev "standard_deviation" fs ;;
      n <-? required dec_word "polynomial_size" fs ;;
      b <-? required dec_word "base_log" fs ;;
      l <-? required dec_word "level_count" fs ;;
      kb <-? required dec_word "key_switch_base_log" fs ;;
      kl <-? required dec_word "key_switch_level_count" fs ;;
      nb <-? required dec_word "negs_base_log" fs ;;
      nl <-? required dec_word "negs_level_count" fs ;;
      p <-? required dec_word "plaintext_modulus" fs ;;
      sec <-? required dec_bool "secure_seed" fs ;;
      Some {| tp_standard_deviation := sd; tp_polynomial_size := n; tp_base_log := b; tp_level_count := l;
              tp_ks_base_log := kb; tp_ks_level_count := kl; tp_negs_base_log := nb; tp_negs_level_count := nl;
              tp_plaintext_modulus := p; tp_secure_seed := sec |}
  | JArr [v0; v1; v2; v3; v4; v5; v6; v7; v8; v9] =>
      _ <-? enter d ;;
      sd <-? dec_dev v0 ;; n <-? dec_word v1 ;; b <-? dec_word v2 ;; l <-? dec_word v3 ;; kb <-? dec_word v4 ;;
      kl <-? dec_word v5 ;; nb <-? dec_word v6 ;; nl <-? dec_word v7 ;; p <-? dec_word v8 ;; sec <-? dec_bool v9 ;;
      Some {| tp_standard_deviation := sd; tp_polynomial_size := n; tp_base_log := b; tp_level_count := l;
              tp_ks_base_log := kb; tp_ks_level_count := kl; tp_negs_base_log := nb; tp_negs_level_count := nl;
              tp_plaintext_modulus := p; tp_secure_seed := sec |}
  | _ => None
  end.

(** The three struct variants of [ORAMParameters], src/params.rs:34-50. *)
Definition dec_two (d : nat) (k1 k2 : string) (j : json) : option (Z * Z) :=
  match j with
  | JObj fs => _ <-? enter d ;; a <-? required dec_word k1 fs ;; b <-? required dec_word k2 fs ;; Some (a, b)
  | JArr [v1; v2] => _ <-? enter d ;; a <-? dec_word v1 ;; b <-? dec_word v2 ;; Some (a, b)
  | _ => None
  end.
Definition dec_three (d : nat) (k1 k2 k3 : string) (j : json) : option (Z * Z * Z) :=
  match j with
  | JObj fs => _ <-? enter d ;; a <-? required dec_word k1 fs ;; b <-? required dec_word k2 fs ;; c <-? required dec_word k3 fs ;; Some (a, b, c)
  | JArr [v1; v2; v3] => _ <-? enter d ;; a <-? dec_word v1 ;; b <-? dec_word v2 ;; c <-? dec_word v3 ;; Some (a, b, c)
  | _ => None
  end.
Definition dec_oram (d : nat) (j : json) : option oram_params :=
  match j with
  | JObj [(k, v)] =>
      d1 <-? enter d ;;
      if String.eqb k "SingleQuery" then ' (a, b) <-? dec_two d1 "item_count" "iterations" v ;; Some (SingleQuery a b)
      else if String.eqb k "MultiQuery" then ' (a, b, c) <-? dec_three d1 "item_count" "query_count" "iterations" v ;; Some (MultiQuery a b c)
      else if String.eqb k "Batched" then ' (a, b, c) <-? dec_three d1 "rows" "cols" "iterations" v ;; Some (Batched a b c)
      else None
  | _ => None
  end.

(** [InputParamsList], src/params.rs:62-66: [serde(transparent)] over a [Vec] of pairs; a pair is an array of
    exactly two. *)
Definition dec_pair (d : nat) (j : json) : option (list oram_params * list tfhe_params) :=
  match j with
  | JArr [v1; v2] => d' <-? enter d ;; os <-? dec_vec dec_oram d' v1 ;; ts <-? dec_vec dec_tfhe d' v2 ;; Some (os, ts)
  | _ => None
  end.
Definition dec_input (d : nat) (j : json) : option input_list := dec_vec dec_pair d j.

(** The parameter file as [main] sees it, src/main.rs:194-197: [None] is a file that does not open, [Some s]
    one with content [s]. *)
Definition read_params (s : string) : option input_list := j <-? read_json s ;; dec_input nesting_limit j.
Definition open_params (f : option string) : params_file :=
  match f with None => NotOpened | Some s => Opened (read_params s) end.

(** [Serialize] for the same types (derived, src/params.rs:3, 34 and 62).  [show] prints the float. *)
Variable show : Z -> string.
Definition enc_word (z : Z) : json := JNum (itoa z).
Definition enc_tfhe (t : tfhe_params) : json := JObj [
  ("standard_deviation", JNum (show (tp_standard_deviation t)));
  ("polynomial_size", enc_word (tp_polynomial_size t));
  ("base_log", enc_word (tp_base_log t));
  ("level_count", enc_word (tp_level_count t));
  ("key_switch_base_log", enc_word (tp_ks_base_log t));
  ("key_switch_level_count", enc_word (tp_ks_level_count t));
  ("negs_base_log", enc_word (tp_negs_base_log t));
  ("negs_level_count", enc_word (tp_negs_level_count t));
  ("plaintext_modulus", enc_word (tp_plaintext_modulus t));
  ("secure_seed", JBool (tp_secure_seed t))].
Definition enc_oram (o : oram_params) : json :=
  match o with
  | SingleQuery a b => JObj [("SingleQuery", JObj [("item_count", enc_word a); ("iterations", enc_word b)])]
  | MultiQuery a b c => JObj [("MultiQuery", JObj [("item_count", enc_word a); ("query_count", enc_word b); ("iterations", enc_word c)])]
  | Batched a b c => JObj [("Batched", JObj [("rows", enc_word a); ("cols", enc_word b); ("iterations", enc_word c)])]
  end.
Definition enc_input (l : input_list) : json :=
  JArr (map (fun e => JArr [JArr (map enc_oram (fst e)); JArr (map enc_tfhe (snd e))]) l).
Definition params_to_string (l : input_list) : string := render (enc_input l).
End PARAMS.

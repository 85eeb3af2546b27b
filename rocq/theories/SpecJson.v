(** * Specification: which JSON values describe a tree or a list of parameters. *)
From Coq Require Import String Ascii.
From Verif Require Import MBase MTree MParams MJson PCsv.
Local Open Scope Z_scope.
Local Open Scope string_scope.

(** [v] writes the machine word [z] in decimal, without sign, fraction or exponent. *)
Definition word_is (v : json) (z : Z) : Prop :=
  exists ds, ds <> [] /\ Forall (fun d => 0 <= d <= 9) ds /\ v = JNum (numeral ds) /\ z = value ds /\ z < 2 ^ 64.
Definition usize_is (v : json) (n : nat) : Prop := word_is v (Z.of_nat n).
Definition bool_is (v : json) (b : bool) : Prop := v = JBool b.

(** Members of an object: the key is there exactly once, with this value; it is not there. *)
Definition once (k : string) (fs : list (string * json)) (v : json) : Prop :=
  exists before after, fs = (before ++ (k, v) :: after)%list /\ ~ In k (map fst before) /\ ~ In k (map fst after).
Definition absent (k : string) (fs : list (string * json)) : Prop := ~ In k (map fst fs).
Definition has {A} (is : json -> A -> Prop) (k : string) (fs : list (string * json)) (a : A) : Prop :=
  exists v, once k fs v /\ is v a.

(** A comparison is named in lower case, as a string or as the only key of an object. *)
Inductive op_is : json -> opk -> Prop :=
| op_leq : op_is (JStr "leq") LEQ
| op_gt : op_is (JStr "gt") GT
| op_leq_obj : op_is (JObj [("leq", JNull)]) LEQ
| op_gt_obj : op_is (JObj [("gt", JNull)]) GT.

(** A tree: a leaf with its label, or an inner node with its fields by name (any order, other fields do not
    matter, a missing or null child is no child) or by position. *)
Inductive tree_is : json -> node -> Prop :=
| tree_leaf v n : usize_is v n -> tree_is (JObj [("leaf", v)]) (Leaf n)
| tree_named fs th f ix o l r :
    has usize_is "threshold" fs th -> has usize_is "feature" fs f -> has usize_is "index" fs ix -> has op_is "op" fs o ->
    child_in "left" fs l -> child_in "right" fs r ->
    tree_is (JObj [("internal", JObj fs)]) (Internal th f ix o l r)
| tree_placed vth vf vix vo vl vr th f ix o l r :
    usize_is vth th -> usize_is vf f -> usize_is vix ix -> op_is vo o -> child_is vl l -> child_is vr r ->
    tree_is (JObj [("internal", JArr [vth; vf; vix; vo; vl; vr])]) (Internal th f ix o l r)
with child_is : json -> option node -> Prop :=
| child_null : child_is JNull None
| child_tree v t : tree_is v t -> child_is v (Some t)
with child_in : string -> list (string * json) -> option node -> Prop :=
| child_absent k fs : absent k fs -> child_in k fs None
| child_once k fs v o : once k fs v -> child_is v o -> child_in k fs o.

(** Parameter lists; [dev_is]: which floats a number literal stands for. *)
Section PARAMS.
Variable dev_is : json -> Z -> Prop.
Inductive tfhe_is : json -> tfhe_params -> Prop :=
| tfhe_named fs t :
    has dev_is "standard_deviation" fs (tp_standard_deviation t) ->
    has word_is "polynomial_size" fs (tp_polynomial_size t) ->
    has word_is "base_log" fs (tp_base_log t) ->
    has word_is "level_count" fs (tp_level_count t) ->
    has word_is "key_switch_base_log" fs (tp_ks_base_log t) ->
    has word_is "key_switch_level_count" fs (tp_ks_level_count t) ->
    has word_is "negs_base_log" fs (tp_negs_base_log t) ->
    has word_is "negs_level_count" fs (tp_negs_level_count t) ->
    has word_is "plaintext_modulus" fs (tp_plaintext_modulus t) ->
    has bool_is "secure_seed" fs (tp_secure_seed t) ->
    tfhe_is (JObj fs) t
| tfhe_placed v0 v1 v2 v3 v4 v5 v6 v7 v8 v9 t :
    dev_is v0 (tp_standard_deviation t) -> word_is v1 (tp_polynomial_size t) -> word_is v2 (tp_base_log t) ->
    word_is v3 (tp_level_count t) -> word_is v4 (tp_ks_base_log t) -> word_is v5 (tp_ks_level_count t) ->
    word_is v6 (tp_negs_base_log t) -> word_is v7 (tp_negs_level_count t) -> word_is v8 (tp_plaintext_modulus t) ->
    bool_is v9 (tp_secure_seed t) ->
    tfhe_is (JArr [v0; v1; v2; v3; v4; v5; v6; v7; v8; v9]) t.
(** Two or three numbers, by name or by position. *)
Inductive words_are : list string -> json -> list Z -> Prop :=
| words_named ks fs zs : Forall2 (fun k z => has word_is k fs z) ks zs -> words_are ks (JObj fs) zs
| words_placed ks vs zs : List.length ks = List.length vs -> Forall2 word_is vs zs -> words_are ks (JArr vs) zs.
Inductive oram_is : json -> oram_params -> Prop :=
| oram_single v a b : words_are ["item_count"; "iterations"] v [a; b] -> oram_is (JObj [("SingleQuery", v)]) (SingleQuery a b)
| oram_multi v a b c : words_are ["item_count"; "query_count"; "iterations"] v [a; b; c] -> oram_is (JObj [("MultiQuery", v)]) (MultiQuery a b c)
| oram_batched v a b c : words_are ["rows"; "cols"; "iterations"] v [a; b; c] -> oram_is (JObj [("Batched", v)]) (Batched a b c).
Definition pair_is (v : json) (e : list oram_params * list tfhe_params) : Prop :=
  exists os ts, v = JArr [JArr os; JArr ts] /\ Forall2 oram_is os (fst e) /\ Forall2 tfhe_is ts (snd e).
Definition input_is (v : json) (l : input_list) : Prop := exists vs, v = JArr vs /\ Forall2 pair_is vs l.
End PARAMS.

(** All the numbers of a tree are machine words. *)
Fixpoint word_tree (t : node) : Prop :=
  match t with
  | Leaf x => Z.of_nat x < 2 ^ 64
  | Internal th f ix _ l r =>
      Z.of_nat th < 2 ^ 64 /\ Z.of_nat f < 2 ^ 64 /\ Z.of_nat ix < 2 ^ 64 /\
      match l with Some u => word_tree u | None => True end /\ match r with Some u => word_tree u | None => True end
  end.

(** * Properties C30-C35 (plaintext decision trees) and C57 (parameter lists).
    [SpecTree] holds the vocabulary: [predicts], [sub], [preorder], [labels], ... *)
From Verif Require Import MBase MTree SpecTree PfTree MParams PfParams LTree.
Local Open Scope nat_scope.

(** C30.  fix_index numbers the internal nodes 0,1,2,.. in pre-order and changes nothing else;
    flatten lists the internal nodes in pre-order. *)
Theorem C30_fix_index : forall t, (exists x, t = Leaf x) \/
  exists t', fix_index t = Ok (t', count_internal t - 1) /\ same_but_index t t' /\
    map (fun e => let '(_, _, ix, _) := e in ix) (preorder t') = seq 0 (count_internal t).
Proof. exact fix_index_C30. Qed.
Print Assumptions C30_fix_index.

Theorem C30_flatten_preorder : forall t, flatten t =
  map (fun e => let '(th, f, ix, op) := e in Internal th f ix op (Some (Leaf 0)) (Some (Leaf 0))) (preorder t).
Proof. exact flatten_C30. Qed.
Print Assumptions C30_flatten_preorder.

Theorem C30_flatten_index : forall t t' k, fix_index t = Ok (t', k) ->
  forall i n, nth_error (flatten t') i = Some n ->
  exists th f op, n = Internal th f i op (Some (Leaf 0)) (Some (Leaf 0)).
Proof. exact flatten_fixed_C30. Qed.
Print Assumptions C30_flatten_index.

Theorem C30_leaf : forall x, fix_index (Leaf x) = Panic PExplicit /\ flatten (Leaf x) = [].
Proof. exact leaf_C30. Qed.
Print Assumptions C30_leaf.

(** A lopsided tree used as the example of this file: missing children, several depths. *)
Definition example_tree : node :=
  Internal 5 1 9 LEQ (Some (Internal 2 0 9 LEQ (Some (Leaf 3)) None))
                     (Some (Internal 7 2 9 LEQ (Some (Internal 1 1 9 LEQ (Some (Leaf 0)) (Some (Leaf 4)))) (Some (Leaf 6)))).

Example C30_nonvacuous : exists t', fix_index example_tree = Ok (t', 3) /\
  map (fun e => let '(_, _, ix, _) := e in ix) (preorder t') = [0; 1; 2; 3].
Proof. eexists. split; reflexivity. Qed.

(** C31.  Statistics. *)
Theorem C31_counts : forall t,
  count_internal t = length (flatten t) /\ count_leaf t = length (labels t) /\
  (no_missing t -> count_leaf t = count_internal t + 1).
Proof. exact stats_C31. Qed.
Print Assumptions C31_counts.

Theorem C31_depth : forall t, has_path t (count_depth t) /\ forall d, has_path t d -> d <= count_depth t.
Proof. exact depth_C31. Qed.
Print Assumptions C31_depth.

Theorem C31_max_feature : forall t,
  (forall th f ix op l r, sub (Internal th f ix op l r) t -> f <= max_feature_index t) /\
  ((exists x, t = Leaf x) \/ exists th f ix op l r, sub (Internal th f ix op l r) t /\ f = max_feature_index t).
Proof. exact feature_C31. Qed.
Print Assumptions C31_max_feature.

Example C31_nonvacuous : count_internal example_tree = 4 /\ count_leaf example_tree = 4 /\
  count_depth example_tree = 3 /\ max_feature_index example_tree = 2 /\ no_missing (new_with_depth 2).
Proof.
  repeat split; intros E; subst;
  repeat match goal with H : sub _ _ |- _ => inversion H; clear H; subst end.
Qed.

(** C32.  Plain evaluation follows the decision path, and panics on any GT node or any feature out of
    range anywhere in the tree. *)
Theorem C32_eval_follows_path : forall t fs, evaluable t fs ->
  exists x, eval t fs = Ok x /\ predicts t fs x /\ forall y, predicts t fs y -> y = x.
Proof. exact eval_C32. Qed.
Print Assumptions C32_eval_follows_path.

Theorem C32_eval_panics : forall t fs, ~ evaluable t fs ->
  exists p, eval t fs = Panic p /\ (p = PTodo \/ p = PIndex).
Proof. exact eval_not_evaluable. Qed.
Print Assumptions C32_eval_panics.

Example C32_nonvacuous :
  eval example_tree [0; 9; 3] = Ok 4 /\ eval example_tree [0; 9; 8] = Ok 6 /\ eval example_tree [3; 0; 8] = Ok 0 /\
  eval example_tree [0; 0; 0] = Ok 3 /\
  (* the node reading feature 2 is off the path, yet the missing feature panics *)
  eval example_tree [0; 0] = Panic PIndex.
Proof. repeat split. Qed.

(** C33.  Truncation. *)
Theorem C33_trunc_none : forall t, trunc_tree (Some t) = None <-> forall x, In x (labels t) -> x = 0.
Proof. exact trunc_C33_none. Qed.
Print Assumptions C33_trunc_none.

Theorem C33_trunc_no_zero_leaf : forall t t', trunc_tree (Some t) = Some t' ->
  labels t' = filter (fun x => negb (x =? 0)) (labels t) /\ ~ In 0 (labels t') /\ trunc_tree (Some t') = Some t'.
Proof. exact trunc_C33_labels. Qed.
Print Assumptions C33_trunc_no_zero_leaf.

Theorem C33_trunc_preserves_eval : forall t fs x, eval t fs = Ok x ->
  match trunc_tree (Some t) with Some t' => eval t' fs = Ok x | None => x = 0 end.
Proof. exact trunc_eval. Qed.
Print Assumptions C33_trunc_preserves_eval.

Example C33_nonvacuous : exists t', trunc_tree (Some example_tree) = Some t' /\ t' <> example_tree /\
  eval t' [0; 9; 3] = Ok 4.
Proof. eexists. split; [reflexivity|]. split; [discriminate | reflexivity]. Qed.

(** C34.  Generated complete trees. *)
Theorem C34_full_tree : forall d,
  new_with_depth d = complete d (1 :: repeat 0 (2 ^ d - 1)) /\
  labels (new_with_depth d) = 1 :: repeat 0 (2 ^ d - 1) /\
  count_leaf (new_with_depth d) = 2 ^ d /\ count_internal (new_with_depth d) = 2 ^ d - 1 /\
  count_depth (new_with_depth d) = d /\ default_node = new_with_depth 1.
Proof. exact full_C34. Qed.
Print Assumptions C34_full_tree.

(** C35.  The encrypted tree pairs ciphertexts with nodes in the order of flatten. *)
Theorem C35_enc_tree_matches : forall (C : Type) t (cts1 cts2 : list C),
  (exists th f ix op l r, t = Internal th f ix op l r) -> length cts1 = count_internal t ->
  exists e, enc_node_new t (cts1 ++ cts2) = Ok (e, cts2) /\ enc_matches e t cts1.
Proof. exact @enc_node_new_spec. Qed.
Print Assumptions C35_enc_tree_matches.

Theorem C35_enc_tree_panics : forall (C : Type) t (cts : list C),
  (exists x, t = Leaf x) \/ length cts < count_internal t -> exists p, enc_node_new t cts = Panic p.
Proof. exact @enc_node_new_panics. Qed.
Print Assumptions C35_enc_tree_panics.

Example C35_nonvacuous :
  enc_node_new example_tree [10; 11; 12; 13; 14] =
  Ok (EInternal 10 (Some (EInternal 11 (Some (ELeaf 3)) (Some (ELeaf 0))))
        (Some (EInternal 12 (Some (EInternal 13 (Some (ELeaf 0)) (Some (ELeaf 4)))) (Some (ELeaf 6)))), [14]).
Proof. reflexivity. Qed.

(** C57.  Parameter lists: the ordered cartesian products, entry by entry. *)
Theorem C57_cartesian_product : forall input,
  map (fun p => (sp_oram p, sp_tfhe p)) (from_input_params_list input)
    = flat_map (fun x => list_prod (fst x) (snd x)) input /\
  length (from_input_params_list input) = list_sum (map (fun x => length (fst x) * length (snd x)) input).
Proof. exact (fun input => conj (from_list_spec input) (from_list_length input)). Qed.
Print Assumptions C57_cartesian_product.

Theorem C57_position : forall before os ts after i j o t,
  nth_error os i = Some o -> nth_error ts j = Some t ->
  nth_error (from_input_params_list (before ++ (os, ts) :: after))
    (length (from_input_params_list before) + (i * length ts + j)) = Some {| sp_oram := o; sp_tfhe := t |}.
Proof. exact params_nth_C57. Qed.
Print Assumptions C57_position.

Example C57_nonvacuous :
  map sp_oram (from_input_params_list
    [([SingleQuery 4 1; Batched 3 4 1], [default_tfhe; default_tfhe]); ([MultiQuery 8 2 1], [default_tfhe])])
  = [SingleQuery 4 1; SingleQuery 4 1; Batched 3 4 1; Batched 3 4 1; MultiQuery 8 2 1]%Z.
Proof. reflexivity. Qed.

(** C58.  Which parameters a run uses, for every file outcome and every command line. *)
Theorem C58_parameter_selection : forall c,
  (forall l, select_params (Opened (Some l)) c = from_input_params_list l) /\
  select_params (Opened None) c = [{| sp_oram := Batched 384 16 1; sp_tfhe := default_tfhe |}] /\
  select_params NotOpened c = [{| sp_oram := (if cli_mode c =? 0 then SingleQuery (cli_item_count c) 1
     else if cli_mode c =? 1 then MultiQuery (cli_item_count c) (cli_query_count c) 1
     else Batched (cli_rows c) (cli_cols c) 1)%Z; sp_tfhe := cli_tfhe c |}].
Proof. exact select_C58. Qed.
Print Assumptions C58_parameter_selection.

(** * Lemmas in the form used by PTree and PParams *)
From Verif Require Import MBase MTree SpecTree PfTree MParams PfParams.
Local Open Scope nat_scope.

Lemma fix_index_C30 t : (exists x, t = Leaf x) \/
  exists t', fix_index t = Ok (t', count_internal t - 1) /\ same_but_index t t' /\
    map (fun e => let '(_, _, ix, _) := e in ix) (preorder t') = seq 0 (count_internal t).
Proof.
  destruct t as [th f ix op l r | x]; [right | left; eauto].
  apply fix_index_spec. eauto 10.
Qed.

Lemma flatten_C30 t : flatten t =
  map (fun e => let '(th, f, ix, op) := e in Internal th f ix op (Some (Leaf 0)) (Some (Leaf 0))) (preorder t).
Proof. apply flatten_spec. Qed.

Lemma leaf_C30 x : fix_index (Leaf x) = Panic PExplicit /\ flatten (Leaf x) = [].
Proof. split; reflexivity. Qed.

Lemma flatten_fixed_C30 t t' k : fix_index t = Ok (t', k) ->
  forall i n, nth_error (flatten t') i = Some n ->
  exists th f op, n = Internal th f i op (Some (Leaf 0)) (Some (Leaf 0)).
Proof.
  intros E i n Hn. destruct (fix_index_C30 t) as [(x & ->) | (t2 & E2 & _ & Hs)]; [discriminate|].
  rewrite E in E2. injection E2 as <- _. rewrite flatten_spec, nth_error_map in Hn.
  destruct (nth_error (preorder t') i) as [[[[th f] ix] op]|] eqn:Ep; [|discriminate]. injection Hn as <-.
  assert (Hi : nth_error (map eidx (preorder t')) i = Some ix) by (rewrite nth_error_map, Ep; reflexivity).
  change (map eidx (preorder t') = seq 0 (count_internal t)) in Hs. rewrite Hs in Hi.
  assert (Hl : i < count_internal t).
  { rewrite <- (seq_length (count_internal t) 0). apply nth_error_Some. congruence. }
  apply (nth_error_nth _ _ 0) in Hi. rewrite seq_nth in Hi by exact Hl. cbn in Hi. subst ix.
  exists th, f, op. reflexivity.
Qed.

Lemma stats_C31 t :
  count_internal t = length (flatten t) /\ count_leaf t = length (labels t) /\
  (no_missing t -> count_leaf t = count_internal t + 1).
Proof.
  split; [rewrite flatten_spec, map_length, preorder_length; reflexivity|].
  split; [apply count_leaf_labels | apply leaf_internal].
Qed.

Lemma depth_C31 t : has_path t (count_depth t) /\ forall d, has_path t d -> d <= count_depth t.
Proof. split; [apply depth_attained | apply depth_bound]. Qed.

Lemma feature_C31 t :
  (forall th f ix op l r, sub (Internal th f ix op l r) t -> f <= max_feature_index t) /\
  ((exists x, t = Leaf x) \/ exists th f ix op l r, sub (Internal th f ix op l r) t /\ f = max_feature_index t).
Proof. split; [intros th f ix op l r; apply max_feature_bound | apply max_feature_attained]. Qed.

Lemma eval_C32 t fs : evaluable t fs -> exists x, eval t fs = Ok x /\ predicts t fs x /\ forall y, predicts t fs y -> y = x.
Proof.
  intros H. destruct (eval_total t fs H) as (x & E). exists x. split; [exact E|].
  apply eval_iff in E as [_ P]. split; [exact P|]. intros y Hy. eapply predicts_fun; eauto.
Qed.

Lemma trunc_C33_none t : trunc_tree (Some t) = None <-> forall x, In x (labels t) -> x = 0.
Proof. apply trunc_none. Qed.

Lemma trunc_C33_labels t t' : trunc_tree (Some t) = Some t' ->
  labels t' = filter (fun x => negb (x =? 0)) (labels t) /\ ~ In 0 (labels t') /\ trunc_tree (Some t') = Some t'.
Proof.
  intros E. cbn in E. pose proof (trunc_labels t t' E) as L. split; [exact L|]. split.
  - rewrite L. intros H. apply filter_In in H as [_ H]. discriminate.
  - rewrite <- E. apply trunc_idem.
Qed.

Lemma full_C34 d :
  new_with_depth d = complete d (1 :: repeat 0 (2 ^ d - 1)) /\
  labels (new_with_depth d) = 1 :: repeat 0 (2 ^ d - 1) /\
  count_leaf (new_with_depth d) = 2 ^ d /\ count_internal (new_with_depth d) = 2 ^ d - 1 /\
  count_depth (new_with_depth d) = d /\ default_node = new_with_depth 1.
Proof.
  destruct (new_with_depth_spec d) as [A B]. split; [exact A|]. split; [exact B|]. rewrite A.
  destruct (complete_stats d (1 :: repeat 0 (2 ^ d - 1))) as (S1 & S2 & S3).
  split; [exact S1|]. split; [lia|]. split; [exact S3 | reflexivity].
Qed.

Lemma params_nth_C57 before os ts after i j o t :
  nth_error os i = Some o -> nth_error ts j = Some t ->
  nth_error (from_input_params_list (before ++ (os, ts) :: after))
    (length (from_input_params_list before) + (i * length ts + j)) = Some {| sp_oram := o; sp_tfhe := t |}.
Proof.
  intros Ho Ht. unfold from_input_params_list. rewrite !from_list_acc. cbn [app].
  rewrite flat_map_app, map_app. rewrite nth_error_app2 by lia.
  match goal with |- nth_error _ ?k = _ => replace k with (i * length ts + j) by lia end.
  cbn [flat_map fst snd]. rewrite map_app. rewrite nth_error_app1.
  - rewrite nth_error_map, (nth_list_prod os ts i j o t Ho Ht). reflexivity.
  - rewrite map_length, prod_length.
    assert (i < length os) by (apply nth_error_Some; congruence).
    assert (j < length ts) by (apply nth_error_Some; congruence). nia.
Qed.

Lemma select_C58 (c : cli) :
  (forall l, select_params (Opened (Some l)) c = from_input_params_list l) /\
  select_params (Opened None) c = [{| sp_oram := Batched 384 16 1; sp_tfhe := default_tfhe |}] /\
  select_params NotOpened c = [{| sp_oram := (if cli_mode c =? 0 then SingleQuery (cli_item_count c) 1
     else if cli_mode c =? 1 then MultiQuery (cli_item_count c) (cli_query_count c) 1
     else Batched (cli_rows c) (cli_cols c) 1)%Z; sp_tfhe := cli_tfhe c |}].
Proof. split; [reflexivity|]. split; reflexivity. Qed.

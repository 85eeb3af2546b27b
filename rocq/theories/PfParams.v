(** * Proofs about parameter lists *)
From Verif Require Import MBase MParams.

Definition mk (p : oram_params * tfhe_params) : server_params := {| sp_oram := fst p; sp_tfhe := snd p |}.

Lemma push_tfhe_spec o ts : forall out, push_tfhe o ts out = out ++ map mk (map (fun t => (o, t)) ts).
Proof.
  unfold push_tfhe. induction ts as [|t ts IH]; intros out; cbn; [rewrite app_nil_r; reflexivity|].
  rewrite IH, <- app_assoc. reflexivity.
Qed.

Lemma push_oram_spec os ts : forall out, push_oram os ts out = out ++ map mk (list_prod os ts).
Proof.
  unfold push_oram. induction os as [|o os IH]; intros out; cbn; [rewrite app_nil_r; reflexivity|].
  rewrite IH, push_tfhe_spec, map_app, <- app_assoc. reflexivity.
Qed.

Lemma from_list_acc input : forall out,
  fold_left (fun out x => push_oram (fst x) (snd x) out) input out
  = out ++ map mk (flat_map (fun x => list_prod (fst x) (snd x)) input).
Proof.
  induction input as [|x input IH]; intros out; cbn; [rewrite app_nil_r; reflexivity|].
  rewrite IH, push_oram_spec, map_app, <- app_assoc. reflexivity.
Qed.

Lemma from_list_spec input : map (fun p => (sp_oram p, sp_tfhe p)) (from_input_params_list input)
  = flat_map (fun x => list_prod (fst x) (snd x)) input.
Proof.
  unfold from_input_params_list. rewrite from_list_acc. cbn [app]. rewrite map_map.
  rewrite <- (map_id (flat_map _ _)) at 2. apply map_ext. intros [o t]. reflexivity.
Qed.

Lemma from_list_length input : length (from_input_params_list input)
  = list_sum (map (fun x => (length (fst x) * length (snd x))%nat) input).
Proof.
  rewrite <- (map_length (fun p => (sp_oram p, sp_tfhe p))), from_list_spec.
  induction input as [|x input IH]; [reflexivity|]. cbn. rewrite app_length, prod_length, IH. reflexivity.
Qed.

(** Position of each combination within a list entry. *)
Lemma nth_list_prod {A B} (os : list A) (ts : list B) i j o t :
  nth_error os i = Some o -> nth_error ts j = Some t ->
  nth_error (list_prod os ts) (i * length ts + j) = Some (o, t).
Proof.
  revert i. induction os as [|a os IH]; intros i Ho Ht; [destruct i; discriminate|].
  assert (Hj : (j < length ts)%nat) by (apply nth_error_Some; congruence).
  cbn [list_prod]. destruct i as [|i]; cbn in Ho.
  - injection Ho as ->. rewrite nth_error_app1 by (rewrite map_length; cbn; lia).
    cbn. rewrite nth_error_map, Ht. reflexivity.
  - rewrite nth_error_app2 by (rewrite map_length; cbn; lia). rewrite map_length.
    replace (S i * length ts + j - length ts)%nat with (i * length ts + j)%nat by (cbn; lia).
    apply IH; assumption.
Qed.

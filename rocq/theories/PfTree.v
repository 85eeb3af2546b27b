(** * Proofs about plaintext decision trees *)
From Verif Require Import MBase MTree SpecTree.
Local Open Scope nat_scope.

(** Induction through the optional children. *)
Lemma node_ind' (P : node -> Prop) :
  (forall x, P (Leaf x)) ->
  (forall th f ix op l r, (forall n, l = Some n -> P n) -> (forall n, r = Some n -> P n) ->
     P (Internal th f ix op l r)) ->
  forall t, P t.
Proof.
  intros Hl Hi. fix IH 1. intros [th f ix op l r | x]; [|apply Hl].
  apply Hi.
  - destruct l as [n|]; intros m E; [injection E as <-; apply IH | discriminate].
  - destruct r as [n|]; intros m E; [injection E as <-; apply IH | discriminate].
Qed.

(** ** evaluation *)
Lemma evaluable_inv th f ix op l r fs : evaluable (Internal th f ix op l r) fs ->
  op = LEQ /\ f < length fs /\ (forall n, l = Some n -> evaluable n fs) /\ (forall n, r = Some n -> evaluable n fs).
Proof.
  intros H. destruct (H _ _ _ _ _ _ (sub_refl _)) as [A B]. split; [exact A|]. split; [exact B|].
  split; intros n -> ? ? ? ? ? ? Hs; eapply H; [apply sub_left | apply sub_right]; exact Hs.
Qed.

Lemma evaluable_intro th f ix l r fs : f < length fs ->
  (forall n, l = Some n -> evaluable n fs) -> (forall n, r = Some n -> evaluable n fs) ->
  evaluable (Internal th f ix LEQ l r) fs.
Proof.
  intros Hf Hl Hr th' f' ix' op' l' r' Hs. inversion Hs; subst; [auto | eapply Hl; eauto | eapply Hr; eauto].
Qed.

Lemma evaluable_leaf x fs : evaluable (Leaf x) fs.
Proof. intros th f ix op l r Hs. inversion Hs. Qed.

Lemma index_ok {A} (l : list A) i : i < length l -> exists v, nth_error l i = Some v /\ index l i = Ok v.
Proof.
  intros H. unfold index. destruct (nth_error l i) as [v|] eqn:E; [eauto|].
  apply nth_error_None in E. lia.
Qed.

Lemma eval_node_off t fs : evaluable t fs -> forall out, eval_node out t fs 0 = Ok out.
Proof.
  induction t as [x | th f ix op l r IHl IHr] using node_ind'; intros He out.
  - cbn. f_equal. lia.
  - apply evaluable_inv in He as (-> & Hf & El & Er). cbn.
    destruct (index_ok fs f Hf) as (v & _ & ->). cbn.
    assert (A : forall o, match l with Some lt => eval_node o lt fs 0 | None => Ok o end = Ok o).
    { intros o. destruct l as [n|]; [apply IHl; auto | reflexivity]. }
    assert (B : forall o, match r with Some rt => eval_node o rt fs 0 | None => Ok o end = Ok o).
    { intros o. destruct r as [n|]; [apply IHr; auto | reflexivity]. }
    destruct (v <=? th); rewrite A; cbn; apply B.
Qed.

Lemma eval_node_on t fs : evaluable t fs ->
  exists x, predicts t fs x /\ forall out, eval_node out t fs 1 = Ok (out + x).
Proof.
  induction t as [x | th f ix op l r IHl IHr] using node_ind'; intros He.
  - exists x. split; [constructor|]. intros out. cbn. f_equal. lia.
  - apply evaluable_inv in He as (-> & Hf & El & Er).
    destruct (index_ok fs f Hf) as (v & Hv & Hi). cbn. rewrite Hi. cbn.
    assert (A : forall o, match l with Some lt => eval_node o lt fs 0 | None => Ok o end = Ok o).
    { intros o. destruct l as [n|]; [apply eval_node_off; auto | reflexivity]. }
    assert (B : forall o, match r with Some rt => eval_node o rt fs 0 | None => Ok o end = Ok o).
    { intros o. destruct r as [n|]; [apply eval_node_off; auto | reflexivity]. }
    destruct (Nat.leb_spec v th) as [Hle|Hgt].
    + destruct l as [n|].
      * destruct (IHl n eq_refl (El n eq_refl)) as (x & Hp & Hx). exists x.
        split; [eapply P_left; eauto|]. intros out. rewrite Hx. cbn. apply B.
      * exists 0. split; [eapply P_left_missing; eauto|]. intros out. cbn. rewrite B. f_equal. lia.
    + destruct r as [n|].
      * destruct (IHr n eq_refl (Er n eq_refl)) as (x & Hp & Hx). exists x.
        split; [eapply P_right; eauto|]. intros out. rewrite A. cbn. apply Hx.
      * exists 0. split; [eapply P_right_missing; eauto|]. intros out. rewrite A. cbn. f_equal. lia.
Qed.

Lemma predicts_fun t fs x y : predicts t fs x -> predicts t fs y -> x = y.
Proof.
  intros H. revert y. induction H; intros y Hy; inversion Hy; subst; try congruence;
    try (match goal with H1 : nth_error ?a ?b = Some ?c, H2 : nth_error ?a ?b = Some ?d |- _ =>
           assert (c = d) by congruence; subst; lia end); auto.
Qed.

Lemma eval_node_panics t fs : forall b out x, b <= 1 -> eval_node out t fs b = Ok x -> evaluable t fs.
Proof.
  induction t as [y | th f ix op l r IHl IHr] using node_ind'; intros b out x Hb H.
  - apply evaluable_leaf.
  - cbn in H. destruct op; [|discriminate]. apply bind_Ok in H as (v & Hv & H).
    unfold one_minus in H. destruct (Nat.leb_spec b 1); [|lia]. cbn [bind] in H.
    assert (Hbb : b * (1 - b) = 0) by (destruct b as [|[|b]]; cbn; lia). rewrite Hbb in H.
    assert (Hf : f < length fs).
    { unfold index in Hv. apply nth_error_Some. destruct (nth_error fs f); [discriminate | discriminate]. }
    destruct (v <=? th); apply bind_Ok in H as (o & H1 & H2); apply evaluable_intro; try exact Hf;
      intros n ->; first [eapply (IHl n eq_refl _ out o); [|exact H1]; lia | eapply (IHr n eq_refl _ o x); [|exact H2]; lia].
Qed.

Lemma eval_iff t fs x : eval t fs = Ok x <-> evaluable t fs /\ predicts t fs x.
Proof.
  split.
  - intros H. assert (He : evaluable t fs) by (eapply (eval_node_panics t fs 1); [lia | exact H]).
    split; [exact He|]. destruct (eval_node_on t fs He) as (y & Hp & Hy).
    unfold eval in H. rewrite Hy in H. injection H as <-. exact Hp.
  - intros [He Hp]. destruct (eval_node_on t fs He) as (y & Hp' & Hy).
    rewrite (predicts_fun _ _ _ _ Hp Hp'). apply Hy.
Qed.

Lemma eval_total t fs : evaluable t fs -> exists x, eval t fs = Ok x.
Proof. intros H. destruct (eval_node_on t fs H) as (y & Hp & Hy). exists y. apply Hy. Qed.

Lemma eval_not_evaluable t fs : ~ evaluable t fs -> exists p, eval t fs = Panic p /\ (p = PTodo \/ p = PIndex).
Proof.
  intros Hn. destruct (eval t fs) as [x|p] eqn:E; [apply eval_iff in E; tauto|].
  exists p. split; [reflexivity|]. clear Hn. unfold eval in E.
  assert (G : forall b out, b <= 1 -> eval_node out t fs b = Panic p -> p = PTodo \/ p = PIndex).
  { clear E. induction t as [y | th f ix op l r IHl IHr] using node_ind'; intros b out Hb H; [discriminate|].
    cbn in H. destruct op; [|injection H as <-; auto].
    unfold index in H. destruct (nth_error fs f) as [v|]; cbn in H; [|injection H as <-; auto].
    unfold one_minus in H. destruct (Nat.leb_spec b 1); [|lia]. cbn [bind] in H.
    assert (Hbb : b * (1 - b) = 0) by (destruct b as [|[|b]]; cbn; lia). rewrite Hbb in H.
    destruct (v <=? th).
    - destruct l as [n|].
      + destruct (eval_node out n fs b) eqn:E1; cbn in H.
        * destruct r as [m|]; [|discriminate]. eapply (IHr m eq_refl 0); [lia | exact H].
        * injection H as ->. eapply (IHl n eq_refl b); eauto.
      + cbn in H. destruct r as [m|]; [|discriminate]. eapply (IHr m eq_refl 0); [lia | exact H].
    - destruct l as [n|].
      + destruct (eval_node out n fs 0) eqn:E1; cbn in H.
        * destruct r as [m|]; [|discriminate]. eapply (IHr m eq_refl b); eauto.
        * injection H as ->. eapply (IHl n eq_refl 0); [lia | exact E1].
      + cbn in H. destruct r as [m|]; [|discriminate]. eapply (IHr m eq_refl b); eauto. }
  apply (G 1 0); [lia | exact E].
Qed.

(** ** flattening and indices *)
Definition entry (t : node) : nat * nat * nat * opk :=
  match t with Internal th f ix op _ _ => (th, f, ix, op) | Leaf _ => (0, 0, 0, LEQ) end.
Definition stub (e : nat * nat * nat * opk) : node :=
  let '(th, f, ix, op) := e in Internal th f ix op (Some (Leaf 0)) (Some (Leaf 0)).

Lemma flatten_tree_spec t out : flatten_tree out t = out ++ map stub (preorder t).
Proof.
  revert out. induction t as [x | th f ix op l r IHl IHr] using node_ind'; intros out.
  - cbn. rewrite app_nil_r. reflexivity.
  - cbn.
    assert (A : forall o, match l with Some (Internal _ _ _ _ _ _ as lt) => flatten_tree o lt | _ => o end
                  = o ++ map stub (match l with Some n => preorder n | None => [] end)).
    { intros o. destruct l as [[a b c d e g | x]|]; [apply IHl; reflexivity | cbn; rewrite app_nil_r; reflexivity..]. }
    assert (B : forall o, match r with Some (Internal _ _ _ _ _ _ as lt) => flatten_tree o lt | _ => o end
                  = o ++ map stub (match r with Some n => preorder n | None => [] end)).
    { intros o. destruct r as [[a b c d e g | x]|]; [apply IHr; reflexivity | cbn; rewrite app_nil_r; reflexivity..]. }
    rewrite A, B, map_app, <- !app_assoc. reflexivity.
Qed.

Lemma flatten_spec t : flatten t = map stub (preorder t).
Proof. destruct t; [apply flatten_tree_spec | reflexivity]. Qed.

Lemma preorder_length t : length (preorder t) = count_internal t.
Proof.
  induction t as [x | th f ix op l r IHl IHr] using node_ind'; [reflexivity|].
  cbn. rewrite app_length.
  destruct l as [a|], r as [b|]; cbn; rewrite ?(IHl _ eq_refl), ?(IHr _ eq_refl); reflexivity.
Qed.

Definition eidx (e : nat * nat * nat * opk) : nat := let '(_, _, ix, _) := e in ix.
Definition eother (e : nat * nat * nat * opk) : nat * nat * opk := let '(th, f, _, op) := e in (th, f, op).

Lemma fix_index_from_spec t i t' k : fix_index_from t i = (t', k) ->
  same_but_index t t' /\ map eidx (preorder t') = seq i (count_internal t) /\
  (count_internal t <> 0 -> k + 1 = i + count_internal t) /\ (count_internal t = 0 -> t' = t /\ k = i).
Proof.
  revert i t' k. induction t as [x | th f ix op l r IHl IHr] using node_ind'; intros i t' k E.
  - cbn in E. injection E as <- <-. cbn. repeat split; intros; lia.
  - cbn [fix_index_from] in E.
    destruct (match l with Some (Internal _ _ _ _ _ _ as lt) =>
        let '(lt', j) := fix_index_from lt (i + 1) in (Some lt', j) | _ => (l, i) end) as [l' j] eqn:El.
    destruct (match r with Some (Internal _ _ _ _ _ _ as rt) =>
        let '(rt', k) := fix_index_from rt (j + 1) in (Some rt', k) | _ => (r, j) end) as [r' k'] eqn:Er.
    injection E as <- <-.
    assert (L : (match l, l' with Some a, Some b => same_but_index a b | None, None => True | _, _ => False end) /\
       map eidx (match l' with Some n => preorder n | None => [] end)
         = seq (i + 1) (match l with Some n => count_internal n | None => 0 end) /\
       j = i + (match l with Some n => count_internal n | None => 0 end)).
    { destruct l as [[a b c d e g | x]|].
      - destruct (fix_index_from (Internal a b c d e g) (i + 1)) as [lt' j'] eqn:Ef. injection El as <- <-.
        destruct (IHl _ eq_refl _ _ _ Ef) as (S1 & S2 & S3 & _). split; [exact S1|]. split; [exact S2|].
        assert (count_internal (Internal a b c d e g) <> 0) by (cbn; lia). lia.
      - injection El as <- <-. cbn. split; [reflexivity|]. split; [reflexivity | lia].
      - injection El as <- <-. cbn. split; [exact I|]. split; [reflexivity | lia]. }
    assert (R : (match r, r' with Some a, Some b => same_but_index a b | None, None => True | _, _ => False end) /\
       map eidx (match r' with Some n => preorder n | None => [] end)
         = seq (j + 1) (match r with Some n => count_internal n | None => 0 end) /\
       k' = j + (match r with Some n => count_internal n | None => 0 end)).
    { destruct r as [[a b c d e g | x]|].
      - destruct (fix_index_from (Internal a b c d e g) (j + 1)) as [rt' j'] eqn:Ef. injection Er as <- <-.
        destruct (IHr _ eq_refl _ _ _ Ef) as (S1 & S2 & S3 & _). split; [exact S1|]. split; [exact S2|].
        assert (count_internal (Internal a b c d e g) <> 0) by (cbn; lia). lia.
      - injection Er as <- <-. cbn. split; [reflexivity|]. split; [reflexivity | lia].
      - injection Er as <- <-. cbn. split; [exact I|]. split; [reflexivity | lia]. }
    destruct L as (L1 & L2 & L3), R as (R1 & R2 & R3).
    split; [cbn; auto|]. split; [|split].
    + cbn. f_equal. rewrite map_app, L2, R2, seq_app. f_equal; [f_equal; lia | f_equal; lia].
    + intros _. cbn. lia.
    + cbn. lia.
Qed.

Lemma same_preorder s t : same_but_index s t -> map eother (preorder s) = map eother (preorder t).
Proof.
  revert t. induction s as [x | th f ix op l r IHl IHr] using node_ind'; intros [th' f' ix' op' l' r' | y] H; cbn in H; try contradiction; [reflexivity|].
  destruct H as (-> & -> & -> & Hl & Hr). cbn. f_equal. rewrite !map_app. f_equal.
  - destruct l as [a|], l' as [b|]; try contradiction; [apply IHl; auto | reflexivity].
  - destruct r as [a|], r' as [b|]; try contradiction; [apply IHr; auto | reflexivity].
Qed.

Lemma fix_index_spec t : (exists th f ix op l r, t = Internal th f ix op l r) ->
  exists t', fix_index t = Ok (t', count_internal t - 1) /\ same_but_index t t' /\
    map eidx (preorder t') = seq 0 (count_internal t).
Proof.
  intros (th & f & ix & op & l & r & ->). unfold fix_index.
  destruct (fix_index_from (Internal th f ix op l r) 0) as [t' k] eqn:E.
  destruct (fix_index_from_spec _ _ _ _ E) as (A & B & C & _).
  exists t'. split; [|auto]. f_equal. f_equal.
  assert (count_internal (Internal th f ix op l r) <> 0) by (cbn; lia). specialize (C H). lia.
Qed.

(** ** statistics *)
Lemma count_leaf_labels t : count_leaf t = length (labels t).
Proof.
  induction t as [x | th f ix op l r IHl IHr] using node_ind'; [reflexivity|].
  cbn. rewrite app_length.
  destruct l as [a|], r as [b|]; cbn; rewrite ?(IHl _ eq_refl), ?(IHr _ eq_refl); reflexivity.
Qed.

Lemma no_missing_inv th f ix op l r : no_missing (Internal th f ix op l r) ->
  exists a b, l = Some a /\ r = Some b /\ no_missing a /\ no_missing b.
Proof.
  intros H. destruct (H _ _ _ _ _ _ (sub_refl _)) as [A B].
  destruct l as [a|]; [|congruence]. destruct r as [b|]; [|congruence].
  exists a, b. split; [reflexivity|]. split; [reflexivity|].
  split; intros ? ? ? ? ? ? Hs; eapply H; [apply sub_left | apply sub_right]; exact Hs.
Qed.

Lemma leaf_internal t : no_missing t -> count_leaf t = count_internal t + 1.
Proof.
  induction t as [x | th f ix op l r IHl IHr] using node_ind'; intros H; [reflexivity|].
  apply no_missing_inv in H as (a & b & -> & -> & Ha & Hb). cbn.
  rewrite (IHl a eq_refl Ha), (IHr b eq_refl Hb). lia.
Qed.

Lemma depth_bound t d : has_path t d -> d <= count_depth t.
Proof.
  intros H. induction H as [x | th f ix op l r Hn | th f ix op l r d Hp IH | th f ix op l r d Hp IH]; cbn [count_depth]; [lia | | |].
  - destruct (Nat.ltb_spec (match r with Some n => count_depth n | None => 0 end)
                           (match l with Some n => count_depth n | None => 0 end)); lia.
  - destruct (Nat.ltb_spec (match r with Some n => count_depth n | None => 0 end) (count_depth l)); lia.
  - destruct (Nat.ltb_spec (count_depth r) (match l with Some n => count_depth n | None => 0 end)); lia.
Qed.

Lemma depth_attained t : has_path t (count_depth t).
Proof.
  induction t as [x | th f ix op l r IHl IHr] using node_ind'; [constructor|]. cbn [count_depth].
  destruct (Nat.ltb_spec (match r with Some n => count_depth n | None => 0 end)
                         (match l with Some n => count_depth n | None => 0 end)) as [H|H].
  - destruct l as [a|]; [|cbn in H; lia]. rewrite Nat.add_1_r. apply path_left. apply IHl. reflexivity.
  - destruct r as [b|].
    + rewrite Nat.add_1_r. apply path_right. apply IHr. reflexivity.
    + apply path_stop. right. reflexivity.
Qed.

Lemma max_feature_bound t th f ix op l r : sub (Internal th f ix op l r) t -> f <= max_feature_index t.
Proof.
  remember (Internal th f ix op l r) as s. intros H. induction H as [t | s th' f' ix' op' l' r' H IH | s th' f' ix' op' l' r' H IH].
  - subst. cbn. lia.
  - specialize (IH Heqs). cbn. lia.
  - specialize (IH Heqs). cbn. lia.
Qed.

Lemma max_feature_attained t : (exists x, t = Leaf x) \/
  exists th f ix op l r, sub (Internal th f ix op l r) t /\ f = max_feature_index t.
Proof.
  induction t as [x | th f ix op l r IHl IHr] using node_ind'; [left; eauto|]. right. cbn.
  assert (A : (match l with Some n => max_feature_index n | None => 0 end) <= f \/
     exists th' f' ix' op' l' r', sub (Internal th' f' ix' op' l' r') (Internal th f ix op l r) /\
        f' = match l with Some n => max_feature_index n | None => 0 end).
  { destruct l as [n|]; [|left; lia]. destruct (IHl n eq_refl) as [(x & ->) | (a & b & c & d & e & g & Hs & Hf)]; [left; cbn; lia|].
    right. exists a, b, c, d, e, g. split; [apply sub_left; exact Hs | exact Hf]. }
  assert (B : (match r with Some n => max_feature_index n | None => 0 end) <= f \/
     exists th' f' ix' op' l' r', sub (Internal th' f' ix' op' l' r') (Internal th f ix op l r) /\
        f' = match r with Some n => max_feature_index n | None => 0 end).
  { destruct r as [n|]; [|left; lia]. destruct (IHr n eq_refl) as [(x & ->) | (a & b & c & d & e & g & Hs & Hf)]; [left; cbn; lia|].
    right. exists a, b, c, d, e, g. split; [apply sub_right; exact Hs | exact Hf]. }
  set (ml := match l with Some n => max_feature_index n | None => 0 end) in *.
  set (mr := match r with Some n => max_feature_index n | None => 0 end) in *.
  assert (Self : sub (Internal th f ix op l r) (Internal th f ix op l r)) by constructor.
  destruct A as [A | (a & b & c & d & e & g & A1 & A2)], B as [B | (a' & b' & c' & d' & e' & g' & B1 & B2)].
  - exists th, f, ix, op, l, r. split; [exact Self | lia].
  - destruct (Nat.le_gt_cases mr f); [exists th, f, ix, op, l, r; split; [exact Self | lia]|].
    exists a', b', c', d', e', g'. split; [exact B1 | lia].
  - destruct (Nat.le_gt_cases ml f); [exists th, f, ix, op, l, r; split; [exact Self | lia]|].
    exists a, b, c, d, e, g. split; [exact A1 | lia].
  - destruct (Nat.le_gt_cases (Nat.max ml mr) f); [exists th, f, ix, op, l, r; split; [exact Self | lia]|].
    destruct (Nat.le_gt_cases ml mr).
    + exists a', b', c', d', e', g'. split; [exact B1 | lia].
    + exists a, b, c, d, e, g. split; [exact A1 | lia].
Qed.

(** ** truncation *)
Lemma trunc_none t : trunc_node t = None <-> forall x, In x (labels t) -> x = 0.
Proof.
  induction t as [x | th f ix op l r IHl IHr] using node_ind'; cbn.
  - destruct (Nat.eqb_spec x 0) as [->|H]; split; intros H'; try discriminate; try reflexivity.
    + intros y [<-|[]]. reflexivity.
    + exfalso. apply H, H'. auto.
  - assert (A : (match l with Some n => trunc_node n | None => None end) = None <->
      forall x, In x (match l with Some n => labels n | None => [] end) -> x = 0).
    { destruct l as [n|]; [apply IHl; reflexivity | split; [intros _ x [] | reflexivity]]. }
    assert (B : (match r with Some n => trunc_node n | None => None end) = None <->
      forall x, In x (match r with Some n => labels n | None => [] end) -> x = 0).
    { destruct r as [n|]; [apply IHr; reflexivity | split; [intros _ x [] | reflexivity]]. }
    split.
    + intros H x Hin. apply in_app_or in Hin.
      destruct (match l with Some n => trunc_node n | None => None end); [discriminate|].
      destruct (match r with Some n => trunc_node n | None => None end); [discriminate|].
      destruct Hin; [apply A | apply B]; auto.
    + intros H. rewrite (proj2 A), (proj2 B); [reflexivity | |]; intros x Hin; apply H, in_or_app; auto.
Qed.

Lemma trunc_labels t t' : trunc_node t = Some t' -> labels t' = filter (fun x => negb (x =? 0)) (labels t).
Proof.
  revert t'. induction t as [x | th f ix op l r IHl IHr] using node_ind'; intros t' E; cbn in E.
  - cbn. destruct (x =? 0); [discriminate|]. injection E as <-. reflexivity.
  - cbn. rewrite filter_app.
    assert (A : match (match l with Some n => trunc_node n | None => None end) with Some n => labels n | None => [] end
       = filter (fun x => negb (x =? 0)) (match l with Some n => labels n | None => [] end)).
    { destruct l as [n|]; [|reflexivity]. destruct (trunc_node n) eqn:En; [apply IHl; auto|].
      symmetry. pose proof (proj1 (trunc_none n) En) as Hz. clear - Hz. induction (labels n) as [|y ys IH]; [reflexivity|].
      cbn. rewrite (Hz y) by (left; reflexivity). cbn. apply IH. intros; apply Hz; right; assumption. }
    assert (B : match (match r with Some n => trunc_node n | None => None end) with Some n => labels n | None => [] end
       = filter (fun x => negb (x =? 0)) (match r with Some n => labels n | None => [] end)).
    { destruct r as [n|]; [|reflexivity]. destruct (trunc_node n) eqn:En; [apply IHr; auto|].
      symmetry. pose proof (proj1 (trunc_none n) En) as Hz. clear - Hz. induction (labels n) as [|y ys IH]; [reflexivity|].
      cbn. rewrite (Hz y) by (left; reflexivity). cbn. apply IH. intros; apply Hz; right; assumption. }
    rewrite <- A, <- B.
    destruct (match l with Some n => trunc_node n | None => None end), (match r with Some n => trunc_node n | None => None end);
      try discriminate; injection E as <-; reflexivity.
Qed.

Lemma trunc_idem t : trunc_tree (trunc_node t) = trunc_node t.
Proof.
  induction t as [x | th f ix op l r IHl IHr] using node_ind'; cbn.
  - destruct (x =? 0) eqn:E; [reflexivity|]. cbn. rewrite E. reflexivity.
  - assert (A : trunc_tree (match l with Some n => trunc_node n | None => None end)
       = match l with Some n => trunc_node n | None => None end).
    { destruct l as [n|]; [apply IHl; reflexivity | reflexivity]. }
    assert (B : trunc_tree (match r with Some n => trunc_node n | None => None end)
       = match r with Some n => trunc_node n | None => None end).
    { destruct r as [n|]; [apply IHr; reflexivity | reflexivity]. }
    destruct (match l with Some n => trunc_node n | None => None end) as [a|] eqn:Ea;
    destruct (match r with Some n => trunc_node n | None => None end) as [b|] eqn:Eb; cbn in *; rewrite ?A, ?B; reflexivity.
Qed.

Lemma trunc_evaluable t t' fs : trunc_node t = Some t' -> evaluable t fs -> evaluable t' fs.
Proof.
  revert t'. induction t as [x | th f ix op l r IHl IHr] using node_ind'; intros t' E He; cbn in E.
  - destruct (x =? 0); [discriminate|]. injection E as <-. apply evaluable_leaf.
  - apply evaluable_inv in He as (-> & Hf & El & Er).
    assert (G : t' = Internal th f ix LEQ (match l with Some n => trunc_node n | None => None end)
                                        (match r with Some n => trunc_node n | None => None end)).
    { destruct (match l with Some n => trunc_node n | None => None end), (match r with Some n => trunc_node n | None => None end);
      try discriminate; injection E as <-; reflexivity. }
    subst t'. apply evaluable_intro; [exact Hf | |].
    + intros m Em. destruct l as [n|]; [|discriminate]. eapply (IHl n); eauto.
    + intros m Em. destruct r as [n|]; [|discriminate]. eapply (IHr n); eauto.
Qed.

Lemma predicts_label t fs x : predicts t fs x -> In x (labels t) \/ x = 0.
Proof.
  induction 1; cbn; auto; destruct IHpredicts; auto; left; apply in_or_app; auto.
Qed.

Lemma trunc_predicts t fs x : predicts t fs x ->
  match trunc_node t with Some t' => predicts t' fs x | None => x = 0 end.
Proof.
  intros H. destruct (trunc_node t) as [t'|] eqn:E.
  - revert t' E. induction H as [x fs | th f ix l r fs v x Hv Hle Hp IH | th f ix r fs v Hv Hle
        | th f ix l r fs v x Hv Hlt Hp IH | th f ix l fs v Hv Hlt]; intros t' E; cbn in E.
    + destruct (x =? 0); [discriminate|]. injection E as <-. constructor.
    + destruct (trunc_node l) as [l'|] eqn:El.
      * assert (G : t' = Internal th f ix LEQ (Some l') (match r with Some n => trunc_node n | None => None end)).
        { destruct (match r with Some n => trunc_node n | None => None end); injection E as <-; reflexivity. }
        subst t'. eapply P_left; eauto.
      * assert (x = 0).
        { apply predicts_label in Hp as [Hp|Hp]; [|exact Hp]. eapply (proj1 (trunc_none l)); eauto. }
        subst x. destruct (match r with Some n => trunc_node n | None => None end); [|discriminate].
        injection E as <-. eapply P_left_missing; eauto.
    + destruct (match r with Some n => trunc_node n | None => None end); [|discriminate].
      injection E as <-. eapply P_left_missing; eauto.
    + destruct (trunc_node r) as [r'|] eqn:Er.
      * assert (G : t' = Internal th f ix LEQ (match l with Some n => trunc_node n | None => None end) (Some r')).
        { destruct (match l with Some n => trunc_node n | None => None end); injection E as <-; reflexivity. }
        subst t'. eapply P_right; eauto.
      * assert (x = 0).
        { apply predicts_label in Hp as [Hp|Hp]; [|exact Hp]. eapply (proj1 (trunc_none r)); eauto. }
        subst x. destruct (match l with Some n => trunc_node n | None => None end); [|discriminate].
        injection E as <-. eapply P_right_missing; eauto.
    + destruct (match l with Some n => trunc_node n | None => None end); [|discriminate].
      injection E as <-. eapply P_right_missing; eauto.
  - apply predicts_label in H as [H|H]; [|exact H]. eapply (proj1 (trunc_none t)); eauto.
Qed.

Lemma trunc_eval t fs x : eval t fs = Ok x ->
  match trunc_tree (Some t) with Some t' => eval t' fs = Ok x | None => x = 0 end.
Proof.
  intros H. apply eval_iff in H as [He Hp]. cbn. pose proof (trunc_predicts t fs x Hp) as H.
  destruct (trunc_node t) as [t'|] eqn:E; [|exact H].
  apply eval_iff. split; [eapply trunc_evaluable; eauto | exact H].
Qed.

(** ** generated trees *)
Lemma gen_full_processed d : gen_full_tree d true = (complete d (repeat 0 (2 ^ d)), true).
Proof.
  induction d as [|d IH]; [reflexivity|]. cbn [gen_full_tree complete]. rewrite !IH.
  replace (2 ^ S d) with (2 ^ d + 2 ^ d) by (cbn; lia).
  rewrite repeat_app, firstn_app, skipn_app, repeat_length, Nat.sub_diag.
  rewrite firstn_all2, skipn_all2 by (rewrite repeat_length; lia).
  cbn. rewrite app_nil_r. reflexivity.
Qed.

Lemma gen_full_fresh d : gen_full_tree d false = (complete d (1 :: repeat 0 (2 ^ d - 1)), true).
Proof.
  induction d as [|d IH]; [reflexivity|]. cbn [gen_full_tree complete]. rewrite IH, gen_full_processed.
  assert (Hp : 0 < 2 ^ d) by (apply Nat.neq_0_lt_0, Nat.pow_nonzero; lia).
  replace (1 :: repeat 0 (2 ^ S d - 1)) with ((1 :: repeat 0 (2 ^ d - 1)) ++ repeat 0 (2 ^ d)).
  2:{ cbn. f_equal. rewrite <- repeat_app. f_equal. lia. }
  rewrite firstn_app, skipn_app. cbn [length]. rewrite repeat_length.
  replace (2 ^ d - S (2 ^ d - 1)) with 0 by lia.
  rewrite firstn_all2, skipn_all2 by (cbn; rewrite repeat_length; lia).
  cbn [firstn skipn]. rewrite app_nil_r. reflexivity.
Qed.

Lemma complete_labels d ls : length ls = 2 ^ d -> labels (complete d ls) = ls.
Proof.
  revert ls. induction d as [|d IH]; intros ls H; cbn in *.
  - destruct ls as [|x [|y ls]]; cbn in *; try lia. reflexivity.
  - rewrite !IH; [apply firstn_skipn | rewrite skipn_length; lia | rewrite firstn_length; lia].
Qed.

Lemma complete_stats d ls :
  count_leaf (complete d ls) = 2 ^ d /\ count_internal (complete d ls) + 1 = 2 ^ d /\ count_depth (complete d ls) = d.
Proof.
  revert ls. induction d as [|d IH]; intros ls; [cbn; auto|]. cbn [complete count_leaf count_internal count_depth].
  destruct (IH (firstn (2 ^ d) ls)) as (A1 & A2 & A3). destruct (IH (skipn (2 ^ d) ls)) as (B1 & B2 & B3).
  rewrite A1, A3, B1, B3, Nat.ltb_irrefl. cbn [Nat.pow]. lia.
Qed.

Lemma new_with_depth_spec d :
  new_with_depth d = complete d (1 :: repeat 0 (2 ^ d - 1)) /\
  labels (new_with_depth d) = 1 :: repeat 0 (2 ^ d - 1).
Proof.
  unfold new_with_depth. rewrite gen_full_fresh. cbn [fst]. split; [reflexivity|].
  apply complete_labels. cbn. rewrite repeat_length.
  assert (0 < 2 ^ d) by (apply Nat.neq_0_lt_0, Nat.pow_nonzero; lia). lia.
Qed.

(** ** encrypted tree construction *)
Lemma new_enc_children_spec {C} (t : node) : forall (cts1 cts2 : list C), length cts1 + 1 = count_internal t ->
  exists el er, new_enc_children t (cts1 ++ cts2) = Ok ((el, er), cts2) /\
    forall ct, enc_matches (EInternal ct el er) t (ct :: cts1).
Proof.
  induction t as [x | th f ix op l r IHl IHr] using node_ind'; intros cts1 cts2 Hlen; [cbn in Hlen; lia|].
  assert (Child : forall (o : option node) (IH : forall n, o = Some n -> forall (cts1 cts2 : list C), length cts1 + 1 = count_internal n ->
      exists el er, new_enc_children n (cts1 ++ cts2) = Ok ((el, er), cts2) /\
        forall ct, enc_matches (EInternal ct el er) n (ct :: cts1)) (c1 c2 : list C),
      length c1 = match o with Some n => count_internal n | None => 0 end ->
      exists e, match o with
        | None => Ok (Some (ELeaf 0), c1 ++ c2)
        | Some (Leaf x) => Ok (Some (ELeaf x), c1 ++ c2)
        | Some (Internal _ _ _ _ _ _ as lt) =>
            match c1 ++ c2 with
            | [] => Panic PExplicit
            | ct :: cts' => ' ((a, b), rest) <- new_enc_children lt cts' ;; Ok (Some (EInternal ct a b), rest)
            end
        end = Ok (e, c2) /\ enc_child e o c1).
  { intros o IH c1 c2 Hc. destruct o as [[a b c d e g | x]|].
    - destruct c1 as [|ct c1]; [cbn in Hc; lia|].
      destruct (IH _ eq_refl c1 c2) as (el & er & E & M); [cbn [length] in Hc; lia|].
      cbn [app]. rewrite E. cbn [bind]. eexists. split; [reflexivity|]. constructor. apply M.
    - destruct c1; [|cbn in Hc; lia]. eexists. split; [reflexivity|]. constructor. constructor.
    - destruct c1; [|cbn in Hc; lia]. eexists. split; [reflexivity|]. constructor. }
  cbn [count_internal] in Hlen.
  set (nl := match l with Some n => count_internal n | None => 0 end) in *.
  destruct (Child l IHl (firstn nl cts1) (skipn nl cts1 ++ cts2)) as (el & E1 & M1).
  { rewrite firstn_length. unfold nl in *. lia. }
  destruct (Child r IHr (skipn nl cts1) cts2) as (er & E2 & M2).
  { rewrite skipn_length. lia. }
  exists el, er. split.
  - cbn [new_enc_children]. rewrite app_assoc, firstn_skipn in E1. rewrite E1. cbn [bind]. rewrite E2. reflexivity.
  - intros ct. rewrite <- (firstn_skipn nl cts1). constructor; assumption.
Qed.

Lemma new_enc_children_short {C} (t : node) : forall (cts : list C), length cts + 1 < count_internal t ->
  new_enc_children t cts = Panic PExplicit.
Proof.
  induction t as [x | th f ix op l r IHl IHr] using node_ind'; intros cts Hlen; [cbn in Hlen; lia|].
  cbn [count_internal] in Hlen. cbn [new_enc_children].
  set (nl := match l with Some n => count_internal n | None => 0 end) in *.
  destruct (Nat.le_gt_cases nl (length cts)) as [Hge|Hlt].
  - assert (E : exists e, match l with
        | None => Ok (Some (ELeaf 0), cts)
        | Some (Leaf x) => Ok (Some (ELeaf x), cts)
        | Some (Internal _ _ _ _ _ _ as lt) =>
            match cts with
            | [] => Panic PExplicit
            | ct :: cts' => ' ((a, b), rest) <- new_enc_children lt cts' ;; Ok (Some (EInternal ct a b), rest)
            end
        end = Ok (e, skipn nl cts)).
    { destruct l as [[a b c d e g | x]|]; unfold nl in *.
      - destruct cts as [|ct cts]; [cbn in Hge; lia|].
        set (m := count_internal (Internal a b c d e g)) in *. cbn [length] in Hge.
        assert (Hm : m = S (m - 1)) by (unfold m; cbn; lia).
        destruct (new_enc_children_spec (Internal a b c d e g) (firstn (m - 1) cts) (skipn (m - 1) cts)) as (el & er & E & _).
        { rewrite firstn_length. fold m. lia. }
        rewrite firstn_skipn in E. rewrite E. cbn [bind]. replace (skipn m (ct :: cts)) with (skipn (m - 1) cts) by (rewrite Hm at 2; reflexivity). eauto.
      - cbn. eauto.
      - cbn. eauto. }
    destruct E as (e & ->). cbn [bind].
    assert (Hsk : length (skipn nl cts) = length cts - nl) by apply skipn_length.
    destruct r as [[a b c d e' g | x]|].
    + destruct (skipn nl cts) as [|ct rest]; [reflexivity|].
      rewrite (IHr _ eq_refl); [reflexivity|]. cbn [length] in Hsk. lia.
    + cbn in Hlen. lia.
    + lia.
  - destruct l as [[a b c d e g | x]|]; unfold nl in *.
    + destruct cts as [|ct cts]; [reflexivity|]. rewrite (IHl _ eq_refl); [reflexivity|]. cbn [length] in *. lia.
    + cbn in Hlt. lia.
    + lia.
Qed.

Lemma enc_node_new_spec {C} t (cts1 cts2 : list C) :
  (exists th f ix op l r, t = Internal th f ix op l r) -> length cts1 = count_internal t ->
  exists e, enc_node_new t (cts1 ++ cts2) = Ok (e, cts2) /\ enc_matches e t cts1.
Proof.
  intros (th & f & ix & op & l & r & ->) Hlen.
  destruct cts1 as [|ct cts1]; [cbn in Hlen; lia|]. cbn [app enc_node_new].
  destruct (new_enc_children_spec (Internal th f ix op l r) cts1 cts2) as (el & er & E & M); [cbn [length] in Hlen; lia|].
  rewrite E. cbn [bind]. eexists. split; [reflexivity | apply M].
Qed.

Lemma enc_node_new_panics {C} t (cts : list C) :
  (exists x, t = Leaf x) \/ length cts < count_internal t ->
  exists p, enc_node_new t cts = Panic p.
Proof.
  intros [(x & ->) | H]; destruct cts as [|ct cts]; cbn [enc_node_new]; eauto.
  destruct t as [th f ix op l r | x]; [|eauto].
  rewrite new_enc_children_short by (cbn [length] in H; lia). cbn. eauto.
Qed.

Lemma enc_node_ind' {C} (P : enc_node C -> Prop) :
  (forall x, P (ELeaf x)) ->
  (forall ct l r, (forall n, l = Some n -> P n) -> (forall n, r = Some n -> P n) -> P (EInternal ct l r)) ->
  forall t, P t.
Proof.
  intros Hl Hi. fix IH 1. intros [ct l r | x]; [|apply Hl].
  apply Hi.
  - destruct l as [n|]; intros m E; [injection E as <-; apply IH | discriminate].
  - destruct r as [n|]; intros m E; [injection E as <-; apply IH | discriminate].
Qed.

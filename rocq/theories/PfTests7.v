(** * Proofs about the tests of private evaluation (MTests2). *)
From Verif Require Import MBase MUtils MCodec MPoly MRlwe MLwe MHash MTree MEncTree MCtx MSched MOram MMain MTests MTests2.
From Verif Require Import SpecRing SpecLwe SpecEnc SpecTree LTree PEnc PfTests4.
Local Open Scope Z_scope.

(** Every internal node of a tree satisfies a test. *)
Fixpoint all_nodes (p : nat -> nat -> opk -> bool) (t : node) : bool :=
  match t with
  | Leaf _ => true
  | Internal th f _ op l r => p th f op && (match l with Some a => all_nodes p a | None => true end) && (match r with Some a => all_nodes p a | None => true end)
  end.
Lemma all_nodes_sub p th f ix op l r : forall t, sub (Internal th f ix op l r) t -> all_nodes p t = true -> p th f op = true.
Proof.
  intros t H. remember (Internal th f ix op l r) as u eqn:Eu. revert Eu. induction H as [t|u th' f' ix' op' l' r' H IH|u th' f' ix' op' l' r' H IH]; intros Eu A; subst; cbn [all_nodes] in A;
    apply andb_prop in A as [A A2]; apply andb_prop in A as [A0 A1]; auto.
Qed.
Definition node_leq (len : nat) (th f : nat) (op : opk) : bool := (f <? len)%nat && match op with LEQ => true | _ => false end.
Lemma evaluable_of t fs : all_nodes (node_leq (length fs)) t = true -> evaluable t fs.
Proof.
  intros A th f ix op l r H. pose proof (all_nodes_sub _ _ _ _ _ _ _ _ H A) as B. unfold node_leq in B. apply andb_prop in B as [B0 B1]. apply Nat.ltb_lt in B0.
  destruct op; try discriminate. auto.
Qed.
Lemma thresholds_of t n : all_nodes (fun th _ _ => th <? n)%nat t = true -> forall th f ix op l r, sub (Internal th f ix op l r) t -> (th < n)%nat.
Proof. intros A th f ix op l r H. apply Nat.ltb_lt. exact (all_nodes_sub _ _ _ _ _ _ _ _ H A). Qed.

Section Tr.
Variables (cx : ctx) (lg : nat) (k : Z) (fft : fftT) (eps S E : Z).
Hypothesis Hp : params_ok cx lg k.
Hypothesis Hf : fft_for cx fft eps.
Definition tree_noise (depths : Z) : Z := depths * ep_bound (c_n cx) (c_base cx) (c_level cx) S 1 (decision_noise cx S E eps) eps.

Lemma simulate_one s t model fs th f ix op l r b : binary_key (c_n cx) s -> l1 (c_n cx) (tof s) S -> tape_ok (c_n cx) E t -> model = Internal th f ix op l r ->
  all_nodes (node_leq (length fs)) model = true -> all_nodes (fun th _ _ => th <? b)%nat model = true -> (b <= c_n cx)%nat -> Forall (fun v => (v < c_n cx)%nat) fs ->
  Forall (fun x => Z.of_nat x < 2 ^ 48) (labels model) -> (exists y, In y (labels model) /\ y <> 0%nat) -> 2 * tree_noise (Z.of_nat (list_sum (leaf_depths model))) < 2 ^ (64 - k) ->
  exists preds, simulate fft cx s model [fs] t = Ok preds.
Proof.
  intros Hs HS Ht Em Hev Hth Hb Hfs Hl Hy HB.
  destruct (C39_private_evaluation lg k cx fft eps s S E model [fs] t) as (p & Ep & _); auto.
  - subst model. repeat eexists.
  - intros th' f' ix' op' l' r' H. eapply Nat.lt_le_trans; [|exact Hb]. eapply thresholds_of; eassumption.
  - constructor; [|constructor]. split; [apply evaluable_of, Hev|exact Hfs].
  - eauto.
Qed.

Lemma test_traversal_1_ok s t : (3 < c_n cx)%nat -> binary_key (c_n cx) s -> l1 (c_n cx) (tof s) S -> tape_ok (c_n cx) E t -> 2 * tree_noise 9 < 2 ^ (64 - k) ->
  test_traversal_1 fft cx s t = Ok tt.
Proof.
  intros Hn Hs HS Ht HB. unfold test_traversal_1, test_traversal.
  assert (exists root, fix_index traversal_tree_1 = Ok (root, 2%nat) /\ root = Internal 2 0 0 LEQ (Some (Internal 2 1 1 LEQ (Some (Leaf 0)) (Some (Internal 3 1 2 LEQ (Some (Leaf 10)) (Some (Leaf 0)))))) (Some (Leaf 0))) as (root & Er & E0) by (eexists; split; reflexivity).
  rewrite Er. cbn [bind]. clear Er.
  destruct (simulate_one s t root [2; 3]%nat 2 0 0 LEQ (Some (Internal 2 1 1 LEQ (Some (Leaf 0)) (Some (Internal 3 1 2 LEQ (Some (Leaf 10)) (Some (Leaf 0)))))) (Some (Leaf 0)) 4) as (p & Ep); auto; subst root; try reflexivity.
  - repeat constructor; lia.
  - repeat constructor.
  - exists 10%nat. split; [cbn; auto|discriminate].
  - exact HB.
  - rewrite Ep. reflexivity.
Qed.
Lemma test_traversal_2_ok s t : (3 < c_n cx)%nat -> binary_key (c_n cx) s -> l1 (c_n cx) (tof s) S -> tape_ok (c_n cx) E t -> 2 * tree_noise 9 < 2 ^ (64 - k) ->
  test_traversal_2 fft cx s t = Ok tt.
Proof.
  intros Hn Hs HS Ht HB. unfold test_traversal_2, test_traversal.
  assert (exists root, fix_index traversal_tree_2 = Ok (root, 2%nat) /\ root = Internal 2 0 0 LEQ (Some (Internal 2 1 1 LEQ (Some (Leaf 1)) (Some (Internal 1 1 2 LEQ (Some (Leaf 1)) (Some (Leaf 0)))))) (Some (Leaf 1))) as (root & Er & E0) by (eexists; split; reflexivity).
  rewrite Er. cbn [bind]. clear Er.
  destruct (simulate_one s t root [2; 3]%nat 2 0 0 LEQ (Some (Internal 2 1 1 LEQ (Some (Leaf 1)) (Some (Internal 1 1 2 LEQ (Some (Leaf 1)) (Some (Leaf 0)))))) (Some (Leaf 1)) 3) as (p & Ep); auto; subst root; try reflexivity.
  - lia.
  - repeat constructor; lia.
  - repeat constructor.
  - exists 1%nat. split; [cbn; auto|discriminate].
  - exact HB.
  - rewrite Ep. reflexivity.
Qed.
Lemma test_traversal_long_ok s1 s2 t1 t2 : (11 < c_n cx)%nat -> binary_key (c_n cx) s1 -> l1 (c_n cx) (tof s1) S -> tape_ok (c_n cx) E t1 ->
  binary_key (c_n cx) s2 -> l1 (c_n cx) (tof s2) S -> tape_ok (c_n cx) E t2 -> 2 * tree_noise 65 < 2 ^ (64 - k) ->
  test_traversal_long fft cx s1 s2 t1 t2 = Ok tt.
Proof.
  intros Hn Hs1 HS1 Ht1 Hs2 HS2 Ht2 HB. unfold test_traversal_long.
  assert (exists root l r, fix_index (gen_line 10) = Ok (root, 9%nat) /\ root = Internal 10 0 0 LEQ l r /\ all_nodes (node_leq 1) root = true /\ all_nodes (fun th _ _ => th <? 11)%nat root = true /\
    labels root = 1%nat :: repeat 0%nat 10 /\ list_sum (leaf_depths root) = 65%nat /\ eval root [1%nat] = Ok 1%nat /\ eval root [11%nat] = Ok 0%nat)
    as (root & l & r & Er & E0 & Ev & Eth & El & Ed & E1 & E11).
  { eexists _, _, _. split; [reflexivity|]. repeat split; reflexivity. }
  rewrite Er. cbn [bind]. rewrite E1. change (10 - 1)%nat with 9%nat. rewrite assert_eq_nat_refl. cbn [bind]. rewrite assert_eq_nat_refl. cbn [bind].
  assert (Forall (fun x => Z.of_nat x < 2 ^ 48) (labels root)) as Hl by (rewrite El; repeat constructor).
  assert (exists y, In y (labels root) /\ y <> 0%nat) as Hy by (exists 1%nat; rewrite El; split; [left; reflexivity|discriminate]).
  assert (2 * tree_noise (Z.of_nat (list_sum (leaf_depths root))) < 2 ^ (64 - k)) as HB' by (rewrite Ed; exact HB).
  assert (Forall (fun v => (v < c_n cx)%nat) [1%nat]) as F1 by (repeat constructor; lia). assert (Forall (fun v => (v < c_n cx)%nat) [11%nat]) as F2 by (repeat constructor; lia).
  destruct (simulate_one s1 t1 root [1%nat] _ _ _ _ _ _ 11 Hs1 HS1 Ht1 E0 Ev Eth ltac:(lia) F1 Hl Hy HB') as (p1 & ->). cbn [bind].
  rewrite E11. cbn [bind]. rewrite assert_eq_nat_refl. cbn [bind].
  destruct (simulate_one s2 t2 root [11%nat] _ _ _ _ _ _ 11 Hs2 HS2 Ht2 E0 Ev Eth ltac:(lia) F2 Hl Hy HB') as (p2 & ->). reflexivity.
Qed.
End Tr.

(** * Property C36, for encrypted trees of any shape: EncNode and EncInternal have public fields, so a user can build trees that EncNode::new never
    makes, with children missing on either side (or both). *)
From Coq Require Import Setoid Morphisms Ring.
From Verif Require Import MBase MUtils MCodec MPoly MRlwe MTree MEncTree SpecRing SpecLwe SpecTree SpecEnc PolyRing PfPoly PfNear PfRlwe PfRlwe3 PfRlwe5 PfTree PfCodec LRlwe PfEnc PfEnc2 PfTreeShape.
From Verif Require Import PRlwe PKeys PEnc Demo.
Local Open Scope Z_scope.

(** Trees of decisions in the clear.  The label reached: a missing child counts as a leaf 0. *)
Fixpoint reached (t : enc_node bool) : nat :=
  match t with
  | ELeaf x => x
  | EInternal b l r =>
      if b then match l with Some t' => reached t' | None => 0 end else match r with Some t' => reached t' | None => 0 end
  end.
(** The labels of its leaves, and their depths, left to right. *)
Fixpoint tree_labels {C} (t : enc_node C) : list nat :=
  match t with
  | ELeaf x => [x]
  | EInternal _ l r => (match l with Some t' => tree_labels t' | None => [] end) ++ (match r with Some t' => tree_labels t' | None => [] end)
  end.
Fixpoint tree_depths {C} (t : enc_node C) : list nat :=
  match t with
  | ELeaf _ => [0%nat]
  | EInternal _ l r => map Datatypes.S ((match l with Some t' => tree_depths t' | None => [] end) ++ (match r with Some t' => tree_depths t' | None => [] end))
  end.
(** The ciphertexts of [e] encrypt the decisions of [t], node by node. *)
Inductive encrypts_tree (n : nat) (s : poly) (base level : nat) (E : Z) : enc_node rgsw -> enc_node bool -> Prop :=
| ET_leaf x : encrypts_tree n s base level E (ELeaf x) (ELeaf x)
| ET_node g b el er l r : const_ct n s base level E (b2z b) g -> encrypts_child n s base level E el l -> encrypts_child n s base level E er r ->
    encrypts_tree n s base level E (EInternal g el er) (EInternal b l r)
with encrypts_child (n : nat) (s : poly) (base level : nat) (E : Z) : option (enc_node rgsw) -> option (enc_node bool) -> Prop :=
| ET_none : encrypts_child n s base level E None None
| ET_some e t : encrypts_tree n s base level E e t -> encrypts_child n s base level E (Some e) (Some t).

(** max_leaf is the largest label, 0 if there is no leaf at all. *)
Theorem C36_max_leaf : forall C (e : enc_node C), max_leaf e = list_max (tree_labels e).
Proof.
  intros C e. induction e as [x|ct l r IHl IHr] using @enc_node_ind'; cbn [max_leaf tree_labels]; [cbn; lia|]. rewrite list_max_app.
  destruct l as [l|]; [rewrite (IHl l eq_refl)|]; (destruct r as [r|]; [rewrite (IHr r eq_refl)|]); cbn [list_max fold_right]; lia.
Qed.
Print Assumptions C36_max_leaf.

Section Any.
Variable n : nat.
Hypothesis Hn : (0 < n)%nat.
Add Ring Pring : (P_ring n Hn) (setoid (peq_equiv n) (P_ext n)).
Variable fft : fftT.
Variables (base level : nat) (eps : Z).
Hypothesis Hfft : fft_ok n fft (2 ^ (Z.of_nat base - 1)) (2 * level) eps.
Variable s : poly.
Variable S E : Z.
Hypothesis HS : l1 n (tof s) S.
Lemma adds_skip delta : adds n base level eps s S E delta 0%nat [] (fun out _ => out).
Proof.
  intros out b beta D Hl Ho Wb Nb. split; [reflexivity|]. split; [exact Ho|]. intros i Hi. rewrite Nat.bits_0, andb_false_r.
  apply near_eq; [unfold cost; cbn; lia|]. cbn [b2z]. rewrite Z.mul_0_l, pcst_0. ring.
Qed.
Lemma any_adds delta (t : enc_node bool) : forall e, encrypts_tree n s base level E e t ->
  adds n base level eps s S E delta (reached t) (tree_depths t) (fun out b => eval_enc_node fft n out e b).
Proof.
  induction t as [x|b l r IHl IHr] using @enc_node_ind'; intros e H; inversion H as [|g b0 el er l0 r0 Hg Hl Hr]; subst; [apply (adds_leaf n Hn)|].
  cbn [reached tree_depths].
  assert (forall o eo, (forall t0, o = Some t0 -> forall e, encrypts_tree n s base level E e t0 -> adds n base level eps s S E delta (reached t0) (tree_depths t0) (fun out b => eval_enc_node fft n out e b)) ->
     encrypts_child n s base level E eo o ->
     adds n base level eps s S E delta (match o with Some t' => reached t' | None => 0%nat end) (match o with Some t' => tree_depths t' | None => [] end)
       (fun out b => match eo with Some e => eval_enc_node fft n out e b | None => out end)) as Child.
  { intros o eo IH Hc. inversion Hc; subst; [apply adds_skip|apply IH; [reflexivity|assumption]]. }
  exact (adds_node n Hn fft base level eps Hfft s S E HS delta g b _ _ _ _ _ _ Hg (Child l el IHl Hl) (Child r er IHr Hr)).
Qed.
End Any.
Lemma encrypts_labels n s base level E (t : enc_node bool) : forall e, encrypts_tree n s base level E e t -> tree_labels e = tree_labels t.
Proof.
  induction t as [x|b l r IHl IHr] using @enc_node_ind'; intros e H; inversion H as [|g b0 el er l0 r0 Hg Hl Hr]; subst; [reflexivity|]. cbn [tree_labels].
  inversion Hl; inversion Hr; subst; f_equal; first [apply (IHl _ eq_refl); assumption | apply (IHr _ eq_refl); assumption | reflexivity].
Qed.
Lemma reached_label (t : enc_node bool) : reached t = 0%nat \/ In (reached t) (tree_labels t).
Proof.
  induction t as [x|b l r IHl IHr] using @enc_node_ind'; [right; left; reflexivity|]. cbn [reached tree_labels].
  destruct b; [destruct l as [l|]|destruct r as [r|]]; try (left; reflexivity).
  - destruct (IHl l eq_refl); [auto|right; apply in_or_app; auto].
  - destruct (IHr r eq_refl); [auto|right; apply in_or_app; auto].
Qed.

(** Evaluation writes the bits of the label reached, whatever the shape of the tree. *)
Theorem C36_any_encrypted_tree : forall cx fft eps base level s S E e t k,
  (0 < c_n cx)%nat -> 1 <= k <= 63 -> codec_new (c_mode cx) (2 ^ k) = Ok (c_codec cx) ->
  fft_ok (c_n cx) fft (2 ^ (Z.of_nat base - 1)) (2 * level) eps -> l1 (c_n cx) (tof s) S ->
  encrypts_tree (c_n cx) s base level E e t -> Forall (fun x => Z.of_nat x < 2 ^ 48) (tree_labels t) ->
  let B := Z.of_nat (list_sum (tree_depths t)) * ep_bound (c_n cx) base level S 1 E eps in
  exists outs, enc_eval fft cx e = Ok outs /\ length outs = Nat.log2_up (list_max (tree_labels t) + 1) /\ Forall (wfc (c_n cx)) outs /\
    (reached t < 2 ^ length outs)%nat /\
    (forall i c, nth_error outs i = Some c ->
       near (c_n cx) (phase (c_n cx) s c) (pcst (b2z (Nat.testbit (reached t) i) * 2 ^ (64 - k))) B) /\
    (2 * B < 2 ^ (64 - k) -> (exists y, In y (tree_labels t) /\ y <> 0%nat) -> decrypt_and_recompose cx s outs = Ok (Z.of_nat (reached t))).
Proof.
  intros cx fft eps base level s S E e t k Hn Hk Hc Hf HS He Hlab B.
  pose proof (any_adds (c_n cx) Hn fft base level eps Hf s S E HS (2 ^ (64 - k)) t e He) as A.
  destruct (trivial_one_ok cx k Hk Hc Hn) as (c & Ec & Wc & Nc).
  unfold enc_eval. rewrite Ec. cbn [bind]. unfold max_leaf_bits. rewrite C36_max_leaf, (encrypts_labels _ _ _ _ _ _ _ He).
  set (m := list_max (tree_labels t)). set (len := Nat.log2_up (m + 1)). set (x := reached t) in *.
  assert (Z.of_nat m < 2 ^ 48) as Hm48 by (apply (list_max_bound (tree_labels t)); [exact Hlab|reflexivity]).
  assert (len <= 48)%nat as Hl48.
  { destruct (Nat.le_gt_cases len 48) as [H|H]; [exact H|exfalso].
    assert (1 < m + 1)%nat as Hm1 by (destruct (Nat.le_gt_cases (m + 1) 1) as [H'|H']; [unfold len in H; rewrite (proj2 (Nat.log2_up_null (m + 1)) H') in H; lia|exact H']).
    pose proof (Nat.log2_up_spec (m + 1) Hm1) as [H1 _]. fold len in H1.
    assert (2 ^ 48 <= 2 ^ (Z.of_nat len - 1)) as H2 by (apply Z.pow_le_mono_r; lia).
    apply inj_lt in H1. rewrite Nat2Z.inj_pow in H1. replace (Z.of_nat (Init.Nat.pred len)) with (Z.of_nat len - 1) in H1 by lia.
    change (Z.of_nat 2) with 2 in H1. lia. }
  assert (x <= m)%nat as Hxm by (destruct (reached_label t) as [H|H]; [unfold x; lia|apply list_max_in; exact H]).
  assert (x < 2 ^ len)%nat as Hx2.
  { destruct (Nat.le_gt_cases (m + 1) 1) as [H|H].
    - assert (x = 0)%nat as -> by lia. pose proof (Nat.pow_nonzero 2 len ltac:(lia)). lia.
    - pose proof (Nat.log2_up_spec (m + 1) H) as [_ H2]. fold len in H2. lia. }
  set (out := repeat (rlwe_allocate (c_n cx)) len).
  destruct (A out c true 0) as (L & W & N).
  { unfold out. rewrite repeat_length. lia. }
  { unfold out. apply Forall_forall. intros y Hy. apply repeat_spec in Hy. subst. apply wfc_allocate. }
  { exact Wc. }
  { cbn [b2z]. rewrite Z.mul_1_l. apply Nc. }
  assert (length (eval_enc_node fft (c_n cx) out e c) = len) as L' by (rewrite L; unfold out; apply repeat_length).
  assert (forall i, (i < len)%nat -> near (c_n cx) (phase (c_n cx) s (nth i (eval_enc_node fft (c_n cx) out e c) nilc))
            (pcst (b2z (Nat.testbit x i) * 2 ^ (64 - k))) B) as N'.
  { intros i Hi. specialize (N i ltac:(unfold out; rewrite repeat_length; exact Hi)).
    unfold cost in N. rewrite Z.mul_0_r, Z.add_0_l in N. fold B in N. eapply near_eq_r; [|exact N].
    unfold out. rewrite nth_repeat_lt0 by exact Hi. cbn [andb].
    intros j Hj. unfold padd. pose proof (phase_allocate (c_n cx) Hn s j Hj) as Q0. unfold eqm in *. rewrite Zplus_mod, Q0, <- Zplus_mod. reflexivity. }
  exists (eval_enc_node fft (c_n cx) out e c). split; [reflexivity|]. split; [exact L'|]. split; [exact W|]. rewrite L'. split; [exact Hx2|]. split.
  - intros i c' Hi. assert (i < len)%nat by (rewrite <- L'; apply nth_error_Some; congruence). rewrite <- (nth_error_nth _ _ nilc Hi). apply N'. assumption.
  - intros HB (y & Hy & Hy0). eapply recompose; try eassumption; rewrite ?L'; try assumption.
    assert (1 <= m)%nat by (pose proof (list_max_in _ _ Hy) as G; fold m in G; lia).
    split; [|lia]. unfold len. destruct (Nat.log2_up (m + 1)) eqn:El; [|lia]. apply Nat.log2_up_null in El. lia.
Qed.
Print Assumptions C36_any_encrypted_tree.

(** A tree EncNode::new cannot make: a node without left child above one without any. *)
Example C36_any_applies :
  let e := EInternal (demo_rgsw 0) None (Some (EInternal (demo_rgsw 1) (Some (ELeaf 5)) (Some (EInternal (demo_rgsw 1) None None)))) in
  exists outs, enc_eval (exact_fft 4) demo_cx e = Ok outs /\ length outs = 3%nat /\ decrypt_and_recompose demo_cx demo_s outs = Ok 5.
Proof.
  intros e. destruct (C36_any_encrypted_tree demo_cx (exact_fft 4) 0 5 11 demo_s 3 3 e
     (EInternal false None (Some (EInternal true (Some (ELeaf 5)) (Some (EInternal true None None))))) 1) as (outs & Ee & L & _ & _ & _ & D).
  - cbn. lia.
  - lia.
  - reflexivity.
  - apply exact_fft_ok; cbn; lia.
  - exact demo_l1.
  - assert (forall b : bool, const_ct 4 demo_s 5 11 3 (b2z b) (demo_rgsw (b2z b))) as G by (intros b; split; [apply demo_rgsw_ok|split; reflexivity]).
    constructor; [exact (G false)|constructor|]. constructor. constructor; [exact (G true)|constructor; constructor|].
    constructor. constructor; [exact (G true)|constructor|constructor].
  - repeat constructor.
  - exists outs. split; [exact Ee|]. split; [exact L|]. apply D; [reflexivity|]. exists 5%nat. split; [left; reflexivity|discriminate].
Qed.

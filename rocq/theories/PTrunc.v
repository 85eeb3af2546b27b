(** * Property C76: truncating a tree changes neither the private predictions nor the size of the answers, and
    never costs noise. *)
From Verif Require Import MBase MUtils MCodec MPoly MRlwe MTree MEncTree.
From Verif Require Import SpecRing SpecLwe SpecTree SpecEnc SpecShape.
From Verif Require Import PfTree PolyRing PfNear PfRlwe2 PfRlwe3 PfEnc PfEnc2 PfEnc4 LRlwe PSched PTree PEnc PTreeShape Demo.
Local Open Scope nat_scope.

Lemma list_sum_map_S l : list_sum (map Datatypes.S l) = length l + list_sum l.
Proof. induction l as [|x l IH]; cbn; [reflexivity|]. unfold list_sum in IH. rewrite IH. lia. Qed.
Lemma trunc_sub t : forall t' th f ix op l r, trunc_node t = Some t' -> sub (Internal th f ix op l r) t' ->
  exists l0 r0, sub (Internal th f ix op l0 r0) t.
Proof.
  induction t as [x | th0 f0 ix0 op0 l0 r0 IHl IHr] using node_ind'; intros t' th f ix op l r H Hs; cbn [trunc_node] in H.
  - destruct (x =? 0); [discriminate|]. injection H as <-. inversion Hs.
  - destruct (match l0 with Some n => trunc_node n | None => None end) as [tl|] eqn:El; destruct (match r0 with Some n => trunc_node n | None => None end) as [tr|] eqn:Er;
      try discriminate; injection H as <-; inversion Hs; subst.
    all: first
           [ exists l0, r0; apply sub_refl
           | destruct l0 as [l0|]; [|discriminate]; match goal with Hx : sub _ ?tl |- _ => destruct (IHl l0 eq_refl tl _ _ _ _ _ _ El Hx) as (a & b & Hab) end; exists a, b; apply sub_left, Hab
           | destruct r0 as [r0|]; [|discriminate]; match goal with Hx : sub _ ?tr |- _ => destruct (IHr r0 eq_refl tr _ _ _ _ _ _ Er Hx) as (a & b & Hab) end; exists a, b; apply sub_right, Hab].
Qed.
Lemma trunc_depths t : forall t', trunc_node t = Some t' ->
  length (leaf_depths t') <= length (leaf_depths t) /\ list_sum (leaf_depths t') <= list_sum (leaf_depths t).
Proof.
  induction t as [x | th0 f0 ix0 op0 l0 r0 IHl IHr] using node_ind'; intros t' H; cbn [trunc_node] in H.
  - destruct (x =? 0); [discriminate|]. injection H as <-. cbn. lia.
  - destruct l0 as [l0|]; [pose proof (IHl l0 eq_refl) as Il; clear IHl; destruct (trunc_node l0) as [tl|]; [specialize (Il tl eq_refl)|]|];
    (destruct r0 as [r0|]; [pose proof (IHr r0 eq_refl) as Ir; clear IHr; destruct (trunc_node r0) as [tr|]; [specialize (Ir tr eq_refl)|]|]);
    try discriminate; injection H as <-; cbn [leaf_depths]; rewrite ?app_nil_r; cbn [app]; rewrite !map_length, !list_sum_map_S, ?app_length, ?list_sum_app; cbn; lia.
Qed.

(** Whatever the tree: if truncation leaves anything, the protocol on the truncated tree predicts what the
    original tree predicts, under the noise condition of the original tree (C39). *)
Theorem C76_truncated_protocol : forall lg k cx fft eps s S E model tr features t,
  params_ok cx lg k -> fft_for cx fft eps -> binary_key (c_n cx) s -> l1 (c_n cx) (tof s) S -> tape_ok (c_n cx) E t ->
  (exists th f ix op l r, model = Internal th f ix op l r) ->
  (forall th f ix op l r, sub (Internal th f ix op l r) model -> th < c_n cx) ->
  Forall (fun x => (Z.of_nat x < 2 ^ 48)%Z) (labels model) ->
  Forall (fun fs => evaluable model fs /\ Forall (fun v => v < c_n cx) fs) features ->
  (2 * (Z.of_nat (list_sum (leaf_depths model)) *
        ep_bound (c_n cx) (c_base cx) (c_level cx) S 1 (decision_noise cx S E eps) eps) < 2 ^ (64 - k))%Z ->
  trunc_tree (Some model) = Some tr ->
  exists preds, simulate fft cx s tr features t = Ok preds /\
    Forall2 (fun fs p => exists x, predicts model fs x /\ p = Z.of_nat x) features preds.
Proof.
  intros lg k cx fft eps s S E model tr features t Hp Hf Hs HS Ht Hi Hth Hl Hfs HB Htr. cbn [trunc_tree] in Htr.
  assert (exists th f ix op l r, tr = Internal th f ix op l r) as Hi'.
  { destruct Hi as (th & f & ix & op & l & r & ->). cbn [trunc_node] in Htr.
    destruct (match l with Some n => trunc_node n | None => None end), (match r with Some n => trunc_node n | None => None end); try discriminate; injection Htr as <-; repeat eexists. }
  destruct (trunc_depths _ _ Htr) as [_ Hd].
  destruct (C33_trunc_no_zero_leaf model tr Htr) as (Hlab & Hz & _).
  destruct (C39_private_evaluation lg k cx fft eps s S E tr features t) as (preds & Ep & HF); auto.
  - intros th f ix op l r H. destruct (trunc_sub _ _ _ _ _ _ _ _ Htr H) as (l0 & r0 & H0). eapply Hth, H0.
  - rewrite Hlab. apply Forall_forall. intros x Hx. apply filter_In in Hx as [Hx _]. rewrite Forall_forall in Hl. apply Hl, Hx.
  - destruct (labels tr) as [|y ls] eqn:El.
    + exfalso. destruct (trunc_none model) as [_ HN]. rewrite HN in Htr; [discriminate|]. intros x Hx. destruct x as [|x]; [reflexivity|]. exfalso.
      assert (In (Datatypes.S x) (filter (fun x => negb (x =? 0)) (labels model))) as Hin by (apply filter_In; split; [exact Hx|reflexivity]). rewrite <- Hlab in Hin. destruct Hin.
    + exists y. split; [left; reflexivity|]. intros ->. apply Hz. left. reflexivity.
  - eapply Forall_impl; [|exact Hfs]. cbn. intros fs [H1 H2]. split; [eapply trunc_evaluable; eassumption|exact H2].
  - pose proof (params_n cx lg k Hp) as Hn. pose proof (l1_nonneg _ _ _ HS) as HS0.
    assert (0 <= ep_bound (c_n cx) (c_base cx) (c_level cx) S 1 (decision_noise cx S E eps) eps)%Z as H0.
    { pose proof (fft_eps_nonneg _ Hn _ _ _ _ Hf) as He.
      assert (0 <= E)%Z as HE. { destruct (Ht 0) as (_ & _ & H). eapply Z.le_trans; [apply nrm_nonneg|]. apply (H 0). lia. }
      pose proof Hp as (Hlg & _ & _ & (? & ? & ?) & (? & ? & ?) & (? & ? & ?) & _).
      assert (0 <= decision_noise cx S E eps)%Z as HD.
      { unfold decision_noise, expand_bound.
        assert (0 <= ks_bound (c_n cx) (c_ks_base cx) (c_ks_level cx) S S E eps)%Z as H8 by (eapply ks_bound_nonneg; first [eassumption|lia]).
        assert (0 <= ep_bound (c_n cx) (c_base cx) (c_negs_level cx) S S E eps)%Z as H9 by (eapply ep_bound_nonneg; first [assumption|lia]). 
        set (ks := ks_bound _ _ _ _ _ _ _) in *. set (ep := ep_bound _ _ _ _ _ _ _) in *. clearbody ks ep. clear - Hn HS0 HE He H8 H9. 
        assert (0 <= Z.of_nat (c_n cx) - 1)%Z by lia. assert (0 <= Z.of_nat (c_n cx) * E + (1 + S) * eps)%Z by nia.
        apply Z.add_nonneg_nonneg; [|assumption]. apply Z.mul_nonneg_nonneg; [lia|]. apply Z.add_nonneg_nonneg; apply Z.mul_nonneg_nonneg; lia. }
      eapply ep_bound_nonneg; first [assumption|lia]. }
    clear - Hd HB H0. nia.
  - exists preds. split; [exact Ep|]. clear - HF Htr Hfs. induction HF as [|fs p features preds Hp HF IH]; constructor; [|apply IH; inversion Hfs; assumption].
    inversion Hfs as [|? ? [He _] Hfs']; subst. destruct Hp as (x & Hx & ->). exists x. split; [|reflexivity].
    destruct (C32_eval_follows_path model fs He) as (y & _ & Hy & _).
    pose proof (trunc_predicts model fs y Hy) as HT. rewrite Htr in HT. rewrite (predicts_fun _ _ _ _ Hx HT). exact Hy.
Qed.
Print Assumptions C76_truncated_protocol.

(** The truncated tree needs no more comparisons, and its answers have as many ciphertexts. *)
Theorem C76_truncated_size : forall model tr, trunc_tree (Some model) = Some tr ->
  count_internal tr <= count_internal model /\ count_leaf tr <= count_leaf model /\ count_depth tr <= count_depth model /\
  list_max (labels tr) = list_max (labels model).
Proof.
  intros model tr Htr. cbn [trunc_tree] in Htr. split; [|split; [|split]].
  - revert tr Htr. induction model as [x | th0 f0 ix0 op0 l0 r0 IHl IHr] using node_ind'; intros tr H; cbn [trunc_node] in H.
    + destruct (x =? 0); [discriminate|]. injection H as <-. cbn. lia.
    + destruct l0 as [l0|]; [pose proof (IHl l0 eq_refl) as Il; clear IHl; destruct (trunc_node l0) as [tl|]; [specialize (Il tl eq_refl)|]|];
      (destruct r0 as [r0|]; [pose proof (IHr r0 eq_refl) as Ir; clear IHr; destruct (trunc_node r0) as [tr'|]; [specialize (Ir tr' eq_refl)|]|]);
      try discriminate; injection H as <-; cbn [count_internal]; lia.
  - revert tr Htr. induction model as [x | th0 f0 ix0 op0 l0 r0 IHl IHr] using node_ind'; intros tr H; cbn [trunc_node] in H.
    + destruct (x =? 0); [discriminate|]. injection H as <-. cbn. lia.
    + destruct l0 as [l0|]; [pose proof (IHl l0 eq_refl) as Il; clear IHl; destruct (trunc_node l0) as [tl|]; [specialize (Il tl eq_refl)|]|];
      (destruct r0 as [r0|]; [pose proof (IHr r0 eq_refl) as Ir; clear IHr; destruct (trunc_node r0) as [tr'|]; [specialize (Ir tr' eq_refl)|]|]);
      try discriminate; injection H as <-; cbn [count_leaf]; lia.
  - revert tr Htr. induction model as [x | th0 f0 ix0 op0 l0 r0 IHl IHr] using node_ind'; intros tr H; cbn [trunc_node] in H.
    + destruct (x =? 0); [discriminate|]. injection H as <-. cbn. lia.
    + destruct l0 as [l0|]; [pose proof (IHl l0 eq_refl) as Il; clear IHl; destruct (trunc_node l0) as [tl|]; [specialize (Il tl eq_refl)|]|];
      (destruct r0 as [r0|]; [pose proof (IHr r0 eq_refl) as Ir; clear IHr; destruct (trunc_node r0) as [tr'|]; [specialize (Ir tr' eq_refl)|]|]);
      try discriminate; injection H as <-; cbn [count_depth];
      repeat match goal with |- context [if ?a <? ?b then _ else _] => destruct (Nat.ltb_spec a b) end; lia.
  - rewrite (proj1 (C33_trunc_no_zero_leaf model tr Htr)). generalize (labels model). induction l as [|x l IH]; [reflexivity|].
    cbn [filter]. destruct x; cbn [Nat.eqb negb]; [|cbn; unfold list_max in IH; rewrite IH; reflexivity]. rewrite IH. reflexivity.
Qed.
Print Assumptions C76_truncated_size.

(** The tree of C39 has a leaf 0 to cut off; the protocol on what remains, for two of its clients. *)
Example C76_applies : exists tr, trunc_tree (Some c39_tree) = Some tr /\ tr <> c39_tree /\ exists preds,
  simulate (exact_fft 4) demo_cx demo_s tr [[1; 2]; [3; 3]] demo_tape = Ok preds /\
  Forall2 (fun fs p => exists x, predicts c39_tree fs x /\ p = Z.of_nat x) [[1; 2]; [3; 3]] preds.
Proof.
  eexists. split; [reflexivity|]. split; [discriminate|].
  apply (C76_truncated_protocol 2 1 demo_cx (exact_fft 4) 0 demo_s 3 3 c39_tree _ [[1; 2]; [3; 3]] demo_tape);
    [apply demo_params|apply demo_fft_for|apply demo_key|apply demo_l1|apply demo_tape_ok|repeat eexists|apply c39_thresholds| | | |reflexivity].
  - repeat constructor.
  - repeat (apply Forall_cons || apply Forall_nil); (split; [apply c39_evaluable|repeat (apply Forall_cons || apply Forall_nil); cbn; lia]).
  - vm_compute. reflexivity.
Qed.

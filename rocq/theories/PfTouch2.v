(** * Counting the accesses of the server's tasks. *)
From Coq Require Import Permutation.
From Verif Require Import MBase MRlwe MHash MSched MOram SpecOram SpecShape SpecView SpecTouch PfHash PfTouch.
Local Open Scope nat_scope.

Definition evc r j := [ELock (LRead r); ELoad r j; ELock LBuf; EUnlock LBuf; EUnlock (LRead r)].
Definition evb := [ELock LBuf; EUnlock LBuf].
Definition evo r j := [ELock (LRead r); ELoad r j; EUnlock (LRead r)].
Definition evl r := [ELock (LRead r); ELen r; EUnlock (LRead r)].
Definition evp r j := [ELock (LWrite r); EStore r j; EUnlock (LWrite r)].

Section Count.
Variables (st : bool) (R J : nat).
Definition ev0 := if st then EStore R J else ELoad R J.
Definition ld := if st then 0 else 1.
Definition sd := if st then 1 else 0.
Definition ind (r j : nat) := if (r =? R) && (j =? J) then 1 else 0.
Ltac cnt_tac := unfold ev0, ld, sd, ind, evc, evo, evp, evb, evl; destruct st; cbn [count_occ];
  repeat match goal with |- context [same_event ?a ?b] => let Ex := fresh "Ex" in destruct (same_event a b) as [Ex|Ex]; [try discriminate Ex|] end;
  try match goal with Ex : _ = _ |- _ => injection Ex as -> -> end; rewrite ?Nat.eqb_refl; try reflexivity;
  repeat match goal with |- context [?a =? ?b] => destruct (Nat.eqb_spec a b) end; try reflexivity; exfalso; congruence.
Lemma cnt_evc r j : cnt ev0 (evc r j) = ld * ind r j. Proof. cnt_tac. Qed.
Lemma cnt_evo r j : cnt ev0 (evo r j) = ld * ind r j. Proof. cnt_tac. Qed.
Lemma cnt_evp r j : cnt ev0 (evp r j) = sd * ind r j. Proof. cnt_tac. Qed.
Lemma cnt_evb : cnt ev0 evb = 0. Proof. cnt_tac. Qed.
Lemma cnt_evl r : cnt ev0 (evl r) = 0. Proof. cnt_tac. Qed.
End Count.

Lemma cnt_zero {A} e (f : A -> list event) l : (forall x, In x l -> cnt e (f x) = 0) -> cnt e (flat_map f l) = 0.
Proof. induction l as [|x l IH]; intros H; [reflexivity|]. cbn. rewrite cnt_app, H, IH; [reflexivity| |]; intros; try apply H; cbn; auto. Qed.
Lemma cnt_same {A} e (f : A -> list event) l k : (forall x, In x l -> cnt e (f x) = k) -> cnt e (flat_map f l) = length l * k.
Proof. induction l as [|x l IH]; intros H; [reflexivity|]. cbn. rewrite cnt_app, H, IH; [reflexivity| |]; intros; try apply H; cbn; auto. Qed.
Lemma cnt_one e (f : nat -> list event) j k : forall l, NoDup l -> In j l -> (forall i, In i l -> i <> j -> cnt e (f i) = 0) -> cnt e (f j) = k -> cnt e (flat_map f l) = k.
Proof.
  induction l as [|x l IH]; intros Hn Hj H0 Hk; [destruct Hj|]. inversion Hn; subst. cbn. rewrite cnt_app. destruct (Nat.eq_dec x j) as [->|Hx].
  - rewrite (cnt_zero e f l); [lia|]. intros i Hi. apply H0; [right; exact Hi|]. congruence.
  - rewrite (H0 x); [|left; reflexivity|exact Hx]. destruct Hj as [->|Hj]; [congruence|]. rewrite IH; auto. intros i Hi. apply H0. right. exact Hi.
Qed.
(** One entry per column. *)
Lemma cnt_cols e (f : nat -> list event) j k L : (forall i, i < L -> cnt e (f i) = if i =? j then k else 0) -> cnt e (flat_map f (seq 0 L)) = if j <? L then k else 0.
Proof.
  intros H. destruct (Nat.ltb_spec j L) as [Hj|Hj].
  - apply (cnt_one e f j k); [apply seq_NoDup|apply in_seq; lia| |rewrite H, Nat.eqb_refl by lia; reflexivity].
    intros i Hi Hn. apply in_seq in Hi. rewrite H by lia. destruct (Nat.eqb_spec i j); [contradiction|reflexivity].
  - apply cnt_zero. intros i Hi. apply in_seq in Hi. rewrite H by lia. destruct (Nat.eqb_spec i j); [lia|reflexivity].
Qed.

(** ** Tasks. *)
Definition T {A} : A -> Prop := fun _ => True.
Definition width (dims : nat -> option nat) r := match dims r with Some x => x | None => 0 end.
Section Tasks.
Variable dims : nat -> option nat.
Lemma em_cell r j : emits dims (cell_buf r j) (evc r j) T.
Proof. cbn. do 5 (eexists; split; [reflexivity|]; try intros v). split; [reflexivity|exact I]. Qed.
Lemma em_only r j : emits dims (cell_only r j) (evo r j) T.
Proof. cbn. do 3 (eexists; split; [reflexivity|]; try intros v). split; [reflexivity|exact I]. Qed.
Lemma em_buf : emits dims buf_only evb T.
Proof. cbn. do 2 (eexists; split; [reflexivity|]). split; [reflexivity|exact I]. Qed.
Lemma em_put r j v : emits dims (put r j v) (evp r j) T.
Proof. cbn. do 3 (eexists; split; [reflexivity|]). split; [reflexivity|exact I]. Qed.
Lemma em_len r : emits dims (row_len r) (evl r) (fun x => dims r = Some x).
Proof. cbn. do 2 (eexists; split; [reflexivity|]). intros x Hx. eexists; split; [reflexivity|]. split; [reflexivity|exact Hx]. Qed.
Lemma em_ret {A} (a : A) : emits dims (PRet a) [] T. Proof. cbn. split; [reflexivity|exact I]. Qed.
Lemma em_lift {A} (x : res A) : emits dims (plift x) [] (fun a => x = Ok a). Proof. destruct x; cbn; auto. Qed.
Lemma em_tid {A B} w (f : A -> prog B) x ev Q : emits dims (f x) ev Q -> emits dims (tid w f x) ev Q.
Proof. unfold tid. destruct w; [auto|intros _; exact I]. Qed.

Ltac bind L := eapply emits_bind; [exact L|let a := fresh "a" in let H := fresh "H" in intros a H; cbv beta in *].
Lemma em_level fft cx qy lv : emits dims (level_task fft cx qy lv) (evb ++ []) T.
Proof. bind em_buf. eapply emits_any; [|apply em_lift]. intros; exact I. Qed.
Lemma em_select fft cx neg d r j : emits dims (select_task fft cx neg d r j) (evb ++ [] ++ evc r j ++ []) T.
Proof. unfold select_task. bind em_buf. eapply emits_bind; [apply em_lift|intros l _]. bind (em_cell r j). apply em_ret. Qed.
Lemma em_update fft cx qy r jl : emits dims (update_task fft cx qy r jl) (evc r (fst jl) ++ [] ++ evc r (fst jl) ++ [] ++ evp r (fst jl)) T.
Proof.
  unfold update_task. bind (em_cell r (fst jl)). eapply emits_bind; [apply em_lift|intros l _]. bind (em_cell r (fst jl)). eapply emits_bind; [apply em_lift|intros l' _]. apply em_put.
Qed.
Lemma em_sstep fft cx neg d r acc j : emits dims (select_step fft cx neg d r acc j) (evb ++ [] ++ evc r j ++ []) T.
Proof. unfold select_step. bind em_buf. eapply emits_bind; [apply em_lift|intros l _]. bind (em_cell r j). apply em_ret. Qed.
Lemma em_one_st fft cx neg qy r : emits dims (process_one_st fft cx neg qy r)
  (flat_map (fun _ => evb ++ []) (seq 1 (c_level cx)) ++ evl r ++ [] ++ [] ++ flat_map (fun j => evb ++ [] ++ evc r j ++ []) (seq 0 (width dims r))) T.
Proof.
  unfold process_one_st. eapply emits_bind; [apply (emits_mapM dims _ (fun _ => evb ++ []) (fun _ => T)); intros; apply em_level|intros dr _].
  bind (em_len r). eapply emits_bind; [apply em_lift|intros dl _]. eapply emits_bind; [apply em_lift|intros u _]. unfold width. rewrite H.
  apply emits_foldM. intros. apply em_sstep.
Qed.
Lemma em_update_st fft cx qy r ls : emits dims (update_db_st fft cx qy r ls)
  (evl r ++ flat_map (fun j => [] ++ evc r j ++ [] ++ evc r j ++ [] ++ evp r j) (seq 0 (width dims r)) ++ []) T.
Proof.
  unfold update_db_st. bind (em_len r). unfold width. rewrite H. eapply emits_bind; [|intros u _; apply em_ret].
  apply (emits_mapM dims _ _ (fun _ => T)). intros j _. eapply emits_bind; [apply em_lift|intros l _]. apply (em_update fft cx qy r (j, l)).
Qed.
Lemma em_rw fft cx cols ql : emits dims (rw_task fft cx cols ql) (flat_map (fun j => evc 0 j ++ [] ++ evb ++ [] ++ []) (seq 0 cols)) T.
Proof.
  unfold rw_task. eapply emits_any; [|apply (emits_mapM dims _ _ (fun _ => T))]; [intros; exact I|]. intros j _. bind (em_cell 0 j). eapply emits_bind; [apply em_lift|intros l _].
  bind em_buf. eapply emits_bind; [apply em_lift|intros l' _]. apply em_ret.
Qed.
Lemma em_merge fft sl stm j : emits dims (merge_task fft sl stm j) (evc 0 j ++ [] ++ evp 0 j) T.
Proof. unfold merge_task. bind (em_cell 0 j). eapply emits_bind; [apply em_lift|intros l _]. apply em_put. Qed.
Lemma em_masked fft cx ls fl pos cell : emits dims (masked fft cx ls fl pos cell) (evc (fst cell) (snd cell) ++ [] ++ evb ++ [] ++ []) T.
Proof. unfold masked. bind (em_cell (fst cell) (snd cell)). eapply emits_bind; [apply em_lift|intros l _]. bind em_buf. eapply emits_bind; [apply em_lift|intros l' _]. apply em_ret. Qed.

Definition evm (cell : nat * nat) := evc (fst cell) (snd cell) ++ [] ++ evb ++ [] ++ [].
Definition evcc (ps : list (nat * nat)) : list event :=
  match ps with [] => [] | first :: _ => [] ++ flat_map (fun _ => evm first) ps ++ evo (fst first) (snd first) ++ [] ++ flat_map (fun p => evm p ++ []) (skipn 1 ps) ++ [] end.
Lemma em_correct fft cx ps ls fl : emits dims (correct_consistency fft cx ps ls fl) (evcc ps) T.
Proof.
  unfold correct_consistency. destruct ps as [|first ps']; [exact I|]. unfold evcc. set (ps := first :: ps') in *. eapply emits_bind; [apply em_lift|intros f0 Hf]. injection Hf as <-.
  eapply emits_bind; [apply (emits_mapM dims _ (fun _ => evm first) (fun _ => T)); intros; apply em_masked|intros v1 _].
  bind (em_only (fst first) (snd first)). eapply emits_bind; [apply em_lift|intros u _].
  eapply emits_bind; [|intros t _; apply em_ret]. apply emits_foldM. intros s p _. eapply emits_bind; [apply em_masked|intros t _; apply em_ret].
Qed.
Definition pos_of (nh : nhash) cols i h := match hash_to_tuple nh h i cols with Ok p => p | Panic _ => (0, 0) end.
Lemma em_consistency w fft cx nh ls fl i : emits dims (consistency_task w fft cx nh ls fl i)
  (let ps := map (pos_of nh (width dims 0) i) (seq 0 (nh_h_count nh)) in
   flat_map (fun _ => evl 0 ++ []) (seq 0 (nh_h_count nh)) ++ evcc ps ++ flat_map (fun rc => evp (fst rc) (snd rc)) ps ++ []) T.
Proof.
  cbv zeta. set (ps := map (pos_of nh (width dims 0) i) (seq 0 (nh_h_count nh))). unfold consistency_task.
  eapply emits_bind with (Q1 := fun x => x = ps).
  - eapply emits_any; [|apply (emits_mapM dims _ _ (fun h p => p = pos_of nh (width dims 0) i h))].
    + intros a Ha. unfold ps. clear -Ha. induction Ha as [|h p l l' H1 H2 IH]; [reflexivity|]. cbn. congruence.
    + intros h _. bind (em_len 0). eapply emits_any; [|apply em_lift]. intros p Hp. unfold pos_of, width. rewrite H. cbn beta in Hp. rewrite Hp. reflexivity.
  - intros ? ->. eapply emits_bind; [destruct w; [apply em_correct|exact I]|intros nd _]. eapply emits_bind; [|intros u _; apply em_ret].
    apply (emits_mapM dims _ _ (fun _ => T)). intros. apply em_put.
Qed.

(** ** Loops. *)
Lemma sc_spar_map {A B} (f : A -> prog B) (evf : A -> list event) (Q : A -> B -> Prop) e l : (forall x, In x l -> emits dims (f x) (evf x) (Q x)) ->
  scosts dims (spar (map f l)) e (cnt e (flat_map evf l)) (fun rs => Forall2 Q l rs).
Proof.
  intros H. cbn [spar scosts]. exists (fun i => match nth_error l i with Some x => evf x | None => [] end), (fun i b => match nth_error l i with Some x => Q x b | None => True end), 0.
  split; [|split].
  - rewrite map_length, Nat.add_0_r. f_equal. clear. assert (forall pre, flat_map evf l = flat_map (fun i => match nth_error (pre ++ l) i with Some x => evf x | None => [] end) (seq (length pre) (length l))) as G.
    { induction l as [|x l IH]; intros pre; [reflexivity|]. cbn [length seq flat_map]. rewrite nth_error_app2, Nat.sub_diag by lia. cbn [nth_error]. f_equal.
      replace (pre ++ x :: l) with ((pre ++ [x]) ++ l) by (rewrite <- app_assoc; reflexivity). rewrite (IH (pre ++ [x])). rewrite app_length, Nat.add_1_r. reflexivity. }
    apply (G []).
  - intros i p Hp. rewrite nth_error_map in Hp. destruct (nth_error l i) as [x|] eqn:E; [|discriminate]. injection Hp as <-. apply H. eapply nth_error_In; exact E.
  - intros rs Hl Hr. cbn. split; [reflexivity|]. rewrite map_length in Hl. clear -Hl Hr. revert rs Hl Hr. induction l as [|x l IH]; intros [|y rs] Hl Hr; try discriminate; constructor.
    + apply (Hr 0 y). reflexivity.
    + apply IH; [cbn in Hl; lia|]. intros i b Hb. apply (Hr (S i) b Hb).
Qed.
Lemma sc_sone {B} (p : prog B) e ev Q : emits dims p ev Q -> scosts dims (sone p) e (cnt e ev) Q.
Proof.
  intros H. cbn. exists (fun _ => ev), (fun _ => Q), 0. split; [cbn; rewrite app_nil_r, Nat.add_0_r; reflexivity|]. split.
  - intros [|[|i]] p' Hp; cbn in Hp; try discriminate. injection Hp as <-. exact H.
  - intros [|x [|y rs]] Hl Hr; try discriminate. cbn. split; [reflexivity|]. apply (Hr 0 x). reflexivity.
Qed.
Lemma sc_slift {A} (x : res A) e : scosts dims (slift x) e 0 (fun a => x = Ok a).
Proof. destruct x; cbn; auto. Qed.
End Tasks.

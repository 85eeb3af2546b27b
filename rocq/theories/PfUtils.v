(** * Proofs about src/utils.rs (eval_x_k is in PfPoly) *)
From Verif Require Import MBase MUtils PfCodec.

(** ** log2 *)
Lemma ulog2_floor md x : 0 < x < q ->
  exists k, ulog2 md x = Ok k /\ 0 <= k < 64 /\ 2 ^ k <= x < 2 ^ (k + 1).
Proof.
  intros H. exists (Z.log2 x). split; [apply ulog2_pos; exact H|].
  pose proof (Z.log2_nonneg x). pose proof (Z.log2_spec x (proj1 H)) as [Ha Hb].
  split; [split; [lia|] | split; [lia | rewrite Z.add_1_r; lia]].
  apply Z.log2_lt_pow2; [lia | exact (proj2 H)].
Qed.

Lemma ulog2_zero : ulog2 Checked 0 = Panic POverflow /\ ulog2 Wrapping 0 = Ok (2 ^ 64 - 1).
Proof. split; reflexivity. Qed.

(** ** transpose *)
Lemma next_all_spec {T} (iters : list (list T)) :
  (forall r, In r iters -> (0 < length r)%nat) ->
  exists hs, next_all iters = Ok (hs, map (@tl T) iters) /\
    length hs = length iters /\
    forall i r, nth_error iters i = Some r -> nth_error hs i = nth_error r 0.
Proof.
  induction iters as [|r its IH]; intros H.
  - exists []. repeat split. intros [|i] r Hr; discriminate.
  - destruct r as [|x r]; [specialize (H [] (or_introl eq_refl)); cbn in H; lia|].
    destruct IH as (hs & E & Hl & Hn); [intros r' Hr'; apply H; right; exact Hr'|].
    exists (x :: hs). cbn. rewrite E. cbn. split; [reflexivity|]. split; [lia|].
    intros [|i] r' Hr'; cbn in *; [injection Hr' as <-; reflexivity | apply Hn; exact Hr'].
Qed.

Lemma next_all_panic {T} (iters : list (list T)) :
  (exists r, In r iters /\ r = []) -> next_all iters = Panic PUnwrap.
Proof.
  induction iters as [|r its IH]; intros (r' & Hin & ->); [destruct Hin|].
  destruct r as [|x r]; [reflexivity|]. cbn.
  rewrite IH; [reflexivity|]. exists []. split; [|reflexivity].
  destruct Hin as [Hin|Hin]; [discriminate | exact Hin].
Qed.

Lemma nth_error_tl {T} (r : list T) k : nth_error (tl r) k = nth_error r (S k).
Proof. destruct r; [destruct k|]; reflexivity. Qed.

Lemma take_columns_spec {T} len (iters : list (list T)) :
  (forall r, In r iters -> (len <= length r)%nat) ->
  exists cols, take_columns len iters = Ok cols /\ length cols = len /\
    (forall c, In c cols -> length c = length iters) /\
    forall j c i r, nth_error cols j = Some c -> nth_error iters i = Some r ->
      nth_error c i = nth_error r j.
Proof.
  revert iters. induction len as [|len IH]; intros iters H.
  - exists []. cbn. repeat split; [intros c [] | intros [|j] c i r Hc; discriminate].
  - destruct (next_all_spec iters) as (hs & E & Hl & Hn).
    { intros r Hr. specialize (H r Hr). lia. }
    destruct (IH (map (@tl T) iters)) as (cols & E2 & L2 & R2 & N2).
    { intros r Hr. apply in_map_iff in Hr as (r' & <- & Hr'). specialize (H r' Hr').
      destruct r'; cbn in *; lia. }
    exists (hs :: cols). cbn. rewrite E. cbn. rewrite E2. cbn.
    split; [reflexivity|]. split; [lia|]. split.
    + intros c [<-|Hc]; [exact Hl|]. rewrite R2 by exact Hc. apply map_length.
    + intros [|j] c i r Hc Hr; cbn in Hc.
      * injection Hc as <-. apply Hn; exact Hr.
      * rewrite (N2 j c i (tl r) Hc).
        -- apply nth_error_tl.
        -- rewrite nth_error_map, Hr. reflexivity.
Qed.

Lemma take_columns_short {T} len (iters : list (list T)) :
  (exists r, In r iters /\ (length r < len)%nat) -> take_columns len iters = Panic PUnwrap.
Proof.
  revert iters. induction len as [|len IH]; intros iters (r & Hin & Hr); [lia|].
  cbn. destruct (Exists_dec (fun r : list T => r = []) iters) as [He|He].
  { intros [|a l]; [left; reflexivity | right; discriminate]. }
  - apply Exists_exists in He. rewrite next_all_panic by exact He. reflexivity.
  - destruct (next_all_spec iters) as (hs & E & _).
    { intros r' Hr'. destruct r'; [|cbn; lia]. exfalso. apply He, Exists_exists. eauto. }
    rewrite E. cbn. rewrite IH; [reflexivity|]. exists (tl r). split; [apply in_map; exact Hin|].
    destruct r; cbn in *; [|lia]. exfalso. apply He, Exists_exists. eauto.
Qed.

Lemma transpose_spec {T} (v : list (list T)) (rows cols : nat) :
  length v = rows -> (0 < rows)%nat -> (forall r, In r v -> length r = cols) ->
  exists w, transpose v = Ok w /\ length w = cols /\ (forall c, In c w -> length c = rows) /\
    forall i j, (i < rows)%nat -> (j < cols)%nat ->
      exists r c, nth_error v i = Some r /\ nth_error w j = Some c /\ nth_error c i = nth_error r j.
Proof.
  intros Hv Hr Hc. destruct v as [|r0 v]; [cbn in Hv; lia|].
  destruct (take_columns_spec cols (r0 :: v)) as (w & E & Lw & Rw & Nw).
  { intros r Hin. rewrite (Hc r Hin). lia. }
  exists w. cbn [transpose]. rewrite (Hc r0 (or_introl eq_refl)). split; [exact E|].
  split; [exact Lw|]. split; [intros c Hin; rewrite Rw by exact Hin; exact Hv|].
  intros i j Hi Hj.
  destruct (nth_error (r0 :: v) i) as [r|] eqn:Er; [|apply nth_error_None in Er; lia].
  destruct (nth_error w j) as [c|] eqn:Ec; [|apply nth_error_None in Ec; lia].
  exists r, c. split; [reflexivity|]. split; [reflexivity|]. eapply Nw; eauto.
Qed.

Lemma nth_error_ext_list {T} (a b : list T) :
  length a = length b -> (forall i, (i < length a)%nat -> nth_error a i = nth_error b i) -> a = b.
Proof.
  revert b. induction a as [|x a IH]; intros [|y b] Hl H; cbn in Hl; try discriminate; [reflexivity|].
  pose proof (H O ltac:(cbn; lia)) as H0. cbn in H0. injection H0 as ->. f_equal.
  apply IH; [lia|]. intros i Hi. apply (H (S i)). cbn. lia.
Qed.

Lemma transpose_involutive {T} (v w : list (list T)) (rows cols : nat) :
  length v = rows -> (0 < rows)%nat -> (0 < cols)%nat -> (forall r, In r v -> length r = cols) ->
  transpose v = Ok w -> transpose w = Ok v.
Proof.
  intros Hv Hr Hc Hrow E.
  destruct (transpose_spec v rows cols Hv Hr Hrow) as (w' & E' & Lw & Rw & Nw).
  rewrite E in E'. injection E' as <-.
  destruct (transpose_spec w cols rows Lw Hc Rw) as (v' & E2 & Lv & Rv & Nv).
  rewrite E2. f_equal. apply nth_error_ext_list; [lia|]. intros i Hi. rewrite Lv in Hi.
  destruct (nth_error v i) as [r|] eqn:Er; [|apply nth_error_None in Er; lia].
  destruct (nth_error v' i) as [r'|] eqn:Er'; [|apply nth_error_None in Er'; lia].
  f_equal. apply nth_error_ext_list.
  { rewrite (Rv r') by (eapply nth_error_In; eauto). symmetry. apply Hrow. eapply nth_error_In; eauto. }
  intros j Hj. rewrite (Rv r') in Hj by (eapply nth_error_In; eauto).
  destruct (Nw i j Hi Hj) as (r1 & c1 & A1 & A2 & A3). rewrite Er in A1. injection A1 as <-.
  destruct (Nv j i Hj Hi) as (r2 & c2 & B1 & B2 & B3).
  rewrite B1 in A2. injection A2 as ->. rewrite Er' in B2. injection B2 as ->.
  congruence.
Qed.

Lemma transpose_panics {T} :
  @transpose T [] = Panic PAssert /\
  forall r0 v, (exists r, In r v /\ (length r < length r0)%nat) -> @transpose T (r0 :: v) = Panic PUnwrap.
Proof.
  split; [reflexivity|]. intros r0 v (r & Hin & Hr). cbn [transpose].
  apply take_columns_short. exists r. split; [right; exact Hin | exact Hr].
Qed.

(** Longer rows: surplus entries are dropped. *)
Lemma transpose_longer {T} (r0 : list T) v :
  (forall r, In r v -> (length r0 <= length r)%nat) ->
  exists w, transpose (r0 :: v) = Ok w /\ length w = length r0 /\
    (forall c, In c w -> length c = S (length v)) /\
    forall i j r c, nth_error (r0 :: v) i = Some r -> nth_error w j = Some c -> nth_error c i = nth_error r j.
Proof.
  intros H. cbn [transpose]. destruct (take_columns_spec (length r0) (r0 :: v)) as (w & E & Lw & Rw & Nw).
  { intros r [<-|Hr]; [lia | apply H; exact Hr]. }
  exists w. split; [exact E|]. split; [exact Lw|]. split; [exact Rw|].
  intros i j r c Hr Hc. eapply Nw; eauto.
Qed.

(** ** pt_to_lossy_u64 *)

(** The word whose [i]-th bit is the [i]-th entry. *)
Fixpoint bits_value (l : list Z) : Z :=
  match l with [] => 0 | x :: l' => x + 2 * bits_value l' end.

Lemma bits_value_bound l : Forall (fun x => x = 0 \/ x = 1) l ->
  0 <= bits_value l < 2 ^ Z.of_nat (length l).
Proof.
  induction 1 as [|x l Hx Hl IH]; cbn [bits_value length]; [lia|].
  rewrite Nat2Z.inj_succ, Z.pow_succ_r by lia. lia.
Qed.

Lemma bits_value_testbit l i : Forall (fun x => x = 0 \/ x = 1) l ->
  Z.testbit (bits_value l) (Z.of_nat i) = (nth i l 0 =? 1).
Proof.
  intros H. revert i. induction H as [|x l Hx Hl IH]; intros i.
  - cbn [bits_value]. rewrite Z.bits_0. destruct i; reflexivity.
  - cbn [bits_value]. destruct i as [|i].
    + cbn [nth Z.of_nat]. destruct Hx as [-> | ->].
      * rewrite Z.add_0_l. apply Z.testbit_even_0.
      * rewrite Z.add_comm. apply Z.testbit_odd_0.
    + cbn [nth]. rewrite Nat2Z.inj_succ. destruct Hx as [-> | ->].
      * rewrite Z.add_0_l. rewrite Z.testbit_even_succ by lia. apply IH.
      * rewrite Z.add_comm. rewrite Z.testbit_odd_succ by lia. apply IH.
Qed.

Lemma lossy_loop_ok md l : forall i out, Forall (fun x => x = 0 \/ x = 1) l ->
  (i + length l <= 64)%nat -> 0 <= out < 2 ^ Z.of_nat i ->
  lossy_loop md (Z.of_nat i) l out = Ok (out + 2 ^ Z.of_nat i * bits_value l).
Proof.
  induction l as [|x l IH]; intros i out H Hi Ho.
  - cbn. f_equal. lia.
  - inversion H as [|? ? Hx Hl]; subst. cbn [length] in Hi. cbn [lossy_loop].
    assert (Hb : (x =? 0) || (x =? 1) = true) by (destruct Hx as [-> | ->]; reflexivity).
    rewrite Hb. cbn [rassert bind].
    pose proof (pow2_lt_q (Z.of_nat i)) as Hp.
    assert (Hp2 : 2 ^ (Z.of_nat i + 1) <= q).
    { change q with (2 ^ 64). apply Z.pow_le_mono_r; lia. }
    rewrite Z.pow_add_r in Hp2 by lia. change (2 ^ 1) with 2 in Hp2.
    rewrite ushl_ok by lia. cbn [bind]. rewrite Z.mul_1_l, wrap_id by (unfold is_word; lia).
    rewrite umul_ok by (destruct Hx as [-> | ->]; lia). cbn [bind].
    rewrite uadd_ok by (destruct Hx as [-> | ->]; lia). cbn [bind].
    replace (Z.of_nat i + 1) with (Z.of_nat (S i)) by lia.
    rewrite IH; [| assumption | lia |].
    + f_equal. cbn [bits_value]. rewrite Nat2Z.inj_succ, Z.pow_succ_r by lia. ring.
    + rewrite Nat2Z.inj_succ, Z.pow_succ_r by lia. destruct Hx as [-> | ->]; lia.
Qed.

Lemma lossy_loop_bad md l : forall i out, ~ Forall (fun x => x = 0 \/ x = 1) l ->
  (i + length l <= 64)%nat -> 0 <= out < 2 ^ Z.of_nat i ->
  lossy_loop md (Z.of_nat i) l out = Panic PAssert.
Proof.
  induction l as [|x l IH]; intros i out H Hi Ho; [contradict H; constructor|].
  cbn [length] in Hi. cbn [lossy_loop].
  destruct ((x =? 0) || (x =? 1)) eqn:Hb; [|reflexivity].
  assert (Hx : x = 0 \/ x = 1).
  { apply orb_prop in Hb as [Hb|Hb]; apply Z.eqb_eq in Hb; auto. }
  cbn [rassert bind].
  pose proof (pow2_lt_q (Z.of_nat i)) as Hp.
  assert (Hp2 : 2 ^ (Z.of_nat i + 1) <= q).
  { change q with (2 ^ 64). apply Z.pow_le_mono_r; lia. }
  rewrite Z.pow_add_r in Hp2 by lia. change (2 ^ 1) with 2 in Hp2.
  rewrite ushl_ok by lia. cbn [bind]. rewrite Z.mul_1_l, wrap_id by (unfold is_word; lia).
  rewrite umul_ok by (destruct Hx as [-> | ->]; lia). cbn [bind].
  rewrite uadd_ok by (destruct Hx as [-> | ->]; lia). cbn [bind].
  replace (Z.of_nat i + 1) with (Z.of_nat (S i)) by lia.
  apply IH; [| lia |].
  - intros Hf. apply H. constructor; assumption.
  - rewrite Nat2Z.inj_succ, Z.pow_succ_r by lia. destruct Hx as [-> | ->]; lia.
Qed.

Lemma nth_firstn {T} (l : list T) n i d : (i < n)%nat -> nth i (firstn n l) d = nth i l d.
Proof.
  revert n i. induction l as [|x l IH]; intros [|n] [|i] H; cbn; try lia; try reflexivity.
  apply IH. lia.
Qed.

Lemma lossy_ok md pt : (forall i, (i < 64)%nat -> nth i pt 0 = 0 \/ nth i pt 0 = 1) ->
  exists w, pt_to_lossy_u64 md pt = Ok w /\ 0 <= w < 2 ^ 64 /\
    forall i, (i < 64)%nat -> Z.testbit w (Z.of_nat i) = (nth i pt 0 =? 1).
Proof.
  intros H. assert (Hf : Forall (fun x => x = 0 \/ x = 1) (firstn 64 pt)).
  { apply Forall_nth. intros i d Hi. rewrite firstn_length in Hi.
    rewrite (nth_indep _ d 0) by (rewrite firstn_length; lia).
    rewrite nth_firstn by lia. apply H. lia. }
  exists (bits_value (firstn 64 pt)). unfold pt_to_lossy_u64.
  change 0 with (Z.of_nat 0) at 1. rewrite lossy_loop_ok; [| assumption | rewrite firstn_length; lia | cbn; lia].
  split; [f_equal; cbn [Z.of_nat Z.pow]; lia|]. split.
  - pose proof (bits_value_bound _ Hf) as Hb. split; [lia|].
    eapply Z.lt_le_trans; [exact (proj2 Hb)|]. apply Z.pow_le_mono_r; [lia|]. rewrite firstn_length. lia.
  - intros i Hi. rewrite bits_value_testbit by assumption. rewrite nth_firstn by lia. reflexivity.
Qed.

Lemma lossy_bad md pt i : (i < 64)%nat -> (i < length pt)%nat -> nth i pt 0 <> 0 -> nth i pt 0 <> 1 ->
  pt_to_lossy_u64 md pt = Panic PAssert.
Proof.
  intros Hi Hl H0 H1. unfold pt_to_lossy_u64. change 0 with (Z.of_nat 0) at 1.
  apply lossy_loop_bad; [| rewrite firstn_length; lia | cbn; lia].
  intros Hf. rewrite Forall_nth in Hf. specialize (Hf i 0).
  rewrite firstn_length, nth_firstn in Hf by lia. destruct Hf as [E|E]; [lia | |]; contradiction.
Qed.

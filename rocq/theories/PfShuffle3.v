(** * The shuffle ends: how many streams are too short. *)
From Coq Require Import Permutation.
From Verif Require Import MBase MHash MShuffle SpecOram PfHash SpecShuffle PfShuffle PfShuffle2.
Local Open Scope nat_scope.

(** Streams over any list of words. *)
Fixpoint over (W : list Z) (m : nat) : list (list Z) := match m with O => [[]] | S m' => flat_map (fun v => map (cons v) (over W m')) W end.
Definition short (bs : list nat) (ws : list Z) : bool := match draws bs ws with None => true | Some _ => false end.
Definition taken (b : nat) (v : Z) : bool := if accept 32 (Z.of_nat b) v then true else false.
Lemma short_cons b bs v ws : bound_ok b -> short (b :: bs) (v :: ws) = if taken b v then short bs ws else short (b :: bs) ws.
Proof.
  intros [_ Hb]. unfold short, taken. cbn [draws]. unfold gen_index. destruct (Z.leb_spec (Z.of_nat b) (2 ^ 32 - 1)) as [_|H]; [|lia]. cbn [sample32].
  destruct (accept 32 (Z.of_nat b) v) as [j|]; [|reflexivity]. destruct (draws bs ws) as [[ks ws']|]; reflexivity.
Qed.
Lemma sum_two (p : Z -> bool) (A B : nat) l : list_sum (map (fun v => if p v then A else B) l) = count p l * A + (length l - count p l) * B.
Proof.
  induction l as [|a l IH]; [reflexivity|]. rewrite count_cons. cbn [map length]. change (list_sum (?x :: ?y)) with (x + list_sum y). rewrite IH.
  assert (count p l <= length l) as H. { unfold count. clear. induction l as [|x l IH]; cbn; [lia|]. destruct (p x); cbn; lia. }
  destruct (p a); cbn [Nat.add].
  - replace (S (length l) - S (count p l)) with (length l - count p l) by lia. lia.
  - replace (S (length l) - count p l) with (S (length l - count p l)) by lia. lia.
Qed.
Lemma flat_const {A B} (f : A -> list B) c l : (forall x, length (f x) = c) -> length (flat_map f l) = length l * c.
Proof. intros H. induction l as [|x l IH]; [reflexivity|]. cbn [flat_map length]. rewrite app_length, IH, H. lia. Qed.
Lemma over_len W m : length (over W m) = length W ^ m.
Proof. induction m as [|m IH]; [reflexivity|]. cbn [over Nat.pow]. apply flat_const. intros v. rewrite map_length. exact IH. Qed.
Lemma short_count W m : forall bs, Forall bound_ok bs -> Forall (fun b => length W <= 2 * count (taken b) W) bs ->
  count (short bs) (over W m) * 4 ^ m <= 2 ^ length bs * (3 ^ m * length W ^ m).
Proof.
  induction m as [|m IH]; intros bs Hb HW.
  - cbn [over Nat.pow]. unfold count. cbn [filter]. pose proof (Nat.pow_nonzero 2 (length bs) ltac:(discriminate)). destruct (short bs []); cbn [length]; lia.
  - destruct bs as [|b bs]; [rewrite count_none by reflexivity; lia|]. inversion Hb as [|? ? Hb1 Hb2]; subst. inversion HW as [|? ? HW1 HW2]; subst.
    pose proof (IH bs Hb2 HW2) as I1. pose proof (IH (b :: bs) Hb HW) as I2. cbn [over]. rewrite count_flat_map.
    rewrite (map_ext _ (fun v => if taken b v then count (short bs) (over W m) else count (short (b :: bs)) (over W m))).
    + rewrite sum_two. cbn [length Nat.pow] in *. assert (count (taken b) W <= length W) as H. { unfold count. clear. induction W as [|x l IH]; cbn; [lia|]. destruct (taken b x); cbn; lia. }
      revert HW1 H I1 I2. generalize (count (short bs) (over W m)) (count (short (b :: bs)) (over W m)) (count (taken b) W) (length W) (length W ^ m) (2 ^ length bs) (3 ^ m) (4 ^ m).
      clear. intros A B a w X P T F HW H I1 I2. replace (w - a) with (w - a) by lia. remember (w - a) as r. assert (w = a + r) by lia. subst w. clear Heqr H.
      replace ((a * A + r * B) * (4 * F)) with (4 * (a * (A * F)) + 4 * (r * (B * F))) by ring. 
      replace (2 * P * (3 * T * ((a + r) * X))) with (6 * (a + r) * (P * (T * X))) by ring. replace (2 * P * (T * X)) with (2 * (P * (T * X))) in I2 by ring.
      assert (a * (A * F) <= a * (P * (T * X))) by (apply Nat.mul_le_mono_l, I1). assert (r * (B * F) <= r * (2 * (P * (T * X)))) by (apply Nat.mul_le_mono_l, I2).
      assert (r * (P * (T * X)) <= a * (P * (T * X))) by (apply Nat.mul_le_mono_r; lia). lia.
    + intros v. rewrite count_map. destruct (taken b v) eqn:E; apply count_ext; intros ws _; rewrite (short_cons b bs v ws Hb1), E; reflexivity.
Qed.
Lemma streams_over m : streams m = over words m.
Proof. induction m as [|m IH]; [reflexivity|]. cbn [streams over]. rewrite IH. reflexivity. Qed.
Lemma taken_half b : bound_ok b -> length words <= 2 * count (taken b) words.
Proof.
  intros [H1 H2]. rewrite words_eq. pose proof (accepted_total 32 (Z.of_nat b) ltac:(lia) ltac:(lia)) as T. destruct (lz_bounds 32 (Z.of_nat b) ltac:(lia)) as (_ & L & _).
  change (count (taken b) (range_words 32)) with (count (fun v => if accept 32 (Z.of_nat b) v then true else false) (range_words 32)).
  apply Nat2Z.inj_le. rewrite Nat2Z.inj_mul, T. unfold range_words. rewrite map_length, seq_length, Z2Nat.id by (apply Z.pow_nonneg; lia).
  change (2 ^ (32 - 1))%Z with (2 ^ 31)%Z in L. change (2 ^ 32)%Z with (2 * 2 ^ 31)%Z. change (Z.of_nat 2) with 2%Z. lia.
Qed.
Lemma bounds_length' i : length (bounds i) = i.
Proof. induction i as [|i IH]; [reflexivity|]. cbn [bounds length]. rewrite IH. reflexivity. Qed.
Lemma unfinished hc dom m : 0 < hc -> (Z.of_nat (hc * dom) < 2 ^ 32)%Z ->
  count (fun ws => match nh_draw hc dom ws with Ok (Some _) => false | _ => true end) (streams m) * 4 ^ m <= 2 ^ (hc * dom - 1) * (3 ^ m * length (streams m)).
Proof.
  intros H0 Hn. assert (Forall bound_ok (bounds (hc * dom - 1))) as B by (apply bounds_ok; destruct (hc * dom); lia).
  rewrite (count_ext _ (short (bounds (hc * dom - 1)))).
  - rewrite streams_over, over_len. pose proof (short_count words m (bounds (hc * dom - 1)) B) as S. rewrite bounds_length' in S. apply S.
    apply Forall_forall. intros b Hb. apply taken_half. rewrite Forall_forall in B. apply B, Hb.
  - intros ws Hws. apply streams_ok in Hws. destruct Hws as [_ W]. unfold short. destruct (draws (bounds (hc * dom - 1)) ws) as [[ks ws']|] eqn:D.
    + assert (exists p, swaps (hc * dom - 1) (seq 0 (hc * dom)) ks = Ok p) as [p E].
      * destruct (Nat.eq_dec (hc * dom) 0) as [Z|Z]; [rewrite Z; eexists; reflexivity|].
        destruct (swaps_spec (hc * dom - 1) (seq 0 (hc * dom)) ks) as (p & E & _).
        -- rewrite seq_length. lia.
        -- apply (draws_lt (hc * dom - 1) ltac:(lia) ws ks ws' W D).
        -- exists p. exact E.
      * assert (nh_draw hc dom ws = Ok (Some ({| nh_tables := p; nh_h_count := hc; nh_input_domain := dom |}, ws'))) as ->; [|reflexivity].
        apply nh_draw_iff. cbn. repeat split; [exact H0|]. exists ks. split; assumption.
    + destruct (nh_draw hc dom ws) as [[[nh ws']|]|] eqn:E; try reflexivity. apply nh_draw_iff in E. destruct E as (_ & _ & _ & ks & D' & _). congruence.
Qed.

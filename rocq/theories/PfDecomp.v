(** * Facts about the signed decomposition of MPoly.v *)
From Coq Require Import Setoid Morphisms Ring.
From Verif Require Import MBase MPoly PolyRing PfPoly MRlwe SpecLwe.
Local Open Scope Z_scope.

Lemma top_bit B v : 1 <= B -> 0 <= v < 2 ^ B -> v / 2 ^ (B - 1) = Z.b2z (Z.testbit v (B - 1)).
Proof.
  intros HB Hv. rewrite Z.testbit_spec' by lia. symmetry. apply Z.mod_small.
  assert (0 < 2 ^ (B - 1)) by (apply Z.pow_pos_nonneg; lia).
  assert (2 ^ B = 2 ^ (B - 1) * 2) by (replace B with (B - 1 + 1) at 1 by lia; rewrite Z.pow_add_r by lia; reflexivity).
  split; [apply Z.div_pos; lia|]. apply Z.div_lt_upper_bound; lia.
Qed.
Lemma top_bit_ge B v : 1 <= B -> 0 <= v < 2 ^ B -> Z.testbit v (B - 1) = (2 ^ (B - 1) <=? v).
Proof.
  intros HB Hv. pose proof (top_bit B v HB Hv) as T.
  assert (0 < 2 ^ (B - 1)) by (apply Z.pow_pos_nonneg; lia).
  pose proof (Z.div_mod v (2 ^ (B - 1)) ltac:(lia)). pose proof (Z.mod_pos_bound v (2 ^ (B - 1)) ltac:(lia)).
  destruct (Z.testbit v (B - 1)); cbn [Z.b2z] in T; rewrite T in *;
    [symmetry; apply Z.leb_le | symmetry; apply Z.leb_gt]; lia.
Qed.

Lemma land_le_r w r : 0 <= r -> Z.land w r <= r.
Proof.
  intros R0.
  assert (Z.ldiff (Z.land w r) r = 0) as D0.
  { apply Z.bits_inj'. intros j Hj. rewrite Z.ldiff_spec, Z.land_spec, Z.bits_0.
    destruct (Z.testbit r j); cbn; [apply andb_false_r|rewrite andb_false_r; reflexivity]. }
  pose proof (Z.ldiff_le _ _ R0 D0). lia.
Qed.

(** One digit: exact reconstruction and size. *)
Lemma decompose_one_spec (b : nat) st d st' : (1 <= b < 64)%nat -> 0 <= st < q ->
  decompose_one_level b st = (d, st') ->
  is_word d /\ - 2 ^ (Z.of_nat b - 1) <= to_signed d <= 2 ^ (Z.of_nat b - 1) /\
  st = to_signed d + 2 ^ Z.of_nat b * st' /\ 0 <= st' < q.
Proof.
  intros Hb Hst E. unfold decompose_one_level in E. set (B := Z.of_nat b) in *.
  assert (1 <= B < 64) as HB by (unfold B; lia). clearbody B. clear Hb.
  assert (H2 : 2 ^ B = 2 * 2 ^ (B - 1)).
  { replace B with (1 + (B - 1)) at 1 by lia. rewrite Z.pow_add_r by lia. reflexivity. }
  assert (0 < 2 ^ (B - 1)) as P1 by (apply Z.pow_pos_nonneg; lia).
  assert (2 ^ B <= 2 ^ 63) as P2 by (apply Z.pow_le_mono_r; lia).
  assert (E63 : q = 2 * 2 ^ 63) by reflexivity.
  assert (Z.land st (2 ^ B - 1) = st mod 2 ^ B) as Er.
  { replace (2 ^ B - 1) with (Z.ones B) by (rewrite Z.ones_equiv; lia). apply Z.land_ones. lia. }
  rewrite Er in E. set (r := st mod 2 ^ B) in *.
  assert (0 <= r < 2 ^ B) as Hr by (apply Z.mod_pos_bound; lia).
  set (s1 := st / 2 ^ B) in *.
  assert (st = 2 ^ B * s1 + r) as Est by (apply Z.div_mod; lia).
  assert (0 <= s1 < 2 ^ 63) as Hs1.
  { split; [apply Z.div_pos; lia|]. apply Z.div_lt_upper_bound; [lia|]. nia. }
  set (v := Z.land (Z.lor (wsub r 1) s1) r) in *.
  assert (0 <= v < 2 ^ B) as Hv.
  { unfold v. split; [apply Z.land_nonneg; right; lia|].
    assert (Z.land (Z.lor (wsub r 1) s1) r <= r); [|lia].
    apply land_le_r. lia. }
  assert (v / 2 ^ (B - 1) = 0 \/ v / 2 ^ (B - 1) = 1) as Hc.
  { rewrite (top_bit B v) by lia. destruct (Z.testbit _ _); cbn; lia. }
  assert (v / 2 ^ (B - 1) = 1 -> 2 ^ (B - 1) <= r) as Hc1.
  { rewrite (top_bit B v) by lia. unfold v. rewrite Z.land_spec, (top_bit_ge B r) by lia.
    destruct (Z.leb_spec (2 ^ (B - 1)) r); [intros _; assumption|]. rewrite andb_false_r. discriminate. }
  assert (v / 2 ^ (B - 1) = 0 -> r <= 2 ^ (B - 1)) as Hc0.
  { rewrite (top_bit B v) by lia. unfold v. rewrite Z.land_spec, Z.lor_spec, (top_bit_ge B r) by lia.
    destruct (Z.le_gt_cases r (2 ^ (B - 1))) as [L|L]; [intros _; exact L|].
    assert (wsub r 1 = r - 1) as ->.
    { unfold wsub. apply wrap_id. unfold is_word. lia. }
    rewrite (top_bit_ge B (r - 1)) by lia.
    rewrite !(proj2 (Z.leb_le _ _)) by lia. cbn. discriminate. }
  set (c := v / 2 ^ (B - 1)) in *. clearbody c. injection E as <- <-.
  destruct Hc as [-> | ->].
  - rewrite Z.mul_0_l. change (wrap 0) with 0. unfold wsub. rewrite Z.sub_0_r.
    rewrite wrap_id by (unfold is_word; lia).
    specialize (Hc0 eq_refl). unfold is_word, to_signed. rewrite (proj2 (Z.ltb_lt _ _)) by lia. lia.
  - rewrite Z.mul_1_l. specialize (Hc1 eq_refl).
    rewrite (wrap_id (2 ^ B)) by (unfold is_word; lia). unfold wsub.
    assert (wrap (r - 2 ^ B) = r - 2 ^ B + q) as ->.
    { unfold wrap. symmetry. apply Z.mod_unique_pos with (q := -1); lia. }
    unfold is_word, to_signed. rewrite (proj2 (Z.ltb_ge _ _)) by lia. lia.
Qed.

Lemma to_signed_eqm x : eqm (to_signed x) x.
Proof. unfold to_signed. destruct (x <? 2 ^ 63); [reflexivity|]. apply eqm_alt. exists (-1). ring. Qed.
Lemma nrm_signed x B : - B <= to_signed x <= B -> nrm x <= B.
Proof. intros H. rewrite <- (to_signed_eqm x). etransitivity; [apply nrm_abs | lia]. Qed.

(** All digits. *)
Lemma decompose_state_spec (b l : nat) st : (1 <= b < 64)%nat -> 0 <= st < q ->
  length (decompose_state b l st) = l /\
  Forall (fun d => is_word d /\ - 2 ^ (Z.of_nat b - 1) <= to_signed d <= 2 ^ (Z.of_nat b - 1)) (decompose_state b l st) /\
  exists st', st = sumf l (fun i => to_signed (nth i (decompose_state b l st) 0) * 2 ^ Z.of_nat (b * i)) + 2 ^ Z.of_nat (b * l) * st'.
Proof.
  intros Hb. revert st; induction l as [|l IH]; intros st Hst.
  - cbn. repeat split; [constructor|]. exists st. rewrite Nat.mul_0_r. cbn [Z.of_nat]. change (2 ^ 0) with 1. ring.
  - cbn [decompose_state]. destruct (decompose_one_level b st) as [d st1] eqn:E.
    destruct (decompose_one_spec _ _ _ _ Hb Hst E) as (Hd & Hs & Est & Hst1).
    destruct (IH st1 Hst1) as (L & F & st' & Est1).
    repeat split; [cbn; lia | constructor; [split|]; assumption|].
    exists st'. change (S l) with (1 + l)%nat at 1. rewrite sumf_split. cbn [sumf nth].
    rewrite Nat.mul_0_r. cbn [Z.of_nat]. change (2 ^ 0) with 1.
    replace (Z.of_nat (b * S l)) with (Z.of_nat b + Z.of_nat (b * l)) by lia.
    rewrite Z.pow_add_r by lia.
    transitivity (to_signed d + 2 ^ Z.of_nat b * (sumf l (fun i => to_signed (nth i (decompose_state b l st1) 0) * 2 ^ Z.of_nat (b * i)) + 2 ^ Z.of_nat (b * l) * st')).
    { rewrite <- Est1. exact Est. }
    rewrite Z.mul_add_distr_l, <- sumf_scal.
    assert (sumf l (fun i => 2 ^ Z.of_nat b * (to_signed (nth i (decompose_state b l st1) 0) * 2 ^ Z.of_nat (b * i)))
          = sumf l (fun i => to_signed (nth (1 + i) (d :: decompose_state b l st1) 0) * 2 ^ Z.of_nat (b * (1 + i)))) as ->.
    { apply sumf_ext; intros i _. cbn [Nat.add nth].
      replace (Z.of_nat (b * S i)) with (Z.of_nat b + Z.of_nat (b * i)) by lia. rewrite Z.pow_add_r by lia. ring. }
    cbn [Nat.add nth]. ring.
Qed.

(** ** Rounding *)
Lemma closest_word b l x : is_word (closest b l x).
Proof. apply wrap_word. Qed.
Lemma closest_near b l x : (1 <= b * l < 64)%nat -> is_word x ->
  nrm (closest b l x - x) <= 2 ^ (63 - Z.of_nat (b * l)).
Proof.
  intros Hb Hx. unfold closest. cbv zeta. set (N := Z.of_nat (b * l)). assert (1 <= N < 64) as HN by (unfold N; lia). clearbody N.
  set (nr := 64 - N). replace (63 - N) with (nr - 1) by (unfold nr; lia).
  assert (1 <= nr <= 63) as Hnr by (unfold nr; lia). clearbody nr.
  assert (0 < 2 ^ (nr - 1)) as P1 by (apply Z.pow_pos_nonneg; lia).
  assert (H2 : 2 ^ nr = 2 * 2 ^ (nr - 1)).
  { replace nr with (1 + (nr - 1)) at 1 by lia. rewrite Z.pow_add_r by lia. reflexivity. }
  rewrite wrap_eqm. apply (Z.le_trans _ _ _ (nrm_abs _)).
  set (u := x / 2 ^ (nr - 1)).
  assert (x / 2 ^ nr = u / 2) as ->.
  { rewrite H2, Z.mul_comm. rewrite <- Z.div_div by lia. reflexivity. }
  pose proof (Z.div_mod u 2 ltac:(lia)) as Du. pose proof (Z.mod_pos_bound u 2 ltac:(lia)) as Mu.
  pose proof (Z.div_mod x (2 ^ (nr - 1)) ltac:(lia)) as Dx. pose proof (Z.mod_pos_bound x (2 ^ (nr - 1)) ltac:(lia)) as Mx.
  fold u in Dx. rewrite H2. set (t := 2 ^ (nr - 1)) in *. set (h := u / 2) in *. set (m2 := u mod 2) in *.
  apply Z.abs_le. assert (m2 = 0 \/ m2 = 1) as [-> | ->] by lia; nia.
Qed.
Lemma closest_state b l x : (1 <= b * l < 64)%nat -> is_word x ->
  0 <= closest b l x / 2 ^ (64 - Z.of_nat (b * l)) < q /\
  closest b l x = (closest b l x / 2 ^ (64 - Z.of_nat (b * l))) * 2 ^ (64 - Z.of_nat (b * l)).
Proof.
  intros Hb Hx. pose proof (closest_word b l x) as W. unfold is_word in W.
  set (nr := 64 - Z.of_nat (b * l)). assert (1 <= nr <= 63) as Hnr by (unfold nr; lia).
  assert (0 < 2 ^ nr) as P1 by (apply Z.pow_pos_nonneg; lia).
  split.
  - split; [apply Z.div_pos; lia|]. apply Z.div_lt_upper_bound; [lia|]. nia.
  - assert (closest b l x mod 2 ^ nr = 0) as M.
    { unfold closest. fold nr. cbv zeta. unfold wrap.
      set (y := (x / 2 ^ nr + (x / 2 ^ (nr - 1)) mod 2)).
      assert (q = 2 ^ (64 - nr) * 2 ^ nr) as ->.
      { rewrite <- Z.pow_add_r by lia. replace (64 - nr + nr) with 64 by lia. reflexivity. }
      assert (0 < 2 ^ (64 - nr)) by (apply Z.pow_pos_nonneg; lia).
      rewrite Z.mul_mod_distr_r by lia. apply Z.mod_mul. lia. }
    pose proof (Z.div_mod (closest b l x) (2 ^ nr) ltac:(lia)). lia.
Qed.

Lemma gadget_split b l i : (i <= l)%nat -> (b * l < 64)%nat ->
  gadget b (l - i) = 2 ^ Z.of_nat (b * i) * 2 ^ (64 - Z.of_nat (b * l)).
Proof.
  intros Hi Hb. unfold gadget. rewrite <- Z.pow_add_r by lia. f_equal.
  rewrite Nat.mul_sub_distr_l. assert (b * i <= b * l)%nat by nia. lia.
Qed.

Lemma decompose_spec b l x : (1 <= b)%nat -> (1 <= l)%nat -> (b * l < 64)%nat -> is_word x ->
  length (decompose b l x) = l /\
  Forall (fun d => is_word d /\ - 2 ^ (Z.of_nat b - 1) <= to_signed d <= 2 ^ (Z.of_nat b - 1)) (decompose b l x) /\
  eqm (sumf l (fun i => nth i (decompose b l x) 0 * gadget b (l - i))) (closest b l x).
Proof.
  intros Hb Hl Hbl Hx.
  destruct (closest_state b l x ltac:(nia) Hx) as [Hst Hc].
  destruct (decompose_state_spec b l _ ltac:(nia) Hst) as (L & F & st' & E).
  unfold decompose. set (st := closest b l x / 2 ^ (64 - Z.of_nat (b * l))) in *.
  split; [exact L|]. split; [exact F|].
  rewrite Hc. symmetry. etransitivity.
  { apply eq_eqm. exact (f_equal (fun z => z * 2 ^ (64 - Z.of_nat (b * l))) E). }
  transitivity (sumf l (fun i => to_signed (nth i (decompose_state b l st) 0) * gadget b (l - i))).
  - apply eqm_alt. exists st'. rewrite Z.mul_add_distr_r, <- sumf_scal_r. f_equal.
    + apply sumf_ext; intros i Hi. rewrite (gadget_split b l i) by lia. ring.
    + unfold q. replace 64 with (Z.of_nat (b * l) + (64 - Z.of_nat (b * l))) at 2 by lia.
      rewrite Z.pow_add_r by lia. ring.
  - apply sumf_eqm; intros i Hi. rewrite to_signed_eqm. reflexivity.
Qed.

(** ** Polynomials *)
Definition psumf (m : nat) (F : nat -> P) : P := fun k => sumf m (fun i => F i k).

Lemma decompose_poly_len b l p : length (decompose_poly b l p) = l.
Proof. unfold decompose_poly. rewrite map_length, seq_length. reflexivity. Qed.
Lemma decompose_poly_nth b l p i : (i < l)%nat ->
  nth i (decompose_poly b l p) [] = map (fun x => nth i (decompose b l x) 0) p.
Proof. intros Hi. unfold decompose_poly. rewrite (nth_map_in _ _ _ 0%nat) by (rewrite seq_length; lia). rewrite seq_nth by lia. reflexivity. Qed.

Lemma digits_wf n b l p i : (1 <= b)%nat -> (1 <= l)%nat -> (b * l < 64)%nat -> wfp n p -> (i < l)%nat ->
  wfp n (nth i (decompose_poly b l p) []) /\ sbound (2 ^ (Z.of_nat b - 1)) (nth i (decompose_poly b l p) []).
Proof.
  intros Hb Hl Hbl [Lp Wp] Hi. rewrite decompose_poly_nth by exact Hi.
  assert (forall x, In x p -> is_word (nth i (decompose b l x) 0) /\
     - 2 ^ (Z.of_nat b - 1) <= to_signed (nth i (decompose b l x) 0) <= 2 ^ (Z.of_nat b - 1)) as H.
  { intros x Hx. rewrite Forall_forall in Wp. destruct (decompose_spec b l x Hb Hl Hbl (Wp x Hx)) as (L & F & _).
    rewrite Forall_forall in F. apply F, nth_In. lia. }
  split; [split; [rewrite map_length; exact Lp|]|]; apply Forall_forall; intros y Hy;
    apply in_map_iff in Hy as (x & <- & Hx); apply (H x Hx).
Qed.
Lemma sbound_bd n D p : wfp n p -> sbound D p -> bd n (tof p) D.
Proof.
  intros [L _] H k Hk. unfold tof. apply nrm_signed. unfold sbound in H. rewrite Forall_forall in H. apply H, nth_In. lia.
Qed.

Definition closest_poly b l (p : list Z) : list Z := map (closest b l) p.
Lemma closest_poly_wf n b l p : length p = n -> wfp n (closest_poly b l p).
Proof. intros H. split; [unfold closest_poly; rewrite map_length; exact H|]. apply Forall_forall. intros y Hy. apply in_map_iff in Hy as (x & <- & _). apply closest_word. Qed.
Lemma closest_poly_near n b l p : (1 <= b * l < 64)%nat -> wfp n p ->
  near n (tof (closest_poly b l p)) (tof p) (2 ^ (63 - Z.of_nat (b * l))).
Proof.
  intros Hb Hp k Hk. unfold psub, tof, closest_poly. rewrite (nth_map_in _ _ _ 0) by (rewrite (wfp_len _ _ Hp); lia).
  apply closest_near; [exact Hb|]. eapply wfp_word; exact Hp.
Qed.
Lemma decompose_poly_sum n b l p : (0 < n)%nat -> (1 <= b)%nat -> (1 <= l)%nat -> (b * l < 64)%nat -> wfp n p ->
  peq n (psumf l (fun i => pmul n (pcst (gadget b (l - i))) (tof (nth i (decompose_poly b l p) []))))
        (tof (closest_poly b l p)).
Proof.
  intros Hn Hb Hl Hbl Hp k Hk. unfold psumf.
  pose proof (wfp_word n p k Hp) as W.
  destruct (decompose_spec b l _ Hb Hl Hbl W) as (_ & _ & E).
  unfold tof at 2, closest_poly. rewrite (nth_map_in _ _ _ 0) by (rewrite (wfp_len _ _ Hp); lia).
  rewrite <- E. apply sumf_eqm; intros i Hi. rewrite pmul_pcst_exact by assumption.
  rewrite decompose_poly_nth by exact Hi. unfold tof.
  rewrite (nth_map_in _ _ _ 0) by (rewrite (wfp_len _ _ Hp); lia). apply eq_eqm; ring.
Qed.

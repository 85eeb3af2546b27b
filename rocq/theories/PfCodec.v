(** * Proofs about the codec *)
From Verif Require Import MBase MUtils MCodec.
Ltac Zify.zify_post_hook ::= Z.div_mod_to_equations.

Lemma pow2_split a b : 0 <= a -> 0 <= b -> 2 ^ (a + b) = 2 ^ a * 2 ^ b.
Proof. intros; apply Z.pow_add_r; lia. Qed.

Lemma is_power_of_two_pow k : 0 <= k -> is_power_of_two (2 ^ k) = true.
Proof.
  intros Hk. unfold is_power_of_two. rewrite Z.log2_pow2 by lia.
  rewrite Z.eqb_refl, andb_true_r. apply Z.ltb_lt. apply Z.pow_pos_nonneg; lia.
Qed.

Lemma is_power_of_two_spec t : is_power_of_two t = true <-> exists k, 0 <= k /\ t = 2 ^ k.
Proof.
  split.
  - unfold is_power_of_two. intros H. apply andb_prop in H as [H1 H2].
    apply Z.eqb_eq in H2. exists (Z.log2 t). split; [apply Z.log2_nonneg | lia].
  - intros (k & Hk & ->). apply is_power_of_two_pow; exact Hk.
Qed.

Lemma usub_ok md a b : b <= a -> usub md a b = Ok (a - b).
Proof. intros H. unfold usub. destruct (Z.leb_spec b a); [reflexivity | lia]. Qed.
Lemma uadd_ok md a b : a + b < q -> uadd md a b = Ok (a + b).
Proof. intros H. unfold uadd. destruct (Z.ltb_spec (a + b) q); [reflexivity | lia]. Qed.
Lemma umul_ok md a b : a * b < q -> umul md a b = Ok (a * b).
Proof. intros H. unfold umul. destruct (Z.ltb_spec (a * b) q); [reflexivity | lia]. Qed.
Lemma ushl_ok md a s : s < 64 -> ushl md a s = Ok (wrap (a * 2 ^ s)).
Proof. intros H. unfold ushl, BITS. destruct (Z.ltb_spec s 64); [reflexivity | lia]. Qed.
Lemma ushr_ok md a s : s < 64 -> ushr md a s = Ok (a / 2 ^ s).
Proof. intros H. unfold ushr, BITS. destruct (Z.ltb_spec s 64); [reflexivity | lia]. Qed.
Lemma udiv_ok a b : b <> 0 -> udiv a b = Ok (a / b).
Proof. intros H. unfold udiv. destruct (Z.eqb_spec b 0); [lia | reflexivity]. Qed.

Lemma pow2_q k : 0 <= k <= 64 -> 2 ^ k * 2 ^ (64 - k) = q.
Proof. intros H. rewrite <- Z.pow_add_r by lia. replace (k + (64 - k)) with 64 by lia. reflexivity. Qed.

Lemma pow2_lt_q k : 0 <= k < 64 -> 0 < 2 ^ k < q.
Proof.
  intros H. split; [apply Z.pow_pos_nonneg; lia|].
  change q with (2 ^ 64). apply Z.pow_lt_mono_r; lia.
Qed.

Lemma ulog2_pos md x : 0 < x < q -> ulog2 md x = Ok (Z.log2 x).
Proof.
  intros H. unfold ulog2, leading_zeros. destruct (Z.eqb_spec x 0); [lia|].
  assert (Hl : Z.log2 x < 64) by (apply Z.log2_lt_pow2; [lia | exact (proj2 H)]).
  pose proof (Z.log2_nonneg x).
  rewrite usub_ok by lia. cbn [bind]. rewrite usub_ok by lia. f_equal. lia.
Qed.

Lemma codec_new_ok md k : 1 <= k <= 63 ->
  codec_new md (2 ^ k) = Ok {| cd_base_log := k; cd_delta := 2 ^ (64 - k) |}.
Proof.
  intros H. unfold codec_new. rewrite is_power_of_two_pow by lia. cbn [negb].
  rewrite ulog2_pos by (apply pow2_lt_q; lia). rewrite Z.log2_pow2 by lia. cbn [bind].
  rewrite usub_ok by lia. cbn [bind]. rewrite ushl_ok by lia. cbn [bind].
  rewrite Z.mul_1_l, wrap_id; [reflexivity|].
  pose proof (pow2_lt_q (64 - k)). unfold is_word; lia.
Qed.

Lemma closest_ok md B L x : 1 <= B * L < 64 -> 0 <= x < q ->
  closest_representable md B L x =
  Ok (wrap ((x / 2 ^ (64 - B * L) + (x / 2 ^ (63 - B * L)) mod 2) * 2 ^ (64 - B * L))).
Proof.
  intros H Hx. unfold closest_representable.
  rewrite usub_ok by lia. cbn [bind]. rewrite usub_ok by lia. cbn [bind].
  rewrite ushr_ok by lia. cbn [bind]. rewrite ushr_ok by lia. cbn [bind].
  replace (64 - B * L - 1) with (63 - B * L) by lia.
  rewrite uadd_ok.
  - cbn [bind]. rewrite ushl_ok by lia. reflexivity.
  - assert (x / 2 ^ (64 - B * L) <= 2 ^ 63 - 1).
    { assert (x / 2 ^ (64 - B * L) < 2 ^ 63); [|lia].
      apply Z.div_lt_upper_bound; [apply Z.pow_pos_nonneg; lia|].
      eapply Z.lt_le_trans; [exact (proj2 Hx)|]. change q with (2 * 2 ^ 63).
      apply Z.mul_le_mono_nonneg_r; [lia|].
      replace 2 with (2 ^ 1) at 1 by reflexivity. apply Z.pow_le_mono_r; lia. }
    assert ((x / 2 ^ (63 - B * L)) mod 2 < 2) by (apply Z.mod_pos_bound; lia).
    unfold q. lia.
Qed.

(** Rounding half up as a floor. *)
Lemma round_half x h : 0 < h -> x / (2 * h) + (x / h) mod 2 = (x + h) / (2 * h).
Proof.
  intros Hh.
  assert (E : x / (2 * h) = x / h / 2) by (rewrite Z.div_div by lia; f_equal; lia).
  rewrite E. assert (E2 : (x + h) / (2 * h) = (x / h + 1) / 2).
  { replace (2 * h) with (h * 2) by lia. rewrite <- Z.div_div by lia. f_equal.
    rewrite <- (Z.mul_1_l h) at 1. rewrite Z.div_add by lia. reflexivity. }
  rewrite E2. generalize (x / h). intros; lia.
Qed.

Lemma decode_ok md k x : 1 <= k <= 63 -> 0 <= x < q ->
  decode md {| cd_base_log := k; cd_delta := 2 ^ (64 - k) |} x =
  Ok (((x + 2 ^ (63 - k)) / 2 ^ (64 - k)) mod 2 ^ k).
Proof.
  intros Hk Hx. unfold decode. cbn [cd_base_log cd_delta].
  rewrite closest_ok by lia. rewrite Z.mul_1_r. cbn [bind].
  assert (Hh : 0 < 2 ^ (63 - k)) by (apply Z.pow_pos_nonneg; lia).
  assert (E : 2 ^ (64 - k) = 2 * 2 ^ (63 - k)).
  { replace (64 - k) with (1 + (63 - k)) by lia. rewrite pow2_split by lia. reflexivity. }
  rewrite udiv_ok by lia. f_equal.
  rewrite E, round_half by exact Hh. rewrite <- E. unfold wrap.
  rewrite <- (pow2_q k) by lia. rewrite Z.mul_mod_distr_r.
  - apply Z.div_mul; lia.
  - apply Z.pow_nonzero; lia.
  - lia.
Qed.

Lemma encode_ok md k x : 1 <= k <= 63 -> 0 <= x < 2 ^ k ->
  encode md {| cd_base_log := k; cd_delta := 2 ^ (64 - k) |} x = Ok (x * 2 ^ (64 - k)).
Proof.
  intros Hk Hx. unfold encode, pt_modulus. cbn [cd_base_log cd_delta].
  rewrite ushl_ok by lia. cbn [bind]. rewrite Z.mul_1_l.
  rewrite wrap_id by (pose proof (pow2_lt_q k); unfold is_word; lia).
  destruct (Z.leb_spec (2 ^ k) x); [lia|]. apply umul_ok.
  rewrite <- (pow2_q k) by lia. apply Z.mul_lt_mono_pos_r; [apply Z.pow_pos_nonneg|]; lia.
Qed.

Lemma encode_big md k x : 1 <= k <= 63 -> 2 ^ k <= x ->
  encode md {| cd_base_log := k; cd_delta := 2 ^ (64 - k) |} x = Panic PExplicit.
Proof.
  intros Hk Hx. unfold encode, pt_modulus. cbn [cd_base_log cd_delta].
  rewrite ushl_ok by lia. cbn [bind]. rewrite Z.mul_1_l.
  rewrite wrap_id by (pose proof (pow2_lt_q k); unfold is_word; lia).
  destruct (Z.leb_spec (2 ^ k) x); [reflexivity | lia].
Qed.

(** Decoding a word congruent to [x*delta + e]. *)
Lemma decode_window md k x e w : 1 <= k <= 63 -> 0 <= w < q ->
  w mod q = (x * 2 ^ (64 - k) + e) mod q ->
  - 2 ^ (63 - k) <= e < 2 ^ (63 - k) ->
  decode md {| cd_base_log := k; cd_delta := 2 ^ (64 - k) |} w = Ok (x mod 2 ^ k).
Proof.
  intros Hk Hw E He. rewrite decode_ok by assumption. f_equal.
  assert (D : 2 ^ (64 - k) = 2 * 2 ^ (63 - k)).
  { replace (64 - k) with (1 + (63 - k)) by lia. rewrite pow2_split by lia. reflexivity. }
  assert (Hd : 0 < 2 ^ (64 - k)) by (apply Z.pow_pos_nonneg; lia).
  rewrite (Z.mod_small w) in E by lia.
  rewrite (Z.mod_eq _ q) in E by (pose proof q_pos; lia).
  rewrite <- (pow2_q k) in E by lia.
  set (z := (x * 2 ^ (64 - k) + e) / (2 ^ k * 2 ^ (64 - k))) in E.
  assert (Ew : w + 2 ^ (63 - k) = (x - 2 ^ k * z) * 2 ^ (64 - k) + (e + 2 ^ (63 - k))) by (rewrite E; ring).
  rewrite Ew, (Z.div_add_l _ _ _) by lia.
  rewrite (Z.div_small (e + _)) by lia. rewrite Z.add_0_r.
  replace (x - 2 ^ k * z) with (x + (- z) * 2 ^ k) by ring.
  apply Z.mod_add. apply Z.pow_nonzero; lia.
Qed.

Lemma codec_roundtrip md k x e : 1 <= k <= 63 -> 0 <= x < 2 ^ k ->
  - 2 ^ (63 - k) <= e < 2 ^ (63 - k) ->
  decode md {| cd_base_log := k; cd_delta := 2 ^ (64 - k) |} ((x * 2 ^ (64 - k) + e) mod q) = Ok x.
Proof.
  intros Hk Hx He.
  rewrite (decode_window md k x e) by
    (try assumption; try (apply Z.mod_pos_bound; apply q_pos); apply Z.mod_mod; pose proof q_pos; lia).
  f_equal. apply Z.mod_small; exact Hx.
Qed.

Lemma codec_tight md k x : 1 <= k <= 63 -> 0 <= x < 2 ^ k ->
  decode md {| cd_base_log := k; cd_delta := 2 ^ (64 - k) |} ((x * 2 ^ (64 - k) + 2 ^ (63 - k)) mod q)
  = Ok ((x + 1) mod 2 ^ k).
Proof.
  intros Hk Hx. apply (decode_window md k (x + 1) (- 2 ^ (63 - k))); try assumption.
  - apply Z.mod_pos_bound; apply q_pos.
  - rewrite Z.mod_mod by (pose proof q_pos; lia). f_equal.
    assert (D : 2 ^ (64 - k) = 2 * 2 ^ (63 - k)).
    { replace (64 - k) with (1 + (63 - k)) by lia. rewrite pow2_split by lia. reflexivity. }
    rewrite D. ring.
  - assert (0 < 2 ^ (63 - k)) by (apply Z.pow_pos_nonneg; lia). lia.
Qed.

Lemma plus1_neq k x : 1 <= k -> 0 <= x < 2 ^ k -> (x + 1) mod 2 ^ k <> x.
Proof.
  intros Hk Hx E. assert (2 ^ 1 <= 2 ^ k) by (apply Z.pow_le_mono_r; lia).
  change (2 ^ 1) with 2 in *. generalize dependent (2 ^ k). intros t Hx E Ht.
  destruct (Z.eq_dec (x + 1) t) as [e|e].
  - rewrite e, Z.mod_same in E by lia. lia.
  - rewrite Z.mod_small in E by lia. lia.
Qed.

Lemma mapM_pointwise {A B} (f : A -> res B) l r :
  length r = length l ->
  (forall i x, nth_error l i = Some x -> exists y, nth_error r i = Some y /\ f x = Ok y) ->
  mapM f l = Ok r.
Proof.
  revert r; induction l as [|x l IH]; intros [|y r] Hl H; cbn in Hl; try discriminate; [reflexivity|].
  cbn. destruct (H O x eq_refl) as (y' & Hy & ->). cbn in Hy. injection Hy as <-. cbn.
  rewrite (IH r); [reflexivity | lia |]. intros i x' Hi. apply (H (S i) x' Hi).
Qed.

Lemma poly_roundtrip md k xs es : 1 <= k <= 63 ->
  Forall (fun x => 0 <= x < 2 ^ k) xs -> length es = length xs ->
  Forall (fun e => - 2 ^ (63 - k) <= e < 2 ^ (63 - k)) es ->
  exists ys, poly_encode md {| cd_base_log := k; cd_delta := 2 ^ (64 - k) |} xs = Ok ys /\
    poly_decode md {| cd_base_log := k; cd_delta := 2 ^ (64 - k) |}
      (map (fun '(y, e) => (y + e) mod q) (combine ys es)) = Ok xs.
Proof.
  intros Hk Hxs. revert es. induction Hxs as [|x xs Hx Hxs IH]; intros [|e es] Hl He; cbn in Hl; try discriminate.
  - exists []. split; reflexivity.
  - inversion He as [|? ? He1 He2]; subst.
    destruct (IH es) as (ys & E1 & E2); [lia | assumption |].
    exists (x * 2 ^ (64 - k) :: ys). unfold poly_encode, poly_decode in *.
    cbn [mapM combine map]. rewrite encode_ok by assumption. cbn [bind]. rewrite E1. split; [reflexivity|].
    rewrite codec_roundtrip by assumption. cbn [bind]. rewrite E2. reflexivity.
Qed.

(** ** Ternary *)
Lemma third_val : ENC_THIRD = 6148914691236516864. Proof. vm_compute. reflexivity. Qed.
Lemma sixth_val : DEC_SIXTH = 3074457345618258432. Proof. vm_compute. reflexivity. Qed.
Lemma dthird_val : DEC_THIRD = 6148914691236516864. Proof. vm_compute. reflexivity. Qed.
Lemma half_val : DEC_HALF = 9223372036854775807. Proof. vm_compute. reflexivity. Qed.

Definition ternary_enc_val (x : Z) : Z :=
  if x =? 0 then 0 else if x =? 1 then 6148914691236516864 else 12297829382473033728.

Lemma ternary_encode_ok md x : x = 0 \/ x = 1 \/ x = MAXW -> ternary_encode md x = Ok (ternary_enc_val x).
Proof.
  intros H. unfold ternary_encode, ternary_enc_val. rewrite third_val.
  destruct H as [-> | [-> | ->]]; [reflexivity | reflexivity |].
  change (MAXW =? 0) with false. change (MAXW =? 1) with false.
  rewrite Z.eqb_refl. rewrite umul_ok; reflexivity.
Qed.

Lemma ternary_encode_bad md x : x <> 0 -> x <> 1 -> x <> MAXW -> ternary_encode md x = Panic PExplicit.
Proof.
  intros H0 H1 H2. unfold ternary_encode.
  destruct (Z.eqb_spec x 0); [lia|]. destruct (Z.eqb_spec x 1); [lia|].
  destruct (Z.eqb_spec x MAXW); [lia|]. reflexivity.
Qed.

(** The exact set of words decoding to each symbol. *)
Lemma ternary_decode_val x :
  ternary_decode x =
  if (3074457345618258432 <? x) && (x <=? 9223372036854775807) then 1
  else if (9223372036854775807 <? x) && (x <=? 15372286728091292671) then MAXW else 0.
Proof. unfold ternary_decode. rewrite sixth_val, dthird_val, half_val. reflexivity. Qed.

(** Exact error window of each symbol. *)
Definition ternary_lo (x : Z) : Z :=
  if x =? 0 then -3074457345618258944 else if x =? 1 then -3074457345618258431 else -3074457345618257920.
Definition ternary_hi (x : Z) : Z :=
  if x =? 0 then 3074457345618258432 else 3074457345618258943.

Lemma ternary_roundtrip x e : x = 0 \/ x = 1 \/ x = MAXW -> - 2 ^ 63 <= e < 2 ^ 63 ->
  (ternary_decode ((ternary_enc_val x + e) mod q) = x <-> ternary_lo x <= e <= ternary_hi x).
Proof.
  intros Hx He. rewrite ternary_decode_val, q_val.
  assert (HM : MAXW = 18446744073709551615) by reflexivity. rewrite HM.
  change (2 ^ 63) with 9223372036854775808 in He.
  unfold ternary_enc_val, ternary_lo, ternary_hi.
  destruct Hx as [-> | [-> | ->]]; rewrite ?HM; cbn [Z.eqb Pos.eqb];
  match goal with |- context [?a mod ?b] =>
    assert (Hw : 0 <= a mod b < b) by (apply Z.mod_pos_bound; lia);
    assert (Hk : exists z, a mod b = a + z * b /\ -2 <= z <= 1)
      by (exists (- (a / b)); split; [rewrite (Z.mod_eq a b) by lia; ring | lia]);
    destruct Hk as (z & Ez & Hz); remember (a mod b) as w eqn:Hw'; clear Hw'
  end;
  assert (z = -2 \/ z = -1 \/ z = 0 \/ z = 1) as Hz' by lia;
  destruct (Z.ltb_spec 3074457345618258432 w), (Z.leb_spec w 9223372036854775807),
    (Z.ltb_spec 9223372036854775807 w), (Z.leb_spec w 15372286728091292671); cbn [andb]; try lia;
  destruct Hz' as [-> | [-> | [-> | ->]]]; lia.
Qed.

Lemma ternary_roundtrip_sym x e : x = 0 \/ x = 1 \/ x = MAXW ->
  - 3074457345618257920 <= e <= 3074457345618257920 ->
  ternary_decode ((ternary_enc_val x + e) mod q) = x.
Proof.
  intros Hx He. apply ternary_roundtrip; [assumption | lia |].
  unfold ternary_lo, ternary_hi.
  destruct (Z.eqb_spec x 0), (Z.eqb_spec x 1); lia.
Qed.

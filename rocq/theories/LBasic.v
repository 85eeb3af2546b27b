(** * Lemmas in the form used by PBasic *)
From Verif Require Import MBase MUtils MCodec MHash PfCodec PfUtils PfHash.
From Coq Require Import Permutation.
Local Ltac Zify.zify_post_hook ::= Z.div_mod_to_equations.

Lemma half_delta k : 1 <= k <= 63 -> 2 ^ (64 - k) = 2 * 2 ^ (63 - k).
Proof. intros H. replace (64 - k) with (1 + (63 - k)) by lia. rewrite pow2_split by lia. reflexivity. Qed.

Lemma codec_C01 md k : 1 <= k <= 63 ->
  exists c, codec_new md (2 ^ k) = Ok c /\
  forall x, 0 <= x < 2 ^ k ->
  exists y, encode md c x = Ok y /\
    (forall e, - 2 ^ (64 - k) <= 2 * e < 2 ^ (64 - k) -> decode md c ((y + e) mod 2 ^ 64) = Ok x) /\
    decode md c ((y + 2 ^ (64 - k) / 2) mod 2 ^ 64) <> Ok x.
Proof.
  intros Hk. eexists. split; [apply codec_new_ok; exact Hk|]. intros x Hx.
  exists (x * 2 ^ (64 - k)). pose proof (half_delta k Hk) as D.
  split; [apply encode_ok; assumption|]. split.
  - intros e He. apply codec_roundtrip; [assumption.. | lia].
  - assert (Hd : 2 ^ (64 - k) / 2 = 2 ^ (63 - k)) by (rewrite D, Z.mul_comm, Z.div_mul by lia; reflexivity).
    rewrite Hd. intros E. pose proof (codec_tight md k x Hk Hx) as T. change (2 ^ 64) with q in E. rewrite T in E.
    injection E as E. apply (plus1_neq k x) in E; [assumption | lia | assumption].
Qed.

Lemma codec_C01_poly md k : 1 <= k <= 63 ->
  exists c, codec_new md (2 ^ k) = Ok c /\
  forall xs es, Forall (fun x => 0 <= x < 2 ^ k) xs -> length es = length xs ->
  Forall (fun e => - 2 ^ (64 - k) <= 2 * e < 2 ^ (64 - k)) es ->
  exists ys, poly_encode md c xs = Ok ys /\
    poly_decode md c (map (fun '(y, e) => (y + e) mod 2 ^ 64) (combine ys es)) = Ok xs.
Proof.
  intros Hk. eexists. split; [apply codec_new_ok; exact Hk|]. intros xs es Hx Hl He.
  apply poly_roundtrip; try assumption. pose proof (half_delta k Hk).
  eapply Forall_impl; [|exact He]. cbv beta. intros; lia.
Qed.

Lemma codec_C02_new md t : 0 <= t < 2 ^ 64 ->
  ((exists k, 0 <= k /\ t = 2 ^ k) -> t <> 1 -> exists c, codec_new md t = Ok c) /\
  (~ (exists k, 0 <= k /\ t = 2 ^ k) -> codec_new md t = Panic PExplicit).
Proof.
  intros Ht. split.
  - intros (k & Hk & ->) H1. assert (1 <= k <= 63).
    { split; [destruct (Z.eq_dec k 0) as [->|]; [contradiction H1; reflexivity | lia]|].
      assert (k < 64); [|lia]. apply (Z.pow_lt_mono_r_iff 2); lia. }
    eexists. apply codec_new_ok; assumption.
  - intros H. unfold codec_new. destruct (is_power_of_two t) eqn:E; [|reflexivity].
    apply is_power_of_two_spec in E. contradiction.
Qed.

Lemma codec_C02_encode md k c : 1 <= k <= 63 -> codec_new md (2 ^ k) = Ok c ->
  pt_modulus md c = Ok (2 ^ k) /\ pt_modulus_bits c = k /\ 2 ^ k * cd_delta c = 2 ^ 64 /\
  2 * largest_error c = cd_delta c /\
  (forall x, 0 <= x < 2 ^ k -> encode md c x = Ok (x * cd_delta c) /\ x * cd_delta c < 2 ^ 64) /\
  (forall x, 2 ^ k <= x -> encode md c x = Panic PExplicit).
Proof.
  intros Hk E. rewrite codec_new_ok in E by exact Hk.
  assert (Ec : c = {| cd_base_log := k; cd_delta := 2 ^ (64 - k) |}) by congruence. subst c.
  unfold pt_modulus, pt_modulus_bits, largest_error. cbn [cd_base_log cd_delta].
  rewrite ushl_ok by lia. rewrite Z.mul_1_l, wrap_id by (pose proof (pow2_lt_q k); unfold is_word; lia).
  split; [reflexivity|]. split; [reflexivity|]. split; [apply (pow2_q k); lia|].
  split; [rewrite (half_delta k Hk); rewrite (Z.mul_comm 2 (2 ^ (63 - k))), Z.div_mul by lia; lia|].
  split; [|intros x Hx; apply encode_big; assumption].
  intros x Hx. split; [apply encode_ok; assumption|]. change (2 ^ 64) with q. rewrite <- (pow2_q k) by lia.
  apply Z.mul_lt_mono_pos_r; [apply Z.pow_pos_nonneg|]; lia.
Qed.

Lemma codec_C02_one :
  codec_new Checked 1 = Panic POverflow /\
  exists c, codec_new Wrapping 1 = Ok c /\ encode Wrapping c 0 = Ok 0 /\
    forall e, 0 < e < 2 ^ 63 -> decode Wrapping c ((0 + e) mod 2 ^ 64) = Ok e.
Proof.
  split; [reflexivity|]. exists {| cd_base_log := 0; cd_delta := 1 |}.
  split; [reflexivity|]. split; [reflexivity|]. intros e He. rewrite Z.add_0_l, Z.mod_small by lia.
  unfold decode. cbn [cd_base_log cd_delta]. unfold closest_representable.
  change (usub Wrapping 64 (0 * 1)) with (@Ok Z 64). cbn [bind].
  change (usub Wrapping 64 1) with (@Ok Z 63). cbn [bind].
  rewrite ushr_ok by lia. cbn [bind]. rewrite Z.div_small by lia.
  unfold ushr, ushl. change (64 <? BITS) with false. change (64 mod BITS) with 0. cbn [bind].
  rewrite Z.pow_0_r, Z.div_1_r. rewrite uadd_ok by (change (0 mod 2) with 0; unfold q; lia). cbn [bind].
  change (0 mod 2) with 0. rewrite Z.add_0_r, Z.mul_1_r, wrap_id by (unfold is_word, q; lia).
  rewrite udiv_ok by lia. rewrite Z.div_1_r. reflexivity.
Qed.

Lemma ternary_C03 md x e : (x = 0 \/ x = 1 \/ x = 2 ^ 64 - 1) -> - 2 ^ 63 <= e < 2 ^ 63 ->
  exists y, ternary_encode md x = Ok y /\ 0 <= y < 2 ^ 64 /\
    (ternary_decode ((y + e) mod 2 ^ 64) = x <->
     (if x =? 0 then -3074457345618258944 <= e <= 3074457345618258432
      else if x =? 1 then -3074457345618258431 <= e <= 3074457345618258943
      else -3074457345618257920 <= e <= 3074457345618258943)).
Proof.
  intros Hx He. exists (ternary_enc_val x). split; [apply ternary_encode_ok; exact Hx|].
  split; [unfold ternary_enc_val; destruct (x =? 0), (x =? 1); lia|].
  pose proof (ternary_roundtrip x e Hx He) as R. change q with (2 ^ 64) in R. rewrite R.
  unfold ternary_lo, ternary_hi. destruct (Z.eqb_spec x 0), (Z.eqb_spec x 1); reflexivity.
Qed.

Lemma ternary_total x : ternary_decode x = 0 \/ ternary_decode x = 1 \/ ternary_decode x = 2 ^ 64 - 1.
Proof.
  unfold ternary_decode. destruct (_ && _); [auto|]. destruct (_ && _); auto.
Qed.

Lemma ternary_poly md xs es :
  Forall (fun x => x = 0 \/ x = 1 \/ x = 2 ^ 64 - 1) xs -> length es = length xs ->
  Forall (fun e => -3074457345618257920 <= e <= 3074457345618257920) es ->
  exists ys, poly_ternary_encode md xs = Ok ys /\
    poly_ternary_decode (map (fun '(y, e) => (y + e) mod 2 ^ 64) (combine ys es)) = xs.
Proof.
  intros Hxs. revert es. induction Hxs as [|x xs Hx Hxs IH]; intros [|e es] Hl He; cbn in Hl; try discriminate.
  - exists []. split; reflexivity.
  - inversion He as [|? ? He1 He2]; subst. destruct (IH es) as (ys & E1 & E2); [lia | assumption |].
    exists (ternary_enc_val x :: ys). unfold poly_ternary_encode, poly_ternary_decode in *. cbn [mapM combine map].
    rewrite ternary_encode_ok by exact Hx. cbn [bind]. rewrite E1. split; [reflexivity|].
    f_equal; [|exact E2]. apply ternary_roundtrip_sym; assumption.
Qed.

Local Open Scope nat_scope.

Lemma hash_C07 f h_count dom nh : (forall l, Permutation (f l) l) -> nh_new f h_count dom = Ok nh ->
  (forall h x, h < h_count -> x < dom -> exists y, hash nh h x = Ok y /\ y < output_domain nh) /\
  (forall h x h' x' y, h < h_count -> x < dom -> h' < h_count -> x' < dom ->
     hash nh h x = Ok y -> hash nh h' x' = Ok y -> h = h' /\ x = x') /\
  (forall y, y < output_domain nh -> exists h x, h < h_count /\ x < dom /\ hash nh h x = Ok y).
Proof.
  intros Hs Hn. destruct (nh_fields f h_count dom nh Hn) as (_ & E1 & E2 & _).
  unfold output_domain. rewrite E1, E2. split; [|split].
  - intros h x Hh Hx. destruct (hash_total f Hs h_count dom nh Hn h x Hh Hx) as (y & A & B). exists y. split; [exact A | lia].
  - intros h x h' x' y. apply (hash_inj f Hs h_count dom nh Hn).
  - intros y Hy. apply (hash_surj f Hs h_count dom nh Hn). lia.
Qed.

Lemma checked_C07 f h_count dom nh : (forall l, Permutation (f l) l) -> nh_new f h_count dom = Ok nh ->
  forall h x,
  ((h < h_count /\ x < dom) -> exists y, hash nh h x = Ok y /\ checked_hash nh h x = Ok (Some y)) /\
  (~ (h < h_count /\ x < dom) -> checked_hash nh h x = Ok None).
Proof.
  intros Hs Hn h x. rewrite (checked_hash_spec f h_count dom nh Hn).
  destruct (Nat.ltb_spec h h_count), (Nat.ltb_spec x dom); cbn [andb]; split; intros H'; try lia; try reflexivity.
  destruct (hash_total f Hs h_count dom nh Hn h x) as (y & A & _); [assumption..|]. exists y. rewrite A. auto.
Qed.

Lemma new_C07 f h_count dom :
  (h_count = 0 -> nh_new f h_count dom = Panic PAssert) /\
  (h_count <> 0 -> exists nh, nh_new f h_count dom = Ok nh).
Proof.
  unfold nh_new. split; [intros ->; reflexivity|]. intros H. destruct (Nat.ltb_spec 0 h_count); [|lia]. cbn. eauto.
Qed.

Lemma alias_C07 f dom nh : nh_new f 1 dom = Ok nh ->
  forall x, hash1 nh x = hash0 nh (x + 1) /\ hash2 nh x = hash0 nh (x + 2).
Proof.
  intros Hn x. destruct (nh_fields f 1 dom nh Hn) as (_ & E & _). unfold hash1, hash2, hash0, hash. rewrite E.
  split; f_equal; lia.
Qed.

Lemma tile_C08 f h_count dom nh rows cols : (forall l, Permutation (f l) l) -> nh_new f h_count dom = Ok nh ->
  rows * cols = h_count * dom ->
  (forall h x, h < h_count -> x < dom ->
     exists y r c, hash nh h x = Ok y /\ hash_to_tuple nh h x cols = Ok (r, c) /\
       r < rows /\ c < cols /\ r * cols + c = y) /\
  (forall r c, r < rows -> c < cols ->
     exists h x, h < h_count /\ x < dom /\ hash_to_tuple nh h x cols = Ok (r, c) /\
       forall h' x', h' < h_count -> x' < dom -> hash_to_tuple nh h' x' cols = Ok (r, c) -> h' = h /\ x' = x).
Proof.
  intros Hs Hn Hrc. split.
  - intros h x Hh Hx. apply (tuple_range f Hs h_count dom nh Hn); assumption.
  - intros r c Hr Hc. destruct (tuple_surj f Hs h_count dom nh Hn rows cols r c Hrc Hr Hc) as (h & x & Hh & Hx & E).
    exists h, x. repeat (split; [assumption|]). intros h' x' Hh' Hx' E'.
    apply (tuple_inj f Hs h_count dom nh Hn h' x' h x cols r c); try assumption. lia.
Qed.

Lemma hash_example : exists f nh, (forall l : list nat, Permutation (f l) l) /\ nh_new f 3 4 = Ok nh /\
  hash nh 1 2 = Ok 4 /\ hash_to_tuple nh 1 2 2 = Ok (2, 0).
Proof.
  exists (@rev nat). eexists. split; [intros l; symmetry; apply Permutation_rev|].
  split; [reflexivity|]. split; reflexivity.
Qed.

Lemma mapping_C09_sound f h_count dom nh is d m : (forall l, Permutation (f l) l) -> nh_new f h_count dom = Ok nh ->
  (forall i, In i is -> i < dom) -> 0 < d -> hash_to_mapping nh is d = Ok m ->
  NoDup (map fst m) /\
  (forall r c i, In (r, (c, i)) m -> In i is /\ exists h, h < h_count /\ hash_to_tuple nh h i d = Ok (r, c)) /\
  (forall k v, hget m k = Some v <-> In (k, v) m).
Proof.
  intros Hs Hn Hi Hd E. destruct (mapping_ok f Hs h_count dom nh Hn d is Hi Hd) as (m' & E' & (A & B) & _).
  rewrite E in E'. injection E' as <-. split; [exact A|]. split; [exact B|]. intros k v. apply hget_In; exact A.
Qed.

Lemma mapping_C09_total f h_count dom nh is d : (forall l, Permutation (f l) l) -> nh_new f h_count dom = Ok nh ->
  (forall i, In i is -> i < dom) -> 0 < d -> exists m, hash_to_mapping nh is d = Ok m.
Proof.
  intros Hs Hn Hi Hd. destruct (mapping_ok f Hs h_count dom nh Hn d is Hi Hd) as (m' & E' & _). eauto.
Qed.

Lemma mapping_C09_once f h_count dom nh is d m : (forall l, Permutation (f l) l) -> nh_new f h_count dom = Ok nh ->
  NoDup is -> (forall i, In i is -> i < dom) -> 0 < d -> hash_to_mapping nh is d = Ok m ->
  forall r c r' c' i, In (r, (c, i)) m -> In (r', (c', i)) m -> r = r' /\ c = c'.
Proof. intros Hs Hn. apply (mapping_once f Hs h_count dom nh Hn). Qed.

Lemma mapping_C09_greedy f h_count dom nh pre i post d m : (forall l, Permutation (f l) l) -> nh_new f h_count dom = Ok nh ->
  (forall j, In j (pre ++ i :: post) -> j < dom) -> 0 < d ->
  hash_to_mapping nh (pre ++ i :: post) d = Ok m ->
  (pre = [] -> exists r c, In (r, (c, i)) m) /\
  ((forall r c, ~ In (r, (c, i)) m) ->
    forall h, h < h_count ->
      exists r c c' j, hash_to_tuple nh h i d = Ok (r, c) /\ In (r, (c', j)) m /\ In j pre) /\
  (~ In i pre -> ~ In i post -> forall r c, In (r, (c, i)) m ->
    exists h, h < h_count /\ hash_to_tuple nh h i d = Ok (r, c) /\
      forall h', h' < h ->
        exists r' c' c'' j, hash_to_tuple nh h' i d = Ok (r', c') /\ In (r', (c'', j)) m /\ In j pre).
Proof.
  intros Hs Hn Hi Hd E. split; [|split].
  - intros ->. apply (mapping_first f Hs h_count dom nh Hn d i post m); assumption.
  - intros H. apply (mapping_maximal f Hs h_count dom nh Hn d pre i post m); assumption.
  - intros H1 H2 r c Hin. apply (mapping_least f Hs h_count dom nh Hn d pre i post m r c); assumption.
Qed.

Lemma dropped_C10 : exists f nh m, (forall l : list nat, Permutation (f l) l) /\ nh_new f 1 4 = Ok nh /\
  hash_to_mapping nh [0; 1] 2 = Ok m /\
  (forall h, h < 1 -> exists r c c', hash_to_tuple nh h 1 2 = Ok (r, c) /\ In (r, (c', 0)) m) /\
  (forall r c, ~ In (r, (c, 1)) m).
Proof.
  exists (fun l => l). do 2 eexists. split; [reflexivity|]. split; [reflexivity|]. split; [reflexivity|]. split.
  - intros h Hh. assert (h = 0) as -> by lia. exists 0, 1, 0. split; [reflexivity | left; reflexivity].
  - intros r c [H|[]]. discriminate.
Qed.

Lemma mapping_C10_never f h_count dom nh is d : (forall l, Permutation (f l) l) -> nh_new f h_count dom = Ok nh ->
  (forall i, In i is -> i < dom) -> 0 < d -> forall p, hash_to_mapping nh is d <> Panic p.
Proof.
  intros Hs Hn Hi Hd p E. destruct (mapping_C09_total f h_count dom nh is d Hs Hn Hi Hd) as (m & Em). congruence.
Qed.

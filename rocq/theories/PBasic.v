(** * Properties C01-C10: codec, utilities, hashing.
    Statements only; each proof is one lemma.  [md] ranges over both overflow modes. *)
From Verif Require Import MBase MUtils MCodec MHash PfCodec PfUtils PfHash LBasic.
From Coq Require Import Permutation.

(** C01.  For a plaintext modulus 2^k, every plaintext survives every error in [-delta/2, delta/2)
    added modulo 2^64, and does not survive the error delta/2. *)
Theorem C01_decode_removes_error : forall md k, 1 <= k <= 63 ->
  exists c, codec_new md (2 ^ k) = Ok c /\
  forall x, 0 <= x < 2 ^ k ->
  exists y, encode md c x = Ok y /\
    (forall e, - 2 ^ (64 - k) <= 2 * e < 2 ^ (64 - k) -> decode md c ((y + e) mod 2 ^ 64) = Ok x) /\
    decode md c ((y + 2 ^ (64 - k) / 2) mod 2 ^ 64) <> Ok x.
Proof. exact codec_C01. Qed.
Print Assumptions C01_decode_removes_error.

(** In terms of the threshold the API reports: exactly the errors in [-largest_error, largest_error). *)
Theorem C01_largest_error : forall md k c, 1 <= k <= 63 -> codec_new md (2 ^ k) = Ok c ->
  forall x, 0 <= x < 2 ^ k -> exists y, encode md c x = Ok y /\
    (forall e, - largest_error c <= e < largest_error c -> decode md c ((y + e) mod 2 ^ 64) = Ok x) /\
    decode md c ((y + largest_error c) mod 2 ^ 64) <> Ok x.
Proof.
  intros md k c Hk Hc x Hx. destruct (codec_C01 md k Hk) as (c' & Hc' & H). rewrite Hc in Hc'. injection Hc' as <-.
  destruct (codec_C02_encode md k c Hk Hc) as (_ & _ & Hd & Hl & _). assert (cd_delta c = 2 ^ (64 - k)) as Ed.
  { assert (2 ^ k * 2 ^ (64 - k) = 2 ^ 64) as E by (rewrite <- Z.pow_add_r by lia; f_equal; lia).
    assert (0 < 2 ^ k) by (apply Z.pow_pos_nonneg; lia). nia. }
  destruct (H x Hx) as (y & Ey & H1 & H2). exists y. split; [exact Ey|]. rewrite <- Ed in *. split.
  - intros e He. apply H1. lia.
  - replace (cd_delta c / 2) with (largest_error c) in H2; [exact H2|]. rewrite <- Hl, Z.mul_comm, Z.div_mul by lia. reflexivity.
Qed.
Print Assumptions C01_largest_error.

Theorem C01_poly_decode_removes_error : forall md k, 1 <= k <= 63 ->
  exists c, codec_new md (2 ^ k) = Ok c /\
  forall xs es, Forall (fun x => 0 <= x < 2 ^ k) xs -> length es = length xs ->
  Forall (fun e => - 2 ^ (64 - k) <= 2 * e < 2 ^ (64 - k)) es ->
  exists ys, poly_encode md c xs = Ok ys /\
    poly_decode md c (map (fun '(y, e) => (y + e) mod 2 ^ 64) (combine ys es)) = Ok xs.
Proof. exact codec_C01_poly. Qed.
Print Assumptions C01_poly_decode_removes_error.

Example C01_nonvacuous :
  (exists c, codec_new Checked 256 = Ok c /\ encode Checked c 200 = Ok (200 * 2 ^ 56) /\
     decode Checked c (200 * 2 ^ 56 - 2 ^ 55) = Ok 200 /\ decode Checked c (200 * 2 ^ 56 + 2 ^ 55) = Ok 201).
Proof. exists {| cd_base_log := 8; cd_delta := 2 ^ 56 |}. repeat split; vm_compute; reflexivity. Qed.

(** C02.  What the codec accepts. *)
Theorem C02_new_requires_power_of_two : forall md t, 0 <= t < 2 ^ 64 ->
  ((exists k, 0 <= k /\ t = 2 ^ k) -> t <> 1 -> exists c, codec_new md t = Ok c) /\
  (~ (exists k, 0 <= k /\ t = 2 ^ k) -> codec_new md t = Panic PExplicit).
Proof. exact codec_C02_new. Qed.
Print Assumptions C02_new_requires_power_of_two.

Theorem C02_encode_range : forall md k c, 1 <= k <= 63 -> codec_new md (2 ^ k) = Ok c ->
  pt_modulus md c = Ok (2 ^ k) /\ pt_modulus_bits c = k /\ 2 ^ k * cd_delta c = 2 ^ 64 /\
  2 * largest_error c = cd_delta c /\
  (forall x, 0 <= x < 2 ^ k -> encode md c x = Ok (x * cd_delta c) /\ x * cd_delta c < 2 ^ 64) /\
  (forall x, 2 ^ k <= x -> encode md c x = Panic PExplicit).
Proof. exact codec_C02_encode. Qed.
Print Assumptions C02_encode_range.

(** t = 1 passes the power-of-two test but is not usable. *)
Theorem C02_modulus_one :
  codec_new Checked 1 = Panic POverflow /\
  exists c, codec_new Wrapping 1 = Ok c /\ encode Wrapping c 0 = Ok 0 /\
    forall e, 0 < e < 2 ^ 63 -> decode Wrapping c ((0 + e) mod 2 ^ 64) = Ok e.
Proof. exact codec_C02_one. Qed.
Print Assumptions C02_modulus_one.

(** C03.  Ternary codec: exact error window of every symbol, error cases, totality. *)
Theorem C03_ternary_window : forall md x e, (x = 0 \/ x = 1 \/ x = 2 ^ 64 - 1) -> - 2 ^ 63 <= e < 2 ^ 63 ->
  exists y, ternary_encode md x = Ok y /\ 0 <= y < 2 ^ 64 /\
    (ternary_decode ((y + e) mod 2 ^ 64) = x <->
     (if x =? 0 then -3074457345618258944 <= e <= 3074457345618258432
      else if x =? 1 then -3074457345618258431 <= e <= 3074457345618258943
      else -3074457345618257920 <= e <= 3074457345618258943)).
Proof. exact ternary_C03. Qed.
Print Assumptions C03_ternary_window.

Theorem C03_ternary_rejects : forall md x, x <> 0 -> x <> 1 -> x <> 2 ^ 64 - 1 ->
  ternary_encode md x = Panic PExplicit.
Proof. exact ternary_encode_bad. Qed.
Print Assumptions C03_ternary_rejects.

Theorem C03_ternary_decode_total : forall x, ternary_decode x = 0 \/ ternary_decode x = 1 \/ ternary_decode x = 2 ^ 64 - 1.
Proof. exact ternary_total. Qed.
Print Assumptions C03_ternary_decode_total.

Theorem C03_poly_ternary_roundtrip : forall md xs es,
  Forall (fun x => x = 0 \/ x = 1 \/ x = 2 ^ 64 - 1) xs -> length es = length xs ->
  Forall (fun e => -3074457345618257920 <= e <= 3074457345618257920) es ->
  exists ys, poly_ternary_encode md xs = Ok ys /\
    poly_ternary_decode (map (fun '(y, e) => (y + e) mod 2 ^ 64) (combine ys es)) = xs.
Proof. exact ternary_poly. Qed.
Print Assumptions C03_poly_ternary_roundtrip.

(** C04.  log2. *)
Theorem C04_log2_floor : forall md x, 0 < x < 2 ^ 64 ->
  exists k, ulog2 md x = Ok k /\ 0 <= k < 64 /\ 2 ^ k <= x < 2 ^ (k + 1).
Proof. exact ulog2_floor. Qed.
Print Assumptions C04_log2_floor.

Theorem C04_log2_zero : ulog2 Checked 0 = Panic POverflow /\ ulog2 Wrapping 0 = Ok (2 ^ 64 - 1).
Proof. exact ulog2_zero. Qed.
Print Assumptions C04_log2_zero.

(** C05.  transpose. *)
Theorem C05_transpose_exact : forall (T : Type) (v : list (list T)) (rows cols : nat),
  length v = rows -> (0 < rows)%nat -> (forall r, In r v -> length r = cols) ->
  exists w, transpose v = Ok w /\ length w = cols /\ (forall c, In c w -> length c = rows) /\
    forall i j, (i < rows)%nat -> (j < cols)%nat ->
      exists r c, nth_error v i = Some r /\ nth_error w j = Some c /\ nth_error c i = nth_error r j.
Proof. exact @transpose_spec. Qed.
Print Assumptions C05_transpose_exact.

Theorem C05_transpose_involutive : forall (T : Type) (v w : list (list T)) (rows cols : nat),
  length v = rows -> (0 < rows)%nat -> (0 < cols)%nat -> (forall r, In r v -> length r = cols) ->
  transpose v = Ok w -> transpose w = Ok v.
Proof. exact @transpose_involutive. Qed.
Print Assumptions C05_transpose_involutive.

Theorem C05_transpose_rejects : forall (T : Type),
  @transpose T [] = Panic PAssert /\
  forall r0 v, (exists r, In r v /\ (length r < length r0)%nat) -> @transpose T (r0 :: v) = Panic PUnwrap.
Proof. exact @transpose_panics. Qed.
Print Assumptions C05_transpose_rejects.

Theorem C05_transpose_longer_rows : forall (T : Type) (r0 : list T) v,
  (forall r, In r v -> (length r0 <= length r)%nat) ->
  exists w, transpose (r0 :: v) = Ok w /\ length w = length r0 /\
    (forall c, In c w -> length c = S (length v)) /\
    forall i j r c, nth_error (r0 :: v) i = Some r -> nth_error w j = Some c -> nth_error c i = nth_error r j.
Proof. exact @transpose_longer. Qed.
Print Assumptions C05_transpose_longer_rows.

Example C05_nonvacuous : transpose [[1; 2; 3]; [4; 5; 6]] = Ok [[1; 4]; [2; 5]; [3; 6]].
Proof. reflexivity. Qed.

(** C06.  Packing of a plaintext into a word. *)
Theorem C06_lossy_is_low_bits : forall md pt,
  (forall i, (i < 64)%nat -> nth i pt 0 = 0 \/ nth i pt 0 = 1) ->
  exists w, pt_to_lossy_u64 md pt = Ok w /\ 0 <= w < 2 ^ 64 /\
    forall i, (i < 64)%nat -> Z.testbit w (Z.of_nat i) = (nth i pt 0 =? 1).
Proof. exact lossy_ok. Qed.
Print Assumptions C06_lossy_is_low_bits.

Theorem C06_lossy_rejects_non_bits : forall md pt i,
  (i < 64)%nat -> (i < length pt)%nat -> nth i pt 0 <> 0 -> nth i pt 0 <> 1 ->
  pt_to_lossy_u64 md pt = Panic PAssert.
Proof. exact lossy_bad. Qed.
Print Assumptions C06_lossy_rejects_non_bits.

Example C06_nonvacuous : pt_to_lossy_u64 Checked [1; 0; 1; 1] = Ok 13.
Proof. reflexivity. Qed.

(** C07.  The hash family, for every outcome of the shuffle. *)
Definition is_shuffle (f : list nat -> list nat) : Prop := forall l, Permutation (f l) l.

Theorem C07_hash_bijective : forall f h_count dom nh, is_shuffle f -> nh_new f h_count dom = Ok nh ->
  (forall h x, (h < h_count)%nat -> (x < dom)%nat -> exists y, hash nh h x = Ok y /\ (y < output_domain nh)%nat) /\
  (forall h x h' x' y, (h < h_count)%nat -> (x < dom)%nat -> (h' < h_count)%nat -> (x' < dom)%nat ->
     hash nh h x = Ok y -> hash nh h' x' = Ok y -> h = h' /\ x = x') /\
  (forall y, (y < output_domain nh)%nat -> exists h x, (h < h_count)%nat /\ (x < dom)%nat /\ hash nh h x = Ok y).
Proof. exact hash_C07. Qed.
Print Assumptions C07_hash_bijective.

Theorem C07_checked_hash : forall f h_count dom nh, is_shuffle f -> nh_new f h_count dom = Ok nh ->
  forall h x,
  ((h < h_count /\ x < dom)%nat -> exists y, hash nh h x = Ok y /\ checked_hash nh h x = Ok (Some y)) /\
  (~ (h < h_count /\ x < dom)%nat -> checked_hash nh h x = Ok None).
Proof. exact checked_C07. Qed.
Print Assumptions C07_checked_hash.

Theorem C07_new_rejects_zero : forall f h_count dom,
  (h_count = 0%nat -> nh_new f h_count dom = Panic PAssert) /\
  (h_count <> 0%nat -> exists nh, nh_new f h_count dom = Ok nh).
Proof. exact new_C07. Qed.
Print Assumptions C07_new_rejects_zero.

(** The accessors hash1 / hash2 do not check [h] against [h_count]: with one hash they alias. *)
Theorem C07_hash1_alias : forall f dom nh, nh_new f 1 dom = Ok nh ->
  forall x, hash1 nh x = hash0 nh (x + 1) /\ hash2 nh x = hash0 nh (x + 2).
Proof. exact alias_C07. Qed.
Print Assumptions C07_hash1_alias.

(** C08.  Hash positions tile the database. *)
Theorem C08_tuples_tile : forall f h_count dom nh rows cols, is_shuffle f -> nh_new f h_count dom = Ok nh ->
  (rows * cols = h_count * dom)%nat ->
  (forall h x, (h < h_count)%nat -> (x < dom)%nat ->
     exists y r c, hash nh h x = Ok y /\ hash_to_tuple nh h x cols = Ok (r, c) /\
       (r < rows)%nat /\ (c < cols)%nat /\ (r * cols + c = y)%nat) /\
  (forall r c, (r < rows)%nat -> (c < cols)%nat ->
     exists h x, (h < h_count)%nat /\ (x < dom)%nat /\ hash_to_tuple nh h x cols = Ok (r, c) /\
       forall h' x', (h' < h_count)%nat -> (x' < dom)%nat -> hash_to_tuple nh h' x' cols = Ok (r, c) -> h' = h /\ x' = x).
Proof. exact tile_C08. Qed.
Print Assumptions C08_tuples_tile.

Example C07_C08_nonvacuous : exists f nh, is_shuffle f /\ nh_new f 3 4 = Ok nh /\
  hash nh 1 2 = Ok 4%nat /\ hash_to_tuple nh 1 2 2 = Ok (2, 0)%nat.
Proof. exact hash_example. Qed.

(** C09.  Batch mapping. *)
Theorem C09_mapping_sound : forall f h_count dom nh is d m, is_shuffle f -> nh_new f h_count dom = Ok nh ->
  (forall i, In i is -> (i < dom)%nat) -> (0 < d)%nat -> hash_to_mapping nh is d = Ok m ->
  NoDup (map fst m) /\
  (forall r c i, In (r, (c, i)) m -> In i is /\ exists h, (h < h_count)%nat /\ hash_to_tuple nh h i d = Ok (r, c)) /\
  (forall k v, hget m k = Some v <-> In (k, v) m).
Proof. exact mapping_C09_sound. Qed.
Print Assumptions C09_mapping_sound.

Theorem C09_mapping_total : forall f h_count dom nh is d, is_shuffle f -> nh_new f h_count dom = Ok nh ->
  (forall i, In i is -> (i < dom)%nat) -> (0 < d)%nat -> exists m, hash_to_mapping nh is d = Ok m.
Proof. exact mapping_C09_total. Qed.
Print Assumptions C09_mapping_total.

Theorem C09_mapping_once : forall f h_count dom nh is d m, is_shuffle f -> nh_new f h_count dom = Ok nh ->
  NoDup is -> (forall i, In i is -> (i < dom)%nat) -> (0 < d)%nat -> hash_to_mapping nh is d = Ok m ->
  forall r c r' c' i, In (r, (c, i)) m -> In (r', (c', i)) m -> r = r' /\ c = c'.
Proof. exact mapping_C09_once. Qed.
Print Assumptions C09_mapping_once.

Theorem C09_mapping_greedy_maximal : forall f h_count dom nh pre i post d m, is_shuffle f -> nh_new f h_count dom = Ok nh ->
  (forall j, In j (pre ++ i :: post) -> (j < dom)%nat) -> (0 < d)%nat ->
  hash_to_mapping nh (pre ++ i :: post) d = Ok m ->
  (pre = [] -> exists r c, In (r, (c, i)) m) /\
  ((forall r c, ~ In (r, (c, i)) m) ->
    forall h, (h < h_count)%nat ->
      exists r c c' j, hash_to_tuple nh h i d = Ok (r, c) /\ In (r, (c', j)) m /\ In j pre) /\
  (~ In i pre -> ~ In i post -> forall r c, In (r, (c, i)) m ->
    exists h, (h < h_count)%nat /\ hash_to_tuple nh h i d = Ok (r, c) /\
      forall h', (h' < h)%nat ->
        exists r' c' c'' j, hash_to_tuple nh h' i d = Ok (r', c') /\ In (r', (c'', j)) m /\ In j pre).
Proof. exact mapping_C09_greedy. Qed.
Print Assumptions C09_mapping_greedy_maximal.

(** C10.  Claimed by the code: "all slots are taken" panics.  It never does; the index is dropped. *)
Theorem C10_unplaceable_index_is_dropped_refuted : exists f nh m, is_shuffle f /\ nh_new f 1 4 = Ok nh /\
  hash_to_mapping nh [0; 1]%nat 2 = Ok m /\
  (forall h, (h < 1)%nat -> exists r c c', hash_to_tuple nh h 1 2 = Ok (r, c) /\ In (r, (c', 0%nat)) m) /\
  (forall r c, ~ In (r, (c, 1%nat)) m).
Proof. exact dropped_C10. Qed.
Print Assumptions C10_unplaceable_index_is_dropped_refuted.

(** More generally the mapping never panics on valid indices, whatever cannot be placed. *)
Theorem C10_mapping_never_panics_refuted : forall f h_count dom nh is d, is_shuffle f -> nh_new f h_count dom = Ok nh ->
  (forall i, In i is -> (i < dom)%nat) -> (0 < d)%nat -> forall p, hash_to_mapping nh is d <> Panic p.
Proof. exact mapping_C10_never. Qed.
Print Assumptions C10_mapping_never_panics_refuted.

(** * Model of the other unit tests of the repository: codec, hashing, trees, expansion, private evaluation, and the ORAM
    (modules [test] of src/codec.rs, naive_hash.rs, decision_tree.rs, rlwe.rs, rgsw.rs, oram.rs).
    A test is a program that panics or returns.  The context and all that is drawn are arguments; printed noises and times are left out.
    A test runs on a thread of the test harness, not on a worker of a rayon pool: hence [pool = false]. *)
From Coq Require Import String.
From Verif Require Import MBase MUtils MCodec MPoly MRlwe MLwe MHash MTree MEncTree MCtx MJson MSerde MSched MOram MMain MTests.
Local Open Scope Z_scope.

Definition assert_eq_nat (x y : nat) : res unit := rassert (x =? y)%nat.

(** ** src/codec.rs *)

(** [test_binary_encoder], src/codec.rs:122-149. *)
Definition test_binary_encoder (md : mode) : res unit :=
  codec <- codec_new md (2 ^ 1) ;;
  x <- encode md codec 0 ;; assert_eq_z x 0 ;;;
  x <- encode md codec 1 ;; assert_eq_z x (2 ^ 63) ;;;
  x <- decode md codec 10 ;; assert_eq_z x 0 ;;;
  x <- decode md codec MAXW ;; assert_eq_z x 0 ;;;
  x <- decode md codec (2 ^ 63) ;; assert_eq_z x 1.
(** One block of [test_generic_encoder]. *)
Definition generic_block (md : mode) (expected modulus : Z) : res unit :=
  codec <- codec_new md modulus ;;
  encoded <- encode md codec expected ;;
  e1 <- uadd md encoded (largest_error codec) ;; e1 <- usub md e1 1 ;;
  e2 <- usub md encoded (largest_error codec) ;; e2 <- uadd md e2 1 ;;
  decoded1 <- decode md codec e1 ;;
  decoded2 <- decode md codec e2 ;;
  assert_eq_z decoded1 expected ;;;
  assert_eq_z decoded2 expected.
(** [test_generic_encoder], src/codec.rs:152-184. *)
Definition test_generic_encoder (md : mode) : res unit :=
  generic_block md 3 4 ;;;
  generic_block md (2 ^ 6) (2 ^ 12).

(** ** src/naive_hash.rs *)

Definition assert_none (o : option nat) : res unit := match o with None => Ok tt | Some _ => Panic PAssert end.
(** [test_naive_hash], src/naive_hash.rs:96-107. *)
Definition test_naive_hash (shuffle : list nat -> list nat) : res unit :=
  let in_domain := 16%nat in
  nh <- nh_new shuffle 1 in_domain ;;
  for_each (seq 0 in_domain) (fun i => x <- hash0 nh i ;; rassert (x <? in_domain)%nat) ;;;
  o <- checked_hash nh 1 0 ;; assert_none o ;;;
  o <- checked_hash nh 0 in_domain ;; assert_none o ;;;
  ' (r, c) <- hash_to_tuple nh 0 8 2 ;;
  x <- hash nh 0 8 ;;
  assert_eq_nat x (2 * r + c).
(** [test_naive_hash_to_mapping], src/naive_hash.rs:110-119; indexing a [HashMap] panics if the key is absent. *)
Definition test_naive_hash_to_mapping (shuffle : list nat -> list nat) : res unit :=
  nh <- nh_new shuffle 1 16 ;;
  out <- hash_to_mapping nh [0%nat] 2 ;;
  assert_eq_nat (length out) 1 ;;;
  ' (r, c) <- hash_to_tuple nh 0 0 2 ;;
  match hget out r with
  | Some (c', _) => assert_eq_nat c' c
  | None => Panic PExplicit
  end.

(** ** src/decision_tree.rs *)

Definition json_tree : node :=
  Internal 1 2 4 LEQ (Some (Internal 11 22 44 GT (Some (Leaf 1)) (Some (Leaf 2)))) (Some (Leaf 3)).
Definition json_text : string :=
  "{""internal"":{""threshold"":1,""feature"":2,""index"":4,""op"":""leq"",""left"":{""internal"":{""threshold"":11,""feature"":22,""index"":44,""op"":""gt"",""left"":{""leaf"":1},""right"":{""leaf"":2}}},""right"":{""leaf"":3}}}".
(** [test_json], src/decision_tree.rs:728-748. *)
Definition test_json : res unit := rassert (String.eqb json_text (tree_to_string json_tree)).

Definition node_index (t : node) : res nat := match t with Internal _ _ ix _ _ _ => Ok ix | Leaf _ => Panic PExplicit end.
Definition unwrap_child (o : option node) : res node := match o with Some t => Ok t | None => Panic PExplicit end.
Definition left_of (t : node) : res node := match t with Internal _ _ _ _ l _ => unwrap_child l | Leaf _ => Panic PExplicit end.
Definition right_of (t : node) : res node := match t with Internal _ _ _ _ _ r => unwrap_child r | Leaf _ => Panic PExplicit end.
(** [test_clear_node], src/decision_tree.rs:751-779. *)
Definition test_clear_node : res unit :=
  let root := Internal 1 2 4 LEQ (Some (Internal 11 22 44 GT (Some (Leaf 0)) (Some default_node))) (Some (Leaf 0)) in
  ' (root, k) <- fix_index root ;;
  assert_eq_nat k 2 ;;;
  let flat := flatten root in
  for_each (seq 0 (length flat)) (fun i => x <- index flat i ;; ix <- node_index x ;; assert_eq_nat ix i) ;;;
  internal <- inner_value root ;;
  ix <- node_index internal ;; assert_eq_nat ix 0 ;;;
  l <- left_of internal ;; left <- inner_value l ;;
  ix <- node_index left ;; assert_eq_nat ix 1 ;;;
  r <- right_of left ;; right <- inner_value r ;;
  ix <- node_index right ;; assert_eq_nat ix 2.

(** The trees of the traversal tests, before [fix_index]: src/decision_tree.rs:794-813, 841-860, 879-892. *)
Definition traversal_tree_1 : node :=
  Internal 2 0 0 LEQ (Some (Internal 2 1 0 LEQ (Some (Leaf 0)) (Some (Internal 3 1 0 LEQ (Some (Leaf 10)) (Some (Leaf 0)))))) (Some (Leaf 0)).
Definition traversal_tree_2 : node :=
  Internal 2 0 0 LEQ (Some (Internal 2 1 0 LEQ (Some (Leaf 1)) (Some (Internal 1 1 0 LEQ (Some (Leaf 1)) (Some (Leaf 0)))))) (Some (Leaf 1)).
Fixpoint gen_line (d : nat) : node :=
  match d with O => Leaf 1 | S d' => Internal 10 0 0 LEQ (Some (gen_line d')) (Some (Leaf 0)) end.
(** [test_traversal_1], src/decision_tree.rs:782-826, and [test_traversal_2], 829-873; [simulate] makes its own context ([cx]) and key. *)
Definition test_traversal (fft : fftT) (cx : ctx) (s : poly) (t : tape) (tree : node) (label : nat) : res unit :=
  ' (root, k) <- fix_index tree ;;
  assert_eq_nat k 2 ;;;
  assert_eq_nat (count_leaf root) 4 ;;;
  assert_eq_nat (count_internal root) 3 ;;;
  assert_eq_nat (max_feature_index root) 1 ;;;
  let features := [2; 3]%nat in
  e <- eval root features ;;
  assert_eq_nat label e ;;;
  _ <- simulate fft cx s root [features] t ;;
  Ok tt.
Definition test_traversal_1 (fft : fftT) (cx : ctx) (s : poly) (t : tape) : res unit := test_traversal fft cx s t traversal_tree_1 10.
Definition test_traversal_2 (fft : fftT) (cx : ctx) (s : poly) (t : tape) : res unit := test_traversal fft cx s t traversal_tree_2 0.
(** [test_traversal_long], src/decision_tree.rs:876-908; two calls of [simulate], two keys. *)
Definition test_traversal_long (fft : fftT) (cx : ctx) (s1 s2 : poly) (t1 t2 : tape) : res unit :=
  ' (root, k) <- fix_index (gen_line 10) ;;
  assert_eq_nat k (10 - 1) ;;;
  e <- eval root [1%nat] ;; assert_eq_nat 1 e ;;;
  _ <- simulate fft cx s1 root [[1%nat]] t1 ;;
  e <- eval root [11%nat] ;; assert_eq_nat 0 e ;;;
  _ <- simulate fft cx s2 root [[11%nat]] t2 ;;
  Ok tt.
(** [test_depth], src/decision_tree.rs:911-915. *)
Definition test_depth : res unit :=
  assert_eq_nat (count_depth (new_with_depth 0)) 0 ;;;
  assert_eq_nat (count_depth (new_with_depth 1)) 1 ;;;
  assert_eq_nat (count_depth (new_with_depth 3)) 3.
(** [test_bitvec], src/decision_tree.rs:918-937; [view_bits::<Lsb0>] are the bits of the word, lowest first. *)
Definition test_bitvec : res unit :=
  assert_eq_z (bits_value [true]) 1 ;;;
  assert_eq_z (bits_value [false; true]) 2 ;;;
  let v_bits := map (Z.testbit 10) (map Z.of_nat (seq 0 64)) in
  b <- index v_bits 0 ;; rassert (negb b) ;;;
  b <- index v_bits 1 ;; rassert b ;;;
  b <- index v_bits 2 ;; rassert (negb b) ;;;
  b <- index v_bits 3 ;; rassert b.

(** ** src/rlwe.rs and src/rgsw.rs *)

(** [test_eval_poly], src/rlwe.rs:1496-1510. *)
Definition test_eval_poly : res unit :=
  let p := [0; 1; 2; 3] in
  out <- eval_x_k p 3 ;; assert_eq_pt out [0; 3; MAXW - 1; 1] ;;;
  out <- eval_x_k p 5 ;; assert_eq_pt out [0; MAXW; 2; MAXW - 2].
(** One block of [test_expand]: [tern] and [t] are what [make_decomposed_rlwe_ct] draws. *)
Definition expand_block (fft : fftT) (cx : ctx) (sk : poly) (neg_sk_ct : rgsw) (ksk : ksk_map) (test_ct : rlwe) (bit : Z) (expected : poly)
    (tern : nat -> poly) (t : tape) : res unit :=
  cts <- make_decomposed_rlwe_ct cx sk bit tern t ;;
  gsw_ct <- expand fft cx ksk neg_sk_ct cts ;;
  let lwe_ct := external_product fft gsw_ct (rlwe_allocate (c_n cx)) test_ct in
  pt <- decrypt_decode_rlwe cx sk lwe_ct ;;
  assert_eq_pt expected pt.
(** [test_expand], src/rlwe.rs:1726-1819. *)
Definition test_expand (fft : fftT) (cx : ctx) (sk test_pt : poly) (tn tk : tape) (d : draw) (tern1 tern0 : nat -> poly) (t1 t0 : tape) : res unit :=
  neg_sk_ct <- neg_gsw cx sk tn ;;
  ksk <- gen_all_subs_ksk cx sk tk ;;
  test_ct <- encode_encrypt_rlwe cx sk test_pt d ;;
  expand_block fft cx sk neg_sk_ct ksk test_ct 1 test_pt tern1 t1 ;;;
  expand_block fft cx sk neg_sk_ct ksk test_ct 0 (poly_zero (plaintext_count cx)) tern0 t0.
(** [test_expand_slow], src/rlwe.rs:2011-2055. *)
Definition test_expand_slow (fft : fftT) (cx : ctx) (lwe_sk : list Z) (tn tk : tape) (d : draw) (tern : nat -> poly) (t : tape) : res unit :=
  let rlwe_sk := to_rlwe_sk lwe_sk in
  neg_sk_ct <- neg_gsw cx rlwe_sk tn ;;
  ksks <- fill_with_keyswitching_key cx lwe_sk tk ;;
  test_pt <- gen_unit_pt cx ;;
  test_ct <- encode_encrypt_rlwe cx rlwe_sk test_pt d ;;
  cts <- make_decomposed_rlwe_ct2 cx rlwe_sk 1 tern t ;;
  actual_rgsw <- expand_slow fft cx ksks neg_sk_ct cts ;;
  let actual_rlwe := external_product fft actual_rgsw (rlwe_allocate (c_n cx)) test_ct in
  pt <- decrypt_decode_rlwe cx rlwe_sk actual_rlwe ;;
  assert_eq_pt test_pt pt.
(** [test_rgsw_shape], src/rgsw.rs:305-348, prints and counts the two rows of every level of an RGSW ciphertext; a ciphertext is a list of
    [2 * level] rows here, so the model counts pairs. *)
Fixpoint pairs_of {A} (l : list A) : nat := match l with _ :: _ :: l' => S (pairs_of l') | _ => O end.
Definition test_rgsw_shape (cx : ctx) (sk : poly) (t : tape) : res unit :=
  let rgsw_ct := encrypt_constant_rgsw (c_n cx) sk (c_base cx) (c_level cx) 1 t in
  assert_eq_nat (length (g_rows rgsw_ct)) (2 * pairs_of (g_rows rgsw_ct)) ;;;
  assert_eq_nat (pairs_of (g_rows rgsw_ct)) (c_level cx).

(** ** src/oram.rs.  [gp]: the items drawn by the setup, [t0] its randomness; the client's call number [j] draws the dummies [dm j] and the
    randomness [t j]; [new_data] is drawn by [gen_binary_pt]. *)

(** Decrypt and compare. *)
Definition check_ct (cl : client) (expected : poly) (y : rlwe) : res unit :=
  pt <- decrypt_decode_rlwe (cl_cx cl) (cl_sk cl) y ;;
  assert_eq_pt expected pt.

(** [test_oram], src/oram.rs:695-734. *)
Definition test_oram (fft : fftT) (cx : ctx) (shuffle : list nat -> list nat) (sk : poly) (gp : nat -> poly) (t0 : tape)
    (dm : nat -> nat -> poly) (t : nat -> tape) (new_data : poly) : res unit :=
  let n := 16%nat in
  hash <- nh_new shuffle 1 n ;;
  ' (cl, sv, pts) <- setup_random_oram 1 n hash cx sk gp t0 ;;
  assert_eq_nat n (length pts) ;;;
  let idx := 1%nat in
  query <- gen_read_query_one cl idx hash (dm 0%nat) (t 0%nat) ;;
  ' (y, sv) <- server_process_one false fft sv query ;;
  expected <- index pts idx ;;
  check_ct cl expected y ;;;
  write_query <- gen_write_query_one cl idx new_data hash (dm 1%nat) (t 1%nat) ;;
  ' (_, sv) <- server_process_one false fft sv write_query ;;
  read_query <- gen_read_query_one cl idx hash (dm 2%nat) (t 2%nat) ;;
  ' (y, sv) <- server_process_one false fft sv read_query ;;
  check_ct cl new_data y.
(** [test_oram_more], src/oram.rs:737-761. *)
Fixpoint more_loop (fft : fftT) (cl : client) (hash : nhash) (pts : list poly) (dm : nat -> nat -> poly) (t : nat -> tape) (is : list nat) (sv : server) : res unit :=
  match is with
  | [] => Ok tt
  | i :: is' =>
      query <- gen_read_query_one cl 1 hash (dm i) (t i) ;;
      ' (y, sv) <- server_process_one false fft sv query ;;
      expected <- index pts 1 ;;
      check_ct cl expected y ;;;
      more_loop fft cl hash pts dm t is' sv
  end.
Definition test_oram_more (fft : fftT) (cx : ctx) (shuffle : list nat -> list nat) (sk : poly) (gp : nat -> poly) (t0 : tape)
    (dm : nat -> nat -> poly) (t : nat -> tape) : res unit :=
  let n := (2 ^ 11)%nat in
  hash <- nh_new shuffle 1 n ;;
  ' (cl, sv, pts) <- setup_random_oram 1 n hash cx sk gp t0 ;;
  assert_eq_nat n (length pts) ;;;
  more_loop fft cl hash pts dm t (seq 0 20) sv.
(** [test_oram_multi], src/oram.rs:764-833; the client's calls of block [j] draw [dm j i] and [t j i]. *)
Definition test_oram_multi (fft : fftT) (cx : ctx) (shuffle : list nat -> list nat) (sk : poly) (gp : nat -> poly) (t0 : tape)
    (dm : nat -> nat -> nat -> poly) (t : nat -> nat -> tape) (new_data : poly) : res unit :=
  let n := 16%nat in
  hash <- nh_new shuffle 1 n ;;
  ' (cl, sv, pts) <- setup_random_oram 1 n hash cx sk gp t0 ;;
  assert_eq_nat n (length pts) ;;;
  let idx1 := 1%nat in
  let idx2 := 2%nat in
  q1 <- gen_read_query_one cl idx1 hash (dm 0%nat 0%nat) (t 0%nat 0%nat) ;;
  q2 <- gen_read_query_one cl idx2 hash (dm 0%nat 1%nat) (t 0%nat 1%nat) ;;
  ' (ys, sv) <- server_process_multi false fft sv [q1; q2] ;;
  y <- index ys 0 ;; e1 <- index pts idx1 ;; check_ct cl e1 y ;;;
  y <- index ys 1 ;; e2 <- index pts idx2 ;; check_ct cl e2 y ;;;
  w1 <- gen_write_query_one cl idx1 new_data hash (dm 1%nat 0%nat) (t 1%nat 0%nat) ;;
  w2 <- gen_write_query_one cl idx2 new_data hash (dm 1%nat 1%nat) (t 1%nat 1%nat) ;;
  ' (_, sv) <- server_process_multi false fft sv [w1; w2] ;;
  r1 <- gen_read_query_one cl idx1 hash (dm 2%nat 0%nat) (t 2%nat 0%nat) ;;
  r2 <- gen_read_query_one cl idx2 hash (dm 2%nat 1%nat) (t 2%nat 1%nat) ;;
  ' (ys, sv) <- server_process_multi false fft sv [r1; r2] ;;
  y <- index ys 0 ;; check_ct cl new_data y ;;;
  y <- index ys 1 ;; check_ct cl new_data y.

(** The loop over the mapping of a read batch, src/oram.rs:855-867 and 928-941.  The entry of row [r] is the pair of a column and an item,
    which the test uses as a position in [indices]. *)
Definition check_rows (cl : client) (pts : list poly) (indices : list nat) (mapping : hmap) (ys : list rlwe) : res unit :=
  foldM (fun _ (e : nat * (nat * nat)) =>
    let '(r, (_, i)) := e in
    y <- index ys r ;;
    ix <- index indices i ;;
    expected <- index pts ix ;;
    check_ct cl expected y) mapping tt.
(** The loop over the mapping after a write, src/oram.rs:881-884. *)
Definition check_rows_with (cl : client) (data : poly) (mapping : hmap) (ys : list rlwe) : res unit :=
  foldM (fun _ (e : nat * (nat * nat)) => y <- index ys (fst e) ;; check_ct cl data y) mapping tt.
(** [test_oram_batch], src/oram.rs:836-899. *)
Definition test_oram_batch (fft : fftT) (cx : ctx) (shuffle : list nat -> list nat) (sk : poly) (gp : nat -> poly) (t0 : tape)
    (dm : nat -> nat -> poly) (t : nat -> tape) (new_data : poly) : res unit :=
  let n := 16%nat in
  let h_count := 4%nat in
  let rows := 8%nat in
  let cols := (h_count * n / rows)%nat in
  hash <- nh_new shuffle h_count n ;;
  ' (cl, sv, pts) <- setup_random_oram rows cols hash cx sk gp t0 ;;
  assert_eq_nat n (length pts) ;;;
  (let indices := [0; 1]%nat in
   mapping <- hash_to_mapping hash indices cols ;;
   query <- gen_read_query_batch cl indices hash (dm 0%nat) (t 0%nat) ;;
   ' (ys, sv) <- server_process_batch false fft sv query hash ;;
   check_rows cl pts indices mapping ys ;;;
   (let indices := [1; 2]%nat in
    mapping <- hash_to_mapping hash indices cols ;;
    write_query <- gen_write_query_batch cl indices new_data hash (dm 1%nat) (t 1%nat) ;;
    ' (_, sv) <- server_process_batch false fft sv write_query hash ;;
    read_query <- gen_read_query_batch cl indices hash (dm 2%nat) (t 2%nat) ;;
    ' (ys, sv) <- server_process_batch false fft sv read_query hash ;;
    check_rows_with cl new_data mapping ys ;;;
    for_each indices (fun i => for_each (seq 0 h_count) (fun h =>
      ' (r, c) <- hash_to_tuple hash h i cols ;;
      row <- index (srv_data sv) r ;;
      y <- index row c ;;
      check_ct cl new_data y)))).
(** [test_oram_batch_more], src/oram.rs:903-943. *)
Fixpoint batch_more_loop (fft : fftT) (cl : client) (hash : nhash) (pts : list poly) (cols : nat) (dm : nat -> nat -> poly) (t : nat -> tape) (is : list nat) (sv : server) : res unit :=
  match is with
  | [] => Ok tt
  | i :: is' =>
      let indices := [0; 1]%nat in
      mapping <- hash_to_mapping hash indices cols ;;
      query <- gen_read_query_batch cl indices hash (dm i) (t i) ;;
      ' (ys, sv) <- server_process_batch false fft sv query hash ;;
      check_rows cl pts indices mapping ys ;;;
      batch_more_loop fft cl hash pts cols dm t is' sv
  end.
Definition test_oram_batch_more (fft : fftT) (cx : ctx) (shuffle : list nat -> list nat) (sk : poly) (gp : nat -> poly) (t0 : tape)
    (dm : nat -> nat -> poly) (t : nat -> tape) : res unit :=
  let h_count := 3%nat in
  let rows := 3%nat in
  let cols := (2 ^ 10)%nat in
  let n := (rows * cols / h_count)%nat in
  hash <- nh_new shuffle h_count n ;;
  ' (cl, sv, pts) <- setup_random_oram rows cols hash cx sk gp t0 ;;
  assert_eq_nat n (length pts) ;;;
  batch_more_loop fft cl hash pts cols dm t (seq 0 20) sv.

(** * Model of src/oram.rs *)
From Verif Require Import MBase MUtils MCodec MPoly MRlwe MHash MTree MEncTree MParams MSched.
Local Open Scope nat_scope.

(** [Context::new], src/context.rs:75-150: the public parameters (the generators are tapes).  [usize]
    fields become [nat]. *)
Definition context_new (md : mode) (p : tfhe_params) : res ctx :=
  codec <- codec_new md (tp_plaintext_modulus p) ;;
  Ok {| c_mode := md; c_n := Z.to_nat (tp_polynomial_size p);
        c_base := Z.to_nat (tp_base_log p); c_level := Z.to_nat (tp_level_count p);
        c_ks_base := Z.to_nat (tp_ks_base_log p); c_ks_level := Z.to_nat (tp_ks_level_count p);
        c_negs_base := Z.to_nat (tp_negs_base_log p); c_negs_level := Z.to_nat (tp_negs_level_count p);
        c_codec := codec |}.

(** ** Client *)

(** [ClientQuery], src/oram.rs:44-48 ([EncOP] is a wrapper around an RGSW ciphertext, line 36). *)
Record query := { q_a : list rgsw; q_op : rgsw; q_data : rlwe }.
(** [into_rw_flag], src/oram.rs:53-55. *)
Definition into_rw_flag (q : query) : rgsw := q_op q.
(** [OP], src/oram.rs:38-41. *)
Inductive op : Set := READ | WRITE.

(** [Client], src/oram.rs:59-64. *)
Record client := { cl_sk : poly; cl_cx : ctx; cl_rows : nat; cl_cols : nat }.
(** [Client::new], src/oram.rs:70-79; [sk] is the key [gen_rlwe_sk] draws (src/context.rs:231-233). *)
Definition client_new (rows cols : nat) (cx : ctx) (sk : poly) : client :=
  {| cl_sk := sk; cl_cx := cx; cl_rows := rows; cl_cols := cols |}.
(** [gen_neg_sk], src/oram.rs:82-84. *)
Definition gen_neg_sk (cl : client) (t : tape) : res rgsw := neg_gsw (cl_cx cl) (cl_sk cl) t.

(** [db[r][c]] and [db[r][c] = v] on a [Vec<Vec<_>>]. *)
Definition get_cell (db : mem) (r c : nat) : res rlwe :=
  match mget db r c with Some v => Ok v | None => Panic PIndex end.
Definition set_cell (db : mem) (r c : nat) (v : rlwe) : res mem :=
  match mget db r c with Some _ => Ok (mset db r c v) | None => Panic PIndex end.

Definition UNIQUE_LIMIT : nat := 128.
(** First loop of [gen_dummy_database], src/oram.rs:105-116; [gp i] is the plaintext [gen_pt] draws,
    [t i] the randomness of its encryption. *)
Definition dummy_unique (cl : client) (nh : nhash) (gp : nat -> poly) (t : tape) (db : mem) (i : nat) : res mem :=
  ' (first_r, first_c) <- hash_to_tuple nh 0 i (cl_cols cl) ;;
  rassert ((first_r <? cl_rows cl) && (first_c <? cl_cols cl)) ;;;
  _ <- get_cell db first_r first_c ;;
  ct <- encode_encrypt_rlwe (cl_cx cl) (cl_sk cl) (gp i) (t i) ;;
  set_cell db first_r first_c ct.
(** Second loop, src/oram.rs:117-126. *)
Definition dummy_rest (cl : client) (nh : nhash) (pts : list poly) (acc : mem * list poly) (i : nat) : res (mem * list poly) :=
  let '(db, rest) := acc in
  item <- index pts (i mod UNIQUE_LIMIT) ;;
  ' (orig_first_r, orig_first_c) <- hash_to_tuple nh 0 (i mod UNIQUE_LIMIT) (cl_cols cl) ;;
  ' (first_r, first_c) <- hash_to_tuple nh 0 i (cl_cols cl) ;;
  v <- get_cell db orig_first_r orig_first_c ;;
  db' <- set_cell db first_r first_c v ;;
  Ok (db', rest ++ [item]).
(** Third loop, src/oram.rs:130-138. *)
Definition dummy_copy (cl : client) (nh : nhash) (i : nat) (db : mem) (h : nat) : res mem :=
  ' (first_r, first_c) <- hash_to_tuple nh 0 i (cl_cols cl) ;;
  ' (r, c) <- hash_to_tuple nh h i (cl_cols cl) ;;
  rassert ((r <? cl_rows cl) && (c <? cl_cols cl)) ;;;
  v <- get_cell db first_r first_c ;;
  set_cell db r c v.
Definition dummy_copies (cl : client) (nh : nhash) (db : mem) (i : nat) : res mem :=
  foldM (dummy_copy cl nh i) (seq 1 (nh_h_count nh - 1)) db.
(** [gen_dummy_database], src/oram.rs:87-141. *)
Definition gen_dummy_database (cl : client) (nh : nhash) (gp : nat -> poly) (t : tape) : res (list poly * mem) :=
  if nh_h_count nh =? 0 then Panic PDivZero else
  let item_count := cl_rows cl * cl_cols cl / nh_h_count nh in
  let db := repeat (repeat (rlwe_allocate (c_n (cl_cx cl))) (cl_cols cl)) (cl_rows cl) in
  let unique_count := if item_count <? UNIQUE_LIMIT then item_count else UNIQUE_LIMIT in
  db <- foldM (dummy_unique cl nh gp t) (seq 0 unique_count) db ;;
  let pts := map gp (seq 0 unique_count) in
  ' (db, rest) <- foldM (dummy_rest cl nh pts) (seq unique_count (item_count - unique_count)) (db, []) ;;
  db <- foldM (dummy_copies cl nh) (seq 0 item_count) db ;;
  Ok (pts ++ rest, db).

(** [gen_enc_op], src/oram.rs:143-153. *)
Definition gen_enc_op (cl : client) (o : op) (t : tape) : rgsw :=
  encrypt_constant_rgsw (c_n (cl_cx cl)) (cl_sk cl) (c_base (cl_cx cl)) (c_level (cl_cx cl))
    (match o with READ => 0%Z | WRITE => 1%Z end) t.
(** [enc_data_rlwe], src/oram.rs:155-159. *)
Definition enc_data_rlwe (cl : client) (alpha : poly) (d : draw) : res rlwe :=
  encode_encrypt_rlwe (cl_cx cl) (cl_sk cl) alpha d.
(** [make_read_query], src/oram.rs:161-171; [dummy] is the plaintext [gen_binary_pt] draws.  Randomness:
    sub-tape 0 for the index, 1 for the operation, first draw of 2 for the data. *)
Definition make_read_query (cl : client) (i : nat) (dummy : poly) (t : tape) : res query :=
  a <- bit_decomposed_rgsw (cl_cx cl) (cl_sk cl) i (cl_cols cl) (split t 0) ;;
  data <- enc_data_rlwe cl dummy (split t 2 0) ;;
  Ok {| q_a := a; q_op := gen_enc_op cl READ (split t 1); q_data := data |}.
(** [make_write_query], src/oram.rs:193-201. *)
Definition make_write_query (cl : client) (i : nat) (alpha : poly) (t : tape) : res query :=
  a <- bit_decomposed_rgsw (cl_cx cl) (cl_sk cl) i (cl_cols cl) (split t 0) ;;
  data <- enc_data_rlwe cl alpha (split t 2 0) ;;
  Ok {| q_a := a; q_op := gen_enc_op cl WRITE (split t 1); q_data := data |}.
(** [gen_read_query_batch], src/oram.rs:179-191; row [r] uses sub-tape [r] and dummy data [dm r]. *)
Definition gen_read_query_batch (cl : client) (indices : list nat) (nh : nhash) (dm : nat -> poly) (t : tape) : res (list query) :=
  mapping <- hash_to_mapping nh indices (cl_cols cl) ;;
  mapM (fun r => match hget mapping r with
                 | Some c => make_read_query cl (fst c) (dm r) (split t r)
                 | None => make_read_query cl 0 (dm r) (split t r)
                 end) (seq 0 (cl_rows cl)).
(** [gen_write_query_batch], src/oram.rs:214-228. *)
Definition gen_write_query_batch (cl : client) (indices : list nat) (alpha : poly) (nh : nhash) (dm : nat -> poly) (t : tape) : res (list query) :=
  mapping <- hash_to_mapping nh indices (cl_cols cl) ;;
  mapM (fun r => match hget mapping r with
                 | Some c => make_write_query cl (fst c) alpha (split t r)
                 | None => make_read_query cl 0 (dm r) (split t r)
                 end) (seq 0 (cl_rows cl)).
(** [Vec::remove(0)]: panics on an empty vector. *)
Definition remove0 {A} (l : list A) : res A := match l with x :: _ => Ok x | [] => Panic PIndex end.
(** [gen_read_query_one], src/oram.rs:174-176, and [gen_write_query_one], 204-211. *)
Definition gen_read_query_one (cl : client) (i : nat) (nh : nhash) (dm : nat -> poly) (t : tape) : res query :=
  qs <- gen_read_query_batch cl [i] nh dm t ;; remove0 qs.
Definition gen_write_query_one (cl : client) (i : nat) (alpha : poly) (nh : nhash) (dm : nat -> poly) (t : tape) : res query :=
  qs <- gen_write_query_batch cl [i] alpha nh dm t ;; remove0 qs.

(** ** Server *)

(** Statements.  Guards live to the end of the statement; arguments are evaluated left to right, so the
    row guard is taken before the buffer guard and released after it. *)
(** [.. &data.clone().read().unwrap()[c], .., &mut buf.pool[tid].clone().lock().unwrap()]: read a cell
    with the buffer locked (e.g. src/oram.rs:281-285). *)
Definition cell_buf (r c : nat) : prog rlwe :=
  PLock (LRead r) (PLoad r c (fun v => PLock LBuf (PUnlock LBuf (PUnlock (LRead r) (PRet v))))).
(** Only the buffer (e.g. src/oram.rs:272-277). *)
Definition buf_only : prog unit := PLock LBuf (PUnlock LBuf (PRet tt)).
(** A cell without the buffer (src/oram.rs:657). *)
Definition cell_only (r c : nat) : prog rlwe :=
  PLock (LRead r) (PLoad r c (fun v => PUnlock (LRead r) (PRet v))).
(** [data.read().unwrap().len()] (src/oram.rs:267, 333, 362, 395, 445). *)
Definition row_len (r : nat) : prog nat :=
  PLock (LRead r) (PLen r (fun x => PUnlock (LRead r) (PRet x))).
(** [data.clone().write().unwrap()[c].fill_with_copy(&v)] or [.. = v] (src/oram.rs:330, 413, 535, 578). *)
Definition put (r c : nat) (v : rlwe) : prog unit :=
  PLock (LWrite r) (PStore r c v (PUnlock (LWrite r) (PRet tt))).

(** [rw], src/oram.rs:231-241, on the cell's content [b]. *)
Definition rw (fft : fftT) (o : rgsw) (a b : rlwe) : res rlwe := cmux fft o b a.

(** The demultiplexing of one level, src/oram.rs:251-260 and 352-360. *)
Definition level_task (fft : fftT) (cx : ctx) (q : query) (level : nat) : prog (list rlwe) :=
  _ <-- buf_only ;;;
  plift (
    shift <- usub (c_mode cx) 64 (Z.of_nat (c_base cx * level)) ;;
    x <- ushl (c_mode cx) 1 shift ;;
    let c := {| mask := poly_zero (c_n cx); body := upd (poly_zero (c_n cx)) 0 x |} in
    tmp <- demux_with fft cx c (q_a q) ;;
    rassert (length tmp =? 2 ^ length (q_a q)) ;;;
    Ok tmp).
(** The closure [g] of [process_one_mt], src/oram.rs:270-288, for row [r], column [j]. *)
Definition select_task (fft : fftT) (cx : ctx) (neg_s : rgsw) (decomposed_l : list (list rlwe)) (r j : nat) : prog (rlwe * rgsw) :=
  _ <-- buf_only ;;;
  l <-- plift (d <- index decomposed_l j ;; decomposed_rlwe_to_rgsw fft cx d neg_s) ;;;
  v <-- cell_buf r j ;;;
  PRet (external_product fft l (rlwe_allocate (c_n cx)) v, l).
(** [rayon::current_thread_index().unwrap()], the first statement of every closure that runs in parallel
    (src/oram.rs:252, 271, 313, 351, 394, 473, 527, 634): it panics if the thread is not a worker of a
    rayon pool.  Cargo.lock pins rayon 1.8.0, which runs a parallel loop with exactly one element on the
    calling thread and splits every longer one over the workers of the pool ([LengthSplitter::try_split]);
    so with [pool] = "the caller is itself a worker", the closures of a loop of [n] elements run on
    workers iff [pool] or [n <> 1].  (In the loops below the zipped vectors have the stated length.) *)
Definition on_worker (pool : bool) (n : nat) : bool := pool || negb (n =? 1).
Definition tid {A B} (worker : bool) (f : A -> prog B) : A -> prog B :=
  if worker then f else fun _ => PFail PUnwrap.
(** [process_one_mt], src/oram.rs:244-302. *)
Definition process_one_mt (pool : bool) (fft : fftT) (cx : ctx) (neg_s : rgsw) (q : query) (r : nat) : sprog (rlwe * list rgsw) :=
  demux_res <== spar (map (tid (on_worker pool (c_level cx)) (level_task fft cx q)) (seq 1 (c_level cx))) ;;;
  decomposed_l <== slift (transpose demux_res) ;;;
  cols <== sone (row_len r) ;;;
  _ <== slift (rassert (length decomposed_l =? cols)) ;;;
  rs <== spar (map (tid (on_worker pool cols) (select_task fft cx neg_s decomposed_l r)) (seq 0 cols)) ;;;
  t <== sreduce cols ;;;
  let y := fst (reduce rlwe_add (rlwe_allocate (c_n cx)) t (map fst rs)) in
  SRet (y, map snd rs).

(** The closure [g] of [update_db_mt], src/oram.rs:312-331, and the loop body of [update_db_st],
    src/oram.rs:396-414. *)
Definition update_task (fft : fftT) (cx : ctx) (q : query) (r : nat) (jl : nat * rgsw) : prog unit :=
  v <-- cell_buf r (fst jl) ;;;
  tmp <-- plift (rw fft (q_op q) (q_data q) v) ;;;
  v' <-- cell_buf r (fst jl) ;;;
  new_data <-- plift (cmux fft (snd jl) v' tmp) ;;;
  put r (fst jl) new_data.
(** [update_db_mt], src/oram.rs:305-337. *)
Definition update_db_mt (pool : bool) (fft : fftT) (cx : ctx) (q : query) (r : nat) (ls : list rgsw) : sprog unit :=
  cols <== sone (row_len r) ;;;
  _ <== spar (map (tid (on_worker pool cols) (update_task fft cx q r)) (combine (seq 0 cols) ls)) ;;;
  SRet tt.

(** Loop body of [process_one_st], src/oram.rs:369-383; the state is [y] and the filled part of [ls]. *)
Definition select_step (fft : fftT) (cx : ctx) (neg_s : rgsw) (decomposed_l : list (list rlwe)) (r : nat)
    (acc : rlwe * list rgsw) (j : nat) : prog (rlwe * list rgsw) :=
  _ <-- buf_only ;;;
  l <-- plift (d <- index decomposed_l j ;; decomposed_rlwe_to_rgsw fft cx d neg_s) ;;;
  v <-- cell_buf r j ;;;
  PRet (external_product fft l (fst acc) v, snd acc ++ [l]).
(** [process_one_st], src/oram.rs:343-385. *)
Definition process_one_st (fft : fftT) (cx : ctx) (neg_s : rgsw) (q : query) (r : nat) : prog (rlwe * list rgsw) :=
  demux_res <-- pmapM (level_task fft cx q) (seq 1 (c_level cx)) ;;;
  cols <-- row_len r ;;;
  decomposed_l <-- plift (transpose demux_res) ;;;
  _ <-- plift (rassert (length decomposed_l =? cols)) ;;;
  pfoldM (select_step fft cx neg_s decomposed_l r) (seq 0 cols) (rlwe_allocate (c_n cx), []).
(** [update_db_st], src/oram.rs:387-415 ([ls[j]] panics if [ls] is too short). *)
Definition update_db_st (fft : fftT) (cx : ctx) (q : query) (r : nat) (ls : list rgsw) : prog unit :=
  cols <-- row_len r ;;;
  _ <-- pmapM (fun j => l <-- plift (index ls j) ;;; update_task fft cx q r (j, l)) (seq 0 cols) ;;;
  PRet tt.

(** [process_one], src/oram.rs:449-456 (without the timing); [self.data[0]] panics without rows, here in
    the first access to row 0. *)
Definition process_one (pool : bool) (fft : fftT) (cx : ctx) (neg_s : rgsw) (q : query) : sprog rlwe :=
  yls <== process_one_mt pool fft cx neg_s q 0 ;;;
  _ <== update_db_mt pool fft cx q 0 (snd yls) ;;;
  SRet (fst yls).

(** Componentwise [update_with_add] of vectors, src/oram.rs:495-500 and 514-519 (all of length cols). *)
Definition rlwe_vec_add (xs ys : list rlwe) : list rlwe := map2 rlwe_add xs ys.
Definition rgsw_vec_add (xs ys : list rgsw) : list rgsw := map2 rgsw_add xs ys.
(** The closure of src/oram.rs:472-491. *)
Definition rw_task (fft : fftT) (cx : ctx) (cols : nat) (ql : query * list rgsw) : prog (list rlwe) :=
  pmapM (fun j =>
    v <-- cell_buf 0 j ;;;
    tmp <-- plift (rw fft (q_op (fst ql)) (q_data (fst ql)) v) ;;;
    _ <-- buf_only ;;;
    l <-- plift (index (snd ql) j) ;;;
    PRet (external_product fft l (rlwe_allocate (c_n cx)) tmp)) (seq 0 cols).
(** The closure of src/oram.rs:526-536. *)
Definition merge_task (fft : fftT) (sumed_ls : list rgsw) (sumed_tmps : list rlwe) (j : nat) : prog unit :=
  v <-- cell_buf 0 j ;;;
  new_data <-- plift (l <- index sumed_ls j ;; tmp <- index sumed_tmps j ;; cmux fft l v tmp) ;;;
  put 0 j new_data.
(** [process_multi], src/oram.rs:459-539. *)
Definition process_multi (pool : bool) (fft : fftT) (cx : ctx) (neg_s : rgsw) (queries : list query) : sprog (list rlwe) :=
  cols <== sone (row_len 0) ;;;
  yls <== spar (map (tid (on_worker pool (length queries)) (fun q => process_one_st fft cx neg_s q 0)) queries) ;;;
  let ls := map snd yls in
  tmps <== spar (map (tid (on_worker pool (length queries)) (rw_task fft cx cols)) (combine queries ls)) ;;;
  t1 <== sreduce (length tmps) ;;;
  let sumed_tmps := fst (reduce rlwe_vec_add (repeat (rlwe_allocate (c_n cx)) cols) t1 tmps) in
  t2 <== sreduce (length ls) ;;;
  let sumed_ls := fst (reduce rgsw_vec_add (repeat (rgsw_allocate (c_n cx) (c_base cx) (c_level cx)) cols) t2 ls) in
  _ <== spar (map (tid (on_worker pool cols) (merge_task fft sumed_ls sumed_tmps)) (seq 0 cols)) ;;;
  SRet (map fst yls).

(** [l.external_product(flag.external_product(cell))], the two statements of src/oram.rs:640-652 and
    665-677. *)
Definition masked (fft : fftT) (cx : ctx) (ls : list (list rgsw)) (rw_flags : list rgsw) (pos cell : nat * nat) : prog rlwe :=
  v <-- cell_buf (fst cell) (snd cell) ;;;
  flag <-- plift (index rw_flags (fst pos)) ;;;
  let tmp := external_product fft flag (rlwe_allocate (c_n cx)) v in
  _ <-- buf_only ;;;
  l <-- plift (row <- index ls (fst pos) ;; index row (snd pos)) ;;;
  PRet (external_product fft l (rlwe_allocate (c_n cx)) tmp).
(** [correct_consistency], src/oram.rs:626-687. *)
Definition correct_consistency (fft : fftT) (cx : ctx) (positions : list (nat * nat)) (ls : list (list rgsw)) (rw_flags : list rgsw) : prog rlwe :=
  first <-- plift (index positions 0) ;;;
  v1s <-- pmapM (fun pos => masked fft cx ls rw_flags pos first) positions ;;;
  v_first <-- cell_only (fst first) (snd first) ;;;
  let first_term := fold_left rlwe_sub v1s v_first in
  start <-- plift (index v1s 0) ;;;
  second_term <-- pfoldM (fun acc pos => term <-- masked fft cx ls rw_flags pos pos ;;; PRet (rlwe_add acc term))
                         (skipn 1 positions) start ;;;
  PRet (rlwe_add second_term first_term).
(** The closure of src/oram.rs:571-580; [self.cols()] locks row 0 every time.  Here the thread index is
    asked for at the start of [correct_consistency]. *)
Definition consistency_task (worker : bool) (fft : fftT) (cx : ctx) (nh : nhash) (ls : list (list rgsw)) (rw_flags : list rgsw) (i : nat) : prog unit :=
  positions <-- pmapM (fun h => cols <-- row_len 0 ;;; plift (hash_to_tuple nh h i cols)) (seq 0 (nh_h_count nh)) ;;;
  new_data <-- (if worker then correct_consistency fft cx positions ls rw_flags else PFail PUnwrap) ;;;
  _ <-- pmapM (fun rc => put (fst rc) (snd rc) new_data) positions ;;;
  PRet tt.
(** [process_batch], src/oram.rs:542-582; [rows] is [self.rows()], the number of rows of the database. *)
Definition process_batch (pool : bool) (fft : fftT) (cx : ctx) (neg_s : rgsw) (rows : nat) (queries : list query) (nh : nhash) : sprog (list rlwe) :=
  _ <== slift (rassert (length queries =? rows)) ;;;
  yls <== spar (map (tid (on_worker pool rows)
                         (fun qr => process_one_st fft cx neg_s (fst qr) (snd qr))) (combine queries (seq 0 rows))) ;;;
  let ls := map snd yls in
  _ <== spar (map (tid (on_worker pool rows)
                       (fun lqr => update_db_st fft cx (snd (fst lqr)) (snd lqr) (fst (fst lqr))))
                  (combine (combine ls queries) (seq 0 rows))) ;;;
  let rw_flags := map into_rw_flag queries in
  cols <== sone (row_len 0) ;;;
  if nh_h_count nh =? 0 then SFail PDivZero else
  let item_count := rows * cols / nh_h_count nh in
  _ <== spar (map (consistency_task (on_worker pool item_count) fft cx nh ls rw_flags) (seq 0 item_count)) ;;;
  SRet (map fst yls).

(** [Server], src/oram.rs:417-421, [new], 425-438, [rows], 440-442. *)
Record server := { srv_data : mem; srv_neg : rgsw; srv_cx : ctx }.
Definition server_new (data : mem) (neg_s : rgsw) (cx : ctx) : server :=
  {| srv_data := data; srv_neg := neg_s; srv_cx := cx |}.
Definition srv_rows (sv : server) : nat := length (srv_data sv).

(** The public operations with their effect on the server, in the deterministic order. *)
Definition with_server {A} (sv : server) (p : sprog A) : res (A * server) :=
  match srun p (srv_data sv) with
  | (Ok a, m) => Ok (a, {| srv_data := m; srv_neg := srv_neg sv; srv_cx := srv_cx sv |})
  | (Panic e, _) => Panic e
  end.
Definition server_process_one (pool : bool) (fft : fftT) (sv : server) (q : query) : res (rlwe * server) :=
  with_server sv (process_one pool fft (srv_cx sv) (srv_neg sv) q).
Definition server_process_multi (pool : bool) (fft : fftT) (sv : server) (qs : list query) : res (list rlwe * server) :=
  with_server sv (process_multi pool fft (srv_cx sv) (srv_neg sv) qs).
Definition server_process_batch (pool : bool) (fft : fftT) (sv : server) (qs : list query) (nh : nhash) : res (list rlwe * server) :=
  with_server sv (process_batch pool fft (srv_cx sv) (srv_neg sv) (srv_rows sv) qs nh).

(** [decrypt_db], src/oram.rs:587-603. *)
Definition decrypt_db (sv : server) (sk : poly) : res (list (list Z)) :=
  mapM (mapM (fun v => pt <- decrypt_decode_rlwe (srv_cx sv) sk v ;; pt_to_lossy_u64 (c_mode (srv_cx sv)) pt)) (srv_data sv).

(** [setup_random_oram], src/oram.rs:607-622.  [sk]: the key drawn; sub-tape 0 for the encryption of -s,
    1 for the database. *)
Definition setup_random_oram (rows cols : nat) (nh : nhash) (cx : ctx) (sk : poly) (gp : nat -> poly) (t : tape)
    : res (client * server * list poly) :=
  rassert (rows * cols =? nh_input_domain nh * nh_h_count nh) ;;;
  let cl := client_new rows cols cx sk in
  neg_sk_ct <- gen_neg_sk cl (split t 0) ;;
  ' (plain, data) <- gen_dummy_database cl nh gp (split t 1) ;;
  Ok (cl, server_new data neg_sk_ct cx, plain).

(** * Model of the homomorphic part of src/decision_tree.rs *)
From Verif Require Import MBase MUtils MCodec MPoly MRlwe MTree.
Local Open Scope Z_scope.

(** ** Comparison, src/decision_tree.rs:328-352 *)

(** The closure applied to one flattened node; [fill_with_copy] makes the copy.  The iterator type only
    contains [Internal] nodes, so the case of a leaf does not exist in the code. *)
Definition compare_node (fft : fftT) (cx : ctx) (m : ksk_map) (neg_s : rgsw) (client_cts : list (list rlwe))
    (nd : node) : res rgsw :=
  match nd with
  | Leaf _ => Panic PExplicit
  | Internal threshold feature _ op _ _ =>
      src <- index client_cts feature ;;
      cts <- mapM (fun c =>
        let ct := rlwe_fill_with_copy (rlwe_allocate (c_n cx)) c in
        match op with
        | LEQ => less_eq_than (c_n cx) fft ct threshold
        | GT => Panic PTodo
        end) src ;;
      expand_fourier fft cx m neg_s cts
  end.
(** [compare_expand], src/decision_tree.rs:330-352.  The code returns a lazy iterator; its only consumer
    [EncNode::new] pulls every element, in order. *)
Definition compare_expand (fft : fftT) (cx : ctx) (flat_nodes : list node) (client_cts : list (list rlwe))
    (neg_s : rgsw) (m : ksk_map) : res (list rgsw) :=
  mapM (compare_node fft cx m neg_s client_cts) flat_nodes.

(** ** Evaluation *)

(** [x.view_bits::<Lsb0>()] for a [usize]: 64 bits, least significant first. *)
Definition bits64 (x : nat) : list bool := map (Nat.testbit x) (seq 0 64).

(** The loop over [zip(bits, out)] of src/decision_tree.rs:469-473. *)
Fixpoint add_where (bits : list bool) (out : list rlwe) (b : rlwe) : list rlwe :=
  match bits, out with
  | bit :: bits', ct :: out' => (if bit then rlwe_add ct b else ct) :: add_where bits' out' b
  | _, _ => out
  end.

(** [eval_enc_node], src/decision_tree.rs:460-491. *)
Fixpoint eval_enc_node (fft : fftT) (n : nat) (out : list rlwe) (t : enc_node rgsw) (b : rlwe) : list rlwe :=
  match t with
  | ELeaf x => add_where (bits64 x) out b
  | EInternal ct l r =>
      let left := external_product fft ct (rlwe_allocate n) b in
      let right := rlwe_sub b left in
      let out := match l with Some lt => eval_enc_node fft n out lt left | None => out end in
      match r with Some rt => eval_enc_node fft n out rt right | None => out end
  end.

(** The ciphertext of 1 the server makes, src/decision_tree.rs:380-383 and 513-516: mask 0, body
    [encode 1] in the first coefficient. *)
Definition trivial_one (cx : ctx) : res rlwe :=
  e <- encode (c_mode cx) (c_codec cx) 1 ;;
  Ok {| mask := poly_zero (c_n cx); body := upd (poly_zero (c_n cx)) 0 e |}.

(** [EncNode::eval], src/decision_tree.rs:377-386. *)
Definition enc_eval (fft : fftT) (cx : ctx) (t : enc_node rgsw) : res (list rlwe) :=
  let out := repeat (rlwe_allocate (c_n cx)) (max_leaf_bits t) in
  c <- trivial_one cx ;;
  Ok (eval_enc_node fft (c_n cx) out t c).

(** ** Demultiplexing, src/decision_tree.rs:493-544.  The code passes the whole vector and a [level];
    the model passes the vector from position [level] on ([assert!(level < bits.len())]: it is not
    empty). *)
Fixpoint demux_rec (fft : fftT) (n : nat) (b : rlwe) (bits : list rgsw) : res (list rlwe) :=
  match bits with
  | [] => Panic PAssert
  | g :: rest =>
      let left := external_product fft g (rlwe_allocate n) b in
      let right := rlwe_sub b left in
      match rest with
      | [] => Ok [left; right]
      | _ :: _ =>
          lo <- demux_rec fft n left rest ;;
          ro <- demux_rec fft n right rest ;;
          Ok (lo ++ ro)
      end
  end.
(** [demux_with], src/decision_tree.rs:496-503. *)
Definition demux_with (fft : fftT) (cx : ctx) (b : rlwe) (bits : list rgsw) : res (list rlwe) :=
  demux_rec fft (c_n cx) b bits.
(** [demux], src/decision_tree.rs:507-519. *)
Definition demux (fft : fftT) (cx : ctx) (bits : list rgsw) : res (list rlwe) :=
  c <- trivial_one cx ;; demux_with fft cx c bits.

(** [bit_decomposed_rgsw], src/decision_tree.rs:698-717.  [v[..log2(n)]] panics if there are not that
    many bits ([log2(n) <= 63] for every [usize], so it never does). *)
Definition bit_decomposed_rgsw (cx : ctx) (s : poly) (i n : nat) (t : tape) : res (list rgsw) :=
  len <- ulog2 (c_mode cx) (Z.of_nat n) ;;
  (if len <=? 64 then Ok tt else Panic PIndex) ;;;
  let i_bits := rev (firstn (Z.to_nat len) (bits64 i)) in
  Ok (map (fun jb => encrypt_constant_rgsw (c_n cx) s (c_base cx) (c_level cx)
             (if (snd jb : bool) then 0 else 1) (split t (fst jb)))
          (combine (seq 0 (length i_bits)) i_bits)).

(** ** Client side *)

(** One iteration of the inner loop of [encrypt_feature_vector], src/decision_tree.rs:556-568. *)
Definition encrypt_feature_level (cx : ctx) (s : poly) (logn : Z) (v : nat) (t : tape) (level : nat) : res rlwe :=
  rassert (v <? c_n cx)%nat ;;;
  sh0 <- usub (c_mode cx) 64 (Z.of_nat (c_base cx * level)) ;;
  shift <- usub (c_mode cx) sh0 logn ;;
  x <- ushl (c_mode cx) 1 shift ;;
  Ok (encrypt_rlwe (c_n cx) s (upd (poly_zero (c_n cx)) v x) (t level)).
(** [encrypt_feature_vector], src/decision_tree.rs:547-572. *)
Definition encrypt_feature_vector (cx : ctx) (s : poly) (vs : list nat) (t : tape) : res (list (list rlwe)) :=
  logn <- ulog2 (c_mode cx) (Z.of_nat (c_n cx)) ;;
  mapM (fun iv => mapM (encrypt_feature_level cx s logn (snd iv) (split t (fst iv))) (seq 1 (c_level cx)))
       (combine (seq 0 (length vs)) vs).

(** Value of a list of bits, least significant first ([BitVec<u64, Lsb0>::load]); [load] panics unless
    the vector has between 1 and 64 bits. *)
Fixpoint bits_value (l : list bool) : Z :=
  match l with [] => 0 | b :: l' => (if b then 1 else 0) + 2 * bits_value l' end.
(** [decrypt_and_recompose], src/decision_tree.rs:624-636. *)
Definition decrypt_and_recompose (cx : ctx) (s : poly) (cts : list rlwe) : res Z :=
  bv <- mapM (fun ct =>
    pt <- decrypt_decode_rlwe cx s ct ;;
    x <- index pt 0 ;;
    if x =? 0 then Ok false else if x =? 1 then Ok true else Panic PExplicit) cts ;;
  if (1 <=? length bv)%nat && (length bv <=? 64)%nat then Ok (bits_value bv) else Panic PExplicit.

(** ** [simulate], src/decision_tree.rs:643-694 (timings and the parameters copied into the result are
    dropped; the context is a parameter, the code uses the default one).  Randomness: sub-tape 0 for
    [neg_gsw], 1 for the substitution keys, 2 + i for client i. *)

(** The closure [server_f], src/decision_tree.rs:659-668. *)
Definition server_f (fft : fftT) (cx : ctx) (model : node) (neg_s : rgsw) (m : ksk_map) (ct : list (list rlwe)) : res (list rlwe) :=
  rgsw_cts <- compare_expand fft cx (flatten model) ct neg_s m ;;
  ' (enc_root, _) <- enc_node_new model rgsw_cts ;;
  enc_eval fft cx enc_root.
(** The correctness loop, src/decision_tree.rs:679-684. *)
Definition check_prediction (cx : ctx) (s : poly) (model : node) (cf : list rlwe * list nat) : res Z :=
  actual <- decrypt_and_recompose cx s (fst cf) ;;
  expected <- eval model (snd cf) ;;
  rassert (Z.of_nat expected =? actual) ;;;
  Ok (Z.of_nat expected).
Definition simulate (fft : fftT) (cx : ctx) (s : poly) (model : node) (features : list (list nat)) (t : tape) : res (list Z) :=
  neg_s <- neg_gsw cx s (split t 0) ;;
  m <- gen_all_subs_ksk cx s (split t 1) ;;
  client_cts <- mapM (fun jf => encrypt_feature_vector cx s (snd jf) (split t (2 + fst jf)))
                     (combine (seq 0 (length features)) features) ;;
  output_cts <- mapM (server_f fft cx model neg_s m) client_cts ;;
  mapM (check_prediction cx s model) (combine output_cts features).

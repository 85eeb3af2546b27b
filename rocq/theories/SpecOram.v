(** * Vocabulary for the ORAM: what a database holds, what a plain array does, noise budgets *)
From Coq Require Import Permutation.
From Verif Require Import MBase MCodec MPoly MRlwe MHash MSched MOram.
From Verif Require Export SpecLwe SpecEnc.
Local Open Scope Z_scope.

(** Ciphertext [c] holds the plaintext [pt] (modulus 2^k) up to noise [B]. *)
Definition holds (cx : ctx) (s : poly) (k B : Z) (c : rlwe) (pt : list Z) : Prop :=
  wfc (c_n cx) c /\ plaintext (c_n cx) k pt /\ near (c_n cx) (phase (c_n cx) s c) (scaled k pt) B.

(** A database of [rows] rows and [cols] columns with content [D]. *)
Definition db_holds (cx : ctx) (s : poly) (k B : Z) (db : list (list rlwe)) (rows cols : nat) (D : nat -> nat -> list Z) : Prop :=
  length db = rows /\ Forall (fun row => length row = cols) db /\
  forall r c row v, nth_error db r = Some row -> nth_error row c = Some v -> holds cx s k B v (D r c).

(** The content after storing [pt] in one cell. *)
Definition put_cell (D : nat -> nat -> list Z) (r c : nat) (pt : list Z) : nat -> nat -> list Z :=
  fun r' c' => if ((r' =? r) && (c' =? c))%nat then pt else D r' c'.

(** The plain array of items a user has in mind, and its requests. *)
Inductive request : Set := Read (i : nat) | Write (i : nat) (data : list Z).
Definition target (rq : request) : nat := match rq with Read i | Write i _ => i end.
Definition apply (D : nat -> list Z) (rq : request) : nat -> list Z :=
  match rq with
  | Read _ => D
  | Write i data => fun j => if (j =? i)%nat then data else D j
  end.
(** Answers of the plain array: each request returns the content before it. *)
Fixpoint answers (D : nat -> list Z) (rqs : list request) : list (list Z) :=
  match rqs with [] => [] | rq :: rqs' => D (target rq) :: answers (apply D rq) rqs' end.
Definition final (D : nat -> list Z) (rqs : list request) : nat -> list Z := fold_left apply rqs D.

(** ** Noise.  [S]: sum of absolute values of the key; [E]: fresh noise; [eps]: FFT error; [a]: log2 of
    the number of columns. *)

(** External product with a fresh ciphertext of a bit. *)
Definition ep_fresh (cx : ctx) (S E eps : Z) : Z := ep_bound (c_n cx) (c_base cx) (c_level cx) S 1 E eps.
(** Row noise of the selection ciphertexts the server computes from a query. *)
Definition sel_noise (cx : ctx) (a : nat) (S E eps : Z) : Z :=
  (1 + S) * (Z.of_nat a * ep_fresh cx S E eps) + ep_bound (c_n cx) (c_base cx) (c_negs_level cx) S S E eps.
(** External product with a selection ciphertext. *)
Definition ep_sel (cx : ctx) (a : nat) (S E eps : Z) : Z :=
  ep_bound (c_n cx) (c_base cx) (c_level cx) S 1 (sel_noise cx a S E eps) eps.
(** Noise one query adds to every cell, and to its answer. *)
Definition growth (cx : ctx) (a : nat) (S E eps : Z) : Z := ep_fresh cx S E eps + ep_sel cx a S E eps.
Definition answer_growth (cx : ctx) (a : nat) (S E eps : Z) : Z := 2 ^ Z.of_nat a * ep_sel cx a S E eps.

(** A server for the key [s]: it holds the encryption of -s that [gen_neg_sk] makes. *)
Definition server_for (cx : ctx) (s : poly) (E : Z) (sv : server) : Prop :=
  srv_cx sv = cx /\ rgsw_encrypts (c_n cx) s (srv_neg sv) (popp (tof s)) E /\
  g_base (srv_neg sv) = c_base cx /\ g_level (srv_neg sv) = c_negs_level cx.

(** In a one-row database, item [i] lives in the column given by hash number 0. *)
Definition items_hold (nh : nhash) (dom : nat) (D : nat -> nat -> list Z) (A : nat -> list Z) : Prop :=
  forall i c, (i < dom)%nat -> hash nh 0 i = Ok c -> D 0%nat c = A i.

(** The client's query for a request. *)
Definition ask (cl : client) (nh : nhash) (rq : request) (dm : nat -> poly) (t : tape) : res query :=
  match rq with
  | Read i => gen_read_query_one cl i nh dm t
  | Write i data => gen_write_query_one cl i data nh dm t
  end.
(** A loop of [n] elements can run: the caller is itself a worker of a rayon pool, or the loop does not
    have exactly one element (such a loop would run on the calling thread, where the code panics). *)
Definition spread (pool : bool) (n : nat) : Prop := pool = true \/ n <> 1%nat.
(** A session: each request is turned into a query and processed; request number [j] uses the dummy
    plaintexts [dm j] and the randomness [t j].  [pool]: the caller is a worker of a rayon pool. *)
Fixpoint session (pool : bool) (fft : fftT) (cl : client) (nh : nhash) (dm : nat -> nat -> poly) (t : nat -> tape) (j : nat)
    (sv : server) (rqs : list request) : res (list rlwe * server) :=
  match rqs with
  | [] => Ok ([], sv)
  | rq :: rqs' =>
      qy <- ask cl nh rq (dm j) (t j) ;;
      ' (y, sv1) <- server_process_one pool fft sv qy ;;
      ' (ys, sv2) <- session pool fft cl nh dm t (Datatypes.S j) sv1 rqs' ;;
      Ok (y :: ys, sv2)
  end.
(** Requests to existing items with proper data. *)
Definition request_ok (cx : ctx) (k : Z) (dom : nat) (rq : request) : Prop :=
  (target rq < dom)%nat /\ match rq with Read _ => True | Write _ data => plaintext (c_n cx) k data end.

(** Every copy of item [i], one per hash function, holds [A i]. *)
Definition copies_hold (nh : nhash) (hc dom cols : nat) (D : nat -> nat -> list Z) (A : nat -> list Z) : Prop :=
  forall h i r c, (h < hc)%nat -> (i < dom)%nat -> hash_to_tuple nh h i cols = Ok (r, c) -> D r c = A i.

(** The common setting: accepted parameters, an FFT of error [eps], a binary key of weight at most [S]. *)
Definition setting (cx : ctx) (lg : nat) (k : Z) (fft : fftT) (eps : Z) (s : poly) (S : Z) : Prop :=
  params_ok cx lg k /\ fft_for cx fft eps /\ binary_key (c_n cx) s /\ l1 (c_n cx) (tof s) S.
(** A hash table built by [NaiveHash::new] with some random shuffle. *)
Definition hash_for (nh : nhash) (hc dom : nat) : Prop :=
  exists shuffle, (forall l, Permutation (shuffle l) l) /\ nh_new shuffle hc dom = Ok nh.

(** ** Multi-queries: the queries for all requests are made first, then processed together. *)
Fixpoint ask_all (cl : client) (nh : nhash) (dm : nat -> nat -> poly) (t : nat -> tape) (j : nat) (rqs : list request) : res (list query) :=
  match rqs with
  | [] => Ok []
  | rq :: rqs' =>
      qy <- ask cl nh rq (dm j) (t j) ;;
      qs <- ask_all cl nh dm t (Datatypes.S j) rqs' ;;
      Ok (qy :: qs)
  end.
(** Noise of a cell hit by [L] of [Q] requests, from noise [B]. *)
Definition multi_noise (cx : ctx) (a : nat) (S E eps B : Z) (Q L : nat) : Z :=
  Z.abs (1 - Z.of_nat L) * B
  + Z.of_nat L * (Z.of_nat Q * ep_sel cx a S E eps + Z.of_nat L * (B + ep_fresh cx S E eps))
  + ep_bound (c_n cx) (c_base cx) (c_level cx) S (Z.of_nat L) (Z.of_nat Q * sel_noise cx a S E eps) eps.
(** Noise added to a cell hit at most once. *)
Definition multi_growth (cx : ctx) (a : nat) (S E eps : Z) (Q : nat) : Z :=
  Z.of_nat Q * ep_sel cx a S E eps + ep_fresh cx S E eps
  + ep_bound (c_n cx) (c_base cx) (c_level cx) S 1 (Z.of_nat Q * sel_noise cx a S E eps) eps.
(** What the requests on one item want to see there. *)
Definition wanted_by (v : list Z) (rq : request) : list Z := match rq with Read _ => v | Write _ data => data end.
(** What process_multi leaves in a cell of content [v] hit by requests wanting [ws]: v + L * (sum ws - v). *)
Definition multi_result (n : nat) (k : Z) (v : list Z) (ws : list (list Z)) : list Z :=
  map (fun i => (nth i v 0 + Z.of_nat (length ws) * (fold_right Z.add 0 (map (fun w => nth i w 0) ws) - nth i v 0)) mod 2 ^ k) (seq 0 n).
(** The database content after the requests, one after the other. *)
Definition db_final (nh : nhash) (D : nat -> nat -> list Z) (rqs : list request) : nat -> nat -> list Z :=
  fold_left (fun D rq => match rq with
                         | Read _ => D
                         | Write i data => match hash nh 0 i with Ok c => put_cell D 0 c data | Panic _ => D end
                         end) rqs D.

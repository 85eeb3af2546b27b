(** * Vocabulary for batches: requests, the plain array, sessions *)
From Verif Require Import MBase MCodec MPoly MRlwe MHash MSched MOram.
From Verif Require Export SpecOram.
Local Open Scope Z_scope.

(** A batch reads a set of items, or writes the same data to a set of items. *)
Inductive brequest : Set := BRead (is : list nat) | BWrite (is : list nat) (data : list Z).
Definition batch_items (br : brequest) : list nat := match br with BRead is | BWrite is _ => is end.
(** The client's queries, one per row. *)
Definition ask_batch (cl : client) (nh : nhash) (br : brequest) (dm : nat -> poly) (t : tape) : res (list query) :=
  match br with
  | BRead is => gen_read_query_batch cl is nh dm t
  | BWrite is data => gen_write_query_batch cl is data nh dm t
  end.
(** The rows the items got: row, column and item. *)
Definition placed (nh : nhash) (cols : nat) (is : list nat) : list (nat * (nat * nat)) :=
  match hash_to_mapping nh is cols with Ok m => m | Panic _ => [] end.
(** Item [i] got a row. *)
Definition served (nh : nhash) (cols : nat) (is : list nat) (i : nat) : bool :=
  existsb (fun e => (snd (snd e) =? i)%nat) (placed nh cols is).
(** The plain array: a write batch stores the data in every item that got a row. *)
Definition apply_batch (nh : nhash) (cols : nat) (A : nat -> list Z) (br : brequest) : nat -> list Z :=
  match br with
  | BRead _ => A
  | BWrite is data => fun i => if served nh cols is i then data else A i
  end.
(** What the rows answer: row and content of the item that got the row. *)
Definition batch_answer (nh : nhash) (cols : nat) (A : nat -> list Z) (br : brequest) : list (nat * list Z) :=
  map (fun e => (fst e, A (snd (snd e)))) (placed nh cols (batch_items br)).
Fixpoint batch_answers (nh : nhash) (cols : nat) (A : nat -> list Z) (brs : list brequest) : list (list (nat * list Z)) :=
  match brs with
  | [] => []
  | br :: brs' => batch_answer nh cols A br :: batch_answers nh cols (apply_batch nh cols A br) brs'
  end.
Definition batch_final (nh : nhash) (cols : nat) (A : nat -> list Z) (brs : list brequest) : nat -> list Z :=
  fold_left (apply_batch nh cols) brs A.
(** The responses [ys] of the rows decrypt to what is expected in [exp]. *)
Definition rows_answer (cx : ctx) (s : poly) (ys : list rlwe) (exp : list (nat * list Z)) : Prop :=
  forall r pt, In (r, pt) exp -> exists y, nth_error ys r = Some y /\ decrypt_decode_rlwe cx s y = Ok pt.

(** A session of batches. *)
Fixpoint batch_session (pool : bool) (fft : fftT) (cl : client) (nh : nhash) (dm : nat -> nat -> poly) (t : nat -> tape) (j : nat)
    (sv : server) (brs : list brequest) : res (list (list rlwe) * server) :=
  match brs with
  | [] => Ok ([], sv)
  | br :: brs' =>
      qs <- ask_batch cl nh br (dm j) (t j) ;;
      ' (ys, sv1) <- server_process_batch pool fft sv qs nh ;;
      ' (yss, sv2) <- batch_session pool fft cl nh dm t (Datatypes.S j) sv1 brs' ;;
      Ok (ys :: yss, sv2)
  end.
(** Batches on existing items with proper data. *)
Definition brequest_ok (cx : ctx) (k : Z) (dom : nat) (br : brequest) : Prop :=
  Forall (fun i => i < dom)%nat (batch_items br) /\ match br with BRead _ => True | BWrite _ data => plaintext (c_n cx) k data end.

(** Noise a batch adds to every cell, with [hc] copies of every item. *)
Definition batch_growth (cx : ctx) (a hc : nat) (S E eps : Z) : Z := (2 * Z.of_nat hc - 1) * growth cx a S E eps.
(** Noise of an item of which [L] copies other than the first were written. *)
Definition copies_noise (cx : ctx) (a hc : nat) (S E eps B : Z) (L : nat) : Z :=
  (Z.abs (1 - Z.of_nat L) + Z.of_nat L) * (B + growth cx a S E eps) + 2 * Z.of_nat (hc - 1) * growth cx a S E eps.
(** Did the batch write to copy [h] of item [i]? *)
Definition copy_written (nh : nhash) (cols : nat) (br : brequest) (h i : nat) : bool :=
  match br, hash_to_tuple nh h i cols with
  | BWrite is _, Ok (r, c) => match hget (placed nh cols is) r with Some (c', _) => (c =? c')%nat | None => false end
  | _, _ => false
  end.
(** What process_batch leaves in all copies of an item of content [v]: if the first copy was written,
    the data; otherwise v + L * (data - v), where [L] other copies were written. *)
Definition batch_result (n : nat) (k : Z) (v data : list Z) (first : bool) (L : nat) : list Z :=
  if first then data else map (fun i => (nth i v 0 + Z.of_nat L * (nth i data 0 - nth i v 0)) mod 2 ^ k) (seq 0 n).

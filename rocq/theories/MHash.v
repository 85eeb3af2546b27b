(** * Model of src/naive_hash.rs *)
From Verif Require Import MBase.

(** struct NaiveHash, src/naive_hash.rs:7-11.  Values are [usize]; the model uses [nat], so
    [h_count * input_domain] does not overflow (a vector of that length is allocated). *)
Record nhash := { nh_tables : list nat; nh_h_count : nat; nh_input_domain : nat }.

(** [NaiveHash::new], src/naive_hash.rs:14-24.  [shuffle] is the action of
    [SliceRandom::shuffle] with some random tape: any function returning a permutation of its
    argument (hypothesis of the theorems). *)
Definition nh_new (shuffle : list nat -> list nat) (h_count input_domain : nat) : res nhash :=
  rassert (0 <? h_count)%nat ;;;
  Ok {| nh_tables := shuffle (seq 0 (h_count * input_domain));
        nh_h_count := h_count; nh_input_domain := input_domain |}.

(** [hash], src/naive_hash.rs:34-36. *)
Definition hash (nh : nhash) (h x : nat) : res nat :=
  index (nh_tables nh) (nh_h_count nh * x + h).

(** [checked_hash], src/naive_hash.rs:26-32. *)
Definition checked_hash (nh : nhash) (h x : nat) : res (option nat) :=
  if ((nh_h_count nh <=? h) || (nh_input_domain nh <=? x))%nat then Ok None
  else y <- hash nh h x ;; Ok (Some y).

(** [hash0], [hash1], [hash2], src/naive_hash.rs:38-48. *)
Definition hash0 (nh : nhash) (x : nat) : res nat := hash nh 0 x.
Definition hash1 (nh : nhash) (x : nat) : res nat := hash nh 1 x.
Definition hash2 (nh : nhash) (x : nat) : res nat := hash nh 2 x.

(** [output_domain], src/naive_hash.rs:58-60. *)
Definition output_domain (nh : nhash) : nat := nh_input_domain nh * nh_h_count nh.

(** [hash_to_tuple], src/naive_hash.rs:63-66; division by [d = 0] panics. *)
Definition hash_to_tuple (nh : nhash) (h x d : nat) : res (nat * nat) :=
  tmp <- hash nh h x ;;
  if (d =? 0)%nat then Panic PDivZero else Ok ((tmp / d)%nat, (tmp mod d)%nat).

(** A [HashMap<usize,(usize,usize)>]: association list; insertion only on vacant entries, so each key
    occurs at most once (theorem).  Iteration order is never used by the crate for results. *)
Definition hmap := list (nat * (nat * nat)).
Fixpoint hget (m : hmap) (k : nat) : option (nat * nat) :=
  match m with
  | [] => None
  | (k', v) :: m' => if (k' =? k)%nat then Some v else hget m' k
  end.

(** Inner loop of [hash_to_mapping], src/naive_hash.rs:76-85, over the remaining values of [h]:
    vacant entry: insert and break; occupied: panic if [h >= h_count], else next [h]. *)
Fixpoint place (nh : nhash) (d i : nat) (hs : list nat) (out : hmap) : res hmap :=
  match hs with
  | [] => Ok out
  | h :: hs' =>
      ' (r, c) <- hash_to_tuple nh h i d ;;
      match hget out r with
      | None => Ok (out ++ [(r, (c, i))])
      | Some _ => if (nh_h_count nh <=? h)%nat then Panic PExplicit else place nh d i hs' out
      end
  end.

(** [hash_to_mapping], src/naive_hash.rs:72-88. *)
Definition hash_to_mapping (nh : nhash) (is : list nat) (d : nat) : res hmap :=
  foldM (fun out i => place nh d i (seq 0 (nh_h_count nh)) out) is [].

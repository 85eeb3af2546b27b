(** * Public dimensions of ciphertexts, queries and databases; observations of an execution *)
From Coq Require Import Permutation.
From Verif Require Import MBase MPoly MRlwe MSched MOram.
Local Open Scope nat_scope.

(** Number of coefficients of the mask and of the body. *)
Definition ct_shape (c : rlwe) : nat * nat := (length (mask c), length (body c)).
(** Decomposition parameters and the dimensions of all rows. *)
Definition gsw_shape (g : rgsw) : nat * nat * list (nat * nat) := (g_base g, g_level g, map ct_shape (g_rows g)).
(** Everything about a query except the values of the coefficients. *)
Definition query_shape (qy : query) : list (nat * nat * list (nat * nat)) * (nat * nat * list (nat * nat)) * (nat * nat) :=
  (map gsw_shape (q_a qy), gsw_shape (q_op qy), ct_shape (q_data qy)).
(** Everything about a database except the values of the coefficients. *)
Definition db_shape (m : mem) : list (list (nat * nat)) := map (map ct_shape) m.

(** The shape of a query for [cols] = 2^a columns: [a] + 1 RGSW ciphertexts and an RLWE ciphertext. *)
Definition public_gsw (cx : ctx) : nat * nat * list (nat * nat) :=
  (c_base cx, c_level cx, repeat (c_n cx, c_n cx) (2 * c_level cx)).
Definition public_query (cx : ctx) (cols : nat) : list (nat * nat * list (nat * nat)) * (nat * nat * list (nat * nat)) * (nat * nat) :=
  (repeat (public_gsw cx) (Nat.log2 cols), public_gsw cx, (c_n cx, c_n cx)).

(** Randomness of the right dimensions (no condition on the values). *)
Definition draws_fit (n : nat) (t : tape) : Prop := forall i, length (d_mask (t i)) = n /\ length (d_noise (t i)) = n.

(** ** What an observer of the memory and the locks of the server sees: which worker does what, in which
    order; the contents of the cells are not visible. *)
Definition head {A} (p : prog A) : option event :=
  match p with
  | PRet _ | PFail _ => None
  | PLock l _ => Some (ELock l)
  | PUnlock l _ => Some (EUnlock l)
  | PLen r _ => Some (ELen r)
  | PLoad r c _ => Some (ELoad r c)
  | PStore r c _ _ => Some (EStore r c)
  end.
Inductive observed {A} (pref : bool) : config A -> mem -> list (nat * event) -> config A -> mem -> Prop :=
| Obs_refl ws m : observed pref ws m [] ws m
| Obs_step ws m i w p' m' e obs ws2 m2 :
    nth_error ws i = Some w ->
    (forall l k, w_prog w = PLock l k -> may_lock pref ws i l) ->
    next (w_prog w) m = Some (p', m') -> head (w_prog w) = Some e ->
    observed pref (upd ws i {| w_prog := p'; w_held := held_after (w_prog w) p' (w_held w) |}) m' obs ws2 m2 ->
    observed pref ws m ((i, e) :: obs) ws2 m2.

(** A possible course of a server operation: for each loop, the distribution of the tasks (their numbers)
    over the workers and the observation; the choices of the reductions. *)
Inductive course : Set :=
| CEnd
| CLoop (queues : list (list nat)) (obs : list (nat * event)) (rest : course)
| CRed (t : rtree) (rest : course).
Fixpoint sobserved {A} (pref : bool) (p : sprog A) (m : mem) (c : course) : Prop :=
  match p, c with
  | SRet _, CEnd | SFail _, CEnd => True
  | SPar tasks k, CLoop qn obs rest =>
      exists queues ws m1, map (map fst) queues = qn /\ Permutation (concat queues) (number tasks) /\
        observed pref (start queues) m obs ws m1 /\ finished ws /\
        ((exists w e, In w ws /\ w_prog w = PFail e /\ rest = CEnd) \/
         (exists rss rs, map (fun w => w_prog w) ws = map PRet rss /\ Permutation (concat rss) (number rs) /\
            sobserved pref (k rs) m1 rest))
  | SReduce n k, CRed t rest => items t = n /\ sobserved pref (k t) m rest
  | _, _ => False
  end.

(** The uniformly random parts of all ciphertexts of a query. *)
Definition query_masks (qy : query) : list (list poly) * list poly * poly :=
  (map (fun g => map mask (g_rows g)) (q_a qy), map mask (g_rows (q_op qy)), mask (q_data qy)).

(** * What a decision tree means, independently of the evaluation code *)
From Verif Require Import MBase MTree.
Local Open Scope nat_scope.

(** [predicts t fs x]: following the comparisons from the root of [t] with feature vector [fs] ends in
    a leaf labelled [x], or in a missing child and [x = 0]. *)
Inductive predicts : node -> list nat -> nat -> Prop :=
| P_leaf x fs : predicts (Leaf x) fs x
| P_left th f ix l r fs v x : nth_error fs f = Some v -> v <= th ->
    predicts l fs x -> predicts (Internal th f ix LEQ (Some l) r) fs x
| P_left_missing th f ix r fs v : nth_error fs f = Some v -> v <= th ->
    predicts (Internal th f ix LEQ None r) fs 0
| P_right th f ix l r fs v x : nth_error fs f = Some v -> th < v ->
    predicts r fs x -> predicts (Internal th f ix LEQ l (Some r)) fs x
| P_right_missing th f ix l fs v : nth_error fs f = Some v -> th < v ->
    predicts (Internal th f ix LEQ l None) fs 0.

(** [sub s t]: [s] occurs in [t] (at any depth). *)
Inductive sub : node -> node -> Prop :=
| sub_refl t : sub t t
| sub_left s th f ix op l r : sub s l -> sub s (Internal th f ix op (Some l) r)
| sub_right s th f ix op l r : sub s r -> sub s (Internal th f ix op l (Some r)).

(** Every internal node compares with [<=] and reads a feature that exists. *)
Definition evaluable (t : node) (fs : list nat) : Prop :=
  forall th f ix op l r, sub (Internal th f ix op l r) t -> op = LEQ /\ f < length fs.

(** Internal nodes in pre-order, as (threshold, feature, index, comparison). *)
Fixpoint preorder (t : node) : list (nat * nat * nat * opk) :=
  match t with
  | Leaf _ => []
  | Internal th f ix op l r =>
      (th, f, ix, op) ::
      (match l with Some n => preorder n | None => [] end) ++
      (match r with Some n => preorder n | None => [] end)
  end.

(** The same tree up to node indices. *)
Fixpoint same_but_index (s t : node) : Prop :=
  match s, t with
  | Leaf x, Leaf y => x = y
  | Internal th f _ op l r, Internal th' f' _ op' l' r' =>
      th = th' /\ f = f' /\ op = op' /\
      (match l, l' with Some a, Some b => same_but_index a b | None, None => True | _, _ => False end) /\
      (match r, r' with Some a, Some b => same_but_index a b | None, None => True | _, _ => False end)
  | _, _ => False
  end.

(** [longest t d]: [d] is the number of internal nodes on the longest path (missing children count as leaves). *)
Inductive has_path : node -> nat -> Prop :=
| path_leaf x : has_path (Leaf x) 0
| path_stop th f ix op l r : l = None \/ r = None -> has_path (Internal th f ix op l r) 1
| path_left th f ix op l r d : has_path l d -> has_path (Internal th f ix op (Some l) r) (S d)
| path_right th f ix op l r d : has_path r d -> has_path (Internal th f ix op l (Some r)) (S d).

(** All leaf labels, left to right. *)
Fixpoint labels (t : node) : list nat :=
  match t with
  | Leaf x => [x]
  | Internal _ _ _ _ l r =>
      (match l with Some n => labels n | None => [] end) ++
      (match r with Some n => labels n | None => [] end)
  end.

(** No missing child anywhere. *)
Definition no_missing (t : node) : Prop :=
  forall th f ix op l r, sub (Internal th f ix op l r) t -> l <> None /\ r <> None.

(** The complete binary tree of depth [d] with the given leaves, all comparisons trivial. *)
Fixpoint complete (d : nat) (ls : list nat) : node :=
  match d with
  | O => Leaf (hd 0 ls)
  | S d' => Internal 0 0 0 LEQ (Some (complete d' (firstn (2 ^ d') ls)))
                               (Some (complete d' (skipn (2 ^ d') ls)))
  end.

(** [enc_matches e t cts]: [e] has the shape and labels of [t] (a missing child becomes a leaf 0) and
    its ciphertexts, in pre-order, are [cts]. *)
Inductive enc_matches {C} : enc_node C -> node -> list C -> Prop :=
| EM_leaf x : enc_matches (ELeaf x) (Leaf x) []
| EM_internal ct th f ix op el er l r cl cr :
    enc_child el l cl -> enc_child er r cr ->
    enc_matches (EInternal ct el er) (Internal th f ix op l r) (ct :: cl ++ cr)
with enc_child {C} : option (enc_node C) -> option node -> list C -> Prop :=
| EC_missing : enc_child (Some (ELeaf 0)) None []
| EC_some e t cts : enc_matches e t cts -> enc_child (Some e) (Some t) cts.

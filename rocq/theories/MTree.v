(** * Model of the plaintext part of src/decision_tree.rs *)
From Verif Require Import MBase.
Local Open Scope nat_scope.

(** [Op], src/decision_tree.rs:37-40. *)
Inductive opk : Set := LEQ | GT.

(** [Node] and [Internal], src/decision_tree.rs:45-49 and 207-214 (the [Box] is dropped).
    [usize] fields are [nat]. *)
Inductive node : Type :=
| Internal (threshold feature idx : nat) (op : opk) (left right : option node)
| Leaf (label : nat).

(** [Clone for Node], src/decision_tree.rs:58-73: rebuilds the same value; values are immutable here. *)

(** [inner_value], src/decision_tree.rs:77-82. *)
Definition inner_value (t : node) : res node :=
  match t with Internal _ _ _ _ _ _ => Ok t | Leaf _ => Panic PExplicit end.

(** [gen_full_tree], src/decision_tree.rs:279-297; the [&mut bool] is threaded. *)
Fixpoint gen_full_tree (d : nat) (processed : bool) : node * bool :=
  match d with
  | O => if processed then (Leaf 0, processed) else (Leaf 1, true)
  | S d' =>
      let '(l, p1) := gen_full_tree d' processed in
      let '(r, p2) := gen_full_tree d' p1 in
      (Internal 0 0 0 LEQ (Some l) (Some r), p2)
  end.

(** [new_with_depth], src/decision_tree.rs:84-87; [Default], src/decision_tree.rs:51-57. *)
Definition new_with_depth (d : nat) : node := fst (gen_full_tree d false).
Definition default_node : node := fst (gen_full_tree 1 false).

(** [fix_index] (free function), src/decision_tree.rs:216-226.  Only called on internal nodes. *)
Fixpoint fix_index_from (t : node) (i : nat) : node * nat :=
  match t with
  | Leaf x => (Leaf x, i)
  | Internal th f _ op l r =>
      let '(l', j) :=
        match l with
        | Some (Internal _ _ _ _ _ _ as lt) => let '(lt', j) := fix_index_from lt (i + 1) in (Some lt', j)
        | _ => (l, i)
        end in
      let '(r', k) :=
        match r with
        | Some (Internal _ _ _ _ _ _ as rt) => let '(rt', k) := fix_index_from rt (j + 1) in (Some rt', k)
        | _ => (r, j)
        end in
      (Internal th f i op l' r', k)
  end.

(** [Node::fix_index], src/decision_tree.rs:90-95: new tree and returned index. *)
Definition fix_index (t : node) : res (node * nat) :=
  match t with Internal _ _ _ _ _ _ => Ok (fix_index_from t 0) | Leaf _ => Panic PExplicit end.

(** [flatten_tree], src/decision_tree.rs:228-245: pushes to [out], children replaced by [Leaf 0]. *)
Fixpoint flatten_tree (out : list node) (t : node) : list node :=
  match t with
  | Leaf _ => out
  | Internal th f ix op l r =>
      let out := out ++ [Internal th f ix op (Some (Leaf 0)) (Some (Leaf 0))] in
      let out := match l with Some (Internal _ _ _ _ _ _ as lt) => flatten_tree out lt | _ => out end in
      match r with Some (Internal _ _ _ _ _ _ as rt) => flatten_tree out rt | _ => out end
  end.

(** [Node::flatten], src/decision_tree.rs:99-109. *)
Definition flatten (t : node) : list node :=
  match t with Internal _ _ _ _ _ _ => flatten_tree [] t | Leaf _ => [] end.

(** [1 - b] on [usize]: underflow for [b > 1] (never reached, see the theorem on [eval]). *)
Definition one_minus (b : nat) : res nat := if b <=? 1 then Ok (1 - b) else Panic POverflow.

(** [eval_node], src/decision_tree.rs:247-277.  [features[node.feature]] panics out of range,
    [GT] is [todo!()]; both children are visited, the one off the path with [b * (1 - b)]. *)
Fixpoint eval_node (out : nat) (t : node) (features : list nat) (b : nat) : res nat :=
  match t with
  | Leaf x => Ok (out + x * b)
  | Internal th f _ op l r =>
      match op with
      | LEQ =>
          v <- index features f ;;
          nb <- one_minus b ;;
          if v <=? th then
            out <- match l with Some lt => eval_node out lt features b | None => Ok out end ;;
            match r with Some rt => eval_node out rt features (b * nb) | None => Ok out end
          else
            out <- match l with Some lt => eval_node out lt features (b * nb) | None => Ok out end ;;
            match r with Some rt => eval_node out rt features b | None => Ok out end
      | GT => Panic PTodo
      end
  end.

(** [Node::eval], src/decision_tree.rs:112-116. *)
Definition eval (t : node) (features : list nat) : res nat := eval_node 0 t features 1.

(** [count_leaf], src/decision_tree.rs:119-132. *)
Fixpoint count_leaf (t : node) : nat :=
  match t with
  | Leaf _ => 1
  | Internal _ _ _ _ l r =>
      (match l with Some n => count_leaf n | None => 0 end) +
      (match r with Some n => count_leaf n | None => 0 end)
  end.

(** [count_internal], src/decision_tree.rs:135-153 ([unwrap_or(&Leaf(0))] contributes 0). *)
Fixpoint count_internal (t : node) : nat :=
  match t with
  | Leaf _ => 0
  | Internal _ _ _ _ l r =>
      1 + (match l with Some n => count_internal n | None => 0 end)
        + (match r with Some n => count_internal n | None => 0 end)
  end.

(** [count_depth], src/decision_tree.rs:156-177. *)
Fixpoint count_depth (t : node) : nat :=
  match t with
  | Leaf _ => 0
  | Internal _ _ _ _ lo ro =>
      let l := match lo with Some n => count_depth n | None => 0 end in
      let r := match ro with Some n => count_depth n | None => 0 end in
      if r <? l then l + 1 else r + 1
  end.

(** [max_feature_index], src/decision_tree.rs:180-201. *)
Fixpoint max_feature_index (t : node) : nat :=
  match t with
  | Leaf _ => 0
  | Internal _ f _ _ l r =>
      Nat.max (Nat.max f (match l with Some n => max_feature_index n | None => 0 end))
              (match r with Some n => max_feature_index n | None => 0 end)
  end.

(** [trunc_tree], src/decision_tree.rs:299-326, on a node and on an [Option<Node>]. *)
Fixpoint trunc_node (t : node) : option node :=
  match t with
  | Leaf x => if x =? 0 then None else Some (Leaf x)
  | Internal th f ix op l r =>
      let l' := match l with Some n => trunc_node n | None => None end in
      let r' := match r with Some n => trunc_node n | None => None end in
      match l', r' with
      | None, None => None
      | _, _ => Some (Internal th f ix op l' r')
      end
  end.
Definition trunc_tree (root : option node) : option node :=
  match root with Some n => trunc_node n | None => None end.

(** ** Encrypted trees, polymorphic in the ciphertext type [C] (an RGSW ciphertext in the code) *)

(** [EncNode], src/decision_tree.rs:355-358, and [EncInternal], src/decision_tree.rs:415-419. *)
Inductive enc_node (C : Type) : Type :=
| EInternal (ct : C) (left right : option (enc_node C))
| ELeaf (label : nat).
Arguments EInternal {C} ct left right.
Arguments ELeaf {C} label.

(** [new_enc_node], src/decision_tree.rs:421-458: fills the children of [enc_node], whose initial
    children are [Some (Leaf 0)]; the iterator [rgsw_cts] is the list of remaining ciphertexts.
    Returns the children and the remaining iterator. *)
Fixpoint new_enc_children {C} (t : node) (cts : list C)
  : res ((option (enc_node C) * option (enc_node C)) * list C) :=
  match t with
  | Leaf _ => Ok ((Some (ELeaf 0), Some (ELeaf 0)), cts)   (* not called on leaves *)
  | Internal _ _ _ _ l r =>
      ' (l', cts) <-
        match l with
        | None => Ok (Some (ELeaf 0), cts)
        | Some (Leaf x) => Ok (Some (ELeaf x), cts)
        | Some (Internal _ _ _ _ _ _ as lt) =>
            match cts with
            | [] => Panic PExplicit
            | ct :: cts' => ' ((a, b), rest) <- new_enc_children lt cts' ;; Ok (Some (EInternal ct a b), rest)
            end
        end ;;
      ' (r', cts) <-
        match r with
        | None => Ok (Some (ELeaf 0), cts)
        | Some (Leaf x) => Ok (Some (ELeaf x), cts)
        | Some (Internal _ _ _ _ _ _ as rt) =>
            match cts with
            | [] => Panic PExplicit
            | ct :: cts' => ' ((a, b), rest) <- new_enc_children rt cts' ;; Ok (Some (EInternal ct a b), rest)
            end
        end ;;
      Ok ((l', r'), cts)
  end.

(** [EncNode::new], src/decision_tree.rs:362-374; also returns what is left of the iterator. *)
Definition enc_node_new {C} (t : node) (cts : list C) : res (enc_node C * list C) :=
  match cts with
  | [] => Panic PUnwrap
  | ct :: cts' =>
      match t with
      | Leaf _ => Panic PExplicit
      | Internal _ _ _ _ _ _ =>
          ' ((a, b), rest) <- new_enc_children t cts' ;; Ok (EInternal ct a b, rest)
      end
  end.

(** [max_leaf], src/decision_tree.rs:389-411. *)
Fixpoint max_leaf {C} (t : enc_node C) : nat :=
  match t with
  | ELeaf x => x
  | EInternal _ l r =>
      match match l with Some n => Some (max_leaf n) | None => None end,
            match r with Some n => Some (max_leaf n) | None => None end with
      | Some a, Some b => Nat.max a b
      | None, Some b => b
      | Some a, None => a
      | None, None => 0
      end
  end.

(** [((max_leaf + 1) as f64).log2().ceil() as usize], src/decision_tree.rs:378.  The model uses the
    exact ceiling of the base-2 logarithm; that the f64 computation (MFloat) agrees for all labels below
    2^48 is C90. *)
Definition max_leaf_bits {C} (t : enc_node C) : nat := Nat.log2_up (max_leaf t + 1).

(** * Proofs about the shuffle *)
From Coq Require Import Permutation Lia.
From Verif Require Import MBase MHash MShuffle SpecShuffle.

(** ** Counting *)
Definition count {A} (f : A -> bool) (l : list A) : nat := length (filter f l).
Lemma count_app {A} (f : A -> bool) l l' : count f (l ++ l') = (count f l + count f l')%nat.
Proof. unfold count. rewrite filter_app, app_length. reflexivity. Qed.
Lemma count_ext {A} (f g : A -> bool) l : (forall x, In x l -> f x = g x) -> count f l = count g l.
Proof. intros H. unfold count. f_equal. apply filter_ext_in, H. Qed.
Lemma count_map {A B} (h : A -> B) (f : B -> bool) l : count f (map h l) = count (fun x => f (h x)) l.
Proof. induction l as [|a l IH]; [reflexivity|]. unfold count in *. cbn. destruct (f (h a)); cbn; rewrite IH; reflexivity. Qed.
Lemma count_none {A} (f : A -> bool) l : (forall x, In x l -> f x = false) -> count f l = 0%nat.
Proof. induction l as [|a l IH]; intros H; [reflexivity|]. unfold count in *. cbn. rewrite (H a (or_introl eq_refl)). apply IH. intros x Hx. apply H. right. exact Hx. Qed.
Lemma count_all {A} (f : A -> bool) l : (forall x, In x l -> f x = true) -> count f l = length l.
Proof. induction l as [|a l IH]; intros H; [reflexivity|]. unfold count in *. cbn. rewrite (H a (or_introl eq_refl)). cbn. rewrite IH; [reflexivity|]. intros x Hx. apply H. right. exact Hx. Qed.
Lemma count_flat_map {A B} (g : A -> list B) (f : B -> bool) l : count f (flat_map g l) = list_sum (map (fun a => count f (g a)) l).
Proof. induction l as [|a l IH]; [reflexivity|]. cbn [flat_map map list_sum fold_right]. rewrite count_app, IH. reflexivity. Qed.
Lemma count_interval f a b N : (a <= b)%nat -> (b <= N)%nat -> (forall i, (i < N)%nat -> f i = ((a <=? i) && (i <? b))%nat) ->
  count f (seq 0 N) = (b - a)%nat.
Proof.
  intros Hab HbN Hf. replace N with (a + ((b - a) + (N - b)))%nat by lia.
  rewrite seq_app, count_app, seq_app, count_app. cbn [plus]. replace (a + (b - a))%nat with b by lia.
  rewrite (count_none f (seq 0 a)), (count_all f (seq a (b - a))), (count_none f (seq b (N - b))), seq_length.
  - lia.
  - intros i Hi. apply in_seq in Hi. rewrite Hf by lia. destruct (Nat.ltb_spec i b); [lia|]. apply andb_false_r.
  - intros i Hi. apply in_seq in Hi. rewrite Hf by lia. destruct (Nat.leb_spec a i); [|lia]. destruct (Nat.ltb_spec i b); [reflexivity|lia].
  - intros i Hi. apply in_seq in Hi. rewrite Hf by lia. destruct (Nat.leb_spec a i); [lia|]. reflexivity.
Qed.

(** ** One word *)
Section Word.
Context (w r : Z) (Hw : 1 <= w) (Hr : 1 <= r <= 2 ^ w - 1).
Lemma lz_bounds : 0 <= leading_zeros w r /\ 2 ^ (w - 1) <= r * 2 ^ leading_zeros w r <= 2 ^ w.
Proof.
  unfold leading_zeros. pose proof (Z.log2_spec r ltac:(lia)) as [L1 L2]. pose proof (Z.log2_nonneg r).
  assert (Z.log2 r <= w - 1) as Hl. { apply Z.lt_succ_r. replace (Z.succ (w - 1)) with w by lia. apply Z.log2_lt_pow2; lia. }
  split; [lia|].
  assert (2 ^ w = 2 ^ Z.succ (Z.log2 r) * 2 ^ (w - 1 - Z.log2 r)) as E1. { rewrite <- Z.pow_add_r by lia. f_equal. lia. }
  assert (2 ^ (w - 1) = 2 ^ Z.log2 r * 2 ^ (w - 1 - Z.log2 r)) as E2. { rewrite <- Z.pow_add_r by lia. f_equal. lia. }
  rewrite E1, E2. assert (0 < 2 ^ (w - 1 - Z.log2 r)) by (apply Z.pow_pos_nonneg; lia). split; apply Z.mul_le_mono_nonneg_r; lia.
Qed.
Lemma accept_iff v k : 0 <= v < 2 ^ w -> accept w r v = Some k <->
  Z.of_nat k * 2 ^ w <= v * r < Z.of_nat k * 2 ^ w + r * 2 ^ leading_zeros w r.
Proof.
  intros Hv. destruct lz_bounds as (L0 & L1 & L2). unfold accept, zone.
  assert (0 < 2 ^ w) as HW by (apply Z.pow_pos_nonneg; lia). set (W := 2 ^ w) in *. set (Q := r * 2 ^ leading_zeros w r) in *.
  pose proof (Z.div_mod (v * r) W ltac:(lia)) as E. pose proof (Z.mod_pos_bound (v * r) W HW) as B.
  assert (0 <= (v * r) / W) as D0 by (apply Z.div_pos; nia).
  destruct (Z.leb_spec ((v * r) mod W) (Q - 1)) as [H|H]; split.
  - intros [= <-]. rewrite Z2Nat.id by lia. lia.
  - intros K. f_equal. apply Nat2Z.inj. rewrite Z2Nat.id by lia.
    assert (v * r / W < Z.of_nat k + 1) by nia. assert (Z.of_nat k < v * r / W + 1) by nia. lia.
  - discriminate.
  - intros K. exfalso. assert (v * r / W < Z.of_nat k + 1) by nia. assert (Z.of_nat k < v * r / W + 1) by nia. replace (v * r / W) with (Z.of_nat k) in E by lia. lia.
Qed.
Lemma accept_lt v k : 0 <= v < 2 ^ w -> accept w r v = Some k -> (Z.of_nat k < r).
Proof.
  intros Hv H. apply accept_iff in H; [|exact Hv]. assert (0 < 2 ^ w) by (apply Z.pow_pos_nonneg; lia). nia.
Qed.
Definition range_words := map Z.of_nat (seq 0 (Z.to_nat (2 ^ w))).
Lemma range_words_in v : In v range_words <-> 0 <= v < 2 ^ w.
Proof.
  clear r Hr. unfold range_words. rewrite in_map_iff. assert (0 < 2 ^ w) by (apply Z.pow_pos_nonneg; lia). split.
  - intros (i & <- & Hi). apply in_seq in Hi. lia.
  - intros Hv. exists (Z.to_nat v). split; [lia|]. apply in_seq. lia.
Qed.
Definition is_some k (o : option nat) := match o with Some j => Nat.eqb j k | None => false end.
Lemma is_some_iff k o : is_some k o = true <-> o = Some k.
Proof. destruct o as [j|]; cbn; [|split; discriminate]. rewrite Nat.eqb_eq. split; [intros ->; reflexivity|intros [= ->]; reflexivity]. Qed.
Lemma accept_count k : Z.of_nat k < r -> Z.of_nat (count (fun v => is_some k (accept w r v)) range_words) = 2 ^ leading_zeros w r.
Proof.
  intros Hk. destruct lz_bounds as (L0 & L1 & L2). unfold range_words. rewrite count_map.
  assert (0 < 2 ^ w) as HW by (apply Z.pow_pos_nonneg; lia).
  assert (0 < 2 ^ leading_zeros w r) as HP by (apply Z.pow_pos_nonneg; lia).
  set (c := (Z.of_nat k * 2 ^ w + r - 1) / r).
  assert (c * r <= Z.of_nat k * 2 ^ w + r - 1 /\ Z.of_nat k * 2 ^ w <= c * r) as [C1 C2].
  { unfold c. pose proof (Z.div_mod (Z.of_nat k * 2 ^ w + r - 1) r ltac:(lia)). pose proof (Z.mod_pos_bound (Z.of_nat k * 2 ^ w + r - 1) r ltac:(lia)). nia. }
  assert (0 <= c) as C0. { unfold c. apply Z.div_pos; nia. }
  assert (c + 2 ^ leading_zeros w r <= 2 ^ w) as C3. { assert ((c + 2 ^ leading_zeros w r - 1) * r < r * 2 ^ w) by nia. nia. }
  rewrite (count_interval _ (Z.to_nat c) (Z.to_nat (c + 2 ^ leading_zeros w r)) _); [lia|lia|lia|].
  intros i Hi. apply eq_true_iff_eq. rewrite is_some_iff, andb_true_iff, Nat.leb_le, Nat.ltb_lt, accept_iff by lia. split.
  - intros [A1 A2]. assert (c <= Z.of_nat i) by nia. assert (Z.of_nat i < c + 2 ^ leading_zeros w r) by nia. lia.
  - intros [A1 A2]. assert (c <= Z.of_nat i < c + 2 ^ leading_zeros w r) as [B1 B2] by lia. split; nia.
Qed.
End Word.

Lemma list_sum_const {A} (f : A -> nat) c l : (forall x, In x l -> f x = c) -> list_sum (map f l) = (c * length l)%nat.
Proof. induction l as [|a l IH]; intros H; cbn [map list_sum fold_right length]; [lia|]. fold (list_sum (map f l)). rewrite (H a (or_introl eq_refl)), IH by (intros x Hx; apply H; right; exact Hx). lia. Qed.
Lemma list_sum_add {A} (f g : A -> nat) l : list_sum (map (fun x => f x + g x)%nat l) = (list_sum (map f l) + list_sum (map g l))%nat.
Proof. induction l as [|a l IH]; cbn [map list_sum fold_right]; [reflexivity|]. fold (list_sum (map f l)) (list_sum (map g l)) (list_sum (map (fun x => f x + g x)%nat l)). lia. Qed.
Lemma list_sum_one j n : (j < n)%nat -> list_sum (map (fun k => if (j =? k)%nat then 1%nat else 0%nat) (seq 0 n)) = 1%nat.
Proof.
  intros H. replace n with (j + (1 + (n - j - 1)))%nat by lia. rewrite seq_app, map_app, list_sum_app, seq_app, map_app, list_sum_app. cbn [plus].
  rewrite (list_sum_const _ 0 (seq 0 j)), (list_sum_const _ 0 (seq (j + 1) _)).
  - cbn. rewrite Nat.eqb_refl. reflexivity.
  - intros k Hk. apply in_seq in Hk. destruct (Nat.eqb_spec j k); [lia|reflexivity].
  - intros k Hk. apply in_seq in Hk. destruct (Nat.eqb_spec j k); [lia|reflexivity].
Qed.
Lemma count_cons {A} (f : A -> bool) a l : count f (a :: l) = ((if f a then 1 else 0) + count f l)%nat.
Proof. unfold count. cbn. destruct (f a); reflexivity. Qed.
Lemma count_split {A} (acc : A -> option nat) n l : (forall v k, In v l -> acc v = Some k -> (k < n)%nat) ->
  count (fun v => if acc v then true else false) l = list_sum (map (fun k => count (fun v => is_some k (acc v)) l) (seq 0 n)).
Proof.
  induction l as [|a l IH]; intros H.
  - rewrite (list_sum_const _ 0); [reflexivity|]. reflexivity.
  - rewrite count_cons, IH by (intros v k Hv; apply H; right; exact Hv).
    rewrite (map_ext (fun k => count (fun v => is_some k (acc v)) (a :: l)) (fun k => (if is_some k (acc a) then 1 else 0) + count (fun v => is_some k (acc v)) l)%nat) by (intros k; apply (count_cons (fun v => is_some k (acc v)))).
    rewrite list_sum_add. f_equal. destruct (acc a) as [j|] eqn:E.
    + symmetry. apply (list_sum_one j n), (H a); [left; reflexivity|exact E].
    + rewrite (list_sum_const _ 0); [reflexivity|]. reflexivity.
Qed.
Lemma accepted_total w r : 1 <= w -> 1 <= r <= 2 ^ w - 1 ->
  Z.of_nat (count (fun v => if accept w r v then true else false) (range_words w)) = r * 2 ^ leading_zeros w r.
Proof.
  intros Hw Hr. rewrite (count_split _ (Z.to_nat r)).
  - rewrite (list_sum_const _ (Z.to_nat (2 ^ leading_zeros w r))).
    + destruct (lz_bounds w r Hr) as (L0 & _). rewrite seq_length. assert (0 < 2 ^ leading_zeros w r) by (apply Z.pow_pos_nonneg; lia). nia.
    + intros k Hk. apply in_seq in Hk. pose proof (accept_count w r Hw Hr k ltac:(lia)). lia.
  - intros v k Hv Hk. apply range_words_in in Hv; [|exact Hw]. pose proof (accept_lt w r Hw Hr v k Hv Hk). lia.
Qed.

(** ** Streams *)
Lemma words_eq : words = range_words 32.
Proof. unfold words, range_words. reflexivity. Qed.
Definition bound_ok (b : nat) : Prop := (1 <= b)%nat /\ Z.of_nat b <= 2 ^ 32 - 1.
Fixpoint draws (bs : list nat) (ws : list Z) : option (list nat * list Z) :=
  match bs with
  | [] => Some ([], ws)
  | b :: bs' =>
      match gen_index b ws with
      | None => None
      | Some (k, ws') => match draws bs' ws' with None => None | Some (ks, ws'') => Some (k :: ks, ws'') end
      end
  end.
Definition drawn (bs ks : list nat) (ws : list Z) : bool :=
  match draws bs ws with Some (ks', []) => if list_eq_dec Nat.eq_dec ks' ks then true else false | _ => false end.
Lemma drawn_iff bs ks ws : drawn bs ks ws = true <-> draws bs ws = Some (ks, []).
Proof.
  unfold drawn. destruct (draws bs ws) as [[ks' [|v ws']]|]; [|split; intros; discriminate..].
  destruct (list_eq_dec Nat.eq_dec ks' ks) as [-> |N]; split; intros H; try reflexivity; try discriminate. injection H as ->. contradiction.
Qed.
Lemma drawn_cons b bs k ks v ws : bound_ok b -> drawn (b :: bs) (k :: ks) (v :: ws) =
  match accept 32 (Z.of_nat b) v with Some j => (Nat.eqb j k && drawn bs ks ws)%bool | None => drawn (b :: bs) (k :: ks) ws end.
Proof.
  intros [_ Hb]. unfold drawn. cbn [draws]. unfold gen_index. destruct (Z.leb_spec (Z.of_nat b) (2 ^ 32 - 1)); [|lia]. cbn [sample32].
  destruct (accept 32 (Z.of_nat b) v) as [j|]; [|reflexivity].
  destruct (draws bs ws) as [[ks' [|v' ws']]|]; [|destruct (Nat.eqb j k); reflexivity..].
  destruct (list_eq_dec Nat.eq_dec (j :: ks') (k :: ks)) as [E|N]; destruct (list_eq_dec Nat.eq_dec ks' ks) as [E'|N'].
  - injection E as -> _. rewrite Nat.eqb_refl. reflexivity.
  - injection E as -> Ek. contradiction.
  - subst ks'. destruct (Nat.eqb_spec j k) as [-> |]; [contradiction|reflexivity].
  - rewrite andb_false_r. reflexivity.
Qed.
Lemma drawn_nil_cons v ws ks : drawn [] ks (v :: ws) = false.
Proof. reflexivity. Qed.
Lemma drawn_cons_nil b bs ks : drawn (b :: bs) ks [] = false.
Proof. unfold drawn. cbn [draws]. unfold gen_index. destruct (_ <=? _); reflexivity. Qed.
Lemma sum_by_class (acc : Z -> option nat) (k A B : nat) l :
  list_sum (map (fun v => match acc v with Some j => if Nat.eqb j k then A else 0%nat | None => B end) l) =
  (count (fun v => is_some k (acc v)) l * A + count (fun v => if acc v then false else true) l * B)%nat.
Proof.
  induction l as [|a l IH]; [reflexivity|]. rewrite !count_cons. cbn [map list_sum fold_right].
  fold (list_sum (map (fun v => match acc v with Some j => if Nat.eqb j k then A else 0%nat | None => B end) l)). rewrite IH.
  destruct (acc a) as [j|]; cbn; [destruct (Nat.eqb j k)|]; lia.
Qed.
Lemma drawn_count m : forall bs ks ks', Forall bound_ok bs -> Forall2 lt ks bs -> Forall2 lt ks' bs ->
  count (drawn bs ks) (streams m) = count (drawn bs ks') (streams m).
Proof.
  induction m as [|m IH]; intros bs ks ks' Hb H H'.
  - cbn [streams]. unfold count. cbn [filter]. destruct bs as [|b bs].
    + inversion H; inversion H'. reflexivity.
    + rewrite !drawn_cons_nil. reflexivity.
  - cbn [streams]. destruct bs as [|b bs].
    + inversion H; inversion H'. reflexivity.
    + inversion H as [|k b' ks0 bs' Hk Hks]; subst. inversion H' as [|k' b' ks0' bs' Hk' Hks']; subst. inversion Hb as [|? ? Hb1 Hb2]; subst.
      assert (forall j js, (j < b)%nat -> Forall2 lt js bs ->
        count (drawn (b :: bs) (j :: js)) (flat_map (fun v => map (cons v) (streams m)) words) =
        (Z.to_nat (2 ^ leading_zeros 32 (Z.of_nat b)) * count (drawn bs js) (streams m) +
         count (fun v => if accept 32 (Z.of_nat b) v then false else true) words * count (drawn (b :: bs) (j :: js)) (streams m))%nat) as K.
      { intros j js Hj Hjs. rewrite count_flat_map.
        rewrite (map_ext _ (fun v => match accept 32 (Z.of_nat b) v with Some i => if Nat.eqb i j then count (drawn bs js) (streams m) else 0%nat
                                      | None => count (drawn (b :: bs) (j :: js)) (streams m) end)).
        - rewrite sum_by_class. f_equal. f_equal. apply Nat2Z.inj. rewrite words_eq.
          destruct Hb1 as [Hb0 Hb1]. rewrite (accept_count 32 (Z.of_nat b)); [|lia|lia|lia].
          rewrite Z2Nat.id; [reflexivity|]. apply Z.pow_nonneg. lia.
        - intros v. rewrite count_map. destruct (accept 32 (Z.of_nat b) v) as [i|] eqn:E.
          + destruct (Nat.eqb i j) eqn:Ei.
            * apply count_ext. intros ws _. rewrite drawn_cons, E, Ei by exact Hb1. reflexivity.
            * apply count_none. intros ws _. rewrite drawn_cons, E, Ei by exact Hb1. reflexivity.
          + apply count_ext. intros ws _. rewrite drawn_cons, E by exact Hb1. reflexivity. }
      rewrite (K k ks0 Hk Hks), (K k' ks0' Hk' Hks'), (IH bs ks0 ks0' Hb2 Hks Hks'), (IH (b :: bs) (k :: ks0) (k' :: ks0') Hb H H'). reflexivity.
Qed.

(** ** Swapping *)
Lemma swap_ok l i j : (i < length l)%nat -> (j < length l)%nat -> exists l', swap l i j = Ok l' /\ Permutation l' l /\ length l' = length l /\
  forall k, nth k l' 0%nat = if (k =? j)%nat then nth i l 0%nat else if (k =? i)%nat then nth j l 0%nat else nth k l 0%nat.
Proof.
  intros Hi Hj. unfold swap, index. rewrite (nth_error_nth' l 0%nat Hi). cbn [bind]. rewrite (nth_error_nth' l 0%nat Hj). cbn [bind].
  eexists. split; [reflexivity|].
  assert (forall k, nth k (upd (upd l i (nth j l 0%nat)) j (nth i l 0%nat)) 0%nat =
    if (k =? j)%nat then nth i l 0%nat else if (k =? i)%nat then nth j l 0%nat else nth k l 0%nat) as N.
  { intros k. rewrite nth_upd by (rewrite upd_length; exact Hj). rewrite (Nat.eqb_sym k j). destruct (Nat.eqb_spec j k) as [-> |]; [reflexivity|].
    rewrite nth_upd by exact Hi. rewrite (Nat.eqb_sym k i). reflexivity. }
  split; [|split; [rewrite !upd_length; reflexivity|exact N]].
  apply Permutation_sym, (Permutation_nth l _ 0%nat). rewrite !upd_length. split; [reflexivity|].
  exists (fun k => if (k =? j)%nat then i else if (k =? i)%nat then j else k). split; [|split].
  - intros k Hk. destruct (Nat.eqb_spec k j); [exact Hi|]. destruct (Nat.eqb_spec k i); [exact Hj|exact Hk].
  - intros x y Hx Hy. destruct (Nat.eqb_spec x j); destruct (Nat.eqb_spec y j); destruct (Nat.eqb_spec x i); destruct (Nat.eqb_spec y i); lia.
  - intros k Hk. rewrite N. destruct (Nat.eqb_spec k j); [reflexivity|]. destruct (Nat.eqb_spec k i); reflexivity.
Qed.

Fixpoint bounds (i : nat) : list nat := match i with O => [] | S i' => (i + 1)%nat :: bounds i' end.
Fixpoint swaps (i : nat) (l : list nat) (ks : list nat) : res (list nat) :=
  match i, ks with
  | S i', k :: ks' => l' <- swap l i k ;; swaps i' l' ks'
  | _, _ => Ok l
  end.
Lemma shuffle_draws i : forall l ws, shuffle_from i l ws =
  match draws (bounds i) ws with None => (r <- shuffle_from i l ws ;; Ok r) | Some (ks, ws') => l' <- swaps i l ks ;; Ok (Some (l', ws')) end.
Proof.
  induction i as [|i IH]; intros l ws; [reflexivity|]. cbn [shuffle_from bounds draws].
  destruct (gen_index (S i + 1) ws) as [[k ws']|]; [|reflexivity]. destruct (draws (bounds i) ws') as [[ks ws'']|] eqn:E.
  - cbn [swaps]. destruct (swap l (S i) k) as [l'|e]; [|reflexivity]. cbn [bind]. rewrite IH, E. reflexivity.
  - destruct (swap l (S i) k) as [l'|e]; [|reflexivity]. cbn [bind]. destruct (shuffle_from i l' ws'); reflexivity.
Qed.

Lemma swaps_spec i : forall l ks, (i < length l)%nat -> Forall2 lt ks (bounds i) -> exists l', swaps i l ks = Ok l' /\ Permutation l' l /\
  forall k, (i < k)%nat -> nth k l' 0%nat = nth k l 0%nat.
Proof.
  induction i as [|i IH]; intros l ks Hl H.
  - inversion H. exists l. split; [reflexivity|]. split; [reflexivity|]. reflexivity.
  - cbn [bounds] in H. inversion H as [|k b ks' bs Hk Hks]; subst. cbn [swaps].
    destruct (swap_ok l (S i) k Hl ltac:(lia)) as (l1 & -> & P1 & L1 & N1). cbn [bind].
    destruct (IH l1 ks' ltac:(lia) Hks) as (l2 & E2 & P2 & N2). exists l2. split; [exact E2|]. split; [rewrite P2; exact P1|].
    intros j Hj. rewrite N2 by lia. rewrite N1. destruct (Nat.eqb_spec j k); [lia|]. destruct (Nat.eqb_spec j (S i)); [lia|reflexivity].
Qed.

(** Every permutation comes from exactly one sequence of indices. *)
Lemma nth_inj (l : list nat) i j : NoDup l -> (i < length l)%nat -> (j < length l)%nat -> nth i l 0%nat = nth j l 0%nat -> i = j.
Proof. intros N Hi Hj. apply (proj1 (NoDup_nth l 0%nat) N i j Hi Hj). Qed.
Lemma swaps_inj i : forall l ks ks' p, NoDup l -> (i < length l)%nat -> Forall2 lt ks (bounds i) -> Forall2 lt ks' (bounds i) ->
  swaps i l ks = Ok p -> swaps i l ks' = Ok p -> ks = ks'.
Proof.
  induction i as [|i IH]; intros l ks ks' p ND Hl H H' E E'.
  - inversion H; inversion H'. reflexivity.
  - cbn [bounds] in H, H'. inversion H as [|k b r bs Hk Hr]; subst. inversion H' as [|k' b' r' bs' Hk' Hr']; subst. cbn [swaps] in E, E'.
    destruct (swap_ok l (S i) k Hl ltac:(lia)) as (l1 & E1 & P1 & L1 & N1). destruct (swap_ok l (S i) k' Hl ltac:(lia)) as (l2 & E2 & P2 & L2 & N2).
    rewrite E1 in E. rewrite E2 in E'. cbn [bind] in E, E'.
    destruct (swaps_spec i l1 r ltac:(lia) Hr) as (q1 & Q1 & _ & M1). destruct (swaps_spec i l2 r' ltac:(lia) Hr') as (q2 & Q2 & _ & M2).
    rewrite Q1 in E. rewrite Q2 in E'. injection E as ->. injection E' as ->.
    pose proof (M1 (S i) ltac:(lia)) as A1. pose proof (M2 (S i) ltac:(lia)) as A2. rewrite A1, N1, N2, Nat.eqb_refl in A2.
    assert (k = k') as <-.
    { apply (nth_inj l); [exact ND|lia|lia|]. destruct (Nat.eqb_spec (S i) k) as [<- |]; destruct (Nat.eqb_spec (S i) k') as [<- |]; trivial. }
    f_equal. rewrite E1 in E2. injection E2 as <-. apply (IH l1 r r' p); trivial; try lia. apply (Permutation_NoDup (Permutation_sym P1)), ND.
Qed.
Lemma swaps_surj i : forall l p, NoDup l -> (i < length l)%nat -> Permutation p l -> (forall k, (i < k)%nat -> nth k p 0%nat = nth k l 0%nat) ->
  exists ks, Forall2 lt ks (bounds i) /\ swaps i l ks = Ok p.
Proof.
  induction i as [|i IH]; intros l p ND Hl P A.
  - exists []. split; [constructor|]. cbn [swaps]. f_equal. pose proof (Permutation_length P) as L.
    apply (nth_ext _ _ 0%nat 0%nat); [symmetry; exact L|]. intros j Hj. destruct j as [|j]; [|symmetry; apply A; lia].
    destruct l as [|a l]; [cbn in Hl; lia|]. destruct p as [|b p]; [discriminate|]. cbn [nth].
    assert (p = l) as ->. { apply (nth_ext _ _ 0%nat 0%nat); [cbn in L; lia|]. intros j Hj'. apply (A (S j)). lia. }
    symmetry.
    assert (In b (a :: l)) as I by (apply (Permutation_in _ P); left; reflexivity). destruct I as [-> |I]; [reflexivity|]. exfalso.
    apply Permutation_sym, (fun P => Permutation_NoDup P ND) in P. inversion P. contradiction.
  - pose proof (Permutation_length P) as L. pose proof (Permutation_NoDup (Permutation_sym P) ND) as NDp.
    assert (In (nth (S i) p 0%nat) l) as I. { apply (Permutation_in _ P), nth_In. lia. }
    apply (In_nth _ _ 0%nat) in I. destruct I as (k & Hk & Ek).
    assert (k <= S i)%nat as Hki.
    { destruct (le_lt_dec k (S i)) as [|G]; [assumption|]. exfalso. rewrite <- (A k G) in Ek. apply (nth_inj p) in Ek; trivial; lia. }
    destruct (swap_ok l (S i) k Hl Hk) as (l1 & E1 & P1 & L1 & N1).
    destruct (IH l1 p) as (ks & F & E).
    + apply (Permutation_NoDup (Permutation_sym P1)), ND.
    + lia.
    + rewrite P1. exact P.
    + intros j Hj. rewrite N1. destruct (Nat.eqb_spec j k) as [-> |Nk].
      * assert (k = S i) as -> by lia. symmetry. exact Ek.
      * destruct (Nat.eqb_spec j (S i)) as [-> |Ni]; [symmetry; exact Ek|]. apply A. lia.
    + exists (k :: ks). split; [cbn [bounds]; constructor; [lia|exact F]|]. cbn [swaps]. rewrite E1. exact E.
Qed.

(** ** What is drawn *)
Definition word_ok (v : Z) : Prop := 0 <= v < 2 ^ 32.
Lemma words_in v : In v words <-> word_ok v.
Proof. rewrite words_eq. exact (range_words_in 32 (Zle_bool_imp_le 1 32 eq_refl) v). Qed.
Lemma sample32_lt r ws : 1 <= r <= 2 ^ 32 - 1 -> Forall word_ok ws -> forall k ws', sample32 r ws = Some (k, ws') -> Z.of_nat k < r /\ Forall word_ok ws'.
Proof.
  intros Hr F. induction F as [|v ws Hv F IH]; intros k ws' E; [discriminate|]. cbn [sample32] in E.
  destruct (accept 32 r v) as [j|] eqn:A; [|apply IH, E]. injection E as <- <-. split; [|exact F]. apply (accept_lt 32 r ltac:(lia) Hr v); assumption.
Qed.
Lemma sample64_lt r : 1 <= r <= 2 ^ 64 - 1 -> forall n ws, (length ws <= n)%nat -> Forall word_ok ws ->
  forall k ws', sample64 r ws = Some (k, ws') -> Z.of_nat k < r /\ Forall word_ok ws'.
Proof.
  intros Hr. induction n as [|n IH]; intros ws L F k ws' E.
  - destruct ws; [discriminate|cbn in L; lia].
  - destruct ws as [|a [|b ws]]; [discriminate..|]. inversion F as [|? ? Ha F1]; subst. inversion F1 as [|? ? Hb F2]; subst. cbn [sample64] in E.
    destruct (accept 64 r (a + 2 ^ 32 * b)) as [j|] eqn:A; [|apply (IH ws); trivial; cbn in L; lia]. injection E as <- <-. split; [|exact F2].
    unfold word_ok in *. apply (accept_lt 64 r ltac:(lia) Hr (a + 2 ^ 32 * b)); [|exact A]. lia.
Qed.
Lemma gen_index_lt ub ws k ws' : (1 <= ub)%nat -> Z.of_nat ub < 2 ^ 64 -> Forall word_ok ws -> gen_index ub ws = Some (k, ws') -> (k < ub)%nat /\ Forall word_ok ws'.
Proof.
  intros H1 H2 F. unfold gen_index. destruct (Z.leb_spec (Z.of_nat ub) (2 ^ 32 - 1)) as [H|H]; intros E.
  - apply sample32_lt in E; [|lia|exact F]. split; [lia|apply E].
  - apply (sample64_lt (Z.of_nat ub) ltac:(lia) (length ws)) in E; [|lia|exact F]. split; [lia|apply E].
Qed.
Lemma draws_lt i : Z.of_nat i + 1 < 2 ^ 64 -> forall ws ks ws', Forall word_ok ws -> draws (bounds i) ws = Some (ks, ws') -> Forall2 lt ks (bounds i) /\ Forall word_ok ws'.
Proof.
  induction i as [|i IH]; intros Hi ws ks ws' F E.
  - cbn in E. injection E as <- <-. split; [constructor|exact F].
  - cbn [bounds draws] in E. destruct (gen_index (S i + 1) ws) as [[k w1]|] eqn:G; [|discriminate].
    apply gen_index_lt in G; [|lia|lia|exact F]. destruct G as [G F1].
    destruct (draws (bounds i) w1) as [[ks1 w2]|] eqn:D; [|discriminate]. injection E as <- <-.
    destruct (IH ltac:(lia) _ _ _ F1 D) as [A B]. split; [constructor; assumption|exact B].
Qed.
Lemma shuffle_from_none i : forall l ws r, draws (bounds i) ws = None -> shuffle_from i l ws <> Ok (Some r).
Proof.
  induction i as [|i IH]; intros l ws r D; [discriminate|]. cbn [bounds draws] in D. cbn [shuffle_from].
  destruct (gen_index (S i + 1) ws) as [[k w1]|]; [|discriminate]. destruct (swap l (S i) k) as [l'|e]; [|discriminate]. cbn [bind].
  apply IH. destruct (draws (bounds i) w1) as [[? ?]|]; [discriminate|reflexivity].
Qed.
Lemma shuffle_from_some i l ws p ws' : shuffle_from i l ws = Ok (Some (p, ws')) <-> exists ks, draws (bounds i) ws = Some (ks, ws') /\ swaps i l ks = Ok p.
Proof.
  rewrite shuffle_draws. destruct (draws (bounds i) ws) as [[ks w1]|] eqn:D; split.
  - destruct (swaps i l ks) as [l'|e] eqn:E; [|discriminate]. cbn [bind]. intros [= <- <-]. exists ks. split; trivial.
  - intros (ks' & [= <- <-] & ->). reflexivity.
  - intros H. exfalso. destruct (shuffle_from i l ws) as [r|e] eqn:E; [|discriminate]. cbn in H. injection H as ->. apply (shuffle_from_none i l ws (p, ws') D), E.
  - intros (ks & H & _). discriminate.
Qed.
Lemma shuffle_total i : forall l ws, Z.of_nat i + 1 < 2 ^ 64 -> (i = 0 \/ i < length l)%nat -> Forall word_ok ws -> exists r, shuffle_from i l ws = Ok r.
Proof.
  induction i as [|i IH]; intros l ws Hi Hl F; [eexists; reflexivity|]. cbn [shuffle_from].
  destruct (gen_index (S i + 1) ws) as [[k w1]|] eqn:G; [|eexists; reflexivity]. apply gen_index_lt in G; [|lia|lia|exact F].
  destruct (swap_ok l (S i) k ltac:(lia) ltac:(lia)) as (l' & -> & _ & L & _). cbn [bind]. apply IH; [lia|lia|apply G].
Qed.

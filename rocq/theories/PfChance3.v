(** * How often items of a batch are dropped, over any evenly spread list of hash functions. *)
From Coq Require Import Permutation.
From Verif Require Import MBase MHash MShuffle SpecOram PfHash SpecShuffle SpecChance PfShuffle PfShuffle2 PfChance PfChance2.
Local Open Scope nat_scope.

Section Spread.
Context (L : list nhash) (hc dom rows cols : nat).
Hypothesis HL : forall nh, In nh L -> hash_for nh hc dom.
Hypothesis UL : forall slots cs cs', Forall (slot_ok hc dom) slots -> NoDup cs -> NoDup cs' -> length cs = length cs' ->
  Forall (fun c => c < hc * dom) cs -> Forall (fun c => c < hc * dom) cs' -> placed slots cs L = placed slots cs' L.
Hypothesis Hrc : rows * cols = hc * dom.

Lemma spread_K s1 s2 : NoDup (s1 ++ s2) -> Forall (slot_ok hc dom) (s1 ++ s2) -> forall nh, In nh L ->
  length (vals hc s1 nh) = length s1 /\ length (vals hc s2 nh) = length s2 /\ NoDup (vals hc s1 nh ++ vals hc s2 nh) /\ forall c, In c (vals hc s1 nh ++ vals hc s2 nh) -> c < hc * dom.
Proof.
  intros N F nh Hin. rewrite <- vals_app. split; [apply map_length|]. split; [apply map_length|]. apply (vals_ok nh hc dom (s1 ++ s2) (HL nh Hin) N F).
Qed.
Lemma spread_U s1 s2 k1 k2 : Forall (slot_ok hc dom) (s1 ++ s2) -> forall cs cs', NoDup cs -> NoDup cs' -> length cs = k1 + k2 -> length cs' = k1 + k2 ->
  (forall c, In c cs -> c < hc * dom) -> (forall c, In c cs' -> c < hc * dom) ->
  count (fun nh => is_list (vals hc s1 nh ++ vals hc s2 nh) cs) L = count (fun nh => is_list (vals hc s1 nh ++ vals hc s2 nh) cs') L.
Proof.
  intros F cs cs' N N' E E' C C'.
  rewrite (count_ext (fun nh => is_list (vals hc s1 nh ++ vals hc s2 nh) cs) (fun nh => is_list (vals hc (s1 ++ s2) nh) cs)) by (intros x _; rewrite vals_app; reflexivity).
  rewrite (count_ext (fun nh => is_list (vals hc s1 nh ++ vals hc s2 nh) cs') (fun nh => is_list (vals hc (s1 ++ s2) nh) cs')) by (intros x _; rewrite vals_app; reflexivity).
  rewrite <- !(placed_is L hc dom (s1 ++ s2)) by assumption. apply UL; trivial; try (apply Forall_forall; assumption). congruence.
Qed.

(** The items before [j] occupy rows; [j] is dropped if all of its cells are in these rows. *)
Definition blocked (pre : list nat) (e : list nat) : list nat :=
  match find (fun nh => is_list (vals hc (flat_map (item_slots hc) pre) nh) e) L with
  | Some nh => match hash_to_mapping nh pre cols with Ok m1 => rest_of_rows hc dom cols m1 e | Panic _ => [] end
  | None => [] end.
Lemma is_list_iff a b : is_list a b = true <-> a = b.
Proof. unfold is_list. destruct (lists_eq a b); split; congruence. Qed.
Theorem any_dropped pre j post : NoDup (pre ++ j :: post) -> (forall i, In i (pre ++ j :: post) -> i < dom) ->
  count (dropped (pre ++ j :: post) cols j) L * falling (hc * dom - length pre * hc) hc <= length L * falling (length pre * (cols - 1)) hc.
Proof.
  intros N Hi. set (s1 := flat_map (item_slots hc) pre). set (s2 := item_slots hc j).
  assert (j < dom) as Hj by (apply Hi, in_or_app; right; left; reflexivity).
  assert (forall i, In i pre -> i < dom) as Hp by (intros i I; apply Hi, in_or_app; left; exact I).
  assert (~ In j pre) as Np. { apply NoDup_remove_2 in N. intros I; apply N, in_or_app; auto. }
  assert (NoDup pre) as Nd. { apply nodup_app_inv in N. tauto. }
  assert (NoDup (s1 ++ s2)) as Ns.
  { unfold s1, s2. replace (item_slots hc j) with (flat_map (item_slots hc) [j]) by (cbn; apply app_nil_r). rewrite <- flat_map_app. apply items_nodup. apply nodup_app'; [exact Nd|repeat constructor; intros []|].
    intros x Hx [->|[]]. contradiction. }
  assert (Forall (slot_ok hc dom) (s1 ++ s2)) as Fs.
  { apply Forall_app. split; [apply items_ok, Hp|]. unfold s2. replace (item_slots hc j) with (flat_map (item_slots hc) [j]) by (cbn; apply app_nil_r). apply items_ok. intros i [<-|[]]. exact Hj. }
  assert (length s1 = length pre * hc) as L1 by (unfold s1; apply flat_len; intros; apply item_slots_len).
  assert (length s2 = hc) as L2 by apply item_slots_len.
  assert (forall nh, In nh L -> 0 < cols) as Hc. { intros nh I. apply (cols_pos hc dom rows cols nh (HL nh I) Hrc). lia. }
  rewrite (count_ext _ (inside (vals hc s1) (vals hc s2) (blocked pre))).
  - rewrite <- L1 at 1. apply (share_le L (vals hc s1) (vals hc s2) (hc * dom) (length s1) hc).
    + intros nh I. destruct (spread_K s1 s2 Ns Fs nh I) as (A1 & A2 & A3 & A4). rewrite L2 in A2. auto.
    + apply spread_U, Fs.
    + intros e _. unfold blocked. destruct (find _ L) as [nh|] eqn:Ef; [|split; [apply NoDup_nil|]; split; [apply Nat.le_0_l|]; intros c []].
      apply find_some in Ef as [I Ef]. apply is_list_iff in Ef. destruct (hash_to_mapping nh pre cols) as [m1|] eqn:Em; [|split; [apply NoDup_nil|]; split; [apply Nat.le_0_l|]; intros c []].
      split; [apply NoDup_filter, seq_NoDup|]. split; [rewrite <- Ef; apply (rest_len hc dom rows cols nh (HL nh I) Hrc pre m1 Hp); [intros _; apply (Hc nh I)|exact Em]|].
      intros c Ic. apply (rest_in hc dom rows cols Hrc) in Ic. tauto.
  - intros nh I. pose proof (HL nh I) as Hh. pose proof Hh as (f & Hf & Hn). destruct (mapping_ok f Hf hc dom nh Hn cols pre Hp (Hc nh I)) as (m1 & Em & _).
    pose proof (dropped_rows hc dom rows cols nh Hh Hrc pre j post m1 N Hi Em) as D. fold s2 in D.
    assert (blocked pre (vals hc s1 nh) = rest_of_rows hc dom cols m1 (vals hc s1 nh)) as EB.
    { unfold blocked. fold s1. destruct (find _ L) as [nh'|] eqn:Ef.
      - apply find_some in Ef as [I' Ef]. apply is_list_iff in Ef.
        rewrite (mapping_same hc nh' nh cols pre); [rewrite Em; reflexivity|apply (hash_parts nh' hc dom (HL nh' I'))|apply (hash_parts nh hc dom Hh)|].
        apply (vals_hash nh' nh hc dom pre (HL nh' I') Hh Hp Ef).
      - apply (find_none _ _ Ef) in I. rewrite (proj2 (is_list_iff _ _) eq_refl) in I. discriminate. }
    destruct (spread_K s1 s2 Ns Fs nh I) as (_ & _ & A3 & A4). apply nodup_app_inv in A3 as (_ & _ & A3).
    pose proof (inside_iff (vals hc s1) (vals hc s2) (blocked pre) nh) as In1. rewrite EB in In1.
    destruct (dropped _ cols j nh) eqn:Ed; symmetry.
    + apply In1. intros c Ic. apply (rest_in hc dom rows cols Hrc). split; [apply A4, in_or_app; right; exact Ic|]. split; [apply (proj1 D eq_refl c Ic)|]. intros Ic'. exact (A3 c Ic' Ic).
    + destruct (inside _ _ _ nh) eqn:Ei; [|reflexivity]. assert (false = true) as X; [|discriminate X]. apply D. intros c Ic. pose proof (proj1 In1 eq_refl c Ic) as R. apply (rest_in hc dom rows cols Hrc) in R. tauto.
Qed.

(** The other cells of the row of the first cell of [e]. *)
Definition row_rest (e : list nat) : list nat := filter (fun c => (c / cols =? hd 0 e / cols) && negb (c =? hd 0 e)) (seq 0 (hc * dom)).
Lemma row_rest_in e c : In c (row_rest e) <-> c < hc * dom /\ c / cols = hd 0 e / cols /\ c <> hd 0 e.
Proof. unfold row_rest. rewrite filter_In, in_seq, andb_true_iff, negb_true_iff, Nat.eqb_eq, Nat.eqb_neq. split; intros; repeat split; try tauto; lia. Qed.
Lemma row_rest_len y : y < hc * dom -> length (row_rest [y]) = cols - 1.
Proof.
  intros Hy. assert (0 < cols) as Hc by (destruct cols; nia). pose proof (Nat.div_mod y cols ltac:(lia)) as Dy. pose proof (Nat.mod_upper_bound y cols ltac:(lia)) as My.
  assert (length (y :: row_rest [y]) = length (seq (y / cols * cols) cols)) as E.
  { apply Nat.le_antisymm; apply NoDup_incl_length.
    - constructor; [|apply NoDup_filter, seq_NoDup]. intros I. apply row_rest_in in I. cbn in I. lia.
    - intros c [<-|I]; apply in_seq; [lia|]. apply row_rest_in in I as (_ & I & _). cbn [hd] in I. pose proof (Nat.div_mod c cols ltac:(lia)). pose proof (Nat.mod_upper_bound c cols ltac:(lia)). rewrite I in H. lia.
    - apply seq_NoDup.
    - intros c I. apply in_seq in I. destruct (Nat.eq_dec c y) as [->|D]; [left; reflexivity|right]. apply row_rest_in. cbn [hd].
      assert (c / cols = y / cols) as Q. { symmetry. apply (Nat.div_unique c cols (y / cols) (c - y / cols * cols)); lia. }
      split; [|split; [exact Q|exact D]]. assert (y / cols < rows) by (apply Nat.div_lt_upper_bound; lia). nia. }
  rewrite seq_length in E. cbn [length] in E. lia.
Qed.
Lemma mapping_one nh i m1 : In nh L -> i < dom -> hash_to_mapping nh [i] cols = Ok m1 -> map fst m1 = [hd 0 (vals hc [(0, i)] nh) / cols].
Proof using HL Hrc.
  clear UL. intros I Hi E. pose proof (HL nh I) as Hh. destruct (hash_parts nh hc dom Hh) as (Eh & _). assert (0 < hc) as Hhc.
  { destruct Hh as (f & Hf & Hn). destruct (nh_fields f hc dom nh Hn) as (A & _). lia. }
  unfold hash_to_mapping in E. rewrite Eh in E. cbn [foldM] in E. destruct hc as [|hc'] eqn:Ehc; [lia|]. rewrite <- Ehc in *. replace (seq 0 hc) with (0 :: seq 1 hc') in E by (rewrite Ehc; reflexivity).
  cbn [place] in E. destruct (hash_to_tuple nh 0 i cols) as [[r c]|] eqn:Et; [|discriminate]. cbn [bind hget] in E. injection E as <-.
  destruct (tuple_of hc dom rows cols nh Hh Hrc 0 i r c Hhc Hi Et) as (-> & _). reflexivity.
Qed.
Theorem second_dropped i j post : NoDup (i :: j :: post) -> (forall x, In x (i :: j :: post) -> x < dom) ->
  count (dropped (i :: j :: post) cols j) L * falling (hc * dom - 1) hc = length L * falling (cols - 1) hc.
Proof.
  intros N Hi. set (s1 := [(0, i)]). set (s2 := item_slots hc j).
  assert (j < dom) as Hj by (apply Hi; right; left; reflexivity). assert (i < dom) as Hii by (apply Hi; left; reflexivity).
  assert (i <> j) as Nij. { inversion N as [|? ? A _]; subst. intros ->. apply A. left. reflexivity. }
  destruct L as [|nh0 L'] eqn:EL; [reflexivity|]. rewrite <- EL in *. assert (In nh0 L) as I0 by (rewrite EL; left; reflexivity).
  assert (0 < hc) as Hhc. { destruct (HL nh0 I0) as (f & Hf & Hn). destruct (nh_fields f hc dom nh0 Hn) as (A & _). lia. }
  assert (0 < cols) as Hc. { apply (cols_pos hc dom rows cols nh0 (HL nh0 I0) Hrc). lia. }
  assert (NoDup (s1 ++ s2)) as Ns. { cbn. constructor; [|apply item_slots_nodup]. intros I. apply item_slot_in in I. cbn in I. lia. }
  assert (Forall (slot_ok hc dom) (s1 ++ s2)) as Fs.
  { constructor; [split; assumption|]. unfold s2. replace (item_slots hc j) with (flat_map (item_slots hc) [j]) by (cbn; apply app_nil_r). apply items_ok. intros x [<-|[]]. exact Hj. }
  rewrite (count_ext _ (inside (vals hc s1) (vals hc s2) row_rest)).
  - apply (share L (vals hc s1) (vals hc s2) (hc * dom) 1 hc).
    + intros nh I. destruct (spread_K s1 s2 Ns Fs nh I) as (A1 & A2 & A3 & A4). unfold s2 at 2 in A2. rewrite item_slots_len in A2. auto.
    + apply spread_U, Fs.
    + intros e He. apply picks_in in He as (E1 & _ & E3). destruct e as [|y [|]]; try discriminate. split; [apply NoDup_filter, seq_NoDup|].
      split; [apply row_rest_len; specialize (E3 y (or_introl eq_refl)); apply in_seq in E3; lia|]. intros c Ic. apply row_rest_in in Ic as (C1 & _ & C3). cbn [hd] in C3. split; [exact C1|]. intros [->|[]]. apply C3. reflexivity.
  - intros nh I. pose proof (HL nh I) as Hh. pose proof Hh as (f & Hf & Hn).
    destruct (mapping_ok f Hf hc dom nh Hn cols [i] ltac:(intros x [<-|[]]; exact Hii) Hc) as (m1 & Em & _).
    pose proof (dropped_rows hc dom rows cols nh Hh Hrc [i] j post m1 N Hi Em) as D. rewrite (mapping_one nh i m1 I Hii Em) in D. fold s1 s2 in D. cbn [app] in D.
    destruct (spread_K s1 s2 Ns Fs nh I) as (_ & _ & A3 & A4). apply nodup_app_inv in A3 as (_ & _ & A3).
    pose proof (inside_iff (vals hc s1) (vals hc s2) row_rest nh) as In1.
    destruct (dropped _ cols j nh) eqn:Ed; symmetry.
    + apply In1. intros c Ic. apply row_rest_in. split; [apply A4, in_or_app; right; exact Ic|]. split; [destruct (proj1 D eq_refl c Ic) as [X|[]]; symmetry; exact X|].
      intros ->. apply (A3 (hd 0 (vals hc s1 nh))); [left; reflexivity|exact Ic].
    + destruct (inside _ _ _ nh) eqn:Ei; [|reflexivity]. assert (false = true) as X; [|discriminate X]. apply D. intros c Ic. pose proof (proj1 In1 eq_refl c Ic) as R. apply row_rest_in in R as (_ & R & _). left. symmetry. exact R.
Qed.

Lemma count_or {A} (f g : A -> bool) l : count (fun x => f x || g x) l <= count f l + count g l.
Proof. induction l as [|x l IH]; [cbn; lia|]. rewrite !count_cons. destruct (f x), (g x); cbn [orb]; lia. Qed.
(** Union bound over the items of the request. *)
Lemma all_from a is T : NoDup (a ++ is) -> (forall i, In i (a ++ is) -> i < dom) -> length (a ++ is) <= T ->
  count (fun nh => existsb (fun j => dropped (a ++ is) cols j nh) is) L * falling (hc * dom - (T - 1) * hc) hc
  <= length L * list_sum (map (fun t => falling (t * (cols - 1)) hc) (seq (length a) (length is))).
Proof.
  revert a. induction is as [|j is IH]; intros a N Hi HT.
  - cbn [existsb]. replace (count (fun _ : nhash => false) L) with 0; [lia|]. clear. unfold count. induction L as [|x l IH]; [reflexivity|exact IH].
  - cbn [existsb length seq map]. set (rest := list_sum (map (fun t => falling (t * (cols - 1)) hc) (seq (S (length a)) (length is)))).
    match goal with |- context [list_sum (?x :: ?l)] => change (list_sum (x :: l)) with (x + rest) end.
    pose proof (count_or (dropped (a ++ j :: is) cols j) (fun nh => existsb (fun j0 => dropped (a ++ j :: is) cols j0 nh) is) L) as H1.
    pose proof (any_dropped a j is N Hi) as H2. specialize (IH (a ++ [j])). rewrite <- app_assoc in IH. cbn [app] in IH. specialize (IH N Hi HT). rewrite app_length in IH. cbn [length] in IH. rewrite Nat.add_1_r in IH.
    assert (falling (hc * dom - (T - 1) * hc) hc <= falling (hc * dom - length a * hc) hc) as H3. { apply falling_mono. rewrite app_length in HT. cbn [length] in HT. nia. }
    fold rest in IH.
    revert H1 H2 IH H3. generalize (count (dropped (a ++ j :: is) cols j) L). generalize (count (fun nh => existsb (fun j0 => dropped (a ++ j :: is) cols j0 nh) is) L).
    generalize (count (fun nh => dropped (a ++ j :: is) cols j nh || existsb (fun j0 => dropped (a ++ j :: is) cols j0 nh) is) L).
    generalize (falling (hc * dom - (T - 1) * hc) hc) (falling (hc * dom - length a * hc) hc) (falling (length a * (cols - 1)) hc). clear. intros. nia.
Qed.
Lemma first_served nh i is : hash_for nh hc dom -> (forall x, In x (i :: is) -> x < dom) -> 0 < cols -> dropped (i :: is) cols i nh = false.
Proof.
  intros Hh Hi Hc. unfold dropped, served. destruct Hh as (f & Hf & Hn). destruct (mapping_ok f Hf hc dom nh Hn cols (i :: is) Hi Hc) as (m & E & _). rewrite E.
  destruct (mapping_first f Hf hc dom nh Hn cols i is m) as (r & c & I); trivial; try (intros; apply Hi; auto using in_cons, in_eq).
  apply negb_false_iff, existsb_exists. exists (r, (c, i)). split; [exact I|apply Nat.eqb_refl].
Qed.
End Spread.

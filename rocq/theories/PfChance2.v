(** * Dropped items of a batch: which cells are to blame. *)
From Coq Require Import Permutation.
From Verif Require Import MBase MHash MShuffle SpecOram PfHash SpecShuffle SpecChance PfShuffle PfShuffle2 PfChance.
Local Open Scope nat_scope.

(** The cells of slots, as numbers. *)
Definition vals (hc : nat) (s : list (nat * nat)) (nh : nhash) : list nat := map (fun hx => nth (slot_pos hc hx) (nh_tables nh) 0) s.
Lemma vals_app hc s s' nh : vals hc (s ++ s') nh = vals hc s nh ++ vals hc s' nh.
Proof. apply map_app. Qed.
Lemma hash_parts nh hc dom : hash_for nh hc dom -> nh_h_count nh = hc /\ NoDup (nh_tables nh) /\ length (nh_tables nh) = hc * dom /\ forall y, In y (nh_tables nh) -> y < hc * dom.
Proof.
  intros H. apply hash_for_iff in H as (_ & E & _ & P). split; [exact E|]. split; [apply (Permutation_NoDup (Permutation_sym P)), seq_NoDup|].
  split; [rewrite (Permutation_length P); apply seq_length|]. intros y Hy. apply (Permutation_in _ P), in_seq in Hy. lia.
Qed.
Lemma vals_ok nh hc dom s : hash_for nh hc dom -> NoDup s -> Forall (slot_ok hc dom) s -> NoDup (vals hc s nh) /\ forall c, In c (vals hc s nh) -> c < hc * dom.
Proof.
  intros H N F. destruct (hash_parts _ _ _ H) as (_ & T1 & T2 & T3). destruct (slots_pos hc dom s N F) as [P1 P2]. split.
  - unfold vals. rewrite <- (map_map (slot_pos hc) (fun p => nth p (nh_tables nh) 0)). clear N F. induction (map (slot_pos hc) s) as [|a l IH]; cbn; [constructor|].
    inversion P1 as [|? ? A1 A2]; subst. constructor; [|apply IH; [exact A2|intros j Hj; apply P2; right; exact Hj]].
    intros I. apply in_map_iff in I as (b & Eb & Hb). apply nth_inj in Eb; [subst b; contradiction|exact T1| |].
    + rewrite T2. apply P2. right. exact Hb.
    + rewrite T2. apply P2. left. reflexivity.
  - intros c Hc. unfold vals in Hc. apply in_map_iff in Hc as (hx & <- & Hx). apply T3, nth_In. rewrite T2. apply (slot_pos_lt hc dom). rewrite Forall_forall in F. apply F, Hx.
Qed.
Lemma placed_is (L : list nhash) hc dom s cs : (forall nh, In nh L -> hash_for nh hc dom) -> Forall (slot_ok hc dom) s ->
  count_occ same_cells (map (fun nh => cells nh s) L) (map Ok cs) = count (fun nh => is_list (vals hc s nh) cs) L.
Proof.
  intros H F. induction L as [|nh L IH]; [reflexivity|]. cbn [map count_occ]. rewrite count_cons, IH by (intros x Hx; apply H; right; exact Hx).
  rewrite (cells_eq hc dom nh s (H nh (or_introl eq_refl)) F). rewrite <- (map_map (fun hx => nth (slot_pos hc hx) (nh_tables nh) 0) (@Ok nat)). fold (vals hc s nh).
  unfold is_list. destruct (same_cells _ _) as [E|E]; destruct (lists_eq (vals hc s nh) cs) as [E'|E']; trivial.
  - exfalso. apply E'. clear - E. revert E. generalize (vals hc s nh). intros l. revert cs. induction l as [|x l IH]; intros [|y cs] E; try discriminate; [reflexivity|].
    cbn in E. injection E as -> E. f_equal. apply IH, E.
  - exfalso. apply E. rewrite E'. reflexivity.
Qed.

Definition item_slots (hc j : nat) : list (nat * nat) := map (fun h => (h, j)) (seq 0 hc).
Lemma item_slot_in hc j hx : In hx (item_slots hc j) <-> fst hx < hc /\ snd hx = j.
Proof.
  unfold item_slots. rewrite in_map_iff. destruct hx as [h x]. cbn. split.
  - intros (k & E & H). injection E as -> ->. apply in_seq in H. lia.
  - intros [H ->]. exists h. split; [reflexivity|apply in_seq; lia].
Qed.
Lemma item_slots_nodup hc j : NoDup (item_slots hc j).
Proof. apply FinFun.Injective_map_NoDup; [intros a b E; congruence|apply seq_NoDup]. Qed.
Lemma item_slots_len hc j : length (item_slots hc j) = hc.
Proof. unfold item_slots. rewrite map_length, seq_length. reflexivity. Qed.
Lemma items_nodup hc is : NoDup is -> NoDup (flat_map (item_slots hc) is).
Proof.
  intros H. apply flat_nodup; [exact H|intros; apply item_slots_nodup|]. intros x y b _ _ H1 H2. apply item_slot_in in H1, H2. lia.
Qed.
Lemma items_ok hc dom is : (forall i, In i is -> i < dom) -> Forall (slot_ok hc dom) (flat_map (item_slots hc) is).
Proof. intros H. apply Forall_forall. intros hx Hx. apply in_flat_map in Hx as (i & Hi & Hx). apply item_slot_in in Hx as [A <-]. split; [exact A|apply H, Hi]. Qed.

(** The mapping of a request depends on the cells of its items only. *)
Lemma mapping_same hc nh nh' d is : nh_h_count nh = hc -> nh_h_count nh' = hc -> (forall h i, h < hc -> In i is -> hash nh h i = hash nh' h i) ->
  hash_to_mapping nh is d = hash_to_mapping nh' is d.
Proof.
  intros E E' H. unfold hash_to_mapping. rewrite E, E'. generalize (@nil (nat * (nat * nat))). induction is as [|i is IH]; intros m; [reflexivity|]. cbn [foldM].
  assert (forall hs, (forall h, In h hs -> h < hc) -> place nh d i hs m = place nh' d i hs m) as P.
  { induction hs as [|h hs IHh]; intros Hs; [reflexivity|]. cbn [place]. unfold hash_to_tuple. rewrite <- (H h i) by (first [apply Hs; left; reflexivity|left; reflexivity]).
    destruct (hash nh h i) as [y|e]; cbn [bind]; [|reflexivity]. destruct (d =? 0)%nat; cbn [bind]; [reflexivity|]. destruct (hget m (y / d)); [|reflexivity].
    rewrite E, E'. destruct (hc <=? h)%nat; [reflexivity|]. apply IHh. intros h' Hh'. apply Hs. right. exact Hh'. }
  rewrite P by (intros h Hh; apply in_seq in Hh; lia). destruct (place nh' d i (seq 0 hc) m) as [m'|e]; cbn [bind]; [|reflexivity].
  apply IH. intros h x Hh Hx. apply H; [exact Hh|right; exact Hx].
Qed.
Lemma vals_hash nh nh' hc dom is : hash_for nh hc dom -> hash_for nh' hc dom -> (forall i, In i is -> i < dom) ->
  vals hc (flat_map (item_slots hc) is) nh = vals hc (flat_map (item_slots hc) is) nh' -> forall h i, h < hc -> In i is -> hash nh h i = hash nh' h i.
Proof.
  intros H H' Hi E h i Hh Hin. assert (slot_ok hc dom (h, i)) as S by (split; [exact Hh|apply Hi, Hin]).
  change (hash nh (fst (h, i)) (snd (h, i)) = hash nh' (fst (h, i)) (snd (h, i))). rewrite (hash_cell hc dom nh), (hash_cell hc dom nh') by assumption. f_equal.
  assert (In (h, i) (flat_map (item_slots hc) is)) as I by (apply in_flat_map; exists i; split; [exact Hin|apply item_slot_in; auto]).
  unfold vals in E. clear - E I. induction (flat_map (item_slots hc) is) as [|a l IH]; [destruct I|]. cbn [map] in E. injection E as E1 E2. destruct I as [->|I]; [exact E1|apply IH; assumption].
Qed.

Section Dropped.
Context (hc dom rows cols : nat) (nh : nhash).
Hypothesis (H : hash_for nh hc dom) (Hrc : rows * cols = hc * dom).
Lemma tuple_of h x r c : h < hc -> x < dom -> hash_to_tuple nh h x cols = Ok (r, c) ->
  r = nth (slot_pos hc (h, x)) (nh_tables nh) 0 / cols /\ c < cols /\ r * cols + c = nth (slot_pos hc (h, x)) (nh_tables nh) 0.
Proof.
  intros Hh Hx E. destruct H as (f & Hf & Hn). destruct (tuple_range f Hf hc dom nh Hn h x rows cols Hh Hx Hrc) as (y & r' & c' & Ey & Et & R1 & R2 & R3).
  rewrite E in Et. injection Et as <- <-. pose proof (hash_cell hc dom nh (h, x) H ltac:(split; assumption)) as C. cbn [fst snd] in C. rewrite Ey in C. injection C as C. rewrite <- C.
  split; [|split; [exact R2|exact R3]]. rewrite <- R3. rewrite Nat.div_add_l by lia. rewrite (Nat.div_small c) by exact R2. lia.
Qed.
Lemma not_served m is j : hash_to_mapping nh is cols = Ok m -> dropped is cols j nh = true <-> forall r c, ~ In (r, (c, j)) m.
Proof.
  intros E. unfold dropped, served. rewrite E. rewrite negb_true_iff. split.
  - intros D r c I. assert (existsb (fun e => (snd (snd e) =? j)%nat) m = true) as X; [|congruence]. apply existsb_exists. exists (r, (c, j)). split; [exact I|apply Nat.eqb_refl].
  - intros D. destruct (existsb _ m) eqn:X; [|reflexivity]. apply existsb_exists in X as ([r [c i]] & I & X). cbn in X. apply Nat.eqb_eq in X. subst i. destruct (D r c I).
Qed.
Lemma cols_pos : 0 < dom -> 0 < cols.
Proof. destruct H as (f & Hf & Hn). destruct (nh_fields f hc dom nh Hn) as (A & _). intros D. destruct cols; nia. Qed.
(** A dropped item: all of its cells are in rows of the mapping of the items before it. *)
Lemma dropped_rows pre j post m1 : NoDup (pre ++ j :: post) -> (forall i, In i (pre ++ j :: post) -> i < dom) -> hash_to_mapping nh pre cols = Ok m1 ->
  (dropped (pre ++ j :: post) cols j nh = true <-> forall c, In c (vals hc (item_slots hc j) nh) -> In (c / cols) (map fst m1)).
Proof.
  intros N Hi E1. assert (0 < cols) as Hc. { apply cols_pos. specialize (Hi j ltac:(apply in_or_app; right; left; reflexivity)). lia. }
  assert (j < dom) as Hj by (apply Hi, in_or_app; right; left; reflexivity).
  assert (~ In j pre /\ ~ In j post) as [Np Nq]. { apply NoDup_remove_2 in N. split; intros I; apply N, in_or_app; auto. }
  pose proof H as (f & Hf & Hn).
  destruct (mapping_ok f Hf hc dom nh Hn cols (pre ++ j :: post) Hi Hc) as (m & E & M & _).
  destruct (mapping_split f Hf hc dom nh Hn cols pre j post m Hi Hc E) as (m1' & ext & E1' & M1 & -> & Hcase).
  assert (m1' = m1) as -> by congruence. rewrite (not_served _ _ _ E). split.
  - intros D c Ic. unfold vals in Ic. apply in_map_iff in Ic as ([h x] & <- & Hx). apply item_slot_in in Hx as [Hh Ex]. cbn in Hh, Ex. subst x.
    destruct Hcase as [(r0 & c0 & ext' & -> & _)|[Hall _]]; [destruct (D r0 c0); apply in_or_app; right; left; reflexivity|].
    destruct (Hall h Hh) as (r & c & v & Et & Eg). destruct (tuple_of h j r c Hh Hj Et) as (Er & _ & _). rewrite <- Er.
    apply hget_Some_in in Eg. apply in_map_iff. exists (r, v). split; [reflexivity|exact Eg].
  - intros D r c I. destruct M as [M2 M3]. assert (~ In (r, (c, j)) m1) as N1. { intros I1. apply (proj2 M1) in I1. tauto. }
    destruct (M3 _ _ _ I) as (_ & h & Hh & Et). destruct (tuple_of h j r c Hh Hj Et) as (Er & _ & _).
    assert (In r (map fst m1)) as R. { rewrite Er. apply D. unfold vals. apply in_map_iff. exists (h, j). split; [reflexivity|]. apply item_slot_in. auto. }
    apply in_app_or in I as [I|I]; [contradiction|]. rewrite map_app in M2. apply nodup_app_inv in M2 as (_ & _ & M2). apply (M2 r R).
    apply in_map_iff. exists (r, (c, j)). auto.
Qed.
(** The cells of occupied rows that the items before do not use. *)
Definition rest_of_rows (m1 : hmap) (e : list nat) : list nat :=
  filter (fun c => (if in_dec Nat.eq_dec (c / cols) (map fst m1) then true else false) && (if in_dec Nat.eq_dec c e then false else true)) (seq 0 (hc * dom)).
Lemma rest_in m1 e c : In c (rest_of_rows m1 e) <-> c < hc * dom /\ In (c / cols) (map fst m1) /\ ~ In c e.
Proof.
  unfold rest_of_rows. rewrite filter_In, in_seq. destruct (in_dec Nat.eq_dec (c / cols) (map fst m1)); destruct (in_dec Nat.eq_dec c e); cbn [andb]; split; intros A;
    try (destruct A; discriminate); try tauto; repeat split; try tauto; lia.
Qed.
Lemma rest_len pre m1 : (forall i, In i pre -> i < dom) -> (pre <> [] -> 0 < cols) -> hash_to_mapping nh pre cols = Ok m1 ->
  length (rest_of_rows m1 (vals hc (flat_map (item_slots hc) pre) nh)) <= length pre * (cols - 1).
Proof.
  intros Hi Hc E. destruct pre as [|i0 pre'].
  { cbn in E. injection E as <-. cbn [length flat_map]. unfold rest_of_rows. cbn [map]. rewrite (proj2 (length_zero_iff_nil _)); [lia|].
    clear. induction (seq 0 (hc * dom)) as [|a l IH]; [reflexivity|exact IH]. }
  specialize (Hc ltac:(discriminate)). remember (i0 :: pre') as pre. clear Heqpre i0 pre'.
  pose proof H as (f & Hf & Hn). destruct (mapping_ok f Hf hc dom nh Hn cols pre Hi Hc) as (m & E' & M & Hl). assert (m = m1) as -> by congruence. clear E'.
  set (e := vals hc (flat_map (item_slots hc) pre) nh). set (chosen := map (fun x : nat * (nat * nat) => fst x * cols + fst (snd x)) m1).
  set (all := flat_map (fun r => seq (r * cols) cols) (map fst m1)).
  assert (forall r c i, In (r, (c, i)) m1 -> c < cols /\ In (r * cols + c) e) as C.
  { intros r c i I. destruct (proj2 M _ _ _ I) as (Ip & h & Hh & Et). destruct (tuple_of h i r c Hh (Hi i Ip) Et) as (_ & C1 & C2). split; [exact C1|]. rewrite C2.
    unfold e, vals. apply in_map_iff. exists (h, i). split; [reflexivity|]. apply in_flat_map. exists i. split; [exact Ip|apply item_slot_in; auto]. }
  assert (length all = length m1 * cols) as La. { unfold all. rewrite (flat_len _ cols), map_length; [reflexivity|]. intros r _. apply seq_length. }
  assert (length (rest_of_rows m1 e ++ chosen) <= length all) as Hle.
  { apply NoDup_incl_length.
    - apply nodup_app'; [apply NoDup_filter, seq_NoDup| |].
      + destruct M as [M1 _]. unfold chosen. clear - M1 C. induction m1 as [|[r [c i]] m1 IH]; cbn [map]; [constructor|]. cbn [map fst] in M1. inversion M1 as [|? ? A1 A2]; subst.
        constructor; [|apply IH; [exact A2|intros r' c' i' I; apply (C r' c' i'); right; exact I]].
        intros I. apply in_map_iff in I as ([r' [c' i']] & Er & I). cbn [fst snd] in Er. apply A1. apply in_map_iff. exists (r', (c', i')). split; [|exact I]. cbn.
        destruct (C r c i ltac:(left; reflexivity)) as [C1 _]. destruct (C r' c' i' ltac:(right; exact I)) as [C2 _]. nia.
      + intros x X1 X2. apply rest_in in X1 as (_ & _ & X1). unfold chosen in X2. apply in_map_iff in X2 as ([r [c i]] & <- & I). apply X1. apply (C r c i I).
    - intros x Hx. unfold all. apply in_flat_map. apply in_app_or in Hx as [Hx|Hx].
      + apply rest_in in Hx as (_ & X & _). exists (x / cols). split; [exact X|]. apply in_seq. pose proof (Nat.div_mod x cols ltac:(lia)). pose proof (Nat.mod_upper_bound x cols ltac:(lia)). nia.
      + unfold chosen in Hx. apply in_map_iff in Hx as ([r [c i]] & <- & I). exists r. split; [apply in_map_iff; exists (r, (c, i)); auto|]. cbn [fst snd]. apply in_seq. destruct (C r c i I). lia. }
  rewrite app_length, La in Hle. unfold chosen in Hle. rewrite map_length in Hle. fold e. assert (length m1 * (cols - 1) <= length pre * (cols - 1)) by (apply Nat.mul_le_mono_r, Hl). nia.
Qed.
End Dropped.

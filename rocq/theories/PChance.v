(** * C88: how likely it is that a batch request drops an item. *)
From Coq Require Import Permutation.
From Verif Require Import MBase MFft MRlwe MHash MOram MUtils MParams MMain PfUtils MShuffle SpecOram PfHash SpecShuffle SpecChance PfShuffle PfShuffle2 PfChance PfChance2 PfChance3 PShuffle.
Local Open Scope nat_scope.

(** The first item of a request is always served. *)
Theorem C88_first : forall hc dom cols nh i is, hash_for nh hc dom -> (forall x, In x (i :: is) -> x < dom) -> 0 < cols ->
  served nh (i :: is) cols i = true.
Proof.
  intros hc dom cols nh i is Hh Hi Hc. pose proof (first_served hc dom cols nh i is Hh Hi Hc) as F. unfold dropped in F. destruct (served nh (i :: is) cols i); [reflexivity|discriminate].
Qed.
Print Assumptions C88_first.

(** The second one is dropped with probability exactly
    [(cols-1)(cols-2).. / (hc dom - 1)(hc dom - 2)..], [hc] factors each: all of its cells are in the row of the first. *)
Theorem C88_second : forall hc dom rows cols m i j is, (Z.of_nat (hc * dom) < 2 ^ 32)%Z -> rows * cols = hc * dom ->
  NoDup (i :: j :: is) -> (forall x, In x (i :: j :: is) -> x < dom) ->
  length (filter (dropped (i :: j :: is) cols j) (outcomes hc dom m)) * falling (hc * dom - 1) hc =
  length (outcomes hc dom m) * falling (cols - 1) hc.
Proof.
  intros hc dom rows cols m i j is Hn Hrc N Hi.
  exact (second_dropped (outcomes hc dom m) hc dom rows cols (outcomes_hash hc dom Hn m) (fun s cs cs' => C86_cells hc dom m s cs cs' Hn) Hrc i j is N Hi).
Qed.
Print Assumptions C88_second.

(** An item with [t] items before it is dropped with probability at most
    [(t (cols-1))(t (cols-1) - 1).. / (hc dom - t hc)(hc dom - t hc - 1)..], about [(t / rows) ^ hc]. *)
Theorem C88_any : forall hc dom rows cols m pre j post, (Z.of_nat (hc * dom) < 2 ^ 32)%Z -> rows * cols = hc * dom ->
  NoDup (pre ++ j :: post) -> (forall x, In x (pre ++ j :: post) -> x < dom) ->
  length (filter (dropped (pre ++ j :: post) cols j) (outcomes hc dom m)) * falling (hc * dom - length pre * hc) hc <=
  length (outcomes hc dom m) * falling (length pre * (cols - 1)) hc.
Proof.
  intros hc dom rows cols m pre j post Hn Hrc N Hi.
  exact (any_dropped (outcomes hc dom m) hc dom rows cols (outcomes_hash hc dom Hn m) (fun s cs cs' => C86_cells hc dom m s cs cs' Hn) Hrc pre j post N Hi).
Qed.
Print Assumptions C88_any.

(** A whole request: the probability that any of its items is dropped is at most the sum of these. *)
Theorem C88_all : forall hc dom rows cols m is, (Z.of_nat (hc * dom) < 2 ^ 32)%Z -> rows * cols = hc * dom ->
  NoDup is -> (forall x, In x is -> x < dom) ->
  length (filter (fun nh => negb (forallb (served nh is cols) is)) (outcomes hc dom m)) * falling (hc * dom - (length is - 1) * hc) hc <=
  length (outcomes hc dom m) * list_sum (map (fun t => falling (t * (cols - 1)) hc) (seq 0 (length is))).
Proof.
  intros hc dom rows cols m is Hn Hrc N Hi.
  pose proof (all_from (outcomes hc dom m) hc dom rows cols (outcomes_hash hc dom Hn m) (fun s cs cs' => C86_cells hc dom m s cs cs' Hn) Hrc [] is (length is) N Hi (Nat.le_refl _)) as A.
  cbn [app] in A. rewrite (count_ext _ (fun nh => negb (forallb (served nh is cols) is))) in A; [exact A|].
  intros nh _. clear. unfold dropped.
  assert (forall l, existsb (fun j => negb (served nh is cols j)) l = negb (forallb (served nh is cols) l)) as X; [|apply X].
  induction l as [|x l IH]; [reflexivity|]. cbn [existsb forallb]. rewrite IH, negb_andb. reflexivity.
Qed.
Print Assumptions C88_all.

(** With one row there is no room for two items: all others are always dropped. *)
Theorem C88_one_row : forall hc dom nh i j is, hash_for nh hc dom -> NoDup (i :: j :: is) -> (forall x, In x (i :: j :: is) -> x < dom) ->
  served nh (i :: j :: is) (hc * dom) j = false.
Proof.
  intros hc dom nh i j is Hh N Hi.
  assert (0 < hc * dom) as Hc. { apply (cols_pos hc dom 1 (hc * dom) nh Hh); [lia|]. specialize (Hi i (or_introl eq_refl)). lia. }
  pose proof Hh as (f & Hf & Hn). destruct (mapping_ok f Hf hc dom nh Hn (hc * dom) [i] ltac:(intros x [<-|[]]; apply Hi; left; reflexivity) Hc) as (m1 & Em & _).
  assert (dropped (i :: j :: is) (hc * dom) j nh = true) as D; [|unfold dropped in D; destruct (served _ _ _ _); [discriminate|reflexivity]].
  apply (dropped_rows hc dom 1 (hc * dom) nh Hh ltac:(lia) [i] j is m1 N Hi Em). intros c Ic.
  rewrite (mapping_one [nh] hc dom 1 (hc * dom) ltac:(intros x [<-|[]]; exact Hh) ltac:(lia) nh i m1 (or_introl eq_refl) (Hi i (or_introl eq_refl)) Em). left.
  assert (forall s, Forall (slot_ok hc dom) s -> forall y, In y (vals hc s nh) -> y < hc * dom) as V.
  { intros s F y Hy. unfold vals in Hy. apply in_map_iff in Hy as (hx & <- & Hx). destruct (hash_parts nh hc dom Hh) as (_ & _ & Hl & Ht). apply Ht, nth_In. rewrite Hl. apply (slot_pos_lt hc dom). rewrite Forall_forall in F. apply F, Hx. }
  rewrite !Nat.div_small; [reflexivity| |].
  - apply (V (item_slots hc j)); [|exact Ic]. replace (item_slots hc j) with (flat_map (item_slots hc) [j]) by (cbn; apply app_nil_r). apply items_ok. intros x [<-|[]]. apply Hi. right. left. reflexivity.
  - apply (V [(0, i)]); [|left; reflexivity]. constructor; [|constructor]. split; [|apply Hi; left; reflexivity]. cbn. lia.
Qed.
Print Assumptions C88_one_row.

(** What this means for the tool in its batched mode: a run reports (and averages over) two noises per iteration if both of
    its items are served, and one otherwise, though it divides by two in any case (src/main.rs:156 and 171). *)
Theorem C88_run : forall fft md rows cols iterations p co dom nh noises,
  nh_new (co_shuffle co) 3 dom = Ok nh -> hash_for nh 3 dom -> 2 <= dom -> rows * cols = 3 * dom ->
  batch_query fft md rows cols iterations p false co = Ok noises ->
  forall ns, In ns noises -> length ns = if served nh [0; 1] cols 1 then 2 else 1.
Proof.
  intros fft md rows cols it p co dom nh noises En Hh Hd Hrc E ns Hns. unfold batch_query, batch_query_with in E.
  replace (rows * cols / 3) with dom in E by (rewrite Hrc, Nat.mul_comm, Nat.div_mul; [reflexivity|discriminate]).
  destruct (rassert (0 <? it)); [|discriminate E]. cbn [bind] in E. destruct (ulog2 md (Z.of_nat dom)); [|discriminate E]. cbn [bind] in E.
  change (1 + 1 + 1) with 3 in E. rewrite En in E. cbn [bind] in E. destruct (context_new md p) as [cx|]; [|discriminate E]. cbn [bind] in E.
  destruct (setup_random_oram _ _ _ _ _ _ _) as [[[cl sv] pts]|]; [|discriminate E]. cbn [bind] in E.
  assert (exists ys, batch_check cl nh pts [0; 1] cols ys = Ok ns) as [ys Ey].
  { revert E Hns. generalize (seq 0 it) as js. clear. intros js. revert sv noises. induction js as [|j js IH]; intros sv noises E Hns; cbn [iterate] in E.
    - injection E as <-. destruct Hns.
    - destruct (batch_iter fft cl nh pts [0; 1] cols co j sv) as [[a sv1]|] eqn:Eb; [|discriminate E]. cbn [bind] in E.
      destruct (iterate _ js sv1) as [out|] eqn:Ei; [|discriminate E]. cbn [bind] in E. injection E as <-. destruct Hns as [<-|Hns]; [|apply (IH sv1 out Ei Hns)].
      unfold batch_iter in Eb. destruct (gen_read_query_batch _ _ _ _ _) as [qs|]; [|discriminate Eb]. cbn [bind] in Eb.
      destruct (server_process_batch false fft sv qs nh) as [[ys sv2]|]; [|discriminate Eb]. cbn [bind] in Eb. exists ys.
      destruct (batch_check cl nh pts [0; 1] cols ys) as [n|] eqn:Ec; [|discriminate Eb]. cbn [bind] in Eb. injection Eb as -> _. reflexivity. }
  unfold batch_check in Ey. assert (0 < cols) as Hc by (destruct cols; lia). assert (forall x, In x [0; 1] -> x < dom) as Hi by (intros x [<-|[<-|[]]]; lia).
  pose proof Hh as (f & Hf & Hn). assert (NoDup [0; 1]) as N by (repeat constructor; cbn; intuition lia).
  destruct (mapping_ok f Hf 3 dom nh Hn cols [0; 1] Hi Hc) as (m & Em & M & _). pose proof (mapping_once f Hf 3 dom nh Hn cols [0; 1] m N Hi Hc Em) as O.
  destruct (mapping_first f Hf 3 dom nh Hn cols 0 [1] m Hi Hc Em) as (r0 & c0 & I0).
  rewrite Em in Ey. cbn [bind] in Ey. apply mapM_length in Ey. rewrite Ey. unfold served. rewrite Em. clear Ey Em.
  assert (NoDup (map (fun e : nat * (nat * nat) => snd (snd e)) m)) as Ni.
  { destruct M as [M _]. clear I0. induction m as [|[r [c i]] m IH]; cbn [map fst snd] in *; [constructor|]. inversion M as [|? ? A1 A2]; subst.
    constructor; [|apply IH; [exact A2|intros; eapply O; right; eassumption]]. intros I. apply in_map_iff in I as ([r' [c' i']] & Ei & I). cbn in Ei. subst i'.
    destruct (O r c r' c' i (or_introl eq_refl) (or_intror I)) as [-> ->]. apply A1. apply in_map_iff. exists (r', (c', i)). auto. }
  assert (forall i, In i (map (fun e : nat * (nat * nat) => snd (snd e)) m) -> i = 0 \/ i = 1) as Mi.
  { intros i I. apply in_map_iff in I as ([r [c i']] & <- & I). destruct (proj1 (proj2 M _ _ _ I)) as [<-|[<-|[]]]; auto. }
  assert (In 0 (map (fun e : nat * (nat * nat) => snd (snd e)) m)) as I0' by (apply in_map_iff; exists (r0, (c0, 0)); auto).
  rewrite <- (map_length (fun e : nat * (nat * nat) => snd (snd e)) m).
  assert (existsb (fun e : nat * (nat * nat) => snd (snd e) =? 1) m = existsb (fun i => i =? 1) (map (fun e : nat * (nat * nat) => snd (snd e)) m)) as ->.
  { clear. induction m as [|e m IH]; [reflexivity|]. cbn [existsb map]. rewrite IH. reflexivity. }
  revert Ni Mi I0'. generalize (map (fun e : nat * (nat * nat) => snd (snd e)) m). clear. intros l Nl Ml I0. destruct (existsb (fun i => i =? 1) l) eqn:X.
  - apply existsb_exists in X as (i & I1 & X). apply Nat.eqb_eq in X. subst i. apply Nat.le_antisymm.
    + apply (NoDup_incl_length Nl (l' := [0; 1])). intros i I. destruct (Ml i I) as [-> | ->]; cbn; auto.
    + apply (NoDup_incl_length (l := [0; 1]) ltac:(repeat constructor; cbn; intuition lia)). intros i [<-|[<-|[]]]; assumption.
  - apply Nat.le_antisymm.
    + apply (NoDup_incl_length Nl (l' := [0])). intros i I. destruct (Ml i I) as [-> | ->]; [left; reflexivity|].
      assert (existsb (fun i => i =? 1) l = true) as Y by (apply existsb_exists; exists 1; auto). congruence.
    + apply (NoDup_incl_length (l := [0]) ltac:(repeat constructor; cbn; intuition lia)). intros i [<-|[]]; assumption.
Qed.
Print Assumptions C88_run.

(** The setting of the unit test for batches (4 hash functions, 16 items, 8 rows of 8): its check that both copies were
    written fails with probability [840 / (63 62 61 60)], about one run in 17000. *)
Lemma falling4 a b c d : b = a - 1 -> c = a - 2 -> d = a - 3 -> falling a 4 = a * (b * (c * d)).
Proof. intros -> -> ->. cbn [falling]. rewrite Nat.mul_1_r. repeat (f_equal; try lia). Qed.
Example C88_applies :
  (forall m, length (filter (dropped [1; 2] 8 2) (outcomes 4 16 m)) * (63 * (62 * (61 * 60))) = length (outcomes 4 16 m) * (7 * (6 * (5 * 4)))) /\
  (forall nh, hash_for nh 4 16 -> In nh (outcomes 4 16 63)) /\
  (forall m, length (filter (fun nh => negb (forallb (served nh [3; 1; 2] 8) [3; 1; 2])) (outcomes 4 16 m)) * (56 * (55 * (54 * 53)))
             <= length (outcomes 4 16 m) * (7 * (6 * (5 * 4)) + 14 * (13 * (12 * 11)))).
Proof.
  split; [|split].
  - intros m. assert (forall x, In x [1; 2] -> x < 16) as Hi by (intros x [<-|[<-|[]]]; lia).
    assert (NoDup [1; 2]) as N by (repeat constructor; cbn; intuition lia).
    pose proof (C88_second 4 16 8 8 m 1 2 [] eq_refl eq_refl N Hi) as A.
    change (4 * 16 - 1) with 63 in A. change (8 - 1) with 7 in A. rewrite (falling4 63 62 61 60), (falling4 7 6 5 4) in A by reflexivity. exact A.
  - intros nh H. exact (proj2 (C86_support 4 16 eq_refl) nh H).
  - intros m. assert (forall x, In x [3; 1; 2] -> x < 16) as Hi by (intros x [<-|[<-|[<-|[]]]]; lia).
    assert (NoDup [3; 1; 2]) as N by (repeat constructor; cbn; intuition lia).
    pose proof (C88_all 4 16 8 8 m [3; 1; 2] eq_refl eq_refl N Hi) as A.
    change (length [3; 1; 2]) with 3 in A. change (seq 0 3) with [0; 1; 2] in A. cbn [map] in A.
    change (4 * 16 - (3 - 1) * 4) with 56 in A. change (0 * (8 - 1)) with 0 in A. change (1 * (8 - 1)) with 7 in A. change (2 * (8 - 1)) with 14 in A.
    rewrite (falling4 56 55 54 53), (falling4 7 6 5 4), (falling4 14 13 12 11), (falling4 0 0 0 0) in A by reflexivity.
    match type of A with _ <= _ * ?s => assert (s = 7 * (6 * (5 * 4)) + 14 * (13 * (12 * 11))) as X end.
    { cbn [list_sum fold_right]. rewrite Nat.mul_0_l, Nat.add_0_l, Nat.add_0_r. reflexivity. }
    rewrite X in A. exact A.
Qed.

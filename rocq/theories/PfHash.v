(** * Proofs about src/naive_hash.rs *)
From Verif Require Import MBase MHash.
From Coq Require Import Permutation.
Local Open Scope nat_scope.

Section Hash.
Variable shuffle : list nat -> list nat.
Hypothesis shuffle_perm : forall l, Permutation (shuffle l) l.
Variables (hc dom : nat) (nh : nhash).
Hypothesis Hnew : nh_new shuffle hc dom = Ok nh.

Lemma nh_fields : 0 < hc /\ nh_h_count nh = hc /\ nh_input_domain nh = dom /\
  nh_tables nh = shuffle (seq 0 (hc * dom)).
Proof.
  unfold nh_new in Hnew. destruct (Nat.ltb_spec 0 hc); cbn in Hnew; [|discriminate].
  injection Hnew as <-. auto.
Qed.

Lemma tables_length : length (nh_tables nh) = hc * dom.
Proof.
  destruct nh_fields as (_ & _ & _ & ->). rewrite (Permutation_length (shuffle_perm _)). apply seq_length.
Qed.

Lemma tables_nodup : NoDup (nh_tables nh).
Proof.
  destruct nh_fields as (_ & _ & _ & ->). eapply Permutation_NoDup; [symmetry; apply shuffle_perm | apply seq_NoDup].
Qed.

Lemma tables_in y : In y (nh_tables nh) <-> y < hc * dom.
Proof.
  destruct nh_fields as (_ & _ & _ & ->). rewrite (Permutation_in' eq_refl (shuffle_perm _)), in_seq. lia.
Qed.

Lemma pos_lt h x : h < hc -> x < dom -> hc * x + h < hc * dom.
Proof. intros. nia. Qed.

Lemma hash_total h x : h < hc -> x < dom ->
  exists y, hash nh h x = Ok y /\ y < hc * dom.
Proof.
  intros Hh Hx. unfold hash, index. destruct nh_fields as (_ & -> & _ & _).
  destruct (nth_error (nh_tables nh) (hc * x + h)) as [y|] eqn:E.
  - exists y. split; [reflexivity|]. apply tables_in. eapply nth_error_In; eauto.
  - apply nth_error_None in E. rewrite tables_length in E. pose proof (pos_lt h x Hh Hx). lia.
Qed.

Lemma hash_inj h x h' x' y : h < hc -> x < dom -> h' < hc -> x' < dom ->
  hash nh h x = Ok y -> hash nh h' x' = Ok y -> h = h' /\ x = x'.
Proof.
  intros Hh Hx Hh' Hx' E E'. unfold hash, index in *. destruct nh_fields as (Hc & Eh & _ & _). rewrite Eh in *.
  destruct (nth_error (nh_tables nh) (hc * x + h)) as [a|] eqn:N; [|discriminate].
  destruct (nth_error (nh_tables nh) (hc * x' + h')) as [b|] eqn:N'; [|discriminate].
  injection E as ->. injection E' as ->.
  assert (hc * x + h = hc * x' + h').
  { eapply NoDup_nth_error; [apply tables_nodup | rewrite tables_length; apply pos_lt; assumption | congruence]. }
  assert (x = x').
  { assert (A : (hc * x + h) / hc = x) by (rewrite Nat.mul_comm, Nat.div_add_l, Nat.div_small; lia).
    assert (B : (hc * x' + h') / hc = x') by (rewrite Nat.mul_comm, Nat.div_add_l, Nat.div_small; lia).
    congruence. }
  subst. split; [lia | reflexivity].
Qed.

Lemma hash_surj y : y < hc * dom -> exists h x, h < hc /\ x < dom /\ hash nh h x = Ok y.
Proof.
  intros Hy. apply tables_in in Hy. apply In_nth_error in Hy as (p & Hp).
  assert (p < hc * dom) by (rewrite <- tables_length; apply nth_error_Some; congruence).
  destruct nh_fields as (Hc & Eh & _ & _).
  exists (p mod hc), (p / hc). split; [apply Nat.mod_upper_bound; lia|].
  split; [apply Nat.div_lt_upper_bound; lia|].
  unfold hash, index. rewrite Eh. rewrite <- Nat.div_mod by lia. rewrite Hp. reflexivity.
Qed.

Lemma hash_panics h x : hc * dom <= hc * x + h -> hash nh h x = Panic PIndex.
Proof.
  intros H. unfold hash, index. destruct nh_fields as (_ & -> & _ & _).
  destruct (nth_error _ _) eqn:E; [|reflexivity].
  assert (hc * x + h < length (nh_tables nh)) by (apply nth_error_Some; congruence).
  rewrite tables_length in *. lia.
Qed.

Lemma checked_hash_spec h x :
  checked_hash nh h x =
  if ((h <? hc) && (x <? dom))%bool then (y <- hash nh h x ;; Ok (Some y)) else Ok None.
Proof.
  unfold checked_hash. destruct nh_fields as (_ & -> & -> & _).
  destruct (Nat.leb_spec hc h), (Nat.ltb_spec h hc), (Nat.leb_spec dom x), (Nat.ltb_spec x dom); cbn; try lia; reflexivity.
Qed.

(** ** hash_to_tuple *)
Lemma tuple_ok h x d : h < hc -> x < dom -> 0 < d ->
  exists y, hash nh h x = Ok y /\ hash_to_tuple nh h x d = Ok (y / d, y mod d) /\ y < hc * dom.
Proof.
  intros Hh Hx Hd. destruct (hash_total h x Hh Hx) as (y & E & Hy). exists y. split; [exact E|].
  split; [|exact Hy]. unfold hash_to_tuple. rewrite E. cbn. destruct (Nat.eqb_spec d 0); [lia | reflexivity].
Qed.

Lemma tuple_inj h x h' x' d r c : h < hc -> x < dom -> h' < hc -> x' < dom -> 0 < d ->
  hash_to_tuple nh h x d = Ok (r, c) -> hash_to_tuple nh h' x' d = Ok (r, c) -> h = h' /\ x = x'.
Proof.
  intros Hh Hx Hh' Hx' Hd E E'.
  destruct (tuple_ok h x d Hh Hx Hd) as (y & Ey & Et & _).
  destruct (tuple_ok h' x' d Hh' Hx' Hd) as (y' & Ey' & Et' & _).
  rewrite E in Et. rewrite E' in Et'. injection Et as Er Ec. injection Et' as Er' Ec'.
  apply (hash_inj h x h' x' y); try assumption.
  rewrite Ey'. f_equal. rewrite (Nat.div_mod y d), (Nat.div_mod y' d) by lia. congruence.
Qed.

Lemma tuple_range h x rows cols : h < hc -> x < dom -> rows * cols = hc * dom ->
  exists y r c, hash nh h x = Ok y /\ hash_to_tuple nh h x cols = Ok (r, c) /\
    r < rows /\ c < cols /\ r * cols + c = y.
Proof.
  intros Hh Hx Hrc. assert (0 < cols) by (pose proof (pos_lt h x Hh Hx); nia).
  destruct (tuple_ok h x cols Hh Hx) as (y & Ey & Et & Hy); [lia|].
  exists y, (y / cols), (y mod cols). split; [exact Ey|]. split; [exact Et|].
  split; [apply Nat.div_lt_upper_bound; lia|]. split; [apply Nat.mod_upper_bound; lia|].
  rewrite (Nat.div_mod y cols) at 3 by lia. lia.
Qed.

Lemma tuple_surj rows cols r c : rows * cols = hc * dom -> r < rows -> c < cols ->
  exists h x, h < hc /\ x < dom /\ hash_to_tuple nh h x cols = Ok (r, c).
Proof.
  intros Hrc Hr Hc. destruct (hash_surj (r * cols + c)) as (h & x & Hh & Hx & E); [nia|].
  exists h, x. split; [exact Hh|]. split; [exact Hx|]. unfold hash_to_tuple. rewrite E. cbn.
  destruct (Nat.eqb_spec cols 0); [lia|]. f_equal. f_equal.
  - rewrite Nat.div_add_l by lia. rewrite (Nat.div_small c) by lia. lia.
  - rewrite Nat.add_comm, Nat.mod_add by lia. apply Nat.mod_small; lia.
Qed.

(** ** hash_to_mapping *)
Lemma hget_app m m' k : hget (m ++ m') k = match hget m k with Some v => Some v | None => hget m' k end.
Proof. induction m as [|[k' v] m IH]; cbn; [reflexivity|]. destruct (k' =? k); [reflexivity | exact IH]. Qed.

Lemma hget_None_notin m k : hget m k = None -> ~ In k (map fst m).
Proof.
  induction m as [|[k' v] m IH]; cbn; intros H; [auto|].
  destruct (Nat.eqb_spec k' k); [discriminate|]. intros [E|E]; [contradiction | apply IH; assumption].
Qed.

Lemma hget_In m k v : NoDup (map fst m) -> (hget m k = Some v <-> In (k, v) m).
Proof.
  induction m as [|[k' v'] m IH]; cbn; intros Hnd; [split; [discriminate | intros []]|].
  inversion Hnd as [|? ? Hn Hnd']; subst. destruct (Nat.eqb_spec k' k) as [->|Hk].
  - split; [intros H; injection H as ->; auto|]. intros [H|H]; [congruence|].
    exfalso. apply Hn. apply (in_map fst) in H. exact H.
  - rewrite IH by assumption. split; [auto|]. intros [H|H]; [congruence | exact H].
Qed.

Lemma hget_Some_in m k v : hget m k = Some v -> In (k, v) m.
Proof.
  induction m as [|[k' v'] m IH]; cbn; [discriminate|].
  destruct (Nat.eqb_spec k' k) as [->|Hk]; intros H; [injection H as ->; auto | auto].
Qed.

(** The inner loop: either the first free row among the hashes is used, or all are taken. *)
Lemma place_spec d i hs out : i < dom -> 0 < d -> (forall h, In h hs -> h < hc) ->
  (exists h r c, In h hs /\ hash_to_tuple nh h i d = Ok (r, c) /\ hget out r = None /\
     place nh d i hs out = Ok (out ++ [(r, (c, i))])) \/
  (place nh d i hs out = Ok out /\
   forall h, In h hs -> exists r c v, hash_to_tuple nh h i d = Ok (r, c) /\ hget out r = Some v).
Proof.
  intros Hi Hd. induction hs as [|h hs IH]; intros Hhs.
  - right. split; [reflexivity | intros h []].
  - assert (Hh : h < hc) by (apply Hhs; left; reflexivity).
    destruct (tuple_ok h i d Hh Hi Hd) as (y & _ & Et & _). cbn [place]. rewrite Et. cbn [bind].
    destruct (hget out (y / d)) as [v|] eqn:Eg.
    + destruct nh_fields as (_ & Eh & _ & _). rewrite Eh.
      destruct (Nat.leb_spec hc h); [lia|].
      destruct IH as [(h' & r & c & H1 & H2 & H3 & H4) | (H1 & H2)]; [intros; apply Hhs; right; assumption | left | right].
      * exists h', r, c. split; [right; exact H1 | auto].
      * split; [exact H1|]. intros h' [<-|Hin]; [eauto | apply H2; exact Hin].
    + left. exists h, (y / d), (y mod d). split; [left; reflexivity|]. auto.
Qed.

Definition row_of (d h i r : nat) : Prop := exists c, hash_to_tuple nh h i d = Ok (r, c).

(** Invariant of the outer loop after processing [done]. *)
Definition minv (d : nat) (done : list nat) (m : hmap) : Prop :=
  NoDup (map fst m) /\
  (forall r c i, In (r, (c, i)) m -> In i done /\ exists h, h < hc /\ hash_to_tuple nh h i d = Ok (r, c)).

Lemma mapping_step d done m i : minv d done m -> i < dom -> 0 < d ->
  exists m', place nh d i (seq 0 (nh_h_count nh)) m = Ok m' /\ minv d (done ++ [i]) m' /\
    ((exists r c, m' = m ++ [(r, (c, i))]) \/
     (m' = m /\ forall h, h < hc -> exists r c v, hash_to_tuple nh h i d = Ok (r, c) /\ hget m r = Some v)).
Proof.
  intros (Hnd & Hin) Hi Hd. destruct nh_fields as (Hc & -> & _ & _).
  destruct (place_spec d i (seq 0 hc) m Hi Hd) as [(h & r & c & H1 & H2 & H3 & H4) | (H1 & H2)].
  { intros h Hh. apply in_seq in Hh. lia. }
  - exists (m ++ [(r, (c, i))]). split; [exact H4|]. split; [|left; eauto]. split.
    + rewrite map_app. cbn. apply (Permutation_NoDup (l := r :: map fst m)).
      * rewrite <- Permutation_cons_append. reflexivity.
      * constructor; [apply hget_None_notin; exact H3 | exact Hnd].
    + intros r' c' i' Hin'. apply in_app_or in Hin' as [Hin' | [E | []]].
      * destruct (Hin _ _ _ Hin') as [A B]. split; [apply in_or_app; auto | exact B].
      * injection E as <- <- <-. split; [apply in_or_app; right; left; reflexivity|].
        exists h. apply in_seq in H1. split; [lia | exact H2].
  - exists m. split; [exact H1|]. split.
    + split; [exact Hnd|]. intros r' c' i' Hin'. destruct (Hin _ _ _ Hin') as [A B].
      split; [apply in_or_app; auto | exact B].
    + right. split; [reflexivity|]. intros h Hh. apply H2. apply in_seq. lia.
Qed.

Lemma foldM_app {A S} (f : S -> A -> res S) l1 l2 s :
  foldM f (l1 ++ l2) s = (s' <- foldM f l1 s ;; foldM f l2 s').
Proof.
  revert s. induction l1 as [|x l1 IH]; intros s; cbn; [reflexivity|].
  destruct (f s x); cbn; [apply IH | reflexivity].
Qed.

Definition mloop d := fun out i => place nh d i (seq 0 (nh_h_count nh)) out.

Lemma mapping_run d is : forall done m, minv d done m -> (forall i, In i is -> i < dom) -> 0 < d ->
  exists ext, foldM (mloop d) is m = Ok (m ++ ext) /\ minv d (done ++ is) (m ++ ext) /\
    (forall r c i, In (r, (c, i)) ext -> In i is) /\ length ext <= length is.
Proof.
  induction is as [|i is IH]; intros done m Hm His Hd.
  - exists []. cbn. rewrite !app_nil_r. auto.
  - destruct (mapping_step d done m i Hm) as (m' & E & Hm' & Hcase); [apply His; left; reflexivity | exact Hd |].
    destruct (IH (done ++ [i]) m' Hm') as (ext & E2 & Hm2 & Hext & Hlen); [intros; apply His; right; assumption | exact Hd |].
    rewrite <- app_assoc in Hm2. cbn in Hm2.
    destruct Hcase as [(r & c & ->) | (-> & _)].
    + exists ((r, (c, i)) :: ext). cbn [foldM]. unfold mloop at 1. rewrite E. cbn [bind].
      rewrite <- app_assoc in E2, Hm2. split; [exact E2|]. split; [exact Hm2|]. split.
      * intros r' c' i' [Eq | Hin]; [injection Eq as _ _ <-; left; reflexivity | right; eapply Hext; exact Hin].
      * cbn; lia.
    + exists ext. cbn [foldM]. unfold mloop at 1. rewrite E. cbn [bind]. split; [exact E2|]. split; [exact Hm2|].
      split; [intros; right; eauto | cbn; lia].
Qed.

Lemma minv_nil d : minv d [] [].
Proof. split; [constructor | intros r c i []]. Qed.

Lemma mapping_ok d is : (forall i, In i is -> i < dom) -> 0 < d ->
  exists m, hash_to_mapping nh is d = Ok m /\ minv d is m /\ length m <= length is.
Proof.
  intros His Hd. destruct (mapping_run d is [] [] (minv_nil d) His Hd) as (ext & E & Hm & _ & Hl).
  exists ext. cbn in *. split; [exact E | auto].
Qed.

(** Every mapping splits at each requested index. *)
Lemma mapping_split d pre i post m : (forall j, In j (pre ++ i :: post) -> j < dom) -> 0 < d ->
  hash_to_mapping nh (pre ++ i :: post) d = Ok m ->
  exists m1 ext, hash_to_mapping nh pre d = Ok m1 /\ minv d pre m1 /\ m = m1 ++ ext /\
    ((exists r c ext', ext = (r, (c, i)) :: ext' /\ forall r' c' j, In (r', (c', j)) ext' -> In j post) \/
     (forall h, h < hc -> exists r c v, hash_to_tuple nh h i d = Ok (r, c) /\ hget m1 r = Some v) /\
     (forall r' c' j, In (r', (c', j)) ext -> In j post)).
Proof.
  intros His Hd E. unfold hash_to_mapping in *. fold (mloop d) in *. rewrite foldM_app in E.
  destruct (mapping_run d pre [] [] (minv_nil d)) as (m1 & E1 & Hm1 & _ & _);
    [intros; apply His; apply in_or_app; auto | exact Hd |]. cbn [app] in *.
  rewrite E1 in E. cbn [bind foldM] in E. unfold mloop at 1 in E.
  destruct (mapping_step d pre m1 i Hm1) as (m' & E2 & Hm' & Hcase);
    [apply His, in_or_app; right; left; reflexivity | exact Hd |].
  rewrite E2 in E. cbn [bind] in E.
  destruct (mapping_run d post (pre ++ [i]) m' Hm') as (ext & E3 & _ & Hext & _);
    [intros; apply His, in_or_app; right; right; assumption | exact Hd |].
  rewrite E3 in E. injection E as <-.
  destruct Hcase as [(r & c & ->) | (-> & Hall)].
  - exists m1, ((r, (c, i)) :: ext). rewrite <- app_assoc. split; [exact E1|]. split; [exact Hm1|].
    split; [reflexivity|]. left. exists r, c, ext. auto.
  - exists m1, ext. split; [exact E1|]. split; [exact Hm1|]. split; [reflexivity|]. right. auto.
Qed.

(** Distinct requests: every index is served at most once. *)
Lemma mapping_once d is m : NoDup is -> (forall i, In i is -> i < dom) -> 0 < d ->
  hash_to_mapping nh is d = Ok m ->
  forall r c r' c' i, In (r, (c, i)) m -> In (r', (c', i)) m -> r = r' /\ c = c'.
Proof.
  intros Hnd His Hd E r c r' c' i H H'.
  destruct (mapping_ok d is His Hd) as (m0 & E0 & Hm & _). rewrite E in E0. injection E0 as <-.
  assert (Hi : In i is) by (apply (proj2 Hm) in H; tauto).
  apply in_split in Hi as (pre & post & ->).
  assert (Hni : ~ In i pre /\ ~ In i post).
  { split; intros Hin; apply NoDup_remove_2 in Hnd; apply Hnd, in_or_app; auto. }
  destruct (mapping_split d pre i post m His Hd E) as (m1 & ext & E1 & Hm1 & -> & Hcase).
  assert (Hno : forall a b, ~ In (a, (b, i)) m1) by (intros a b Hin; apply (proj2 Hm1) in Hin; tauto).
  apply in_app_or in H as [H|H]; [exfalso; eapply Hno; eauto|].
  apply in_app_or in H' as [H'|H']; [exfalso; eapply Hno; eauto|].
  destruct Hcase as [(r0 & c0 & ext' & -> & Hext) | (_ & Hext)].
  - destruct H as [H|H]; [|exfalso; apply Hext in H; tauto].
    destruct H' as [H'|H']; [|exfalso; apply Hext in H'; tauto]. split; congruence.
  - exfalso. apply Hext in H. tauto.
Qed.

(** An index that is not served finds all of its rows taken by earlier indices. *)
Lemma mapping_maximal d pre i post m : (forall j, In j (pre ++ i :: post) -> j < dom) -> 0 < d ->
  hash_to_mapping nh (pre ++ i :: post) d = Ok m ->
  (forall r c, ~ In (r, (c, i)) m) ->
  forall h, h < hc -> exists r c c' j, hash_to_tuple nh h i d = Ok (r, c) /\ In (r, (c', j)) m /\ In j pre.
Proof.
  intros His Hd E Hno h Hh.
  destruct (mapping_split d pre i post m His Hd E) as (m1 & ext & E1 & Hm1 & -> & Hcase).
  destruct Hcase as [(r0 & c0 & ext' & -> & _) | (Hall & _)].
  - exfalso. eapply Hno. apply in_or_app. right. left. reflexivity.
  - destruct (Hall h Hh) as (r & c & [c' j] & Et & Eg). apply hget_Some_in in Eg.
    exists r, c, c', j. split; [exact Et|]. split; [apply in_or_app; auto|].
    apply (proj2 Hm1) in Eg. tauto.
Qed.

Lemma mapping_first d i post m : (forall j, In j (i :: post) -> j < dom) -> 0 < d ->
  hash_to_mapping nh (i :: post) d = Ok m -> exists r c, In (r, (c, i)) m.
Proof.
  intros His Hd E. destruct (mapping_split d [] i post m His Hd E) as (m1 & ext & E1 & _ & -> & Hcase).
  cbn in E1. injection E1 as <-. cbn. destruct Hcase as [(r0 & c0 & ext' & -> & _) | (Hall & _)].
  - exists r0, c0. left. reflexivity.
  - destruct nh_fields as (Hc & _). destruct (Hall 0 Hc) as (r & c & v & _ & Eg). discriminate.
Qed.

(** Served as early as possible: a served index uses the smallest hash number whose row is not
    taken by an earlier index. *)
Lemma place_least d i out m' : forall n s, i < dom -> 0 < d -> s + n = hc ->
  place nh d i (seq s n) out = Ok m' -> m' <> out ->
  exists h r c, s <= h < hc /\ hash_to_tuple nh h i d = Ok (r, c) /\ m' = out ++ [(r, (c, i))] /\
    forall h', s <= h' < h -> exists r' c' v, hash_to_tuple nh h' i d = Ok (r', c') /\ hget out r' = Some v.
Proof.
  induction n as [|n IH]; intros s Hi Hd Hs E Hne; cbn [seq place] in E; [congruence|].
  destruct (tuple_ok s i d) as (y & _ & Et & _); [lia | assumption | assumption |].
  rewrite Et in E. cbn [bind] in E. destruct (hget out (y / d)) as [v|] eqn:Eg.
  - destruct nh_fields as (_ & Eh & _ & _). rewrite Eh in E. destruct (Nat.leb_spec hc s); [lia|].
    destruct (IH (S s) Hi Hd ltac:(lia) E Hne) as (h & r & c & Hh & H2 & H3 & H4).
    exists h, r, c. split; [lia|]. split; [exact H2|]. split; [exact H3|].
    intros h' Hh'. destruct (Nat.eq_dec h' s) as [->|]; [eauto | apply H4; lia].
  - injection E as <-. exists s, (y / d), (y mod d). split; [lia|]. split; [exact Et|].
    split; [reflexivity|]. intros h' Hh'; lia.
Qed.

Lemma mapping_least d pre i post m r c : ~ In i pre -> ~ In i post ->
  (forall j, In j (pre ++ i :: post) -> j < dom) -> 0 < d ->
  hash_to_mapping nh (pre ++ i :: post) d = Ok m -> In (r, (c, i)) m ->
  exists h, h < hc /\ hash_to_tuple nh h i d = Ok (r, c) /\
    forall h', h' < h -> exists r' c' c'' j, hash_to_tuple nh h' i d = Ok (r', c') /\ In (r', (c'', j)) m /\ In j pre.
Proof.
  intros Hpre Hpost His Hd E Hin. unfold hash_to_mapping in *. fold (mloop d) in *. rewrite foldM_app in E.
  destruct (mapping_run d pre [] [] (minv_nil d)) as (m1 & E1 & Hm1 & _ & _);
    [intros; apply His; apply in_or_app; auto | exact Hd |]. cbn [app] in *.
  rewrite E1 in E. cbn [bind foldM] in E. unfold mloop at 1 in E.
  assert (Hi : i < dom) by (apply His, in_or_app; right; left; reflexivity).
  destruct (mapping_step d pre m1 i Hm1 Hi Hd) as (m' & E2 & Hm' & Hcase).
  rewrite E2 in E. cbn [bind] in E.
  destruct (mapping_run d post (pre ++ [i]) m' Hm') as (ext & E3 & _ & Hext & _);
    [intros; apply His, in_or_app; right; right; assumption | exact Hd |].
  rewrite E3 in E. injection E as <-.
  assert (Hno : forall a b, ~ In (a, (b, i)) m1) by (intros a b H; apply (proj2 Hm1) in H; tauto).
  apply in_app_or in Hin as [Hin | Hin]; [|apply Hext in Hin; contradiction].
  assert (Hne : m' <> m1) by (intros ->; eapply Hno; eauto).
  destruct nh_fields as (_ & Eh & _ & _). rewrite Eh in E2.
  destruct (place_least d i m1 m' hc 0 Hi Hd eq_refl E2 Hne) as (h & r0 & c0 & Hh & Et & -> & Hl).
  exists h. split; [lia|].
  apply in_app_or in Hin as [Hin | [Eq | []]]; [exfalso; eapply Hno; eauto|].
  injection Eq as -> ->. split; [exact Et|].
  intros h' Hh'. destruct (Hl h') as (r' & c' & [c'' j] & A & B); [lia|].
  apply hget_Some_in in B. exists r', c', c'', j. split; [exact A|].
  split; [apply in_or_app; left; apply in_or_app; auto|]. apply (proj2 Hm1) in B. tauto.
Qed.
End Hash.

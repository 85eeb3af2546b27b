(** * Counting arrangements; the share of hash functions for which cells fall into given places. *)
From Coq Require Import Permutation.
From Verif Require Import MBase MHash SpecChance PfShuffle.
Local Open Scope nat_scope.

(** ** Arrangements *)
Fixpoint picks (l : list nat) (k : nat) : list (list nat) :=
  match k with O => [[]] | S k' => flat_map (fun x => map (cons x) (picks (remove Nat.eq_dec x l) k')) l end.
Lemma picks_in k : forall l cs, In cs (picks l k) <-> length cs = k /\ NoDup cs /\ incl cs l.
Proof.
  induction k as [|k IH]; intros l cs; cbn [picks].
  - split.
    + intros [<-|[]]. split; [reflexivity|]. split; [constructor|intros x []].
    + intros (H & _). destruct cs; [left; reflexivity|discriminate].
  - rewrite in_flat_map. split.
    + intros (x & Hx & H). apply in_map_iff in H as (c & <- & H). apply IH in H as (H1 & H2 & H3). split; [cbn; lia|]. split.
      * constructor; [|exact H2]. intros Hc. apply H3 in Hc. apply in_remove in Hc. tauto.
      * intros y [<-|Hy]; [exact Hx|]. apply H3 in Hy. apply in_remove in Hy. tauto.
    + intros (H1 & H2 & H3). destruct cs as [|x c]; [discriminate|]. exists x. split; [apply H3; left; reflexivity|]. apply in_map. apply IH.
      inversion H2 as [|? ? Hx Hc]; subst. split; [cbn in H1; lia|]. split; [exact Hc|]. intros y Hy. apply in_in_remove; [intros ->; contradiction|]. apply H3. right. exact Hy.
Qed.
Lemma remove_len x l : NoDup l -> In x l -> length (remove Nat.eq_dec x l) = length l - 1 /\ NoDup (remove Nat.eq_dec x l).
Proof.
  induction 1 as [|y l Hy Hl IH]; intros Hx; [destruct Hx|]. cbn [remove]. destruct (Nat.eq_dec x y) as [->|E].
  - rewrite notin_remove by exact Hy. cbn. split; [lia|exact Hl].
  - destruct Hx as [<-|Hx]; [congruence|]. destruct (IH Hx) as [I1 I2]. cbn [length]. destruct l as [|z l]; [destruct Hx|]. split; [cbn [length] in *; lia|].
    constructor; [|exact I2]. intros H. apply in_remove in H. tauto.
Qed.
Lemma flat_len {A B} (f : A -> list B) c l : (forall x, In x l -> length (f x) = c) -> length (flat_map f l) = length l * c.
Proof.
  induction l as [|x l IH]; intros H; [reflexivity|]. cbn [flat_map length]. rewrite app_length, IH by (intros y Hy; apply H; right; exact Hy).
  rewrite (H x) by (left; reflexivity). lia.
Qed.
Lemma flat_le {A B} (f : A -> list B) c l : (forall x, In x l -> length (f x) <= c) -> length (flat_map f l) <= length l * c.
Proof.
  induction l as [|x l IH]; intros H; [reflexivity|]. cbn [flat_map length]. rewrite app_length. specialize (IH ltac:(intros y Hy; apply H; right; exact Hy)).
  specialize (H x (or_introl eq_refl)). lia.
Qed.
Lemma picks_len k : forall l, NoDup l -> length (picks l k) = falling (length l) k.
Proof.
  induction k as [|k IH]; intros l Hl; [reflexivity|]. cbn [picks falling]. apply flat_len. intros x Hx. rewrite map_length.
  destruct (remove_len x l Hl Hx) as [E N]. rewrite IH by exact N. rewrite E. reflexivity.
Qed.
Lemma nodup_app' {A} (a b : list A) : NoDup a -> NoDup b -> (forall x, In x a -> In x b -> False) -> NoDup (a ++ b).
Proof.
  induction 1 as [|x a Hx Ha IH]; intros Hb D; [exact Hb|]. cbn. constructor.
  - intros H. apply in_app_or in H as [H|H]; [contradiction|]. apply (D x); [left; reflexivity|exact H].
  - apply IH; [exact Hb|]. intros y Hy. apply D. right. exact Hy.
Qed.
Lemma flat_nodup {A B} (f : A -> list B) l : NoDup l -> (forall x, In x l -> NoDup (f x)) ->
  (forall x y b, In x l -> In y l -> In b (f x) -> In b (f y) -> x = y) -> NoDup (flat_map f l).
Proof.
  induction 1 as [|x l Hx Hl IH]; intros Hn Hd; [constructor|]. cbn [flat_map]. apply nodup_app'.
  - apply Hn. left. reflexivity.
  - apply IH; [intros y Hy; apply Hn; right; exact Hy|]. intros y z b Hy Hz. apply Hd; right; assumption.
  - intros b Hb H. apply in_flat_map in H as (y & Hy & H). assert (x = y) as -> by (apply (Hd x y b); [left; reflexivity|right; exact Hy|exact Hb|exact H]). contradiction.
Qed.
Lemma picks_nodup k : forall l, NoDup l -> NoDup (picks l k).
Proof.
  induction k as [|k IH]; intros l Hl; cbn [picks]; [constructor; [intros []|constructor]|]. apply flat_nodup; [exact Hl| |].
  - intros x Hx. apply FinFun.Injective_map_NoDup; [intros a b E; congruence|]. apply IH. apply (remove_len x l Hl Hx).
  - intros x y b _ _ H1 H2. apply in_map_iff in H1 as (c & <- & _). apply in_map_iff in H2 as (d & E & _). congruence.
Qed.
Lemma falling_mono k : forall x y, x <= y -> falling x k <= falling y k.
Proof. induction k as [|k IH]; intros x y H; [reflexivity|]. cbn [falling]. apply Nat.mul_le_mono; [exact H|apply IH; lia]. Qed.

(** First an arrangement [e], then one of [k] among the places [B e]. *)
Definition family (E : list (list nat)) (B : list nat -> list nat) (k : nat) : list (list nat) := flat_map (fun e => map (app e) (picks (B e) k)) E.
Lemma app_inj_len {A} (a b c d : list A) : length a = length c -> a ++ b = c ++ d -> a = c /\ b = d.
Proof.
  revert c. induction a as [|x a IH]; intros [|y c] H E; cbn in *; try lia; [auto|]. injection E as -> E. destruct (IH c ltac:(lia) E) as [-> ->]. auto.
Qed.
Lemma family_nodup E B k j : NoDup E -> (forall e, In e E -> length e = j) -> (forall e, In e E -> NoDup (B e)) -> NoDup (family E B k).
Proof.
  intros HE Hj HB. apply flat_nodup; [exact HE| |].
  - intros e He. apply FinFun.Injective_map_NoDup; [intros a b H; apply app_inv_head in H; exact H|]. apply picks_nodup, HB, He.
  - intros e e' b He He' H1 H2. apply in_map_iff in H1 as (c & <- & _). apply in_map_iff in H2 as (d & H & _).
    apply app_inj_len in H; [destruct H; congruence|]. rewrite (Hj e He), (Hj e' He'). reflexivity.
Qed.
Lemma family_in E B k j e c : (forall e, In e E -> length e = j) -> length e = j ->
  (In (e ++ c) (family E B k) <-> In e E /\ length c = k /\ NoDup c /\ incl c (B e)).
Proof.
  intros Hj He. unfold family. rewrite in_flat_map. split.
  - intros (e' & He' & H). apply in_map_iff in H as (d & H & Hd). apply app_inj_len in H; [|rewrite (Hj e' He'); lia]. destruct H as [-> ->].
    split; [exact He'|]. apply picks_in. exact Hd.
  - intros (H1 & H2). exists e. split; [exact H1|]. apply in_map. apply picks_in. exact H2.
Qed.

(** ** Shares *)
Definition lists_eq : forall a b : list nat, {a = b} + {a <> b} := list_eq_dec Nat.eq_dec.
Definition is_list (a b : list nat) : bool := if lists_eq a b then true else false.
Definition among (F : list (list nat)) (a : list nat) : bool := if in_dec lists_eq a F then true else false.
Lemma among_iff F a : among F a = true <-> In a F.
Proof. unfold among. destruct (in_dec lists_eq a F); split; intros; try discriminate; trivial; contradiction. Qed.
Lemma sum_is a F : NoDup F -> list_sum (map (fun c => if is_list a c then 1 else 0) F) = if among F a then 1 else 0.
Proof.
  induction 1 as [|c F Hc HF IH]; [reflexivity|]. cbn [map list_sum fold_right]. change (fold_right Nat.add 0 ?l) with (list_sum l). rewrite IH. unfold is_list at 1.
  destruct (lists_eq a c) as [->|E].
  - assert (among F c = false) as -> by (destruct (among F c) eqn:A; [apply among_iff in A; contradiction|reflexivity]).
    assert (among (c :: F) c = true) as -> by (apply among_iff; left; reflexivity). reflexivity.
  - cbn. destruct (among F a) eqn:A.
    + assert (among (c :: F) a = true) as -> by (apply among_iff; right; apply among_iff, A). reflexivity.
    + destruct (among (c :: F) a) eqn:A'; [|reflexivity]. apply among_iff in A' as [->|A']; [congruence|]. apply among_iff in A'. congruence.
Qed.
Lemma count_family {T} (key : T -> list nat) (L : list T) F : NoDup F ->
  count (fun x => among F (key x)) L = list_sum (map (fun c => count (fun x => is_list (key x) c) L) F).
Proof.
  intros HF. induction L as [|x L IH].
  - clear. induction F as [|c F IH]; [reflexivity|]. cbn [map list_sum fold_right]. exact IH.
  - rewrite count_cons, IH. rewrite <- sum_is by exact HF. rewrite <- list_sum_add. f_equal. apply map_ext. intros c. rewrite count_cons. reflexivity.
Qed.

Section Share.
Context {T : Type} (L : list T) (key1 key2 : T -> list nat) (N k1 k2 : nat).
Hypothesis K : forall x, In x L -> length (key1 x) = k1 /\ length (key2 x) = k2 /\ NoDup (key1 x ++ key2 x) /\ forall c, In c (key1 x ++ key2 x) -> c < N.
Hypothesis U : forall cs cs', NoDup cs -> NoDup cs' -> length cs = k1 + k2 -> length cs' = k1 + k2 -> (forall c, In c cs -> c < N) -> (forall c, In c cs' -> c < N) ->
  count (fun x => is_list (key1 x ++ key2 x) cs) L = count (fun x => is_list (key1 x ++ key2 x) cs') L.
Let E := picks (seq 0 N) k1.
Let left e := filter (fun c => if in_dec Nat.eq_dec c e then false else true) (seq 0 N).
Lemma E_len e : In e E -> length e = k1.
Proof. intros H. apply picks_in in H. tauto. Qed.
Lemma E_nodup : NoDup E.
Proof. apply picks_nodup, seq_NoDup. Qed.
Lemma left_in e c : In c (left e) <-> c < N /\ ~ In c e.
Proof.
  unfold left. rewrite filter_In, in_seq. destruct (in_dec Nat.eq_dec c e); split; intros H; try (split; [lia|trivial]); try tauto; destruct H; discriminate.
Qed.
Lemma left_nodup e : NoDup (left e).
Proof. apply NoDup_filter, seq_NoDup. Qed.
Lemma left_len e : In e E -> length (left e) = N - k1.
Proof.
  intros H. apply picks_in in H as (H1 & H2 & H3). assert (length (e ++ left e) = N) as Hl.
  { transitivity (length (seq 0 N)); [|apply seq_length]. apply Nat.le_antisymm; apply NoDup_incl_length.
    - apply nodup_app'; [exact H2|apply left_nodup|]. intros x Hx Hy. apply left_in in Hy. tauto.
    - intros x Hx. apply in_app_or in Hx as [Hx|Hx]; [apply H3, Hx|]. apply left_in in Hx. apply in_seq. lia.
    - apply seq_NoDup.
    - intros x Hx. apply in_or_app. destruct (in_dec Nat.eq_dec x e); [left; assumption|right]. apply left_in. apply in_seq in Hx. split; [lia|assumption]. }
  rewrite app_length in Hl. lia.
Qed.
Section Places.
Variable B : list nat -> list nat.
Hypothesis HB : forall e, In e E -> NoDup (B e) /\ forall c, In c (B e) -> c < N /\ ~ In c e.
Variable p : nat.
Hypothesis Hp : forall cs, NoDup cs -> length cs = k1 + k2 -> (forall c, In c cs -> c < N) -> count (fun x => is_list (key1 x ++ key2 x) cs) L = p.
Definition inside (x : T) : bool := forallb (fun c => if in_dec Nat.eq_dec c (B (key1 x)) then true else false) (key2 x).
Lemma inside_iff x : inside x = true <-> incl (key2 x) (B (key1 x)).
Proof.
  unfold inside. rewrite forallb_forall. split; intros H c Hc; specialize (H c Hc); destruct (in_dec Nat.eq_dec c (B (key1 x))); try discriminate; trivial; contradiction.
Qed.
Lemma nodup_app_inv {A} (a b : list A) : NoDup (a ++ b) -> NoDup a /\ NoDup b /\ forall x, In x a -> In x b -> False.
Proof.
  induction a as [|y a IH]; cbn; intros H; [split; [constructor|]; split; [exact H|intros x []]|]. inversion H as [|? ? H1 H2]; subst. destruct (IH H2) as (I1 & I2 & I3).
  split; [constructor; [intros Hy; apply H1, in_or_app; left; exact Hy|exact I1]|]. split; [exact I2|]. intros x [<-|Hx] Hb; [apply H1, in_or_app; right; exact Hb|exact (I3 x Hx Hb)].
Qed.
Lemma key_in x : In x L -> In (key1 x) E.
Proof.
  intros Hx. destruct (K x Hx) as (H1 & H2 & H3 & H4). apply nodup_app_inv in H3 as (H3 & _ & _). apply picks_in. split; [exact H1|]. split; [exact H3|].
  intros c Hc. apply in_seq. specialize (H4 c (in_or_app _ _ _ (or_introl Hc))). lia.
Qed.
Lemma count_inside : count inside L = length (family E B k2) * p.
Proof.
  rewrite (count_ext _ (fun x => among (family E B k2) (key1 x ++ key2 x))).
  - rewrite count_family by (apply (family_nodup E B k2 k1 E_nodup E_len); intros e He; apply HB, He).
    rewrite (list_sum_const _ p); [apply Nat.mul_comm|]. intros cs Hcs. unfold family in Hcs. apply in_flat_map in Hcs as (e & He & Hcs). apply in_map_iff in Hcs as (c & <- & Hc).
    apply picks_in in Hc as (C1 & C2 & C3). pose proof (proj1 (picks_in _ _ _) He) as (E1 & E2 & E3). destruct (HB e He) as [B1 B2]. apply Hp.
    + apply nodup_app'; [exact E2|exact C2|]. intros y Hy Hc. apply (B2 y (C3 y Hc)). exact Hy.
    + rewrite app_length. lia.
    + intros y Hy. apply in_app_or in Hy as [Hy|Hy]; [apply E3, in_seq in Hy; lia|apply (B2 y (C3 y Hy))].
  - intros x Hx. destruct (K x Hx) as (H1 & H2 & H3 & H4). apply nodup_app_inv in H3 as (N1 & N2 & N3).
    destruct (inside x) eqn:I; symmetry.
    + apply among_iff. apply (family_in E B k2 k1); [exact E_len|exact H1|]. split; [apply key_in, Hx|]. split; [exact H2|]. split; [exact N2|]. apply inside_iff, I.
    + destruct (among _ _) eqn:A; [|reflexivity]. apply among_iff in A. apply (family_in E B k2 k1) in A; [|exact E_len|exact H1]. destruct A as (_ & _ & _ & A). apply inside_iff in A. congruence.
Qed.
End Places.

Theorem share B b : (forall e, In e E -> NoDup (B e) /\ length (B e) = b /\ forall c, In c (B e) -> c < N /\ ~ In c e) ->
  count (inside B) L * falling (N - k1) k2 = length L * falling b k2.
Proof.
  intros HB. destruct L as [|x0 L'] eqn:EL; [reflexivity|]. rewrite <- EL in *. assert (In x0 L) as H0 by (rewrite EL; left; reflexivity).
  set (p := count (fun x => is_list (key1 x ++ key2 x) (key1 x0 ++ key2 x0)) L).
  assert (forall cs, NoDup cs -> length cs = k1 + k2 -> (forall c, In c cs -> c < N) -> count (fun x => is_list (key1 x ++ key2 x) cs) L = p) as Hp.
  { intros cs H1 H2 H3. destruct (K x0 H0) as (X1 & X2 & X3 & X4). apply U; trivial. rewrite app_length. lia. }
  rewrite (count_inside B) with (p := p); [|intros e He; destruct (HB e He) as (A & _ & C); split; assumption|exact Hp].
  assert (length L = length (family E left k2) * p) as ->.
  { rewrite <- (count_inside left) with (p := p); [|intros e He; split; [apply left_nodup|intros c Hc; apply left_in, Hc]|exact Hp].
    symmetry. apply count_all. intros x Hx. apply inside_iff. intros c Hc. apply left_in. destruct (K x Hx) as (_ & _ & N3 & H4).
    split; [apply H4, in_or_app; right; exact Hc|]. intros Hc'. apply nodup_app_inv in N3 as (_ & _ & N3). exact (N3 c Hc' Hc). }
  unfold family. rewrite (flat_len _ (falling b k2)), (flat_len _ (falling (N - k1) k2)).
  - ring.
  - intros e He. rewrite map_length, picks_len by apply left_nodup. rewrite left_len by exact He. reflexivity.
  - intros e He. destruct (HB e He) as (A & C & _). rewrite map_length, picks_len by exact A. rewrite C. reflexivity.
Qed.
Theorem share_le B b : (forall e, In e E -> NoDup (B e) /\ length (B e) <= b /\ forall c, In c (B e) -> c < N /\ ~ In c e) ->
  count (inside B) L * falling (N - k1) k2 <= length L * falling b k2.
Proof.
  intros HB. destruct L as [|x0 L'] eqn:EL; [cbn; lia|]. rewrite <- EL in *. assert (In x0 L) as H0 by (rewrite EL; left; reflexivity).
  set (p := count (fun x => is_list (key1 x ++ key2 x) (key1 x0 ++ key2 x0)) L).
  assert (forall cs, NoDup cs -> length cs = k1 + k2 -> (forall c, In c cs -> c < N) -> count (fun x => is_list (key1 x ++ key2 x) cs) L = p) as Hp.
  { intros cs H1 H2 H3. destruct (K x0 H0) as (X1 & X2 & X3 & X4). apply U; trivial. rewrite app_length. lia. }
  rewrite (count_inside B) with (p := p); [|intros e He; destruct (HB e He) as (A & _ & C); split; assumption|exact Hp].
  assert (length L = length (family E left k2) * p) as ->.
  { rewrite <- (count_inside left) with (p := p); [|intros e He; split; [apply left_nodup|intros c Hc; apply left_in, Hc]|exact Hp].
    symmetry. apply count_all. intros x Hx. apply inside_iff. intros c Hc. apply left_in. destruct (K x Hx) as (_ & _ & N3 & H4).
    split; [apply H4, in_or_app; right; exact Hc|]. intros Hc'. apply nodup_app_inv in N3 as (_ & _ & N3). exact (N3 c Hc' Hc). }
  assert (length (family E B k2) <= length E * falling b k2) as H1.
  { apply flat_le. intros e He. destruct (HB e He) as (A & C & _). rewrite map_length, picks_len by exact A. apply falling_mono, C. }
  assert (length (family E left k2) = length E * falling (N - k1) k2) as H2.
  { apply flat_len. intros e He. rewrite map_length, picks_len by apply left_nodup. rewrite left_len by exact He. reflexivity. }
  rewrite H2. replace (length E * falling (N - k1) k2 * p * falling b k2) with (length E * falling b k2 * (p * falling (N - k1) k2)) by ring.
  rewrite <- Nat.mul_assoc. apply Nat.mul_le_mono_r. exact H1.
Qed.
End Share.

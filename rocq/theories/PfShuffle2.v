(** * Proofs about the shuffle: symmetry *)
From Coq Require Import Permutation Lia.
From Verif Require Import MBase MHash MShuffle SpecShuffle SpecOram PfShuffle.

Lemma hash_for_iff nh hc dom : hash_for nh hc dom <->
  (0 < hc)%nat /\ nh_h_count nh = hc /\ nh_input_domain nh = dom /\ Permutation (nh_tables nh) (seq 0 (hc * dom)).
Proof.
  unfold hash_for, nh_new, rassert. split.
  - intros (sh & P & E). destruct (Nat.ltb_spec 0 hc); [|discriminate]. cbn in E. injection E as <-. cbn. repeat split; trivial.
  - intros (H & A & B & P). exists (fun l => if list_eq_dec Nat.eq_dec l (seq 0 (hc * dom)) then nh_tables nh else l). split.
    + intros l. destruct (list_eq_dec Nat.eq_dec l (seq 0 (hc * dom))) as [-> |]; [exact P|reflexivity].
    + destruct (Nat.ltb_spec 0 hc); [|lia]. cbn [bind]. destruct (list_eq_dec Nat.eq_dec (seq 0 (hc * dom)) (seq 0 (hc * dom))) as [|N]; [|contradiction].
      f_equal. destruct nh; cbn in *. subst. reflexivity.
Qed.
Lemma nh_draw_iff hc dom ws nh ws' : nh_draw hc dom ws = Ok (Some (nh, ws')) <->
  (0 < hc)%nat /\ nh_h_count nh = hc /\ nh_input_domain nh = dom /\
  exists ks, draws (bounds (hc * dom - 1)) ws = Some (ks, ws') /\ swaps (hc * dom - 1) (seq 0 (hc * dom)) ks = Ok (nh_tables nh).
Proof.
  unfold nh_draw, rassert, shuffle. rewrite seq_length. destruct (Nat.ltb_spec 0 hc) as [H|H]; cbn [bind]; [|split; [discriminate|lia]].
  rewrite <- shuffle_from_some. destruct (shuffle_from (hc * dom - 1) (seq 0 (hc * dom)) ws) as [[[p w1]|]|e]; cbn [bind]; split.
  - intros [= <- <-]. cbn. auto.
  - intros (_ & A & B & [= E <-]). destruct nh; cbn in *. subst. reflexivity.
  - discriminate.
  - intros (_ & _ & _ & E). discriminate.
  - discriminate.
  - intros (_ & _ & _ & E). discriminate.
Qed.
Lemma swaps_perm n ks p : Forall2 lt ks (bounds (n - 1)) -> swaps (n - 1) (seq 0 n) ks = Ok p -> Permutation p (seq 0 n).
Proof.
  intros F E. destruct n as [|n]; [cbn in *; injection E as <-; constructor|].
  destruct (swaps_spec (S n - 1) (seq 0 (S n)) ks) as (p' & E' & P & _); [rewrite seq_length; lia|exact F|]. rewrite E in E'. injection E' as ->. exact P.
Qed.
Lemma swaps_code n p : Permutation p (seq 0 n) -> exists ks, Forall2 lt ks (bounds (n - 1)) /\ swaps (n - 1) (seq 0 n) ks = Ok p /\
  forall ks', Forall2 lt ks' (bounds (n - 1)) -> swaps (n - 1) (seq 0 n) ks' = Ok p -> ks' = ks.
Proof.
  intros P. destruct n as [|n].
  - apply Permutation_sym, Permutation_nil in P. subst p. exists []. split; [constructor|]. split; [reflexivity|]. intros ks' F _. inversion F. reflexivity.
  - destruct (swaps_surj (S n - 1) (seq 0 (S n)) p) as (ks & F & E).
    + apply seq_NoDup.
    + rewrite seq_length. lia.
    + exact P.
    + intros k Hk. rewrite !nth_overflow; [reflexivity| |]; [rewrite seq_length|rewrite (Permutation_length P), seq_length]; lia.
    + exists ks. split; [exact F|]. split; [exact E|]. intros ks' F' E'.
      apply (swaps_inj (S n - 1) (seq 0 (S n)) ks' ks p); trivial; [apply seq_NoDup|rewrite seq_length; lia].
Qed.
Lemma streams_ok m ws : In ws (streams m) <-> length ws = m /\ Forall word_ok ws.
Proof.
  revert ws. induction m as [|m IH]; intros ws; cbn [streams].
  - split.
    + intros [<- |[]]. split; [reflexivity|constructor].
    + intros [L _]. destruct ws; [left; reflexivity|discriminate].
  - rewrite in_flat_map. split.
    + intros (v & Hv & Hw). apply in_map_iff in Hw. destruct Hw as (t & <- & Ht). apply IH in Ht. rewrite words_in in Hv.
      split; [cbn; lia|]. constructor; [exact Hv|apply Ht].
    + intros [L F]. destruct ws as [|v t]; [discriminate|]. inversion F; subst. exists v. split.
      * rewrite words_in. assumption.
      * apply in_map, IH. split; [cbn in L; lia|assumption].
Qed.
Lemma bounds_ok i : Z.of_nat i + 1 <= 2 ^ 32 - 1 -> Forall bound_ok (bounds i).
Proof. induction i as [|i IH]; intros H; cbn [bounds]; constructor; [split; lia|apply IH; lia]. Qed.

Section Outcomes.
Context (hc dom : nat) (Hn : Z.of_nat (hc * dom) < 2 ^ 32).
Lemma made_hash ws nh : Forall word_ok ws -> In nh (made_from hc dom ws) -> hash_for nh hc dom.
Proof.
  unfold made_from. intros F H. destruct (nh_draw hc dom ws) as [[[nh' [|? ?]]|]|] eqn:E; try contradiction. destruct H as [<- |[]].
  apply nh_draw_iff in E. destruct E as (H0 & A & B & ks & D & Sw). apply hash_for_iff. split; [exact H0|]. split; [exact A|]. split; [exact B|].
  apply (swaps_perm _ ks); [|exact Sw]. apply (draws_lt (hc * dom - 1) ltac:(lia) ws ks []); assumption.
Qed.
Lemma outcomes_hash m nh : In nh (outcomes hc dom m) -> hash_for nh hc dom.
Proof. unfold outcomes. rewrite in_flat_map. intros (ws & Hw & H). apply streams_ok in Hw. apply (made_hash ws); [apply Hw|exact H]. Qed.
Lemma occ_flat {A} (g : A -> list nhash) (f : A -> bool) nh l : (forall a, In a l -> count_occ same_hash (g a) nh = if f a then 1%nat else 0%nat) ->
  count_occ same_hash (flat_map g l) nh = count f l.
Proof.
  induction l as [|a l IH]; intros H; [reflexivity|]. cbn [flat_map]. rewrite count_occ_app, count_cons, (H a (or_introl eq_refl)), IH; [reflexivity|].
  intros x Hx. apply H. right. exact Hx.
Qed.
Lemma made_code nh : hash_for nh hc dom -> exists ks, Forall2 lt ks (bounds (hc * dom - 1)) /\
  forall ws, Forall word_ok ws -> count_occ same_hash (made_from hc dom ws) nh = if drawn (bounds (hc * dom - 1)) ks ws then 1%nat else 0%nat.
Proof.
  intros H. apply hash_for_iff in H. destruct H as (H0 & A & B & P). destruct (swaps_code _ _ P) as (ks & F & E & U).
  exists ks. split; [exact F|]. intros ws W. unfold made_from.
  destruct (drawn (bounds (hc * dom - 1)) ks ws) eqn:D.
  - apply drawn_iff in D. assert (nh_draw hc dom ws = Ok (Some (nh, []))) as ->. { apply nh_draw_iff. repeat split; trivial. exists ks. split; assumption. }
    cbn. destruct (same_hash nh nh); [reflexivity|contradiction].
  - destruct (nh_draw hc dom ws) as [[[nh' [|? ?]]|]|] eqn:E'; try reflexivity. cbn. destruct (same_hash nh' nh) as [-> |]; [|reflexivity].
    apply nh_draw_iff in E'. destruct E' as (_ & _ & _ & ks' & D' & E''). exfalso.
    assert (ks' = ks) as -> by (apply U; [apply (draws_lt (hc * dom - 1) ltac:(lia) ws ks' [] W D')|exact E'']). apply drawn_iff in D'. congruence.
Qed.
Lemma occurrences_eq m nh nh' : hash_for nh hc dom -> hash_for nh' hc dom -> occurrences nh (outcomes hc dom m) = occurrences nh' (outcomes hc dom m).
Proof.
  intros H H'. destruct (made_code nh H) as (ks & F & C). destruct (made_code nh' H') as (ks' & F' & C'). unfold occurrences, outcomes.
  rewrite (occ_flat _ (drawn (bounds (hc * dom - 1)) ks)), (occ_flat _ (drawn (bounds (hc * dom - 1)) ks')).
  - apply drawn_count; trivial. apply bounds_ok. destruct (hc * dom)%nat; lia.
  - intros ws Hw. apply C'. apply streams_ok in Hw. apply Hw.
  - intros ws Hw. apply C. apply streams_ok in Hw. apply Hw.
Qed.
Lemma symmetric m f g : (forall nh, hash_for nh hc dom -> hash_for (f nh) hc dom /\ g (f nh) = nh) ->
  (forall nh, hash_for nh hc dom -> hash_for (g nh) hc dom /\ f (g nh) = nh) -> Permutation (map f (outcomes hc dom m)) (outcomes hc dom m).
Proof.
  intros Hf Hg. apply (Permutation_count_occ same_hash). intros x.
  assert (hash_for x hc dom -> count_occ same_hash (map f (outcomes hc dom m)) x = count_occ same_hash (outcomes hc dom m) x) as K.
  { intros Hx. destruct (Hg x Hx) as [Gx Fx]. rewrite (occurrences_eq m x (g x) Hx Gx : count_occ _ _ _ = count_occ _ _ _).
    assert (forall l, (forall y, In y l -> hash_for y hc dom) -> count_occ same_hash (map f l) x = count_occ same_hash l (g x)) as L.
    { induction l as [|y l IH]; intros Hl; [reflexivity|]. cbn [map count_occ]. rewrite IH by (intros z Hz; apply Hl; right; exact Hz).
      destruct (Hf y (Hl y (or_introl eq_refl))) as [_ Gy].
      destruct (same_hash (f y) x) as [E|E]; destruct (same_hash y (g x)) as [E'|E']; trivial; exfalso; [apply E'; rewrite <- E, Gy|apply E; rewrite E']; trivial. }
    apply L. intros y. apply outcomes_hash. }
  destruct (in_dec same_hash x (outcomes hc dom m)) as [I|N]; [apply K, (outcomes_hash m), I|].
  destruct (in_dec same_hash x (map f (outcomes hc dom m))) as [I'|N'].
  - apply K. apply in_map_iff in I'. destruct I' as (y & <- & Hy). apply Hf, (outcomes_hash m), Hy.
  - apply (count_occ_not_In same_hash) in N. apply (count_occ_not_In same_hash) in N'. rewrite N, N'. reflexivity.
Qed.
End Outcomes.

(** ** Renaming *)
Fixpoint pos (j : nat) (l : list nat) : nat := match l with [] => O | a :: l' => if (a =? j)%nat then O else S (pos j l') end.
Lemma pos_spec j l : In j l -> (pos j l < length l)%nat /\ nth (pos j l) l 0%nat = j.
Proof.
  induction l as [|a l IH]; intros H; [contradiction|]. cbn. destruct (Nat.eqb_spec a j) as [-> |N]; [split; [lia|reflexivity]|].
  destruct H as [H|H]; [contradiction|]. destruct (IH H). split; [lia|assumption].
Qed.
Lemma pos_nth i l : NoDup l -> (i < length l)%nat -> pos (nth i l 0%nat) l = i.
Proof. intros N H. destruct (pos_spec (nth i l 0%nat) l (nth_In _ _ H)) as [A B]. apply (nth_inj l); assumption. Qed.
Lemma nodup_app (a b : list nat) : NoDup a -> NoDup b -> (forall x, In x a -> In x b -> False) -> NoDup (a ++ b).
Proof.
  intros Na Nb H. induction Na as [|x a Hx Na IH]; [exact Nb|]. cbn. constructor.
  - rewrite in_app_iff. intros [I|I]; [contradiction|]. apply (H x); [left; reflexivity|exact I].
  - apply IH. intros y Hy. apply H. right. exact Hy.
Qed.
Definition rest (n : nat) (a : list nat) : list nat := filter (fun j => if in_dec Nat.eq_dec j a then false else true) (seq 0 n).
Lemma rest_perm n a : NoDup a -> (forall j, In j a -> (j < n)%nat) -> Permutation (a ++ rest n a) (seq 0 n).
Proof.
  intros N H. apply NoDup_Permutation.
  - apply nodup_app; trivial.
    + apply NoDup_filter, seq_NoDup.
    + intros x Hx Hr. apply filter_In in Hr. destruct Hr as [_ Hr]. destruct (in_dec Nat.eq_dec x a); [discriminate|contradiction].
  - apply seq_NoDup.
  - intros x. rewrite in_app_iff. unfold rest. rewrite filter_In, in_seq. split.
    + intros [I|[I _]]; [apply H in I; lia|lia].
    + intros I. destruct (in_dec Nat.eq_dec x a); [left; assumption|]. right. split; [lia|reflexivity].
Qed.
Lemma extend n a b : NoDup a -> NoDup b -> length a = length b -> (forall j, In j a -> (j < n)%nat) -> (forall j, In j b -> (j < n)%nat) ->
  exists s t, (forall j, (j < n)%nat -> (s j < n)%nat /\ t (s j) = j) /\ (forall j, (j < n)%nat -> (t j < n)%nat /\ s (t j) = j) /\ map s a = b /\ map t b = a.
Proof.
  intros Na Nb L Ha Hb. pose proof (rest_perm n a Na Ha) as Pa. pose proof (rest_perm n b Nb Hb) as Pb. set (A := a ++ rest n a) in *. set (B := b ++ rest n b) in *.
  pose proof (Permutation_length Pa) as La. pose proof (Permutation_length Pb) as Lb. rewrite seq_length in La, Lb.
  pose proof (Permutation_NoDup (Permutation_sym Pa) (seq_NoDup _ _)) as NA. pose proof (Permutation_NoDup (Permutation_sym Pb) (seq_NoDup _ _)) as NB.
  assert (forall X Y, length X = n -> length Y = n -> NoDup X -> NoDup Y -> Permutation X (seq 0 n) -> Permutation Y (seq 0 n) ->
    forall j, (j < n)%nat -> (nth (pos j X) Y 0 < n)%nat /\ nth (pos (nth (pos j X) Y 0%nat) Y) X 0%nat = j) as K.
  { intros X Y LX LY NX NY PX PY j Hj. assert (In j X) as I by (apply (Permutation_in _ (Permutation_sym PX)), in_seq; lia).
    destruct (pos_spec j X I) as [I1 I2]. split.
    - assert (In (nth (pos j X) Y 0%nat) (seq 0 n)) as J by (apply (Permutation_in _ PY), nth_In; lia). apply in_seq in J. lia.
    - rewrite pos_nth by (trivial; lia). exact I2. }
  exists (fun j => nth (pos j A) B 0%nat), (fun j => nth (pos j B) A 0%nat). split; [apply K; trivial|]. split; [apply K; trivial|].
  assert (forall x y X Y, length x = length y -> X = x ++ rest n x -> Y = y ++ rest n y -> NoDup X -> map (fun j => nth (pos j X) Y 0%nat) x = y) as M.
  { intros x y X Y Lx -> -> NX. apply (nth_ext _ _ 0%nat 0%nat); [rewrite map_length; exact Lx|]. intros i Hi. rewrite map_length in Hi.
    rewrite (nth_indep _ 0%nat (nth (pos 0%nat (x ++ rest n x)) (y ++ rest n y) 0%nat)) by (rewrite map_length; exact Hi).
    rewrite (map_nth (fun j => nth (pos j (x ++ rest n x)) (y ++ rest n y) 0%nat)).
    replace (nth i x 0%nat) with (nth i (x ++ rest n x) 0%nat) by (apply app_nth1; exact Hi).
    rewrite pos_nth by (trivial; rewrite app_length; lia). apply app_nth1. lia. }
  split; [apply (M a b); trivial|apply (M b a); trivial; symmetry; exact L].
Qed.

Section Rename.
Context (hc dom : nat).
Definition retable (F : list nat -> list nat) (nh : nhash) : nhash :=
  {| nh_tables := F (nh_tables nh); nh_h_count := nh_h_count nh; nh_input_domain := nh_input_domain nh |}.
Lemma retable_inv F G nh : G (F (nh_tables nh)) = nh_tables nh -> retable G (retable F nh) = nh.
Proof. intros E. unfold retable. cbn. rewrite E. destruct nh; reflexivity. Qed.
Definition slot_pos (hx : nat * nat) : nat := (hc * snd hx + fst hx)%nat.
Lemma slot_pos_lt hx : slot_ok hc dom hx -> (slot_pos hx < hc * dom)%nat.
Proof. unfold slot_ok, slot_pos. nia. Qed.
Lemma slot_pos_inj hx hx' : slot_ok hc dom hx -> slot_ok hc dom hx' -> slot_pos hx = slot_pos hx' -> hx = hx'.
Proof.
  unfold slot_ok, slot_pos. destruct hx as [h x], hx' as [h' x']. cbn. intros [A B] [A' B'] E.
  assert (x = x') by nia. subst. f_equal. lia.
Qed.
Lemma slots_pos s : NoDup s -> Forall (slot_ok hc dom) s -> NoDup (map slot_pos s) /\ forall j, In j (map slot_pos s) -> (j < hc * dom)%nat.
Proof.
  intros N F. split.
  - induction N as [|a s Ha N IH]; cbn; constructor.
    + intros I. apply in_map_iff in I. destruct I as (b & E & Hb). inversion F as [|? ? Fa Fs]; subst. apply Ha.
      rewrite (slot_pos_inj a b); trivial. rewrite Forall_forall in Fs. apply Fs, Hb. symmetry. exact E.
    + apply IH. inversion F; assumption.
  - intros j I. apply in_map_iff in I. destruct I as (b & <- & Hb). apply slot_pos_lt. rewrite Forall_forall in F. apply F, Hb.
Qed.
Lemma hash_cell nh hx : hash_for nh hc dom -> slot_ok hc dom hx -> hash nh (fst hx) (snd hx) = Ok (nth (slot_pos hx) (nh_tables nh) 0%nat).
Proof.
  intros H Hs. apply hash_for_iff in H. destruct H as (_ & E & _ & P). unfold hash, index. rewrite E. fold (slot_pos hx).
  rewrite (nth_error_nth' _ 0%nat); [reflexivity|]. rewrite (Permutation_length P), seq_length. apply slot_pos_lt, Hs.
Qed.
Lemma cells_eq nh s : hash_for nh hc dom -> Forall (slot_ok hc dom) s -> cells nh s = map (fun hx => Ok (nth (slot_pos hx) (nh_tables nh) 0%nat)) s.
Proof. intros H F. unfold cells. apply map_ext_in. intros hx I. apply hash_cell; trivial. rewrite Forall_forall in F. apply F, I. Qed.
Definition by_pos (s : nat -> nat) (p : list nat) : list nat := map (fun j => nth (s j) p 0%nat) (seq 0 (length p)).
Lemma nth_by_pos s p j : (j < length p)%nat -> nth j (by_pos s p) 0%nat = nth (s j) p 0%nat.
Proof.
  intros H. unfold by_pos. rewrite (nth_indep _ 0%nat (nth (s 0%nat) p 0%nat)) by (rewrite map_length, seq_length; exact H).
  rewrite (map_nth (fun j => nth (s j) p 0%nat)). rewrite seq_nth by exact H. reflexivity.
Qed.
Lemma by_pos_length s p : length (by_pos s p) = length p.
Proof. unfold by_pos. rewrite map_length. apply seq_length. Qed.
Lemma by_pos_inv n s t p : length p = n -> (forall j, (j < n)%nat -> (s j < n)%nat /\ t (s j) = j) -> by_pos s (by_pos t p) = p.
Proof.
  intros L H. apply (nth_ext _ _ 0%nat 0%nat); [rewrite !by_pos_length; reflexivity|]. intros j Hj. rewrite !by_pos_length in Hj.
  destruct (H j ltac:(lia)) as [A B]. rewrite nth_by_pos by (rewrite by_pos_length; exact Hj). rewrite nth_by_pos by lia. rewrite B. reflexivity.
Qed.
Lemma by_pos_perm n s t p : length p = n -> (forall j, (j < n)%nat -> (s j < n)%nat /\ t (s j) = j) -> Permutation (by_pos s p) p.
Proof.
  intros L H. apply Permutation_sym, (Permutation_nth p _ 0%nat). rewrite by_pos_length. split; [reflexivity|].
  exists s. rewrite L. split; [intros j Hj; apply H, Hj|]. split.
  - intros x y Hx Hy E. destruct (H x Hx) as [_ A]. destruct (H y Hy) as [_ B]. congruence.
  - intros j Hj. apply nth_by_pos. lia.
Qed.
Lemma retable_pos nh s t : (forall j, (j < hc * dom)%nat -> (s j < hc * dom)%nat /\ t (s j) = j) -> hash_for nh hc dom ->
  hash_for (retable (by_pos s) nh) hc dom.
Proof.
  intros K H. apply hash_for_iff in H. destruct H as (H0 & A & B & P). pose proof (Permutation_length P) as L. rewrite seq_length in L.
  apply hash_for_iff. repeat split; trivial. cbn. rewrite (by_pos_perm _ s t _ L K). exact P.
Qed.
Lemma retable_cell nh s t : (forall j, (j < hc * dom)%nat -> (s j < hc * dom)%nat /\ t (s j) = j) -> (forall j, (j < hc * dom)%nat -> (t j < hc * dom)%nat /\ s (t j) = j) ->
  hash_for nh hc dom -> hash_for (retable (map s) nh) hc dom.
Proof.
  intros K K' H. apply hash_for_iff in H. destruct H as (H0 & A & B & P). apply hash_for_iff. repeat split; trivial. cbn. rewrite P.
  apply NoDup_Permutation.
  - assert (forall l, NoDup l -> (forall j, In j l -> (j < hc * dom)%nat) -> NoDup (map s l)) as Q.
    { clear - K. intros l N. induction N as [|a l Ha N IH]; intros I; cbn; constructor.
      - intros J. apply in_map_iff in J. destruct J as (b & E & Hb). destruct (K a (I a (or_introl eq_refl))) as [_ Ea]. destruct (K b (I b (or_intror Hb))) as [_ Eb].
        apply Ha. replace a with b by congruence. exact Hb.
      - apply IH. intros j Hj. apply I. right. exact Hj. }
    apply Q; [apply seq_NoDup|]. intros j Hj. apply in_seq in Hj. lia.
  - apply seq_NoDup.
  - intros x. rewrite in_map_iff, in_seq. split.
    + intros (y & <- & Hy). apply in_seq in Hy. destruct (K y ltac:(lia)). lia.
    + intros Hx. destruct (K' x ltac:(lia)) as [A' B']. exists (t x). split; [exact B'|]. apply in_seq. lia.
Qed.
Lemma map_inv s t p : (forall j, (j < hc * dom)%nat -> (s j < hc * dom)%nat /\ t (s j) = j) -> Permutation p (seq 0 (hc * dom)) -> map t (map s p) = p.
Proof.
  intros K P. rewrite map_map. rewrite <- (map_id p) at 2. apply map_ext_in. intros j Hj. apply K. apply (Permutation_in _ P) in Hj. apply in_seq in Hj. lia.
Qed.
End Rename.

(** * C86: the hash function a user gets is a uniformly random one. *)
From Coq Require Import Permutation Lia.
From Verif Require Import MBase MHash MRlwe MLwe MEncTree MOram MParams MMain MCtx SpecLwe SpecEnc SpecOram SpecBatch PMain PCtx MShuffle SpecShuffle PfShuffle PfShuffle2 PfShuffle3.

(** A 32-bit word. *)
Definition is_word (v : Z) : Prop := 0 <= v < 2 ^ 32.

(** Making a hash function panics only without hash functions; what comes out is a hash function in the sense all
    theorems about the protocols need: their assumption on the shuffle is discharged. *)
Theorem C86_new : forall hc dom ws, Z.of_nat (hc * dom) < 2 ^ 64 -> Forall is_word ws ->
  (hc = 0%nat -> exists e, nh_draw hc dom ws = Panic e) /\
  (hc <> 0%nat -> exists r, nh_draw hc dom ws = Ok r /\ forall nh ws', r = Some (nh, ws') -> hash_for nh hc dom).
Proof.
  intros hc dom ws Hn Hw. split.
  - intros ->. eexists. reflexivity.
  - intros H. assert (exists r, nh_draw hc dom ws = Ok r) as (r & E).
    { unfold nh_draw, rassert, shuffle. destruct (Nat.ltb_spec 0 hc); [|lia]. cbn [bind]. rewrite seq_length.
      destruct (shuffle_total (hc * dom - 1) (seq 0 (hc * dom)) ws) as (r & ->); [lia|rewrite seq_length; lia|exact Hw|]. cbn [bind]. eexists. reflexivity. }
    exists r. split; [exact E|]. intros nh ws' ->. apply nh_draw_iff in E. destruct E as (H0 & A & B & ks & D & Sw).
    apply hash_for_iff. repeat split; trivial. apply (swaps_perm _ ks); [|exact Sw]. apply (draws_lt (hc * dom - 1) ltac:(lia) ws ks ws'); assumption.
Qed.
Print Assumptions C86_new.

(** One index below [r]: each comes from equally many words, and at least half of the words give one. *)
Theorem C86_index : forall w r, 1 <= w -> 1 <= r < 2 ^ w ->
  let all := map Z.of_nat (seq 0 (Z.to_nat (2 ^ w))) in
  (forall v k, In v all -> accept w r v = Some k -> Z.of_nat k < r) /\
  (forall k, Z.of_nat k < r -> Z.of_nat (length (filter (fun v => match accept w r v with Some j => Nat.eqb j k | None => false end) all)) = 2 ^ leading_zeros w r) /\
  2 ^ w <= 2 * Z.of_nat (length (filter (fun v => match accept w r v with Some _ => true | None => false end) all)).
Proof.
  intros w r Hw Hr all. split; [|split].
  - intros v k Hv H. apply (accept_lt w r Hw ltac:(lia) v k); [|exact H]. apply (range_words_in w Hw). exact Hv.
  - intros k Hk. exact (accept_count w r Hw ltac:(lia) k Hk).
  - pose proof (accepted_total w r Hw ltac:(lia)) as T. unfold count in T. unfold all. fold (range_words w).
    rewrite T. destruct (lz_bounds w r ltac:(lia)) as (_ & L & _). replace (2 ^ w) with (2 * 2 ^ (w - 1)); [lia|]. rewrite <- Z.pow_succ_r by lia. f_equal. lia.
Qed.
Print Assumptions C86_index.

(** Any two hash functions are equally likely, whatever the number of words used. *)
Theorem C86_uniform : forall hc dom m nh nh', Z.of_nat (hc * dom) < 2 ^ 32 -> hash_for nh hc dom -> hash_for nh' hc dom ->
  occurrences nh (outcomes hc dom m) = occurrences nh' (outcomes hc dom m).
Proof. intros hc dom m nh nh' Hn. apply occurrences_eq, Hn. Qed.
Print Assumptions C86_uniform.

(** Nothing else comes out, and each of them can. *)
Lemma count_some {A} (f : A -> bool) l : count f l <> 0%nat -> exists x, In x l /\ f x = true.
Proof.
  intros H. unfold count in H. destruct (filter f l) as [|v t] eqn:E; [contradiction|]. exists v. apply filter_In. rewrite E. left. reflexivity.
Qed.
Lemma first_word b k : bound_ok b -> (k < b)%nat -> exists v, is_word v /\ accept 32 (Z.of_nat b) v = Some k.
Proof.
  intros [H1 H2] Hk. pose proof (accept_count 32 (Z.of_nat b) ltac:(lia) ltac:(lia) k ltac:(lia)) as C.
  destruct (lz_bounds 32 (Z.of_nat b) ltac:(lia)) as (L & _). assert (0 < 2 ^ leading_zeros 32 (Z.of_nat b)) by (apply Z.pow_pos_nonneg; lia).
  rewrite <- words_eq in C. destruct (count_some (fun v => is_some k (accept 32 (Z.of_nat b) v)) words) as (v & I1 & I2); [lia|].
  exists v. split; [exact (proj1 (words_in v) I1)|exact (proj1 (is_some_iff k _) I2)].
Qed.
Lemma some_stream bs : Forall bound_ok bs -> forall ks, Forall2 lt ks bs -> exists ws, In ws (streams (length bs)) /\ draws bs ws = Some (ks, []).
Proof.
  induction 1 as [|b bs Hb Hbs IH]; intros ks F; inversion F as [|k ? ks' ? Hk Hks]; subst.
  - exists []. split; [left; reflexivity|reflexivity].
  - destruct (IH _ Hks) as (ws & W & D). destruct (first_word b k Hb Hk) as (v & V & A). exists (v :: ws). split.
    + apply streams_ok in W. apply streams_ok. split; [cbn; f_equal; apply W|constructor; [exact V|apply W]].
    + destruct Hb as [_ Hb]. cbn [draws]. unfold gen_index. destruct (Z.leb_spec (Z.of_nat b) (2 ^ 32 - 1)); [|lia]. cbn [sample32]. rewrite A, D. reflexivity.
Qed.
Lemma bounds_length i : length (bounds i) = i.
Proof. induction i as [|i IH]; cbn; [reflexivity|f_equal; exact IH]. Qed.
Theorem C86_support : forall hc dom, Z.of_nat (hc * dom) < 2 ^ 32 ->
  (forall m nh, In nh (outcomes hc dom m) -> hash_for nh hc dom) /\
  (forall nh, hash_for nh hc dom -> In nh (outcomes hc dom (hc * dom - 1))).
Proof.
  intros hc dom Hn. split; [intros m nh; apply outcomes_hash, Hn|].
  intros nh H. apply hash_for_iff in H. destruct H as (H0 & A & B & P). destruct (swaps_code _ _ P) as (ks & F & E & _).
  destruct (some_stream (bounds (hc * dom - 1))) with (ks := ks) as (ws & W & D); [apply bounds_ok; lia|exact F|].
  rewrite bounds_length in W. unfold outcomes. apply in_flat_map. exists ws. split; [exact W|]. unfold made_from.
  assert (nh_draw hc dom ws = Ok (Some (nh, []))) as ->; [|left; reflexivity]. apply nh_draw_iff. repeat split; trivial. exists ks. split; assumption.
Qed.
Print Assumptions C86_support.

(** The cells where copies of items lie say nothing about which items and which copies they are: for any slots as many
    outcomes give one list of cells as for any other slots. *)
Theorem C86_hides : forall hc dom m slots slots', Z.of_nat (hc * dom) < 2 ^ 32 ->
  NoDup slots -> NoDup slots' -> length slots = length slots' -> Forall (slot_ok hc dom) slots -> Forall (slot_ok hc dom) slots' ->
  Permutation (map (fun nh => cells nh slots) (outcomes hc dom m)) (map (fun nh => cells nh slots') (outcomes hc dom m)).
Proof.
  intros hc dom m s s' Hn N N' L F F'. destruct (slots_pos hc dom s N F) as [A1 A2]. destruct (slots_pos hc dom s' N' F') as [B1 B2].
  destruct (extend (hc * dom) (map (slot_pos hc) s) (map (slot_pos hc) s') A1 B1 ltac:(rewrite !map_length; exact L) A2 B2) as (f & g & Hf & Hg & Ef & _).
  assert (forall nh, hash_for nh hc dom -> length (nh_tables nh) = (hc * dom)%nat) as Len.
  { intros nh H. apply hash_for_iff in H. destruct H as (_ & _ & _ & P). rewrite (Permutation_length P). apply seq_length. }
  assert (forall nh, hash_for nh hc dom -> cells (retable (by_pos f) nh) s = cells nh s') as C.
  { intros nh H. rewrite (cells_eq hc dom _ s (retable_pos hc dom nh f g Hf H) F), (cells_eq hc dom _ s' H F').
    rewrite <- (map_map (slot_pos hc) (fun j => Ok (nth j (nh_tables (retable (by_pos f) nh)) 0%nat))).
    rewrite <- (map_map (slot_pos hc) (fun j => Ok (nth j (nh_tables nh) 0%nat))), <- Ef, !map_map. apply map_ext_in. intros hx I. cbn [retable nh_tables].
    f_equal. apply nth_by_pos. rewrite (Len nh H). apply A2. apply in_map, I. }
  rewrite <- (symmetric hc dom Hn m (retable (by_pos f)) (retable (by_pos g))) at 1.
  - rewrite map_map. apply Permutation_refl'. apply map_ext_in. intros nh I. apply C, (outcomes_hash hc dom Hn m), I.
  - intros nh H. split; [apply (retable_pos hc dom nh f g Hf H)|]. apply retable_inv. apply (by_pos_inv (hc * dom)); [apply Len, H|exact Hg].
  - intros nh H. split; [apply (retable_pos hc dom nh g f Hg H)|]. apply retable_inv. apply (by_pos_inv (hc * dom)); [apply Len, H|exact Hf].
Qed.
Print Assumptions C86_hides.

(** All lists of distinct cells are equally likely. *)
Lemma occ_map_ext {A B} (dB : forall x y : B, {x = y} + {x <> y}) (f g : A -> B) (b c : B) l : (forall x, In x l -> f x = b <-> g x = c) ->
  count_occ dB (map f l) b = count_occ dB (map g l) c.
Proof.
  induction l as [|a l IH]; intros H; [reflexivity|]. cbn [map count_occ]. rewrite IH by (intros x Hx; apply H; right; exact Hx).
  destruct (H a (or_introl eq_refl)) as [H1 H2]. destruct (dB (f a) b) as [E|E]; destruct (dB (g a) c) as [E'|E']; trivial; exfalso; tauto.
Qed.
Theorem C86_cells : forall hc dom m slots cs cs', Z.of_nat (hc * dom) < 2 ^ 32 ->
  Forall (slot_ok hc dom) slots -> NoDup cs -> NoDup cs' -> length cs = length cs' ->
  Forall (fun c => c < hc * dom)%nat cs -> Forall (fun c => c < hc * dom)%nat cs' ->
  placed slots cs (outcomes hc dom m) = placed slots cs' (outcomes hc dom m).
Proof.
  intros hc dom m s cs cs' Hn F N N' L C C'. rewrite Forall_forall in C, C'.
  destruct (extend (hc * dom) cs cs' N N' L C C') as (f & g & Hf & Hg & Ef & Eg). unfold placed.
  rewrite (proj1 (Permutation_count_occ same_cells (map (fun nh => cells nh s) (outcomes hc dom m)) (map (fun nh => cells nh s) (map (retable (map g)) (outcomes hc dom m))))).
  - rewrite map_map. apply occ_map_ext. intros nh I. apply (outcomes_hash hc dom Hn m) in I.
    rewrite (cells_eq hc dom nh s I F), (cells_eq hc dom _ s (retable_cell hc dom nh g f Hg Hf I) F). cbn [retable nh_tables].
    pose proof (proj1 (hash_for_iff nh hc dom) I) as (_ & _ & _ & P).
    assert (forall hx, In hx s -> (slot_pos hc hx < hc * dom)%nat) as Sl. { intros hx Hx. apply (slot_pos_lt hc dom). rewrite Forall_forall in F. apply F, Hx. }
    assert (forall j, (j < hc * dom)%nat -> (nth j (nh_tables nh) 0 < hc * dom)%nat) as Cl.
    { intros j Hj. assert (In (nth j (nh_tables nh) 0%nat) (seq 0 (hc * dom))) as J by (apply (Permutation_in _ P), nth_In; rewrite (Permutation_length P), seq_length; exact Hj).
      apply in_seq in J. lia. }
    assert (forall j, (j < hc * dom)%nat -> nth j (map g (nh_tables nh)) 0%nat = g (nth j (nh_tables nh) 0%nat)) as M.
    { intros j Hj. rewrite (nth_indep _ 0%nat (g 0%nat)) by (rewrite map_length, (Permutation_length P), seq_length; exact Hj). apply map_nth. }
    assert (forall (h : nat -> nat) ds, map (fun hx => Ok (h (nth (slot_pos hc hx) (nh_tables nh) 0%nat))) s = map Ok ds <->
      map (fun hx => h (nth (slot_pos hc hx) (nh_tables nh) 0%nat)) s = ds) as U.
    { intros h ds. rewrite <- (map_map (fun hx => h (nth (slot_pos hc hx) (nh_tables nh) 0%nat)) Ok). split; [|intros ->; reflexivity].
      generalize (map (fun hx => h (nth (slot_pos hc hx) (nh_tables nh) 0%nat)) s). clear. intros l. revert ds.
      induction l as [|a l IH]; intros [|d ds] E; try discriminate; [reflexivity|]. injection E as -> E. f_equal. apply IH, E. }
    rewrite (map_ext_in (fun hx => Ok (nth (slot_pos hc hx) (map g (nh_tables nh)) 0%nat)) (fun hx => Ok (g (nth (slot_pos hc hx) (nh_tables nh) 0%nat)))) by (intros hx Hx; f_equal; apply M, Sl, Hx).
    rewrite (U g cs), (U (fun x => x) cs'). split.
    + intros Ec. rewrite <- Ef, <- Ec, map_map. apply map_ext_in. intros hx Hx. symmetry. apply Hg, Cl, Sl, Hx.
    + intros Ec. rewrite <- Eg, <- Ec, map_map. reflexivity.
  - apply Permutation_map, Permutation_sym. apply (symmetric hc dom Hn m (retable (map g)) (retable (map f))).
    + intros nh H. split; [apply (retable_cell hc dom nh g f Hg Hf H)|]. apply retable_inv. apply (map_inv hc dom g f _ Hg). apply hash_for_iff in H. apply H.
    + intros nh H. split; [apply (retable_cell hc dom nh f g Hf Hg H)|]. apply retable_inv. apply (map_inv hc dom f g _ Hf). apply hash_for_iff in H. apply H.
Qed.
Print Assumptions C86_cells.

(** The shuffle of any slice on any words: it does not panic, and what comes out is a rearrangement. *)
Lemma sample64_none r n : forall ws, (length ws <= n)%nat -> 2 ^ 64 <= r -> sample64 r ws = None.
Proof.
  induction n as [|n IH]; intros ws L Hr; destruct ws as [|a [|b ws]]; try reflexivity; [cbn in L; lia|]. cbn [sample64].
  assert (accept 64 r (a + 2 ^ 32 * b) = None) as ->; [|apply IH; [cbn in L; lia|exact Hr]].
  unfold accept, zone. assert (leading_zeros 64 r < 0) as N. { unfold leading_zeros. pose proof (proj1 (Z.log2_le_pow2 r 64 ltac:(lia)) Hr). lia. }
  rewrite (Z.pow_neg_r 2 _ N). rewrite Z.mul_0_r. pose proof (Z.mod_pos_bound ((a + 2 ^ 32 * b) * r) (2 ^ 64) ltac:(lia)).
  destruct (Z.leb_spec (((a + 2 ^ 32 * b) * r) mod 2 ^ 64) (0 - 1)); [lia|reflexivity].
Qed.
Theorem C86_shuffle_permutes : forall l ws, Forall is_word ws ->
  exists r, shuffle l ws = Ok r /\ forall p ws', r = Some (p, ws') -> Permutation p l.
Proof.
  intros l ws W. unfold shuffle. destruct (Z_lt_le_dec (Z.of_nat (length l)) (2 ^ 64)) as [H|H].
  - destruct (shuffle_total (length l - 1) l ws ltac:(lia) ltac:(lia) W) as (r & E). exists r. split; [exact E|]. intros p ws' ->.
    apply shuffle_from_some in E. destruct E as (ks & D & Sw). apply draws_lt in D; [|lia|exact W]. destruct D as [D _].
    destruct l as [|a l]; [cbn in Sw; injection Sw as <-; reflexivity|].
    destruct (swaps_spec (length (a :: l) - 1) (a :: l) ks ltac:(cbn; lia) D) as (p' & E' & P & _). rewrite Sw in E'. injection E' as ->. exact P.
  - exists None. split; [|discriminate]. destruct (length l - 1)%nat as [|i] eqn:El; [lia|]. cbn [shuffle_from]. unfold gen_index.
    destruct (Z.leb_spec (Z.of_nat (S i + 1)) (2 ^ 32 - 1)); [lia|]. rewrite (sample64_none _ (length ws)) by lia. reflexivity.
Qed.
Print Assumptions C86_shuffle_permutes.

(** A whole run of the batched mode of the program, its shuffle made from words too ([drawn_coins]: C62; [wh]: the words for the hash):
    nothing is assumed about the shuffle any more.  (The shuffle not finishing on [wh] is read as no shuffle.) *)
Definition shuffled (wh : list Z) (l : list nat) : list nat := match shuffle l wh with Ok (Some (p, _)) => p | _ => l end.
Lemma shuffled_perm wh : Forall is_word wh -> forall l, Permutation (shuffled wh l) l.
Proof.
  intros W l. unfold shuffled. destruct (C86_shuffle_permutes l wh W) as (r & -> & H). destruct r as [[p ws']|]; [apply (H p ws' eq_refl)|reflexivity].
Qed.
Theorem C86_batch_query : forall md p cx lg k fft eps E a rows dom iterations wh ws wr wq t0 t,
  context_new md p = Ok cx -> params_ok cx lg k -> fft_for cx fft eps -> Forall is_word wh ->
  tape_ok (c_n cx) E t0 -> (forall j i, tape_ok (c_n cx) E (t j i)) -> (1 <= a <= 63)%nat -> (0 < iterations)%nat ->
  (2 <= dom)%nat -> (rows * 2 ^ a = 3 * dom)%nat -> Z.of_nat dom < 2 ^ 64 ->
  2 * (E + Z.of_nat iterations * batch_growth cx a 3 (Z.of_nat (c_n cx)) E eps + answer_growth cx a (Z.of_nat (c_n cx)) E eps) < 2 ^ (64 - k) ->
  exists noises, batch_query fft md rows (2 ^ a) iterations p false (drawn_coins cx (shuffled wh) ws wr wq t0 t) = Ok noises /\ length noises = iterations.
Proof.
  intros md p cx lg k fft eps E a rows dom it wh ws wr wq t0 t Ecx Hp Hf Hw. apply C62_drawn_batch_query with (lg := lg) (k := k); trivial. apply shuffled_perm, Hw.
Qed.
Print Assumptions C86_batch_query.

(** Making the table ends with probability one: of the streams of [m] words at most the part [2^(N-1) (3/4)^m] is too
    short for a table of [N] cells, which falls below any bound as [m] grows. *)
Theorem C86_terminates : forall hc dom m, (0 < hc)%nat -> Z.of_nat (hc * dom) < 2 ^ 32 ->
  (length (filter (fun ws => match nh_draw hc dom ws with Ok (Some _) => false | _ => true end) (streams m)) * 4 ^ m
   <= 2 ^ (hc * dom - 1) * (3 ^ m * length (streams m)))%nat.
Proof. exact unfinished. Qed.
Print Assumptions C86_terminates.

(** A case: two hash functions for three items; five words suffice (here one more was rejected), the identity and a reversal are equally likely, and so
    are any two pairs of cells of two copies. *)
Definition table_of (l : list nat) : nhash := {| nh_tables := l; nh_h_count := 2; nh_input_domain := 3 |}.
Example C86_applies :
  (length (filter (fun ws => match nh_draw 2 3 ws with Ok (Some _) => false | _ => true end) (streams 40)) * 4 ^ 40 <= 32 * (3 ^ 40 * length (streams 40)))%nat /\
  (exists nh, nh_draw 2 3 [0; 4294967295; 77; 2147483648; 5; 9]%Z = Ok (Some (nh, [])) /\ nh_tables nh = [1; 3; 4; 2; 5; 0]%nat) /\
  In (table_of [5; 4; 3; 2; 1; 0]%nat) (outcomes 2 3 5) /\
  (forall m, occurrences (table_of [0; 1; 2; 3; 4; 5]%nat) (outcomes 2 3 m) = occurrences (table_of [5; 4; 3; 2; 1; 0]%nat) (outcomes 2 3 m)) /\
  (forall m, placed [(0, 1); (1, 1)]%nat [0; 5]%nat (outcomes 2 3 m) = placed [(0, 1); (1, 1)]%nat [3; 1]%nat (outcomes 2 3 m)) /\
  (forall m, Permutation (map (fun nh => cells nh [(0, 1); (1, 1)]%nat) (outcomes 2 3 m)) (map (fun nh => cells nh [(0, 2); (1, 0)]%nat) (outcomes 2 3 m))).
Proof.
  assert (forall l, Permutation l [0; 1; 2; 3; 4; 5]%nat -> hash_for (table_of l) 2 3) as T.
  { intros l P. apply hash_for_iff. repeat split; [lia|exact P]. }
  split; [exact (C86_terminates 2 3 40 ltac:(lia) ltac:(cbn; lia))|]. split; [|split; [|split; [|split]]].
  - vm_compute. eexists. split; reflexivity.
  - apply (proj2 (C86_support 2 3 ltac:(cbn; lia))). apply T. apply (Permutation_rev [5; 4; 3; 2; 1; 0]%nat).
  - intros m. apply C86_uniform; [cbn; lia|apply T; reflexivity|apply T; apply (Permutation_rev [5; 4; 3; 2; 1; 0]%nat)].
  - intros m. apply C86_cells; [cbn; lia|repeat constructor; cbn; lia|repeat constructor; cbn; intuition lia|repeat constructor; cbn; intuition lia|reflexivity|repeat constructor; cbn; lia|repeat constructor; cbn; lia].
  - intros m. apply C86_hides; [cbn; lia|repeat constructor; cbn; intuition discriminate|repeat constructor; cbn; intuition discriminate|reflexivity|repeat constructor; cbn; lia|repeat constructor; cbn; lia].
Qed.

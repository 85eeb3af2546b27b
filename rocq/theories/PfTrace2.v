(** * The server operations on two inputs of equal dimensions *)
From Verif Require Import MBase MUtils MCodec MPoly MRlwe MHash MTree MEncTree MSched MOram SpecShape SpecRing SpecLwe.
From Verif Require Import PfPoly PfRlwe PfSched PfSched2 PfSched3 PfOram1 PfDet1 PfDet2 PfTrace1.
Local Open Scope nat_scope.

Lemma map2_len {A B C} (f : A -> B -> C) a : forall b, length (map2 f a b) = Nat.min (length a) (length b).
Proof. induction a as [|x a IH]; intros [|y b]; cbn; auto. Qed.
Lemma V_eq a b : V a b -> length (mask a) = length (mask b) /\ length (body a) = length (body b).
Proof. unfold V, ct_shape. intros H. injection H as H1 H2. auto. Qed.
Lemma V_mk a b : length (mask a) = length (mask b) -> length (body a) = length (body b) -> V a b.
Proof. unfold V, ct_shape. congruence. Qed.
Lemma V_wfc n a b : wfc n a -> wfc n b -> V a b.
Proof. intros [[H1 _] [H2 _]] [[H3 _] [H4 _]]. apply V_mk; congruence. Qed.
Lemma V_add a b c d : V a b -> V c d -> V (rlwe_add a c) (rlwe_add b d).
Proof. intros H1 H2. apply V_eq in H1 as [? ?]. apply V_eq in H2 as [? ?]. apply V_mk; cbn; unfold poly_add; rewrite !map2_len; congruence. Qed.
Lemma V_sub a b c d : V a b -> V c d -> V (rlwe_sub a c) (rlwe_sub b d).
Proof. intros H1 H2. apply V_eq in H1 as [? ?]. apply V_eq in H2 as [? ?]. apply V_mk; cbn; unfold poly_sub; rewrite !map2_len; congruence. Qed.
Lemma F2_refl {A} (R : A -> A -> Prop) l : (forall x, R x x) -> Forall2 R l l.
Proof. intros H. induction l; constructor; auto. Qed.
Lemma index_sim {A B} (R : A -> B -> Prop) l l' i : Forall2 R l l' -> rres R (index l i) (index l' i).
Proof.
  intros H. unfold index. revert i. induction H as [|x y l l' Hxy H IH]; intros [|i]; cbn; auto.
Qed.
Lemma index_len {A B} (l : list A) (l' : list B) i : length l = length l' -> rres (fun _ _ => True) (index l i) (index l' i).
Proof.
  intros H. unfold index. destruct (nth_error l i) eqn:E1, (nth_error l' i) eqn:E2; cbn; auto.
  - apply nth_error_None in E2. assert (i < length l) by (apply nth_error_Some; congruence). lia.
  - apply nth_error_None in E1. assert (i < length l') by (apply nth_error_Some; congruence). lia.
Qed.
Lemma mapM_sim {A1 A2 B1 B2} (R : A1 -> A2 -> Prop) (Q : B1 -> B2 -> Prop) f f' l l' : Forall2 R l l' ->
  (forall x y, R x y -> rres Q (f x) (f' y)) -> rres (Forall2 Q) (mapM f l) (mapM f' l').
Proof.
  intros H HF. induction H as [|x y l l' Hxy H IH]; cbn; [constructor|].
  eapply rres_bind; [apply HF, Hxy|]. intros a b Hab. eapply rres_bind; [exact IH|]. intros ys ys' Hys. cbn. constructor; assumption.
Qed.
Lemma next_all_sim {A B} (R : A -> B -> Prop) v v' : Forall2 (Forall2 R) v v' ->
  rres (fun p p' => Forall2 R (fst p) (fst p') /\ Forall2 (Forall2 R) (snd p) (snd p')) (next_all v) (next_all v').
Proof.
  induction 1 as [|r r' v v' Hr H IH]; cbn; [split; constructor|]. destruct Hr as [|x y r r' Hxy Hr]; [exact I|].
  eapply rres_bind; [exact IH|]. intros [a b] [a' b'] [H1 H2]. cbn in *. split; constructor; assumption.
Qed.
Lemma transpose_sim {A B} (R : A -> B -> Prop) v v' : Forall2 (Forall2 R) v v' -> rres (Forall2 (Forall2 R)) (transpose v) (transpose v').
Proof.
  intros H. destruct H as [|r r' v v' Hr H]; [exact I|]. unfold transpose. rewrite (F2_len _ _ _ Hr).
  assert (Forall2 (Forall2 R) (r :: v) (r' :: v')) as HH by (constructor; assumption). revert HH.
  generalize (r :: v) as w, (r' :: v') as w'. clear. induction (length r') as [|len IH]; intros w w' H; cbn; [constructor|].
  eapply rres_bind; [apply next_all_sim, H|]. intros [c its] [c' its'] [H1 H2]. cbn in *. eapply rres_bind; [apply IH, H2|].
  intros rest rest' Hr. cbn. constructor; assumption.
Qed.
Lemma combine_F2 {A B C D} (R : A -> B -> Prop) (Q : C -> D -> Prop) l l' k k' : Forall2 R l l' -> Forall2 Q k k' ->
  Forall2 (fun x y => R (fst x) (fst y) /\ Q (snd x) (snd y)) (combine l k) (combine l' k').
Proof.
  intros H. revert k k'. induction H as [|x y l l' Hxy H IH]; intros k k' Hk; cbn; [constructor|]. destruct Hk; constructor; auto.
Qed.
Lemma F2_map {A B C D} (R : C -> D -> Prop) (f : A -> C) (g : B -> D) l l' : Forall2 (fun x y => R (f x) (g y)) l l' -> Forall2 R (map f l) (map g l').
Proof. induction 1; cbn; constructor; auto. Qed.

(** Two queries of equal dimensions. *)
Definition qsim (a b : query) : Prop := length (q_a a) = length (q_a b) /\ V (q_data a) (q_data b).
Lemma query_shape_sim a b : query_shape a = query_shape b -> qsim a b.
Proof.
  unfold query_shape. intros H. injection H as H1 H2 H3 H4 H5 H6. apply (f_equal (@length _)) in H1. rewrite !map_length in H1.
  split; [exact H1|]. unfold V, ct_shape. congruence.
Qed.

Lemma cell_buf_sim r c : psim V (cell_buf r c) (cell_buf r c).
Proof. unfold cell_buf. repeat (constructor; intros). assumption. Qed.
Lemma cell_only_sim r c : psim V (cell_only r c) (cell_only r c).
Proof. unfold cell_only. repeat (constructor; intros). assumption. Qed.
Lemma buf_only_sim : psim (fun _ _ => True) buf_only buf_only.
Proof. unfold buf_only. repeat constructor. Qed.
Lemma row_len_sim r : psim eq (row_len r) (row_len r).
Proof. unfold row_len. repeat (constructor; intros). Qed.
Lemma put_sim r c v v' : V v v' -> psim (fun _ _ => True) (put r c v) (put r c v').
Proof. intros H. unfold put. repeat (constructor; auto). Qed.
Lemma row_len_ssim r : ssim eq (sone (row_len r)) (sone (row_len r)).
Proof. apply ssim_one, row_len_sim. Qed.

Section T.
Variables (pool : bool) (fft : fftT) (cx : ctx) (neg neg' : rgsw).
Notation n := (c_n cx).
Hypothesis Hfft : forall ts, length (fft ts) = n.

Lemma V_ep g g' o o' d d' : V o o' -> V (external_product fft g o d) (external_product fft g' o' d').
Proof. intros H. apply V_eq in H as [? ?]. apply V_mk; cbn; unfold add_backward, poly_add; rewrite !map2_len, !Hfft; congruence. Qed.
Lemma cmux_sim g g' a a' b b' : V a a' -> V b b' -> rres V (cmux fft g a b) (cmux fft g' a' b').
Proof.
  intros Ha Hb. unfold cmux. destruct (V_eq _ _ Ha) as [_ E1]. destruct (V_eq _ _ Hb) as [_ E2]. rewrite E1, E2.
  destruct (_ =? _)%nat; cbn; [|exact I]. apply V_ep, Ha.
Qed.
Lemma demux_sim : forall bits bits' b b', length bits = length bits' -> V b b' -> rres (Forall2 V) (demux_rec fft n b bits) (demux_rec fft n b' bits').
Proof.
  induction bits as [|g bits IH]; intros [|g' bits'] b b' Hl Hb; try discriminate; cbn [demux_rec]; [exact I|].
  assert (V (external_product fft g (rlwe_allocate n) b) (external_product fft g' (rlwe_allocate n) b')) as H1 by (apply V_ep; reflexivity).
  assert (V (rlwe_sub b (external_product fft g (rlwe_allocate n) b)) (rlwe_sub b' (external_product fft g' (rlwe_allocate n) b'))) as H2 by (apply V_sub; assumption).
  destruct bits as [|g1 bits], bits' as [|g1' bits']; try discriminate.
  - cbn. repeat constructor; assumption.
  - eapply rres_bind; [apply IH; [injection Hl; auto|exact H1]|]. intros lo lo' Hlo. eapply rres_bind; [apply IH; [injection Hl; auto|exact H2]|]. intros ro ro' Hro. cbn. apply Forall2_app; assumption.
Qed.
Lemma level_sim qy qy' level : qsim qy qy' -> psim (Forall2 V) (level_task fft cx qy level) (level_task fft cx qy' level).
Proof.
  intros [Hl _]. unfold level_task. eapply psim_bind; [apply buf_only_sim|]. intros _ _ _. apply psim_lift.
  destruct (usub _ _ _) as [sh|]; [|exact I]. cbn [bind]. destruct (ushl _ _ _) as [x|]; [|exact I]. cbn [bind].
  eapply rres_bind; [apply demux_sim; [exact Hl|reflexivity]|]. intros t t' Ht. rewrite (F2_len _ _ _ Ht), Hl.
  unfold rassert. destruct (_ =? _)%nat; cbn; auto.
Qed.
Definition sel2 (a b : rlwe * rgsw) : Prop := V (fst a) (fst b).
Lemma to_rgsw_sim cs cs' : length cs = length cs' -> rres (fun _ _ => True) (decomposed_rlwe_to_rgsw fft cx cs neg) (decomposed_rlwe_to_rgsw fft cx cs' neg').
Proof.
  intros Hl. unfold decomposed_rlwe_to_rgsw. eapply rres_bind; [apply (mapM_sim eq (fun _ _ => True)); [apply F2_refl; reflexivity|]|cbn; auto].
  intros i ? <-. eapply rres_bind; [apply index_len, Hl|cbn; auto].
Qed.
Lemma pick_sim dl dl' j : Forall2 (Forall2 V) dl dl' ->
  rres (fun _ _ => True) (d <- index dl j ;; decomposed_rlwe_to_rgsw fft cx d neg) (d <- index dl' j ;; decomposed_rlwe_to_rgsw fft cx d neg').
Proof. intros H. eapply rres_bind; [apply (index_sim (Forall2 V)), H|]. intros d d' Hd. apply to_rgsw_sim, (F2_len _ _ _ Hd). Qed.
Lemma select_sim dl dl' r j : Forall2 (Forall2 V) dl dl' -> psim sel2 (select_task fft cx neg dl r j) (select_task fft cx neg' dl' r j).
Proof.
  intros Hd. unfold select_task. eapply psim_bind; [apply buf_only_sim|]. intros _ _ _. eapply psim_bind; [apply psim_lift, pick_sim, Hd|]. intros l l' _.
  eapply psim_bind; [apply cell_buf_sim|]. intros v v' Hv. constructor. unfold sel2. cbn. apply V_ep; reflexivity.
Qed.
Lemma V_reduce t : forall l l' id id', V id id' -> Forall2 V l l' -> 
  V (fst (reduce rlwe_add id t l)) (fst (reduce rlwe_add id' t l')) /\ Forall2 V (snd (reduce rlwe_add id t l)) (snd (reduce rlwe_add id' t l')).
Proof.
  induction t as [| |a IHa b IHb]; intros l l' id id' Hid H; cbn [reduce].
  - auto.
  - destruct H as [|x y l l' Hxy H]; cbn; auto.
  - pose proof (IHa l l' id id' Hid H) as [H1 H2]. destruct (reduce rlwe_add id a l) as [x l1], (reduce rlwe_add id' a l') as [x' l1']. cbn [fst snd] in *.
    pose proof (IHb l1 l1' id id' Hid H2) as [H3 H4]. destruct (reduce rlwe_add id b l1) as [y l2], (reduce rlwe_add id' b l1') as [y' l2']. cbn [fst snd] in *.
    split; [apply V_add; assumption|assumption].
Qed.
Lemma tid_sim {A A' B B'} (R : A -> A' -> Prop) (Q : B -> B' -> Prop) w f f' x y : (forall x y, R x y -> psim Q (f x) (f' y)) -> R x y -> psim Q (tid w f x) (tid w f' y).
Proof. intros H Hr. destruct w; [apply H, Hr|constructor]. Qed.
(** Response and number of selection ciphertexts. *)
Definition out2 (a b : rlwe * list rgsw) : Prop := V (fst a) (fst b) /\ length (snd a) = length (snd b).
Lemma one_mt_sim qy qy' r : qsim qy qy' -> ssim out2 (process_one_mt pool fft cx neg qy r) (process_one_mt pool fft cx neg' qy' r).
Proof.
  intros Hq. unfold process_one_mt. eapply ssim_bind; [apply (ssim_par eq (Forall2 V)); [apply F2_refl; reflexivity|]; intros l ? <-; apply (tid_sim eq); [intros ? ? <-; apply level_sim, Hq|reflexivity]|].
  intros d d' Hd. eapply ssim_bind; [apply ssim_lift, transpose_sim, Hd|]. intros dl dl' Hdl. eapply ssim_bind; [apply row_len_ssim|]. intros cols ? <-.
  eapply ssim_bind; [apply ssim_lift; rewrite (F2_len _ _ _ Hdl); apply (rres_refl (fun _ _ => True)); auto|]. intros _ _ _.
  eapply ssim_bind; [apply (ssim_par eq sel2); [apply F2_refl; reflexivity|]; intros j ? <-; apply (tid_sim eq); [intros ? ? <-; apply select_sim, Hdl|reflexivity]|].
  intros rs rs' Hrs. cbn [sreduce sbind]. constructor. intros t. constructor. split; cbn [fst snd]; [|rewrite !map_length; apply (F2_len _ _ _ Hrs)].
  apply V_reduce; [reflexivity|]. apply F2_map, Hrs.
Qed.
Lemma update_sim qy qy' r jl jl' : qsim qy qy' -> fst jl = fst jl' -> psim (fun _ _ => True) (update_task fft cx qy r jl) (update_task fft cx qy' r jl').
Proof.
  intros [_ Hd] E. unfold update_task, rw. rewrite E. eapply psim_bind; [apply cell_buf_sim|]. intros v v' Hv.
  eapply psim_bind; [apply psim_lift, (cmux_sim _ _ _ _ _ _ Hv Hd)|]. intros tmp tmp' Ht. eapply psim_bind; [apply cell_buf_sim|]. intros w w' Hw.
  eapply psim_bind; [apply psim_lift, (cmux_sim _ _ _ _ _ _ Hw Ht)|]. intros x x' Hx. apply put_sim, Hx.
Qed.
Lemma combine_len {A B} (ls : list A) (ls' : list B) : forall k a, length ls = length ls' -> Forall2 (fun x y => fst x = fst y) (combine (seq a k) ls) (combine (seq a k) ls').
Proof.
  revert ls'. induction ls as [|x ls IH]; intros [|y ls'] k a H; try discriminate; destruct k; cbn; constructor; auto.
Qed.
Lemma update_mt_sim qy qy' r ls ls' : qsim qy qy' -> length ls = length ls' -> ssim (fun _ _ => True) (update_db_mt pool fft cx qy r ls) (update_db_mt pool fft cx qy' r ls').
Proof.
  intros Hq Hl. unfold update_db_mt. eapply ssim_bind; [apply row_len_ssim|]. intros cols ? <-.
  eapply ssim_bind; [apply (ssim_par (fun x y => fst x = fst y) (fun _ _ => True)); [apply combine_len, Hl|]; intros x y E; apply (tid_sim (fun x y => fst x = fst y)); [intros; apply update_sim; assumption|exact E]|].
  intros _ _ _. constructor. exact I.
Qed.
Lemma process_one_sim qy qy' : qsim qy qy' -> ssim V (process_one pool fft cx neg qy) (process_one pool fft cx neg' qy').
Proof.
  intros Hq. unfold process_one. eapply ssim_bind; [apply one_mt_sim, Hq|]. intros a b [H1 H2].
  eapply ssim_bind; [apply update_mt_sim; assumption|]. intros _ _ _. constructor. exact H1.
Qed.

Lemma one_st_sim qy qy' r : qsim qy qy' -> psim out2 (process_one_st fft cx neg qy r) (process_one_st fft cx neg' qy' r).
Proof.
  intros Hq. unfold process_one_st. eapply psim_bind; [apply (psim_mapM eq (Forall2 V)); [apply F2_refl; reflexivity|]; intros l ? <-; apply level_sim, Hq|].
  intros d d' Hd. eapply psim_bind; [apply row_len_sim|]. intros cols ? <-. eapply psim_bind; [apply psim_lift, transpose_sim, Hd|]. intros dl dl' Hdl.
  eapply psim_bind; [apply psim_lift; rewrite (F2_len _ _ _ Hdl); apply (rres_refl (fun _ _ => True)); auto|]. intros _ _ _.
  apply (psim_foldM eq); [apply F2_refl; reflexivity| |split; reflexivity]. intros s s' j ? [H1 H2] <-. unfold select_step.
  eapply psim_bind; [apply buf_only_sim|]. intros _ _ _. eapply psim_bind; [apply psim_lift, pick_sim, Hdl|]. intros l l' _.
  eapply psim_bind; [apply cell_buf_sim|]. intros v v' Hv. constructor. split; cbn [fst snd]; [apply V_ep, H1|]. rewrite !app_length, H2. reflexivity.
Qed.
Lemma update_st_sim qy qy' r ls ls' : qsim qy qy' -> length ls = length ls' -> psim (fun _ _ => True) (update_db_st fft cx qy r ls) (update_db_st fft cx qy' r ls').
Proof.
  intros Hq Hl. unfold update_db_st. eapply psim_bind; [apply row_len_sim|]. intros cols ? <-.
  eapply psim_bind; [apply (psim_mapM eq (fun _ _ => True)); [apply F2_refl; reflexivity|]|intros; constructor; exact I].
  intros j ? <-. eapply psim_bind; [apply psim_lift, index_len, Hl|]. intros l l' _. apply update_sim; [exact Hq|reflexivity].
Qed.

(** ** Several queries *)
Lemma rw_sim cols ql ql' : qsim (fst ql) (fst ql') -> length (snd ql) = length (snd ql') ->
  psim (Forall2 V) (rw_task fft cx cols ql) (rw_task fft cx cols ql').
Proof.
  intros [_ Hd] Hl. unfold rw_task, rw. apply (psim_mapM eq); [apply F2_refl; reflexivity|]. intros j ? <-.
  eapply psim_bind; [apply cell_buf_sim|]. intros v v' Hv. eapply psim_bind; [apply psim_lift, (cmux_sim _ _ _ _ _ _ Hv Hd)|]. intros tmp tmp' Ht.
  eapply psim_bind; [apply buf_only_sim|]. intros _ _ _. eapply psim_bind; [apply psim_lift, index_len, Hl|]. intros l l' _. constructor. apply V_ep. reflexivity.
Qed.
Lemma F2_map2 {A B C D E F} (R : A -> B -> Prop) (Q : C -> D -> Prop) (S : E -> F -> Prop) f g a a' b b' : Forall2 R a a' -> Forall2 Q b b' ->
  (forall x x' y y', R x x' -> Q y y' -> S (f x y) (g x' y')) -> Forall2 S (map2 f a b) (map2 g a' b').
Proof. intros H Hb HF. revert b b' Hb. induction H; intros b b' Hb; cbn; [constructor|]. destruct Hb; constructor; auto. Qed.
Lemma R_reduce {A B} (R : A -> B -> Prop) op op' (Hop : forall x x' y y', R x x' -> R y y' -> R (op x y) (op' x' y')) t : forall l l' id id', R id id' -> Forall2 R l l' ->
  R (fst (reduce op id t l)) (fst (reduce op' id' t l')) /\ Forall2 R (snd (reduce op id t l)) (snd (reduce op' id' t l')).
Proof.
  induction t as [| |a IHa b IHb]; intros l l' id id' Hid H; cbn [reduce].
  - auto.
  - destruct H as [|x y l l' Hxy H]; cbn; auto.
  - pose proof (IHa l l' id id' Hid H) as [H1 H2]. destruct (reduce op id a l) as [x l1], (reduce op' id' a l') as [x' l1']. cbn [fst snd] in *.
    pose proof (IHb l1 l1' id id' Hid H2) as [H3 H4]. destruct (reduce op id b l1) as [y l2], (reduce op' id' b l1') as [y' l2']. cbn [fst snd] in *.
    auto.
Qed.
Lemma merge_sim a a' b b' j : length a = length a' -> Forall2 V b b' -> psim (fun _ _ => True) (merge_task fft a b j) (merge_task fft a' b' j).
Proof.
  intros Ha Hb. unfold merge_task. eapply psim_bind; [apply cell_buf_sim|]. intros v v' Hv. eapply psim_bind; [apply psim_lift|].
  - eapply rres_bind; [apply index_len, Ha|]. intros l l' _. eapply rres_bind; [apply index_sim, Hb|]. intros tmp tmp' Ht. apply cmux_sim; assumption.
  - intros d d' Hd. apply put_sim, Hd.
Qed.
Lemma process_multi_sim qs qs' : Forall2 qsim qs qs' -> ssim (Forall2 V) (process_multi pool fft cx neg qs) (process_multi pool fft cx neg' qs').
Proof.
  intros Hq. unfold process_multi. eapply ssim_bind; [apply row_len_ssim|]. intros cols ? <-. rewrite <- (F2_len _ _ _ Hq).
  eapply ssim_bind; [apply (ssim_par qsim out2); [exact Hq|]; intros x y Hxy; apply (tid_sim qsim); [intros; apply one_st_sim; assumption|exact Hxy]|]. intros yls yls' Hy. cbv zeta.
  assert (Forall2 (fun x y => length x = length y) (map snd yls) (map snd yls')) as Hls.
  { apply F2_map. clear - Hy. induction Hy as [|? ? ? ? [_ H]]; constructor; auto. }
  eapply ssim_bind; [apply (ssim_par (fun x y => qsim (fst x) (fst y) /\ length (snd x) = length (snd y)) (Forall2 V)); [apply (combine_F2 qsim (fun x y : list rgsw => length x = length y)); assumption|]; intros x y Hxy; apply (tid_sim (fun x y => qsim (fst x) (fst y) /\ length (snd x) = length (snd y))); [intros ? ? [H1 H2]; apply rw_sim; assumption|exact Hxy]|].
  intros tmps tmps' Htm. cbn [sreduce sbind]. rewrite <- (F2_len _ _ _ Htm), <- (F2_len _ _ _ Hls). constructor. intros t1. constructor. intros t2.
  eapply ssim_bind; [apply (ssim_par eq (fun _ _ => True)); [apply F2_refl; reflexivity|]|].
  - intros j ? <-. apply (tid_sim eq); [|reflexivity]. clear j. intros j ? <-. apply merge_sim.
    + apply (R_reduce (fun (x y : list rgsw) => length x = length y)); [|reflexivity|exact Hls]. intros x x' y y' H1 H2. unfold rgsw_vec_add. rewrite !map2_len. congruence.
    + apply (R_reduce (Forall2 V)); [|apply F2_refl; reflexivity|exact Htm]. intros x x' y y' H1 H2. unfold rlwe_vec_add. apply (F2_map2 V V); auto. intros; apply V_add; assumption.
  - intros _ _ _. constructor. apply F2_map. clear - Hy. induction Hy as [|? ? ? ? [H _]]; constructor; auto.
Qed.

(** ** Batches *)
Notation llen := (Forall2 (fun x y : list rgsw => length x = length y)).
Lemma masked_sim ls ls' fl fl' pos cell : llen ls ls' -> length fl = length fl' -> psim V (masked fft cx ls fl pos cell) (masked fft cx ls' fl' pos cell).
Proof.
  intros Hl Hf. unfold masked. eapply psim_bind; [apply cell_buf_sim|]. intros v v' Hv. eapply psim_bind; [apply psim_lift, index_len, Hf|]. intros f f' _. cbv zeta.
  eapply psim_bind; [apply buf_only_sim|]. intros _ _ _. eapply psim_bind; [apply psim_lift|].
  - eapply rres_bind; [apply (index_sim _ _ _ _ Hl)|]. intros row row' Hr. apply index_len, Hr.
  - intros l l' _. constructor. apply V_ep. reflexivity.
Qed.
Lemma consistency_sim w nh ls ls' fl fl' i : llen ls ls' -> length fl = length fl' ->
  psim (fun _ _ => True) (consistency_task w fft cx nh ls fl i) (consistency_task w fft cx nh ls' fl' i).
Proof.
  intros Hl Hf. unfold consistency_task. eapply psim_bind; [apply (psim_mapM eq eq); [apply F2_refl; reflexivity|]|].
  { intros h ? <-. eapply psim_bind; [apply row_len_sim|]. intros cols ? <-. apply psim_lift, rres_refl. reflexivity. }
  intros ps ps' Hps. assert (ps' = ps) as -> by (clear - Hps; induction Hps; congruence).
  eapply psim_bind with (R := V).
  - destruct w; [|constructor]. unfold correct_consistency. eapply psim_bind with (R := eq); [apply psim_lift, rres_refl; reflexivity|]. intros first ? <-.
    eapply psim_bind; [apply (psim_mapM eq V); [apply F2_refl; reflexivity|]; intros p ? <-; apply masked_sim; assumption|]. intros v1 v1' Hv1.
    eapply psim_bind; [apply cell_only_sim|]. intros v v' Hv. cbv zeta.
    eapply psim_bind; [apply psim_lift, (index_sim V), Hv1|]. intros st st' Hst.
    eapply psim_bind; [apply (psim_foldM eq V); [apply F2_refl; reflexivity| |exact Hst]|].
    { intros s s' p ? Hs <-. eapply psim_bind; [apply masked_sim; assumption|]. intros x y Hxy. constructor. apply V_add; assumption. }
    intros a b Hab. constructor. apply V_add; [exact Hab|]. clear - Hv1 Hv. revert v v' Hv. induction Hv1; cbn; intros; auto. apply IHHv1, V_sub; assumption.
  - intros d d' Hd. eapply psim_bind; [apply (psim_mapM eq (fun _ _ => True)); [apply F2_refl; reflexivity|]; intros p ? <-; apply put_sim, Hd|]. intros _ _ _. constructor. exact I.
Qed.
Lemma process_batch_sim rows qs qs' nh : Forall2 qsim qs qs' -> ssim (Forall2 V) (process_batch pool fft cx neg rows qs nh) (process_batch pool fft cx neg' rows qs' nh).
Proof.
  intros Hq. unfold process_batch. eapply ssim_bind; [apply ssim_lift; rewrite (F2_len _ _ _ Hq); apply (rres_refl (fun _ _ => True)); auto|]. intros _ _ _.
  eapply ssim_bind; [apply (ssim_par (fun x y => qsim (fst x) (fst y) /\ snd x = snd y) out2); [apply (combine_F2 qsim eq); [exact Hq|apply F2_refl; reflexivity]|]|].
  { intros x y Hxy. apply (tid_sim (fun x y => qsim (fst x) (fst y) /\ snd x = snd y)); [|exact Hxy]. clear x y Hxy. intros [x r] [y r'] [H1 H2]. cbn in *. subst. apply one_st_sim, H1. }
  intros yls yls' Hy. cbv zeta.
  assert (llen (map snd yls) (map snd yls')) as Hls.
  { apply F2_map. clear - Hy. induction Hy as [|? ? ? ? [_ H]]; constructor; auto. }
  eapply ssim_bind.
  { apply (ssim_par (fun x y => (length (fst (fst x)) = length (fst (fst y)) /\ qsim (snd (fst x)) (snd (fst y))) /\ snd x = snd y) (fun _ _ => True)).
    - apply (combine_F2 (fun x y => length (fst x) = length (fst y) /\ qsim (snd x) (snd y)) eq); [|apply F2_refl; reflexivity]. apply (combine_F2 (fun x y => length x = length y) qsim); assumption.
    - intros x y Hxy. apply (tid_sim (fun (x y : list rgsw * query * nat) => (length (fst (fst x)) = length (fst (fst y)) /\ qsim (snd (fst x)) (snd (fst y))) /\ snd x = snd y)); [|exact Hxy]. clear x y Hxy. intros [[l q1] r] [[l' q1'] r'] [[H1 H2] H3]. cbn in *. subst. apply update_st_sim; assumption. }
  intros _ _ _. eapply ssim_bind; [apply row_len_ssim|]. intros cols ? <-. destruct (nh_h_count nh =? 0); [constructor|].
  eapply ssim_bind; [apply (ssim_par eq (fun _ _ => True)); [apply F2_refl; reflexivity|]|].
  - intros i ? <-. apply consistency_sim; [exact Hls|]. rewrite !map_length. apply (F2_len _ _ _ Hq).
  - intros _ _ _. constructor. apply F2_map. clear - Hy. induction Hy as [|? ? ? ? [H _]]; constructor; auto.
Qed.
End T.

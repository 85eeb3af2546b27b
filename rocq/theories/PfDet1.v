(** * Footprints, lock discipline and result shapes of the tasks of src/oram.rs *)
From Verif Require Import MBase MUtils MCodec MPoly MRlwe MHash MTree MEncTree MSched MOram.
From Verif Require Import SpecRing SpecLwe PfPoly PfRlwe PfSched PfSched2 PfSched3 PfOram1.
Local Open Scope nat_scope.

(** ** Algebra of the three reduction operators *)
Lemma poly_add_assoc a b c : poly_add a (poly_add b c) = poly_add (poly_add a b) c.
Proof.
  revert b c; induction a as [|x a IH]; intros [|y b] [|z c]; cbn; try reflexivity. f_equal; [|apply IH].
  unfold wadd, wrap. rewrite Zplus_mod_idemp_l, Zplus_mod_idemp_r. f_equal. lia.
Qed.
Lemma poly_add_0_l n a : wfp n a -> poly_add (poly_zero n) a = a.
Proof.
  intros [L F]. subst n. induction F as [|x a Hx F IH]; cbn; [reflexivity|]. f_equal; [|exact IH].
  unfold wadd. cbn. apply wrap_id, Hx.
Qed.
Lemma poly_add_comm a b : poly_add a b = poly_add b a.
Proof. revert b; induction a as [|x a IH]; intros [|y b]; cbn; try reflexivity. f_equal; [|apply IH]. unfold wadd. f_equal. lia. Qed.
Lemma poly_add_0_r n a : wfp n a -> poly_add a (poly_zero n) = a.
Proof. intros H. rewrite poly_add_comm. apply poly_add_0_l, H. Qed.

Lemma rlwe_add_assoc a b c : rlwe_add a (rlwe_add b c) = rlwe_add (rlwe_add a b) c.
Proof. unfold rlwe_add, update_body_with_add, update_mask_with_add; cbn. f_equal; apply poly_add_assoc. Qed.
Lemma rlwe_add_0_l n a : wfc n a -> rlwe_add (rlwe_allocate n) a = a.
Proof. intros [Hm Hb]. unfold rlwe_add, update_body_with_add, update_mask_with_add; cbn. rewrite !poly_add_0_l by assumption. destruct a; reflexivity. Qed.
Lemma rlwe_add_0_r n a : wfc n a -> rlwe_add a (rlwe_allocate n) = a.
Proof. intros [Hm Hb]. unfold rlwe_add, update_body_with_add, update_mask_with_add; cbn. rewrite !poly_add_0_r by assumption. destruct a; reflexivity. Qed.

Section Vec.
Context {A : Type}.
Variables (op : A -> A -> A) (id : A) (K : A -> Prop) (N : nat).
Hypothesis Kid : K id.
Hypothesis Kop : forall x y, K x -> K y -> K (op x y).
Hypothesis Hassoc : forall x y z, K x -> K y -> K z -> op x (op y z) = op (op x y) z.
Hypothesis Hl : forall x, K x -> op id x = x.
Hypothesis Hr : forall x, K x -> op x id = x.
Definition vec (l : list A) : Prop := length l = N /\ Forall K l.
Lemma vec_id : vec (repeat id N).
Proof. split; [apply repeat_length|]. apply Forall_forall. intros x Hx. apply repeat_spec in Hx as ->. exact Kid. Qed.
Lemma vec_op x y : vec x -> vec y -> vec (map2 op x y).
Proof.
  intros [Lx Fx] [Ly Fy]. split.
  - clear Fx Fy. revert y N Lx Ly; induction x as [|a x IH]; intros [|b y] M Lx Ly; cbn in *; subst; try discriminate; [reflexivity|].
    f_equal. apply IH; [reflexivity|]. injection Ly; auto.
  - clear Lx Ly. revert y Fy; induction Fx as [|a x Ha Fx IH]; intros y Fy; inversion Fy; subst; cbn; constructor; auto.
Qed.
Lemma vec_assoc x y z : vec x -> vec y -> vec z -> map2 op x (map2 op y z) = map2 op (map2 op x y) z.
Proof.
  intros [_ Fx] [_ Fy] [_ Fz]. revert y z Fy Fz; induction Fx as [|a x Ha Fx IH]; intros y z Fy Fz; [reflexivity|].
  inversion Fy; subst; [reflexivity|]. inversion Fz; subst; [reflexivity|]. cbn. f_equal; auto.
Qed.
Lemma vec_l x : vec x -> map2 op (repeat id N) x = x.
Proof. intros [L F]. rewrite <- L. clear L. induction F as [|a x Ha F IH]; cbn; [reflexivity|]. f_equal; auto. Qed.
Lemma vec_r x : vec x -> map2 op x (repeat id N) = x.
Proof. intros [L F]. rewrite <- L. clear L. induction F as [|a x Ha F IH]; cbn; [reflexivity|]. f_equal; auto. Qed.
Lemma reduce_vec t l : Forall vec l -> items t = length l -> fst (reduce (map2 op) (repeat id N) t l) = fold_left (map2 op) l (repeat id N).
Proof. apply (reduce_fold (map2 op) (repeat id N) vec vec_id vec_op vec_assoc vec_l vec_r). Qed.
End Vec.

(** An RGSW ciphertext of the given dimensions. *)
Definition gsw (n base level : nat) (g : rgsw) : Prop :=
  g_base g = base /\ g_level g = level /\ length (g_rows g) = 2 * level /\ Forall (wfc n) (g_rows g).
Section Gsw.
Variables (n base level : nat).
Lemma rows_vec g : gsw n base level g -> vec (wfc n) (2 * level) (g_rows g).
Proof. intros (_ & _ & L & F). split; assumption. Qed.
Lemma gsw_id : gsw n base level (rgsw_allocate n base level).
Proof. split; [reflexivity|]. split; [reflexivity|]. apply (vec_id (rlwe_allocate n) (wfc n)). apply wfc_allocate. Qed.
Lemma gsw_op g h : gsw n base level g -> gsw n base level h -> gsw n base level (rgsw_add g h).
Proof.
  intros Hg Hh. split; [apply Hg|]. split; [apply Hg|]. apply (vec_op rlwe_add (wfc n) (2 * level)); [|apply rows_vec, Hg|apply rows_vec, Hh].
  intros; apply wfc_add; assumption.
Qed.
Lemma rgsw_ext g h : g_base g = g_base h -> g_level g = g_level h -> g_rows g = g_rows h -> g = h.
Proof. destruct g, h; cbn; intros -> -> ->; reflexivity. Qed.
Lemma gsw_assoc a b c : gsw n base level a -> gsw n base level b -> gsw n base level c -> rgsw_add a (rgsw_add b c) = rgsw_add (rgsw_add a b) c.
Proof.
  intros Ha Hb Hc. apply rgsw_ext; [reflexivity|reflexivity|]. apply (vec_assoc rlwe_add (wfc n) (2 * level)); try (apply rows_vec; assumption).
  intros; apply rlwe_add_assoc.
Qed.
Lemma gsw_l a : gsw n base level a -> rgsw_add (rgsw_allocate n base level) a = a.
Proof.
  intros Ha. destruct (Ha) as (Eb & El & _). apply rgsw_ext; cbn [rgsw_add rgsw_allocate g_base g_level g_rows]; [symmetry; exact Eb|symmetry; exact El|].
  apply (vec_l rlwe_add _ (wfc n) (2 * level)); [|apply rows_vec, Ha]. intros; apply rlwe_add_0_l; assumption.
Qed.
Lemma gsw_r a : gsw n base level a -> rgsw_add a (rgsw_allocate n base level) = a.
Proof.
  intros Ha. apply rgsw_ext; [reflexivity|reflexivity|].
  apply (vec_r rlwe_add _ (wfc n) (2 * level)); [|apply rows_vec, Ha]. intros; apply rlwe_add_0_r; assumption.
Qed.
End Gsw.

(** The reductions of src/oram.rs *)
Lemma reduce_rlwe n t l : Forall (wfc n) l -> items t = length l ->
  fst (reduce rlwe_add (rlwe_allocate n) t l) = fold_left rlwe_add l (rlwe_allocate n).
Proof.
  apply (reduce_fold rlwe_add (rlwe_allocate n) (wfc n)); [apply wfc_allocate|apply wfc_add|intros; apply rlwe_add_assoc|apply rlwe_add_0_l|apply rlwe_add_0_r].
Qed.
Lemma reduce_rlwe_vec n cols t l : Forall (vec (wfc n) cols) l -> items t = length l ->
  fst (reduce rlwe_vec_add (repeat (rlwe_allocate n) cols) t l) = fold_left rlwe_vec_add l (repeat (rlwe_allocate n) cols).
Proof.
  apply (reduce_vec rlwe_add (rlwe_allocate n) (wfc n) cols); [apply wfc_allocate|apply wfc_add|intros; apply rlwe_add_assoc|apply rlwe_add_0_l|apply rlwe_add_0_r].
Qed.
Lemma reduce_rgsw_vec n base level cols t l : Forall (vec (gsw n base level) cols) l -> items t = length l ->
  fst (reduce rgsw_vec_add (repeat (rgsw_allocate n base level) cols) t l) = fold_left rgsw_vec_add l (repeat (rgsw_allocate n base level) cols).
Proof.
  apply (reduce_vec rgsw_add (rgsw_allocate n base level) (gsw n base level) cols); [apply gsw_id|apply gsw_op|apply gsw_assoc|apply gsw_l|apply gsw_r].
Qed.

(** ** Lock discipline *)
Lemma disc_cell_buf r c : disc [] (cell_buf r c).
Proof.
  unfold cell_buf. constructor. constructor; [left; left; reflexivity|]. intros v. constructor; [intros [H|[]]; discriminate|].
  constructor. constructor. constructor.
Qed.
Lemma disc_buf_only : disc [] buf_only.
Proof. unfold buf_only. constructor; [intros []|]. constructor. constructor. Qed.
Lemma disc_cell_only r c : disc [] (cell_only r c).
Proof. unfold cell_only. constructor. constructor; [left; left; reflexivity|]. intros v. constructor. constructor. Qed.
Lemma disc_row_len r : disc [] (row_len r).
Proof. unfold row_len. constructor. constructor; [left; left; reflexivity|]. intros v. constructor. constructor. Qed.
Lemma disc_put r c v : disc [] (put r c v).
Proof. unfold put. constructor. constructor; [left; reflexivity|]. constructor. constructor. Qed.
#[export] Hint Resolve disc_cell_buf disc_buf_only disc_cell_only disc_row_len disc_put disc_plift : disc.
Ltac disc_t := repeat first [ progress intros | apply disc_bind; [auto with disc|] | solve [auto with disc] | apply disc_pmapM | apply disc_pfoldM | apply D_ret | apply D_fail ].

Section Disc.
Variables (fft : fftT) (cx : ctx) (neg_s : rgsw).
Lemma disc_level qy l : disc [] (level_task fft cx qy l).
Proof. unfold level_task. disc_t. Qed.
Lemma disc_select d r j : disc [] (select_task fft cx neg_s d r j).
Proof. unfold select_task. disc_t. Qed.
Lemma disc_update qy r jl : disc [] (update_task fft cx qy r jl).
Proof. unfold update_task. disc_t. Qed.
Lemma disc_one_st qy r : disc [] (process_one_st fft cx neg_s qy r).
Proof. unfold process_one_st. apply disc_bind; [apply disc_pmapM; intros; apply disc_level|]. disc_t. Qed.
Lemma disc_update_st qy r ls : disc [] (update_db_st fft cx qy r ls).
Proof. unfold update_db_st. apply disc_bind; [auto with disc|]. intros cols. apply disc_bind; [|disc_t]. apply disc_pmapM. intros j. apply disc_bind; [auto with disc|]. intros l. apply disc_update. Qed.
Lemma disc_rw cols ql : disc [] (rw_task fft cx cols ql).
Proof. unfold rw_task. disc_t. Qed.
Lemma disc_merge a b j : disc [] (merge_task fft a b j).
Proof. unfold merge_task. disc_t. Qed.
Lemma disc_masked ls fl p c : disc [] (masked fft cx ls fl p c).
Proof. unfold masked. disc_t. Qed.
Lemma disc_consistency w nh ls fl i : disc [] (consistency_task w fft cx nh ls fl i).
Proof.
  unfold consistency_task, correct_consistency. apply disc_bind; [apply disc_pmapM; intros; disc_t|]. intros ps.
  apply disc_bind; [|intros; apply disc_bind; [apply disc_pmapM; intros; disc_t|disc_t]].
  destruct w; [|constructor].
  apply disc_bind; [auto with disc|]. intros f. apply disc_bind; [apply disc_pmapM; intros; apply disc_masked|]. intros v1s.
  apply disc_bind; [auto with disc|]. intros v. apply disc_bind; [auto with disc|]. intros st.
  apply disc_bind; [|disc_t]. apply disc_pfoldM. intros s x. apply disc_bind; [apply disc_masked|disc_t].
Qed.
End Disc.

(** ** Footprints *)
Section Foot.
Variable sh : list nat.
Variables Rd Wr : nat -> nat -> Prop.
Lemma acc_cell_buf r c : Rd r c -> acc sh Rd Wr (fun _ => True) (cell_buf r c).
Proof. intros H. unfold cell_buf. repeat (constructor; auto). Qed.
Lemma acc_cell_only r c : Rd r c -> acc sh Rd Wr (fun _ => True) (cell_only r c).
Proof. intros H. unfold cell_only. repeat (constructor; auto). Qed.
Lemma acc_buf_only : acc sh Rd Wr (fun _ => True) buf_only.
Proof. unfold buf_only. repeat constructor. Qed.
Lemma acc_row_len r : acc sh Rd Wr (fun x => nth_error sh r = Some x) (row_len r).
Proof. unfold row_len. constructor. constructor. intros x H. constructor. constructor. exact H. Qed.
Lemma acc_put r c v : Wr r c -> acc sh Rd Wr (fun _ => True) (put r c v).
Proof. intros H. unfold put. repeat (constructor; auto). Qed.
Lemma acc_lift {A} (x : res A) : acc sh Rd Wr (fun a => x = Ok a) (plift x).
Proof. apply acc_plift. auto. Qed.
End Foot.

(** ** Shapes of the intermediate values *)
Section Vals.
Variables (fft : fftT) (cx : ctx) (neg_s : rgsw).
Notation n := (c_n cx).
Hypothesis Hfft : forall ts, length (fft ts) = n.

Lemma wfc_ep g out d : wfc n out -> wfc n (external_product fft g out d).
Proof. intros [Hm Hb]. split; cbn; apply wfp_add; auto; [apply Hm|apply Hb]. Qed.
Lemma demux_wf : forall bits b tmp, length (mask b) = n -> length (body b) = n -> demux_rec fft n b bits = Ok tmp ->
  Forall (wfc n) tmp /\ length tmp = 2 ^ length bits /\ bits <> [].
Proof.
  induction bits as [|g rest IH]; intros b tmp Hm Hb H; [discriminate|]. cbn [demux_rec] in H.
  set (left := external_product fft g (rlwe_allocate n) b) in *. set (right := rlwe_sub b left) in *.
  assert (wfc n left) as Hl by (apply wfc_ep, wfc_allocate).
  assert (wfc n right) as Hr by (split; cbn; apply wfp_sub; auto; [apply Hl|apply Hl]).
  destruct rest as [|g' rest].
  - injection H as <-. split; [constructor; [exact Hl|constructor; [exact Hr|constructor]]|]. split; [reflexivity|discriminate].
  - destruct (demux_rec fft n left (g' :: rest)) as [lo|] eqn:El; [|discriminate]. cbn [bind] in H.
    destruct (demux_rec fft n right (g' :: rest)) as [ro|] eqn:Er; [|discriminate]. cbn [bind] in H. injection H as <-.
    apply IH in El as (F1 & L1 & _); [|apply Hl|apply Hl]. apply IH in Er as (F2 & L2 & _); [|apply Hr|apply Hr].
    split; [apply Forall_app; split; assumption|]. split; [|discriminate]. rewrite app_length, L1, L2. cbn [length Nat.pow]. lia.
Qed.
Lemma level_val qy level sh Rd Wr : acc sh Rd Wr (fun tmp => Forall (wfc n) tmp /\ length tmp = 2 ^ length (q_a qy) /\ q_a qy <> []) (level_task fft cx qy level).
Proof.
  unfold level_task. eapply acc_bind; [apply acc_buf_only|]. intros _ _. eapply acc_weaken; [intros ? ? HH; exact HH|intros ? ? HH; exact HH| |apply acc_lift].
  cbv beta. intros tmp H. destruct (usub _ _ _) as [sh0|]; [|discriminate]. cbn [bind] in H.
  destruct (ushl _ _ _) as [x|]; [|discriminate]. cbn [bind] in H.
  destruct (demux_with _ _ _ _) as [t|] eqn:E; [|discriminate]. cbn [bind] in H. unfold rassert in H.
  destruct (_ =? _); [|discriminate]. cbn [bind] in H. injection H as <-. apply demux_wf in E; [exact E| |]; cbn.
  - apply repeat_length. - rewrite upd_length. apply repeat_length.
Qed.
End Vals.

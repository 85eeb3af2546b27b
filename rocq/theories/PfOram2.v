(** * Selection: what a query computes on one row *)
From Coq Require Import Setoid Morphisms Ring.
From Verif Require Import MBase MUtils MCodec MPoly MRlwe MHash MTree MEncTree MSched MOram SpecOram PolyRing PfPoly PfNear PfRlwe PfRlwe2 PfRlwe3
  PfRlwe5 PfCodec LRlwe PfEnc PfEnc2 PfEnc3 PfEnc4 LEnc PfSched PfOram1.
From Verif Require PfUtils.
Local Open Scope Z_scope.

Section Or.
Variable cx : ctx.
Variables (lg : nat) (k : Z).
Hypothesis Hp : params_ok cx lg k.
Notation n := (c_n cx).
Let Hn : (0 < n)%nat := params_n cx lg k Hp.
Add Ring Pring : (P_ring n Hn) (setoid (peq_equiv n) (P_ext n)).
Variable fft : fftT.
Variable eps : Z.
Hypothesis Hf : fft_for cx fft eps.
Variable s : poly.
Variables S E : Z.
Hypothesis HS : l1 n (tof s) S.
Variable neg_s : rgsw.
Hypothesis Hneg : rgsw_encrypts n s neg_s (popp (tof s)) E.
Hypothesis Hnegb : g_base neg_s = c_base cx.
Hypothesis Hnegl : g_level neg_s = c_negs_level cx.
Variable a : nat.
Hypothesis Ha : (1 <= a)%nat.
Notation EPB := (ep_fresh cx S E eps).
Notation EL := (sel_noise cx a S E eps).
Notation EPL := (ep_sel cx a S E eps).
Notation cct := (const_ct n s (c_base cx) (c_level cx)).

(** When the tasks of a loop run on workers. *)
Lemma on_worker_spread pool len : spread pool len -> on_worker pool len = true.
Proof. clear. unfold on_worker. intros [->|H]; [reflexivity|]. destruct (Nat.eqb_spec len 1); [contradiction|]. apply orb_true_r. Qed.
Lemma on_worker_pow pool : on_worker pool (2 ^ a) = true.
Proof.
  clear - Ha. apply on_worker_spread. right. destruct a as [|b]; [lia|]. cbn [Nat.pow]. lia.
Qed.
(** A query that selects slot [i]. *)
Definition selects (qy : query) (i : nat) : Prop :=
  exists xs, Forall2 (fun g x => cct E (b2z x) g) (q_a qy) xs /\ length (q_a qy) = a /\ msb_value (map negb xs) = i.
(** A cell whose phase is near [f]. *)
Definition cnear (m : mem) (r c : nat) (f : P) (B : Z) : Prop :=
  exists v, mget m r c = Some v /\ wfc n v /\ near n (phase n s v) f B.

Lemma fft_base : fft_ok n fft (2 ^ (Z.of_nat (c_base cx) - 1)) (2 * c_level cx) eps.
Proof. clear - Hf. eapply fft_ok_weaken; [| |exact Hf]; [apply pow_base_le; lia|lia]. Qed.
Lemma fft_negs : fft_ok n fft (2 ^ (Z.of_nat (c_base cx) - 1)) (2 * c_negs_level cx) eps.
Proof. clear - Hf. eapply fft_ok_weaken; [| |exact Hf]; [apply pow_base_le; lia|lia]. Qed.
Lemma eps_nonneg : 0 <= eps.
Proof. eapply fft_eps_nonneg; [exact Hn|exact fft_base]. Qed.
Lemma S_nn : 0 <= S.
Proof. eapply l1_nonneg. exact HS. Qed.

Lemma level_ok qy i lv m : selects qy i -> (1 <= lv <= c_level cx)%nat ->
  exists outs, run (level_task fft cx qy lv) m = (Ok outs, m) /\ length outs = (2 ^ a)%nat /\
    forall j, (j < 2 ^ a)%nat -> wfc n (nth j outs nilc) /\
      near n (phase n s (nth j outs nilc)) (pmul n (pcst (gadget (c_base cx) lv)) (pcst (b2z (j =? i)%nat))) (Z.of_nat a * EPB).
Proof.
  intros (xs & HF & HL & Hi) Hlv. pose proof Hp as (_ & _ & _ & (D1 & D2 & D3) & _).
  assert (c_base cx * lv < 64)%nat as Hsh by nia. assert (1 <= c_base cx * lv)%nat as Hsh1 by nia.
  unfold level_task. rewrite (run_bind_ok _ _ _ _ _ (run_buf_only m)), run_plift.
  rewrite usub_ok by lia. cbn [bind]. rewrite ushl_ok by lia. cbn [bind]. rewrite Z.mul_1_l.
  assert (wrap (2 ^ (64 - Z.of_nat (c_base cx * lv))) = gadget (c_base cx) lv) as ->.
  { unfold gadget, wrap. apply Z.mod_small. split; [apply Z.pow_nonneg; lia|]. unfold q. apply Z.pow_lt_mono_r; lia. }
  assert (is_word (gadget (c_base cx) lv)) as Hw.
  { unfold gadget. split; [apply Z.pow_nonneg; lia|]. unfold q. apply Z.pow_lt_mono_r; lia. }
  destruct (trivial_ct n Hn (gadget (c_base cx) lv) s Hw) as [Wt Nt].
  assert (q_a qy <> []) as Hne by (intros E0; rewrite E0 in HL; cbn in HL; lia).
  destruct (demux_rec_ok n Hn fft (c_base cx) (c_level cx) eps fft_base s S E HS (q_a qy) xs _ HF Hne Wt) as (outs & Eo & Lo & Wo & No).
  unfold demux_with. rewrite Eo. cbn [bind]. rewrite Lo, Nat.eqb_refl. cbn [rassert bind].
  exists outs. rewrite HL in *. split; [reflexivity|]. split; [exact Lo|]. intros j Hj.
  split; [apply nth_wfc; [exact Wo|lia]|]. specialize (No j Hj). rewrite Hi in No.
  eapply near_trans'; [exact Hn|exact No| |].
  2:{ rewrite Z.add_0_r. unfold ep_fresh. reflexivity. }
  destruct (j =? i)%nat.
  - eapply near_eq_r; [|exact Nt]. cbn [b2z]. ring.
  - apply near_refl. cbn [b2z]. change (peq n pzero (pmul n (pcst (gadget (c_base cx) lv)) (pcst 0))). rewrite (pcst_0 n). ring.
Qed.

Definition level_result (i : nat) (lv : nat) (outs : list rlwe) : Prop :=
  length outs = (2 ^ a)%nat /\
  forall j, (j < 2 ^ a)%nat -> wfc n (nth j outs nilc) /\
      near n (phase n s (nth j outs nilc)) (pmul n (pcst (gadget (c_base cx) lv)) (pcst (b2z (j =? i)%nat))) (Z.of_nat a * EPB).

Lemma levels_ok qy i m : selects qy i ->
  exists res, run (pmapM (level_task fft cx qy) (seq 1 (c_level cx))) m = (Ok res, m) /\ Forall2 (level_result i) (seq 1 (c_level cx)) res.
Proof.
  intros Hq. apply run_pmapM_ro. intros lv Hlv. apply in_seq in Hlv.
  destruct (level_ok qy i lv m Hq) as (outs & Eo & Lo & Ho); [lia|]. exists outs. split; [exact Eo|]. split; assumption.
Qed.

Lemma Forall2_nth2 {A B} (R : A -> B -> Prop) l l' i x : Forall2 R l l' -> nth_error l i = Some x -> exists y, nth_error l' i = Some y /\ R x y.
Proof.
  intros H. revert i. induction H as [|u v l l' Huv H IH]; intros [|i] Hi; cbn in *; try discriminate.
  - injection Hi as ->. eauto.
  - apply IH. exact Hi.
Qed.
Lemma Forall2_len2 {A B} (R : A -> B -> Prop) l l' : Forall2 R l l' -> length l = length l'.
Proof. induction 1; cbn; auto. Qed.

Lemma columns_ok i res : Forall2 (level_result i) (seq 1 (c_level cx)) res ->
  exists dl, transpose res = Ok dl /\ length dl = (2 ^ a)%nat /\
    forall j, (j < 2 ^ a)%nat -> exists l, (d <- index dl j ;; decomposed_rlwe_to_rgsw fft cx d neg_s) = Ok l /\ cct EL (b2z (j =? i)%nat) l.
Proof.
  intros HF. pose proof Hp as (_ & _ & _ & Hd & _ & Hdn & _). pose proof Hd as (D1 & D2 & D3).
  pose proof (Forall2_len2 _ _ _ HF) as HL. rewrite seq_length in HL.
  destruct (PfUtils.transpose_spec res (c_level cx) (2 ^ a)) as (dl & Et & Ld & Rd & Nd); [lia|lia| |].
  { intros r Hin. apply In_nth_error in Hin as (t & Ht).
    assert (t < c_level cx)%nat as Hlt by (rewrite HL; apply nth_error_Some; congruence).
    destruct (Forall2_nth2 _ _ _ t (1 + t)%nat HF) as (y & Hy & [Ly _]); [|congruence].
    rewrite (nth_error_nth' _ 0%nat) by (rewrite seq_length; exact Hlt). now rewrite seq_nth by exact Hlt. }
  exists dl. split; [exact Et|]. split; [exact Ld|]. intros j Hj.
  destruct (nth_error dl j) as [d|] eqn:Ed; [|apply nth_error_None in Ed; lia].
  unfold index. rewrite Ed. cbn [bind].
  destruct (decomposed_ok n Hn fft eps cx s d neg_s (pcst (b2z (j =? i)%nat)) (Z.of_nat a * EPB) E S) as (g & Eg & Gb & Gl & Hg); try assumption; try reflexivity.
  - rewrite Hnegb, Hnegl. apply fft_negs.
  - rewrite (Rd d) by (eapply nth_error_In; exact Ed). lia.
  - intros t Ht. destruct (Nd t j Ht Hj) as (r & c & Hr & Hc & Hrc). rewrite Ed in Hc. injection Hc as <-.
    destruct (Forall2_nth2 _ _ _ t (1 + t)%nat HF) as (y & Hy & [Ly Ny]).
    { rewrite (nth_error_nth' _ 0%nat) by (rewrite seq_length; exact Ht). now rewrite seq_nth by exact Ht. }
    rewrite Hr in Hy. injection Hy as <-. destruct (Ny j Hj) as [Wj Nj].
    assert (nth t d nilc = nth j r nilc) as Hdj.
    { apply nth_error_nth. rewrite Hrc. apply nth_error_nth'. rewrite Ly. exact Hj. }
    change {| mask := []; body := [] |} with nilc. rewrite Hdj. split; [exact Wj|]. rewrite (Nat.add_comm t 1). exact Nj.
  - exists g. split; [exact Eg|]. split; [|split; assumption]. rewrite Hnegb, Hnegl in Hg. exact Hg.
Qed.

(** External product and multiplexer with ciphertexts of bits. *)
Lemma b2z_01 b : b2z b = 0 \/ b2z b = 1.
Proof. destruct b; auto. Qed.
Lemma fft_g l : g_base l = c_base cx -> g_level l = c_level cx -> fft_ok n fft (2 ^ (Z.of_nat (g_base l) - 1)) (2 * g_level l) eps.
Proof. intros -> ->. apply fft_base. Qed.
Lemma E_nonneg : 0 <= E.
Proof.
  pose proof Hneg as [(Wd & _) R]. pose proof Wd as (D1 & D2 & D3). destruct (R 0%nat ltac:(lia)) as [N1 _].
  exact (near_nonneg n Hn _ _ _ N1).
Qed.
Lemma epb_nonneg M N : 0 <= M -> 0 <= N -> 0 <= ep_bound n (c_base cx) (c_level cx) S M N eps.
Proof.
  intros HM HN. pose proof Hp as (_ & _ & _ & (D1 & D2 & D3) & _).
  apply (ep_bound_nonneg n Hn); [apply S_nn|exact HM|exact HN|apply eps_nonneg|lia|lia].
Qed.
Lemma ep_bit N l b out d : cct N (b2z b) l -> wfc n out -> wfc n d ->
  wfc n (external_product fft l out d) /\
  near n (phase n s (external_product fft l out d)) (padd (phase n s out) (if b then phase n s d else pzero))
       (ep_bound n (c_base cx) (c_level cx) S 1 N eps).
Proof.
  intros (H & Gb & Gl) Wo Wd. split.
  - eapply wfc_external_product; try eassumption; [apply fft_g; assumption|apply H].
  - rewrite <- Gb, <- Gl. eapply near_eq_r; [|eapply external_product_phase; try eassumption; [apply fft_g; assumption|apply l1_bit; [exact Hn|apply b2z_01]]].
    destruct b; cbn [b2z].
    + ring.
    + rewrite (pcst_0 n). ring.
Qed.
Lemma cmux_bit N l b c0 c1 : cct N (b2z b) l -> wfc n c0 -> wfc n c1 ->
  exists c, cmux fft l c0 c1 = Ok c /\ wfc n c /\
    near n (phase n s c) (if b then phase n s c1 else phase n s c0) (ep_bound n (c_base cx) (c_level cx) S 1 N eps).
Proof.
  intros (H & Gb & Gl) W0 W1.
  destruct (cmux_phase n Hn fft eps l c0 c1 s (pcst (b2z b)) N S 1) as (c & Ec & Wc & Nc); try assumption.
  { apply fft_g; assumption. } { apply l1_bit; [exact Hn|apply b2z_01]. }
  exists c. split; [exact Ec|]. split; [exact Wc|]. rewrite <- Gb, <- Gl. eapply near_eq_r; [|exact Nc].
  destruct b; cbn [b2z].
  - ring.
  - rewrite (pcst_0 n). ring.
Qed.

(** Selection ciphertexts for slot [i]. *)
Definition sel_list (i : nat) (ls : list rgsw) : Prop :=
  length ls = (2 ^ a)%nat /\ forall j l, nth_error ls j = Some l -> cct EL (b2z (j =? i)%nat) l.
Definition answer (f : P) (B : Z) (y : rlwe) : Prop := wfc n y /\ near n (phase n s y) f (B + answer_growth cx a S E eps).

Lemma EPB_nonneg : 0 <= EPB.
Proof. apply epb_nonneg; [lia|apply E_nonneg]. Qed.
Lemma EL_nonneg : 0 <= EL.
Proof.
  unfold sel_noise. pose proof S_nn. pose proof EPB_nonneg. pose proof Hp as (_ & _ & _ & _ & _ & (D1 & D2 & D3) & _).
  assert (0 <= ep_bound n (c_base cx) (c_negs_level cx) S S E eps) by (apply (ep_bound_nonneg n Hn); [apply S_nn|apply S_nn|apply E_nonneg|apply eps_nonneg|lia|lia]).
  nia.
Qed.
Lemma EPL_nonneg : 0 <= EPL.
Proof. apply epb_nonneg; [lia|apply EL_nonneg]. Qed.
Lemma two_pow_a : Z.of_nat (2 ^ a) = 2 ^ Z.of_nat a.
Proof. rewrite Nat2Z.inj_pow. reflexivity. Qed.

Section Row.
Variables (m : mem) (r : nat) (f : nat -> P) (B : Z).
Hypothesis Hlen : mlen m r = Some (2 ^ a)%nat.
Hypothesis Hcells : forall c, (c < 2 ^ a)%nat -> cnear m r c (f c) B.
Variable qy : query.
Variable i : nat.
Hypothesis Hq : selects qy i.
Hypothesis Hi : (i < 2 ^ a)%nat.

Lemma B_nonneg : 0 <= B.
Proof. destruct (Hcells i Hi) as (v & _ & _ & N). eapply near_nonneg; [exact Hn|exact N]. Qed.

(** Partial sums of the answer. *)
Definition partial (j : nat) (y : rlwe) : Prop :=
  wfc n y /\ near n (phase n s y) (if (i <? j)%nat then f i else pzero) ((if (i <? j)%nat then B else 0) + Z.of_nat j * EPL).
Lemma partial_0 : partial 0 (rlwe_allocate n).
Proof. split; [apply wfc_allocate|]. cbn. apply near_refl. apply (phase_allocate n Hn). Qed.
Lemma partial_answer y : partial (2 ^ a) y -> answer (f i) B y.
Proof.
  intros [W N]. split; [exact W|]. destruct (Nat.ltb_spec i (2 ^ a)); [|lia]. rewrite two_pow_a in N. exact N.
Qed.
Lemma partial_step j y l v : (j < 2 ^ a)%nat -> partial j y -> cct EL (b2z (j =? i)%nat) l -> wfc n v -> near n (phase n s v) (f j) B ->
  partial (j + 1) (external_product fft l y v).
Proof.
  intros Hj [Wy Ny] Hl Wv Nv. destruct (ep_bit EL l (j =? i)%nat y v Hl Wy Wv) as [W N]. split; [exact W|].
  fold EPL in N. pose proof EPL_nonneg.
  destruct (Nat.eqb_spec j i) as [->|Hne].
  - destruct (Nat.ltb_spec i i); [lia|]. destruct (Nat.ltb_spec i (i + 1)); [|lia].
    eapply near_trans'; [exact Hn|exact N| |].
    + eapply near_eq_r; [|eapply near_add; [exact Hn|exact Ny|exact Nv]]. ring.
    + unfold ep_sel in *. lia.
  - assert ((i <? j)%nat = (i <? j + 1)%nat) as E1 by (destruct (Nat.ltb_spec i j), (Nat.ltb_spec i (j + 1)); try reflexivity; lia).
    rewrite E1 in Ny. eapply near_trans'; [exact Hn|exact N| |].
    + eapply near_eq_l; [|exact Ny]. ring.
    + unfold ep_sel in *. lia.
Qed.

Lemma process_one_st_ok : exists y ls, run (process_one_st fft cx neg_s qy r) m = (Ok (y, ls), m) /\ answer (f i) B y /\ sel_list i ls.
Proof.
  unfold process_one_st. destruct (levels_ok qy i m Hq) as (res & Er & HF). rewrite (run_bind_ok _ _ _ _ _ Er).
  rewrite (run_bind_ok _ _ _ _ _ (run_row_len r m _ Hlen)).
  destruct (columns_ok i res HF) as (dl & Et & Ld & Hd). rewrite (run_lift_bind _ _ _ _ Et).
  rewrite Ld, Nat.eqb_refl. cbn [rassert plift pbind].
  destruct (run_pfoldM_ro (select_step fft cx neg_s dl r) (fun j (yl : rlwe * list rgsw) => partial j (fst yl) /\ length (snd yl) = j /\ forall t l, nth_error (snd yl) t = Some l -> cct EL (b2z (t =? i)%nat) l)
     (seq 0 (2 ^ a)) m 0 (rlwe_allocate n, [])) as ([y ls] & Ey & Py & Lls & Hls).
  - split; [apply partial_0|]. split; [reflexivity|]. intros [|t] l Hl; discriminate.
  - intros j [y ls] x Hx (Py & Ll & Hl). cbn [fst snd Nat.add] in *.
    assert (j < 2 ^ a)%nat as Hj by (rewrite <- (seq_length (2 ^ a) 0); apply nth_error_Some; congruence).
    assert (x = j) as -> by (rewrite (nth_error_nth' _ 0%nat) in Hx by (rewrite seq_length; exact Hj); rewrite seq_nth in Hx by exact Hj; injection Hx; auto).
    destruct (Hd j Hj) as (l & El & Hlj). destruct (Hcells j Hj) as (v & Ev & Wv & Nv).
    unfold select_step. rewrite (run_bind_ok _ _ _ _ _ (run_buf_only m)), (run_lift_bind _ _ _ _ El), (run_bind_ok _ _ _ _ _ (run_cell_buf r j m v Ev)).
    eexists; split; [reflexivity|]. cbn [fst snd]. split; [|split].
    + rewrite <- Nat.add_1_r. apply partial_step; assumption.
    + rewrite app_length, Ll. cbn. lia.
    + intros t l' Ht. destruct (Nat.lt_ge_cases t j) as [Hlt|Hge].
      * rewrite nth_error_app1 in Ht by lia. apply Hl; exact Ht.
      * rewrite nth_error_app2 in Ht by lia. destruct (t - length ls)%nat as [|w] eqn:Et'; [|destruct w; discriminate]. injection Ht as <-.
        replace t with j by lia. exact Hlj.
  - cbn [fst snd Nat.add] in *. rewrite seq_length in *. exists y, ls. split; [exact Ey|]. split; [apply partial_answer; exact Py|]. split; assumption.
Qed.

Lemma process_one_mt_ok pool : spread pool (c_level cx) -> exists y ls, srun (process_one_mt pool fft cx neg_s qy r) m = (Ok (y, ls), m) /\ answer (f i) B y /\ sel_list i ls.
Proof.
  intros Hpool. unfold process_one_mt. rewrite (on_worker_spread _ _ Hpool). cbn [tid]. destruct (levels_ok qy i m Hq) as (res & Er & HF).
  rewrite (srun_bind_ok _ _ _ _ _ (eq_trans (srun_spar _ _ _) Er)).
  destruct (columns_ok i res HF) as (dl & Et & Ld & Hd). rewrite (srun_ret_bind _ _ _ _ Et).
  rewrite (srun_bind_ok _ _ _ _ _ (eq_trans (srun_sone _ _) (run_row_len r m _ Hlen))).
  rewrite Ld, Nat.eqb_refl. cbn [rassert slift sbind]. rewrite on_worker_pow. cbn [tid].
  destruct (run_pmapM_ro (select_task fft cx neg_s dl r)
     (fun j yl => exists v, yl = (external_product fft (snd yl) (rlwe_allocate n) v, snd yl) /\ wfc n v /\ near n (phase n s v) (f j) B /\ cct EL (b2z (j =? i)%nat) (snd yl)) (seq 0 (2 ^ a)) m)
     as (rs & Ers & HFs).
  { intros j Hj. apply in_seq in Hj. destruct (Hd j) as (l & El & Hlj); [lia|]. destruct (Hcells j) as (v & Ev & Wv & Nv); [lia|].
    unfold select_task. rewrite (run_bind_ok _ _ _ _ _ (run_buf_only m)), (run_lift_bind _ _ _ _ El), (run_bind_ok _ _ _ _ _ (run_cell_buf r j m v Ev)).
    eexists; split; [reflexivity|]. exists v. cbn [fst snd]. auto. }
  rewrite (srun_bind_ok _ _ _ _ _ (eq_trans (srun_spar _ _ _) Ers)). rewrite (srun_bind_ok _ _ _ _ _ (srun_sreduce _ m)). cbn [srun].
  pose proof (Forall2_len2 _ _ _ HFs) as Lrs. rewrite seq_length in Lrs.
  rewrite reduce_left_all by (rewrite map_length; exact Lrs).
  eexists _, _. split; [reflexivity|]. split.
  - apply partial_answer. 
    assert (forall l j y, Forall2 (fun j yl => exists v, yl = (external_product fft (snd yl) (rlwe_allocate n) v, snd yl) /\ wfc n v /\ near n (phase n s v) (f j) B /\ cct EL (b2z (j =? i)%nat) (snd yl)) (seq j (length l)) l ->
       (j + length l <= 2 ^ a)%nat -> partial j y -> partial (j + length l) (fold_left rlwe_add (map fst l) y)) as G.
    { induction l as [|[e l0] l IH]; intros j y HFq Hle Py; cbn [map fold_left length] in *; [rewrite Nat.add_0_r; exact Py|].
      cbn [seq] in HFq. inversion HFq as [|? ? ? ? (v & Ev & Wv & Nv & Hc) HF']; subst. cbn [fst snd] in *. injection Ev as ->.
      rewrite <- Nat.add_succ_comm. apply IH; [exact HF'|lia|]. rewrite <- Nat.add_1_r.
      pose proof (partial_step j y l0 v ltac:(lia) Py Hc Wv Nv) as [_ Np].
      destruct (ep_bit EL l0 (j =? i)%nat (rlwe_allocate n) v Hc (wfc_allocate n) Wv) as [We Ne]. destruct Py as [Wy Ny].
      pose proof EPL_nonneg. fold EPL in Ne. split; [apply wfc_add; assumption|].
      rewrite (phase_add n Hn s) by assumption.
      destruct (Nat.eqb_spec j i) as [->|Hne].
      - destruct (Nat.ltb_spec i i); [lia|]. destruct (Nat.ltb_spec i (i + 1)); [|lia].
        eapply near_trans'; [exact Hn|eapply near_add; [exact Hn|exact Ny|exact Ne]| |].
        + eapply near_eq_l; [|exact Nv]. rewrite (phase_allocate n Hn). ring.
        + unfold ep_sel in *. lia.
      - assert ((i <? j)%nat = (i <? j + 1)%nat) as E1 by (destruct (Nat.ltb_spec i j), (Nat.ltb_spec i (j + 1)); try reflexivity; lia).
        rewrite E1 in Ny. eapply near_trans'; [exact Hn|eapply near_add; [exact Hn|exact Ny|exact Ne]| |].
        + apply near_refl. rewrite (phase_allocate n Hn). ring.
        + unfold ep_sel in *. lia. }
    rewrite Lrs at 1. apply (G rs 0%nat (rlwe_allocate n)); [rewrite <- Lrs; exact HFs|lia|apply partial_0].
  - split; [rewrite map_length; symmetry; exact Lrs|]. intros j l Hl. rewrite nth_error_map in Hl. destruct (nth_error rs j) as [[e l']|] eqn:Ej; [|discriminate].
    injection Hl as <-. assert (j < 2 ^ a)%nat as Hj by (rewrite Lrs; apply nth_error_Some; congruence).
    destruct (Forall2_nth2 _ _ _ j j HFs) as (yl & Hyl & v & _ & _ & _ & Hc).
    { rewrite (nth_error_nth' _ 0%nat) by (rewrite seq_length; exact Hj). now rewrite seq_nth by exact Hj. }
    rewrite Ej in Hyl. injection Hyl as <-. exact Hc.
Qed.
End Row.
End Or.

(** * process_multi *)
From Coq Require Import Setoid Morphisms Ring Permutation.
From Verif Require Import MBase MUtils MCodec MPoly MRlwe MHash MTree MEncTree MSched MOram SpecOram PolyRing PfPoly PfNear PfRlwe PfRlwe2 PfRlwe3
  PfRlwe5 PfCodec LRlwe LKeys PfEnc PfEnc2 PfEnc3 PfEnc4 LEnc PfHash PfSched PfOram1 PfOram2 PfOram3 PfOram4 PfOram5.
Local Open Scope Z_scope.

Lemma rgsw_encrypts_eq n s g m m' E : (0 < n)%nat -> peq n m m' -> rgsw_encrypts n s g m E -> rgsw_encrypts n s g m' E.
Proof.
  intros Hn Hm [W R]. split; [exact W|]. intros i Hi. destruct (R i Hi) as [R0 R1].
  pose proof (Ropp_ext (P_ext n)) as Xo. pose proof (Rmul_ext (P_ext n)) as Xm.
  split; (eapply near_eq_r; [|eassumption]).
  - apply Xo. apply Xm; [apply (peq_equiv n)|]. apply Xm; [symmetry; exact Hm|apply (peq_equiv n)].
  - apply Xm; [apply (peq_equiv n)|symmetry; exact Hm].
Qed.
Lemma map2_nth_error {A B C} (f : A -> B -> C) l1 l2 j c : nth_error (map2 f l1 l2) j = Some c ->
  exists x y, nth_error l1 j = Some x /\ nth_error l2 j = Some y /\ c = f x y.
Proof.
  revert l2 j; induction l1 as [|x l1 IH]; intros [|y l2] [|j] H; cbn in *; try discriminate.
  - injection H as <-. eauto.
  - apply IH; exact H.
Qed.
Section Or.
Variable cx : ctx.
Variables (lg : nat) (k : Z).
Hypothesis Hp : params_ok cx lg k.
Notation n := (c_n cx).
Let Hn : (0 < n)%nat := params_n cx lg k Hp.
Add Ring Pring : (P_ring n Hn) (setoid (peq_equiv n) (P_ext n)).
Variable fft : fftT.
Variable eps : Z.
Hypothesis Hf : fft_for cx fft eps.
Variable s : poly.
Variables S E : Z.
Hypothesis HS : l1 n (tof s) S.
Variable neg_s : rgsw.
Hypothesis Hneg : rgsw_encrypts n s neg_s (popp (tof s)) E.
Hypothesis Hnegb : g_base neg_s = c_base cx.
Hypothesis Hnegl : g_level neg_s = c_negs_level cx.
Variable a : nat.
Hypothesis Ha : (1 <= a)%nat.
Notation EPB := (ep_fresh cx S E eps).
Notation EL := (sel_noise cx a S E eps).
Notation EPL := (ep_sel cx a S E eps).
Notation G := (growth cx a S E eps).
Notation cct := (const_ct n s (c_base cx) (c_level cx)).
Notation selects := (selects cx s E a).
Notation cnear := (cnear cx s).
Notation sel_list := (sel_list cx eps s S E a).
Notation answer := (answer cx eps s S E a).
Notation request_ct := (request_ct cx s E a).

(** Requests as (slot, operation, data). *)
Definition rinfo : Type := nat * bool * P.
Definition slot (x : rinfo) : nat := fst (fst x).
Definition hits (j : nat) (xs : list rinfo) : nat := length (filter (fun x => (slot x =? j)%nat) xs).
Definition wanted (f : nat -> P) (j : nat) (x : rinfo) : P := if snd (fst x) then snd x else f j.
Fixpoint hitsum (f : nat -> P) (j : nat) (xs : list rinfo) : P :=
  match xs with
  | [] => pzero
  | x :: xs' => padd (if (slot x =? j)%nat then wanted f j x else pzero) (hitsum f j xs')
  end.

Section Multi.
Variables (m : mem) (f : nat -> P) (B Ed : Z).
Hypothesis Hlen : mlen m 0 = Some (2 ^ a)%nat.
Hypothesis Hcells : forall c, (c < 2 ^ a)%nat -> cnear m 0 c (f c) B.
Hypothesis HEd : Ed <= B.
Variable qs : list query.
Variable xs : list rinfo.
Hypothesis Hqs : Forall2 (fun qy x => request_ct Ed qy (slot x) (snd (fst x)) (snd x) /\ (slot x < 2 ^ a)%nat) qs xs.

Lemma B_nn : 0 <= B.
Proof. destruct (Hcells 0%nat) as (v & _ & _ & N); [pose proof (Nat.pow_nonzero 2 a ltac:(lia)); lia|]. eapply near_nonneg; [exact Hn|exact N]. Qed.

(** The terms of one query. *)
Definition tmp_ok (x : rinfo) (t : list rlwe) : Prop :=
  length t = (2 ^ a)%nat /\ forall j c, nth_error t j = Some c -> wfc n c /\
    near n (phase n s c) (if (slot x =? j)%nat then wanted f j x else pzero) (EPL + if (slot x =? j)%nat then B + EPB else 0).
Lemma rw_task_ok qy x ls : request_ct Ed qy (slot x) (snd (fst x)) (snd x) -> sel_list (slot x) ls ->
  exists t, run (rw_task fft cx (2 ^ a) (qy, ls)) m = (Ok t, m) /\ tmp_ok x t.
Proof.
  intros Hq [Ll Hl]. unfold rw_task. cbn [fst snd].
  match goal with |- context [pmapM ?ff _] => destruct (run_pmapM_ro ff (fun j c => wfc n c /\
    near n (phase n s c) (if (slot x =? j)%nat then wanted f j x else pzero) (EPL + if (slot x =? j)%nat then B + EPB else 0)) (seq 0 (2 ^ a)) m) as (t & Et & HF) end.
  - intros j Hj. apply in_seq in Hj. destruct (Hcells j ltac:(lia)) as (v & Ev & Wv & Nv).
    rewrite (run_bind_ok _ _ _ _ _ (run_cell_buf 0 j m v Ev)).
    destruct (rw_ok cx lg k Hp fft eps Hf s S E HS neg_s Hnegb Hnegl a Ha Ed qy (slot x) (snd (fst x)) (snd x) v (f j) B Hq HEd Wv Nv) as (w & Ew & Ww & Nw).
    rewrite (run_lift_bind _ _ _ _ Ew), (run_bind_ok _ _ _ _ _ (run_buf_only m)).
    destruct (nth_error ls j) as [l|] eqn:El; [|apply nth_error_None in El; lia].
    assert (index ls j = Ok l) as Ei by (unfold index; rewrite El; reflexivity). rewrite (run_lift_bind _ _ _ _ Ei).
    eexists; split; [reflexivity|].
    destruct (ep_bit cx lg k Hp fft eps Hf s S HS EL l (j =? slot x)%nat (rlwe_allocate n) w (Hl j l El) (wfc_allocate n) Ww) as [We Ne].
    split; [exact We|]. fold EPL in Ne. rewrite (Nat.eqb_sym (slot x) j). destruct (j =? slot x)%nat.
    + eapply near_trans'; [exact Hn|exact Ne| |].
      * eapply near_eq_l; [|exact Nw]. rewrite (phase_allocate n Hn). ring.
      * unfold ep_sel. lia.
    + eapply near_weaken; [eapply near_eq_r; [|exact Ne]; rewrite (phase_allocate n Hn); ring|]. unfold ep_sel. lia.
  - exists t. split; [exact Et|]. split; [rewrite <- (Forall2_len2 _ _ _ HF), seq_length; reflexivity|].
    intros j c Hc. assert (j < 2 ^ a)%nat as Hj by (rewrite <- (seq_length (2 ^ a) 0), (Forall2_len2 _ _ _ HF); apply nth_error_Some; congruence).
    destruct (Forall2_nth2 _ _ _ j j HF) as (c' & Ec' & R).
    + rewrite (nth_error_nth' _ 0%nat) by (rewrite seq_length; exact Hj). now rewrite seq_nth by exact Hj.
    + rewrite Hc in Ec'. injection Ec' as <-. exact R.
Qed.

(** Sums over the queries. *)
Lemma hits_cons j x ys : hits j (x :: ys) = ((if (slot x =? j)%nat then 1 else 0) + hits j ys)%nat.
Proof. unfold hits. cbn [filter]. destruct (slot x =? j)%nat; reflexivity. Qed.
Lemma sum_tmps : forall ys ts acc (T : nat -> P) (N : nat -> Z), Forall2 tmp_ok ys ts -> length acc = (2 ^ a)%nat ->
  (forall j c, nth_error acc j = Some c -> wfc n c /\ near n (phase n s c) (T j) (N j)) ->
  length (fold_left rlwe_vec_add ts acc) = (2 ^ a)%nat /\
  forall j c, nth_error (fold_left rlwe_vec_add ts acc) j = Some c -> wfc n c /\
    near n (phase n s c) (padd (T j) (hitsum f j ys)) (N j + Z.of_nat (length ys) * EPL + Z.of_nat (hits j ys) * (B + EPB)).
Proof.
  induction ys as [|x ys IH]; intros ts acc T N HF Lacc Hacc; inversion HF as [|? t ? ts' [Lt Ht] HF']; subst; cbn [fold_left].
  - split; [exact Lacc|]. intros j c Hc. destruct (Hacc j c Hc) as [W Nr]. split; [exact W|]. cbn [hitsum length hits filter].
    eapply near_weaken; [eapply near_eq_r; [|exact Nr]; ring|]. lia.
  - destruct (IH ts' (rlwe_vec_add acc t) (fun j => padd (T j) (if (slot x =? j)%nat then wanted f j x else pzero))
       (fun j => N j + (EPL + if (slot x =? j)%nat then B + EPB else 0)) HF') as [L1 R1].
    + unfold rlwe_vec_add. rewrite map2_length; congruence.
    + intros j c Hc. apply map2_nth_error in Hc as (c1 & c2 & H1 & H2 & ->). destruct (Hacc j c1 H1) as [W1 N1]. destruct (Ht j c2 H2) as [W2 N2].
      split; [apply wfc_add; assumption|]. rewrite (phase_add n Hn s) by assumption. apply near_add; assumption.
    + split; [exact L1|]. intros j c Hc. destruct (R1 j c Hc) as [W Nr]. split; [exact W|]. cbn [hitsum length]. rewrite hits_cons.
      eapply near_weaken; [eapply near_eq_r; [|exact Nr]; ring|]. rewrite Nat2Z.inj_add, Nat2Z.inj_succ. destruct (slot x =? j)%nat; cbn [Z.of_nat Pos.of_succ_nat]; lia.
Qed.
Lemma sum_ls : forall ys lss acc (T : nat -> Z) (N : Z), Forall2 (fun x ls => sel_list (slot x) ls) ys lss -> length acc = (2 ^ a)%nat ->
  (forall j c, nth_error acc j = Some c -> cct N (T j) c) ->
  length (fold_left rgsw_vec_add lss acc) = (2 ^ a)%nat /\
  forall j c, nth_error (fold_left rgsw_vec_add lss acc) j = Some c -> cct (N + Z.of_nat (length ys) * EL) (T j + Z.of_nat (hits j ys)) c.
Proof.
  induction ys as [|x ys IH]; intros lss acc T N HF Lacc Hacc; inversion HF as [|? ls ? lss' [Lt Ht] HF']; subst; cbn [fold_left].
  - split; [exact Lacc|]. intros j c Hc. cbn [length hits filter]. replace (N + Z.of_nat 0 * EL) with N by lia. rewrite Z.add_0_r. apply Hacc; exact Hc.
  - destruct (IH lss' (rgsw_vec_add acc ls) (fun j => T j + b2z (j =? slot x)%nat) (N + EL) HF') as [L1 R1].
    + unfold rgsw_vec_add. rewrite map2_length; congruence.
    + intros j c Hc. apply map2_nth_error in Hc as (c1 & c2 & H1 & H2 & ->). destruct (Hacc j c1 H1) as (R & Gb & Gl). destruct (Ht j c2 H2) as (R' & Gb' & Gl').
      split; [|split; assumption]. eapply rgsw_encrypts_eq; [exact Hn| |eapply (rgsw_add_C18 n Hn); [exact R|exact R'|congruence|congruence]].
      intros [|z] _; apply eq_eqm; unfold padd, pcst; clear; lia.
    + split; [exact L1|]. intros j c Hc. specialize (R1 j c Hc). cbn [length]. rewrite hits_cons.
      replace (T j + Z.of_nat ((if (slot x =? j)%nat then 1 else 0) + hits j ys)) with (T j + b2z (j =? slot x)%nat + Z.of_nat (hits j ys))
        by (rewrite (Nat.eqb_sym j), Nat2Z.inj_add; destruct (slot x =? j)%nat; cbn [b2z Z.of_nat Pos.of_succ_nat]; lia).
      replace (N + Z.of_nat (Datatypes.S (length ys)) * EL) with (N + EL + Z.of_nat (length ys) * EL) by lia. exact R1.
Qed.
Lemma allocate_zero : cct 0 0 (rgsw_allocate n (c_base cx) (c_level cx)).
Proof.
  pose proof Hp as (_ & _ & _ & Hd & _). split; [|split; reflexivity]. split.
  - split; [exact Hd|]. cbn [rgsw_allocate g_rows g_level]. split; [apply repeat_length|]. apply Forall_forall. intros c Hc. apply repeat_spec in Hc. subst c. apply wfc_allocate.
  - intros i Hi. unfold row0, row1. cbn [rgsw_allocate g_rows g_level g_base] in *.
    assert (forall t, (t < 2 * c_level cx)%nat -> nth t (repeat (rlwe_allocate n) (2 * c_level cx)) {| mask := []; body := [] |} = rlwe_allocate n) as Hr.
    { intros t Ht. rewrite (nth_indep _ _ (rlwe_allocate n)) by (rewrite repeat_length; exact Ht). apply nth_repeat. }
    rewrite !Hr by lia. split; apply near_refl; rewrite (phase_allocate n Hn), (pcst_0 n); ring.
Qed.

(** The new content of column [j], for any requests. *)
Definition merged (j : nat) : P := padd (f j) (pmul n (pcst (Z.of_nat (hits j xs))) (psub (hitsum f j xs) (f j))).
Definition merged_noise (j : nat) : Z :=
  Z.abs (1 - Z.of_nat (hits j xs)) * B
  + Z.of_nat (hits j xs) * (Z.of_nat (length xs) * EPL + Z.of_nat (hits j xs) * (B + EPB))
  + ep_bound n (c_base cx) (c_level cx) S (Z.of_nat (hits j xs)) (Z.of_nat (length xs) * EL) eps.

Lemma merge_task_ok sl st mm j v : cct (Z.of_nat (length xs) * EL) (Z.of_nat (hits j xs)) sl -> wfc n st ->
  near n (phase n s st) (hitsum f j xs) (Z.of_nat (length xs) * EPL + Z.of_nat (hits j xs) * (B + EPB)) ->
  mget mm 0 j = Some v -> wfc n v -> near n (phase n s v) (f j) B ->
  exists c, cmux fft sl v st = Ok c /\ wfc n c /\ near n (phase n s c) (merged j) (merged_noise j).
Proof.
  intros (R & Gb & Gl) Wt Nt Ev Wv Nv. set (L := Z.of_nat (hits j xs)) in *.
  destruct (cmux_phase n Hn fft eps sl v st s (pcst L) (Z.of_nat (length xs) * EL) S (Z.abs L)) as (c & Ec & Wc & Nc); try eassumption.
  { unfold Dg. rewrite Gb, Gl. apply (fft_base cx fft eps Hf). }
  { apply (l1_pcst n Hn). }
  exists c. split; [exact Ec|]. split; [exact Wc|]. rewrite Gb, Gl in Nc. replace (Z.abs L) with L in Nc by (unfold L; lia).
  eapply near_trans'; [exact Hn|exact Nc| |].
  - eapply near_eq_l; [|eapply near_eq_r; [|eapply near_add; [exact Hn|eapply (near_mul_l1 n Hn (pcst (1 - L))); [apply (l1_pcst n Hn)|exact Nv]|eapply (near_mul_l1 n Hn (pcst L)); [apply (l1_pcst n Hn)|exact Nt]]]].
    + assert (peq n (pcst (1 - L)) (psub (pcst 1) (pcst L))) as -> by (intros [|z] _; cbn; apply eq_eqm; lia). ring.
    + unfold merged. fold L. assert (peq n (pcst (1 - L)) (psub (pcst 1) (pcst L))) as -> by (intros [|z] _; cbn; apply eq_eqm; lia). ring.
  - unfold merged_noise. fold L. replace (Z.abs L) with L by (unfold L; lia). lia.
Qed.

Lemma process_multi_ok pool : spread pool (length qs) -> exists ys m', srun (process_multi pool fft cx neg_s qs) m = (Ok ys, m') /\
  Forall2 (fun x y => answer (f (slot x)) B y) xs ys /\ shape m' = shape m /\
  (forall j, (j < 2 ^ a)%nat -> cnear m' 0 j (merged j) (merged_noise j)) /\
  forall r c, r <> 0%nat -> mget m' r c = mget m r c.
Proof.
  intros Hpool. unfold process_multi. rewrite (on_worker_spread _ _ Hpool). cbn [tid]. rewrite (srun_bind_ok _ _ _ _ _ (eq_trans (srun_sone _ _) (run_row_len 0 m _ Hlen))), (on_worker_pow a Ha). cbn [tid].
  (* answers and selections *)
  assert (exists yls, run (pmapM (fun qy => process_one_st fft cx neg_s qy 0) qs) m = (Ok yls, m) /\
    Forall2 (fun x yl => answer (f (slot x)) B (fst yl) /\ sel_list (slot x) (snd yl)) xs yls) as (yls & Ey & Hy).
  { clear - Hqs Hlen Hcells Hp Hf HS Hneg Hnegb Hnegl Ha. revert xs Hqs. induction qs as [|qy qs0 IH]; intros [|x xs0] HF; inversion HF as [|? ? ? ? [Hq Hi] HF']; subst.
    - exists []. split; [reflexivity|constructor].
    - destruct (process_one_st_ok cx lg k Hp fft eps Hf s S E HS neg_s Hneg Hnegb Hnegl a Ha m 0 f B Hlen Hcells qy (slot x) (proj1 Hq) Hi) as (y & ls & E1 & Hy & Hls).
      destruct (IH xs0 HF') as (yls & E2 & HF2). exists ((y, ls) :: yls). cbn [pmapM].
      rewrite (run_bind_ok _ _ _ _ _ E1), (run_bind_ok _ _ _ _ _ E2). split; [reflexivity|]. constructor; [split; assumption|exact HF2]. }
  rewrite (srun_bind_ok _ _ _ _ _ (eq_trans (srun_spar _ _ _) Ey)). cbv zeta.
  assert (exists ts, run (pmapM (rw_task fft cx (2 ^ a)) (combine qs (map snd yls))) m = (Ok ts, m) /\ Forall2 tmp_ok xs ts) as (ts & Et & Ht).
  { assert (forall qs0 xs0 yls0, Forall2 (fun qy x => request_ct Ed qy (slot x) (snd (fst x)) (snd x) /\ (slot x < 2 ^ a)%nat) qs0 xs0 ->
       Forall2 (fun x yl => answer (f (slot x)) B (fst yl) /\ sel_list (slot x) (snd yl)) xs0 yls0 ->
       exists ts, run (pmapM (rw_task fft cx (2 ^ a)) (combine qs0 (map snd yls0))) m = (Ok ts, m) /\ Forall2 tmp_ok xs0 ts) as Gen; [|exact (Gen qs xs yls Hqs Hy)].
    induction qs0 as [|qy qs0 IH]; intros [|x xs0] yls0 HF HY; inversion HF as [|? ? ? ? [Hq Hi] HF']; subst; inversion HY as [|? yl ? ? [_ Hls] HY']; subst.
    - exists []. split; [reflexivity|constructor].
    - destruct (rw_task_ok qy x (snd yl) Hq Hls) as (t & E1 & T1). destruct (IH _ _ HF' HY') as (ts & E2 & T2). exists (t :: ts). cbn [map combine pmapM].
      rewrite (run_bind_ok _ _ _ _ _ E1), (run_bind_ok _ _ _ _ _ E2). split; [reflexivity|]. constructor; assumption. }
  rewrite (srun_bind_ok _ _ _ _ _ (eq_trans (srun_spar _ _ _) Et)). cbn [sreduce sbind srun].
  rewrite !reduce_left_all by reflexivity.
  destruct (sum_tmps xs ts (repeat (rlwe_allocate n) (2 ^ a)) (fun _ => pzero) (fun _ => 0) Ht (repeat_length _ _)) as [Lt Rt].
  { intros j c Hc. apply nth_error_In, repeat_spec in Hc. subst c. split; [apply wfc_allocate|]. apply near_refl, (phase_allocate n Hn). }
  destruct (sum_ls xs (map snd yls) (repeat (rgsw_allocate n (c_base cx) (c_level cx)) (2 ^ a)) (fun _ => 0) 0) as [Ls Rs].
  { clear - Hy. induction Hy as [|x yl xs0 yls0 [_ H] Hy IH]; cbn [map]; constructor; assumption. }
  { apply repeat_length. }
  { intros j c Hc. apply nth_error_In, repeat_spec in Hc. subst c. apply allocate_zero. }
  set (st := fold_left rlwe_vec_add ts _) in *. set (sl := fold_left rgsw_vec_add (map snd yls) _) in *. clearbody st sl.
  assert (exists us m', run (pmapM (merge_task fft sl st) (seq 0 (2 ^ a))) m = (Ok us, m') /\ shape m' = shape m /\
    (forall j, (j < 2 ^ a)%nat -> cnear m' 0 j (merged j) (merged_noise j)) /\ forall r c, r <> 0%nat -> mget m' r c = mget m r c) as (us & m' & Eu & Hs & Hm & Hun).
  { destruct (run_pmapM_foot (fun j r c => r = 0%nat /\ c = j) (fun j (_ : unit) mm => cnear mm 0 j (merged j) (merged_noise j)) (merge_task fft sl st) (seq 0 (2 ^ a)) m) as (us & m' & Er & Hs & HF & Hun).
    - intros i1 i2 x y r c H1 H2 [-> ->] [_ Hxy]. apply nth_error_seq in H1, H2. lia.
    - intros x _ mm mm' (v & Ev & Hv) Hag. exists v. split; [rewrite <- Hag; [exact Ev|auto]|exact Hv].
    - intros j mm Hin Hs Hag. apply in_seq in Hin. destruct (Hcells j ltac:(lia)) as (v & Ev & Wv & Nv).
      assert (mget mm 0 j = Some v) as Ev' by (rewrite Hag; [exact Ev|auto]).
      destruct (nth_error sl j) as [l|] eqn:El; [|apply nth_error_None in El; lia]. destruct (nth_error st j) as [t|] eqn:Etj; [|apply nth_error_None in Etj; lia].
      destruct (Rt j t Etj) as [Wt Nt]. pose proof (Rs j l El) as Hl.
      destruct (merge_task_ok l t mm j v) as (c & Ec & Wc & Nc); try assumption.
      exists tt, (mset mm 0 j c). unfold merge_task. rewrite (run_bind_ok _ _ _ _ _ (run_cell_buf 0 j mm v Ev')).
      assert ((l <- index sl j ;; tmp <- index st j ;; cmux fft l v tmp) = Ok c) as E1 by (unfold index; rewrite El, Etj; exact Ec).
      rewrite (run_lift_bind _ _ _ _ E1). split; [apply (run_put 0 j c mm v Ev')|]. split.
      + intros r c' Hnf. rewrite mget_mset. destruct (Nat.eqb_spec 0 r), (Nat.eqb_spec j c'); cbn; try reflexivity. exfalso. apply Hnf. auto.
      + exists c. rewrite mget_mset, !Nat.eqb_refl. cbn. rewrite Ev'. split; [reflexivity|]. split; assumption.
    - exists us, m'. split; [exact Er|]. split; [exact Hs|]. split.
      + intros j Hj. destruct (Forall2_nth2 _ _ _ j j HF) as (u & _ & Hu); [|exact Hu].
        rewrite (nth_error_nth' _ 0%nat) by (rewrite seq_length; exact Hj). now rewrite seq_nth by exact Hj.
      + intros r c Hr. apply Hun. intros x _ [H _]. contradiction. }
  rewrite (srun_bind_ok _ _ _ _ _ (eq_trans (srun_spar _ _ _) Eu)). exists (map fst yls), m'. split; [reflexivity|]. split; [|split; [exact Hs|split; assumption]].
  clear - Hy. induction Hy as [|x yl xs0 yls0 [H _] Hy IH]; cbn [map]; constructor; assumption.
Qed.
End Multi.
End Or.

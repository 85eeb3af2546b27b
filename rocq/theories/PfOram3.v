(** * Updates: process_one and process_multi *)
From Coq Require Import Setoid Morphisms Ring.
From Verif Require Import MBase MUtils MCodec MPoly MRlwe MHash MTree MEncTree MSched MOram SpecOram PolyRing PfPoly PfNear PfRlwe PfRlwe2 PfRlwe3
  PfRlwe5 PfCodec LRlwe LKeys PfEnc PfEnc2 PfEnc3 PfEnc4 LEnc PfSched PfOram1 PfOram2.
Local Open Scope Z_scope.

Section Or.
Variable cx : ctx.
Variables (lg : nat) (k : Z).
Hypothesis Hp : params_ok cx lg k.
Notation n := (c_n cx).
Let Hn : (0 < n)%nat := params_n cx lg k Hp.
Add Ring Pring : (P_ring n Hn) (setoid (peq_equiv n) (P_ext n)).
Variable fft : fftT.
Variable eps : Z.
Hypothesis Hf : fft_for cx fft eps.
Variable s : poly.
Variables S E : Z.
Hypothesis HS : l1 n (tof s) S.
Variable neg_s : rgsw.
Hypothesis Hneg : rgsw_encrypts n s neg_s (popp (tof s)) E.
Hypothesis Hnegb : g_base neg_s = c_base cx.
Hypothesis Hnegl : g_level neg_s = c_negs_level cx.
Variable a : nat.
Hypothesis Ha : (1 <= a)%nat.
Notation EPB := (ep_fresh cx S E eps).
Notation EL := (sel_noise cx a S E eps).
Notation EPL := (ep_sel cx a S E eps).
Notation G := (growth cx a S E eps).
Notation cct := (const_ct n s (c_base cx) (c_level cx)).
Notation selects := (selects cx s E a).
Notation cnear := (cnear cx s).
Notation sel_list := (sel_list cx eps s S E a).
Notation answer := (answer cx eps s S E a).

(** A query: slot [i], operation [o] (true for a write), data near [d]. *)
Definition request_ct (Ed : Z) (qy : query) (i : nat) (o : bool) (d : P) : Prop :=
  selects qy i /\ cct E (b2z o) (q_op qy) /\ wfc n (q_data qy) /\ near n (phase n s (q_data qy)) d Ed.

Lemma rw_ok Ed qy i o d v f B : request_ct Ed qy i o d -> Ed <= B -> wfc n v -> near n (phase n s v) f B ->
  exists t, rw fft (q_op qy) (q_data qy) v = Ok t /\ wfc n t /\ near n (phase n s t) (if o then d else f) (B + EPB).
Proof.
  intros (_ & Ho & Wd & Nd) HE Wv Nv. unfold rw.
  destruct (cmux_bit cx lg k Hp fft eps Hf s S HS E (q_op qy) o v (q_data qy) Ho Wv Wd) as (t & Et & Wt & Nt).
  exists t. split; [exact Et|]. split; [exact Wt|]. fold EPB in Nt. destruct o.
  - eapply near_trans'; [exact Hn|exact Nt|exact Nd|]. unfold ep_fresh; lia.
  - eapply near_trans'; [exact Hn|exact Nt|exact Nv|]. unfold ep_fresh; lia.
Qed.

(** One cell of an update. *)
Lemma update_task_ok Ed qy i o d r j b l m f B : request_ct Ed qy i o d -> Ed <= B -> cct EL (b2z b) l -> cnear m r j f B ->
  exists v', run (update_task fft cx qy r (j, l)) m = (Ok tt, mset m r j v') /\ wfc n v' /\
    near n (phase n s v') (if b && o then d else f) (B + G).
Proof.
  intros Hq HE Hl (v & Ev & Wv & Nv). unfold update_task. cbn [fst snd].
  rewrite (run_bind_ok _ _ _ _ _ (run_cell_buf r j m v Ev)).
  destruct (rw_ok Ed qy i o d v f B Hq HE Wv Nv) as (t & Et & Wt & Nt). rewrite (run_lift_bind _ _ _ _ Et).
  rewrite (run_bind_ok _ _ _ _ _ (run_cell_buf r j m v Ev)).
  destruct (cmux_bit cx lg k Hp fft eps Hf s S HS EL l b v t Hl Wv Wt) as (c & Ec & Wc & Nc). rewrite (run_lift_bind _ _ _ _ Ec).
  rewrite (run_put r j c m v Ev). exists c. split; [reflexivity|]. split; [exact Wc|].
  pose proof (EPB_nonneg cx lg k Hp fft eps Hf s S E HS neg_s Hneg Hnegb Hnegl a Ha) as K1.
  pose proof (near_nonneg n Hn _ _ _ Nv) as K2.
  fold EPL in Nc. destruct b; cbn [andb].
  - eapply near_trans'; [exact Hn|exact Nc|exact Nt|]. unfold growth, ep_sel. lia.
  - eapply near_trans'; [exact Hn|exact Nc|exact Nv|]. unfold growth, ep_sel. lia.
Qed.

(** Changes to one row. *)
Definition row_updated (m m' : mem) (r : nat) (g : nat -> P) (B : Z) : Prop :=
  shape m' = shape m /\ (forall c, (c < 2 ^ a)%nat -> cnear m' r c (g c) B) /\
  forall r' c, r' <> r -> mget m' r' c = mget m r' c.

Section Upd.
Variables (m : mem) (r : nat) (f : nat -> P) (B Ed : Z).
Hypothesis Hlen : mlen m r = Some (2 ^ a)%nat.
Hypothesis Hcells : forall c, (c < 2 ^ a)%nat -> cnear m r c (f c) B.
Variable qy : query.
Variables (i : nat) (o : bool) (d : P).
Hypothesis Hq : request_ct Ed qy i o d.
Hypothesis HEd : Ed <= B.
Variable ls : list rgsw.
Hypothesis Hls : sel_list i ls.

Notation g := (fun j => if ((j =? i)%nat && o)%bool then d else f j).
Lemma upd_loop {A} (tsk : A -> prog unit) (pos : A -> nat) (l : list A) : map pos l = seq 0 (2 ^ a) ->
  (forall x mm, In x l -> exists lj, nth_error ls (pos x) = Some lj /\ run (tsk x) mm = run (update_task fft cx qy r (pos x, lj)) mm) ->
  exists us m', run (pmapM tsk l) m = (Ok us, m') /\ row_updated m m' r g (B + G).
Proof.
  intros Hpos Htsk.
  destruct (run_pmapM_foot (fun x r' c' => r' = r /\ c' = pos x) (fun x (_ : unit) mm => cnear mm r (pos x) (g (pos x)) (B + G)) tsk l m) as (us & m' & Er & Hs & HF & Hun).
  - intros i1 i2 x y r' c' H1 H2 [-> ->] [_ Hxy].
    assert (NoDup (map pos l)) as Hnd by (rewrite Hpos; apply seq_NoDup).
    rewrite NoDup_nth_error in Hnd. apply Hnd; [rewrite map_length; apply nth_error_Some; congruence|].
    rewrite !nth_error_map, H1, H2. cbn. congruence.
  - intros x _ mm mm' (v & Ev & Hv) Hag. exists v. split; [rewrite <- Hag; [exact Ev|auto]|exact Hv].
  - intros x mm Hin Hs Hag. destruct (Htsk x mm Hin) as (lj & Hlj & ->).
    assert (pos x < 2 ^ a)%nat as Hx by (assert (In (pos x) (map pos l)) as H by (apply in_map; exact Hin); rewrite Hpos in H; apply in_seq in H; lia).
    assert (cnear mm r (pos x) (f (pos x)) B) as Hc.
    { destruct (Hcells _ Hx) as (v & Ev & Hv). exists v. split; [rewrite Hag; [exact Ev|auto]|exact Hv]. }
    destruct Hls as [_ Hls']. pose proof (Hls' _ _ Hlj) as Hl. cbv beta in *.
    destruct (update_task_ok Ed qy i o d r (pos x) (pos x =? i)%nat lj mm (f (pos x)) B Hq HEd Hl Hc) as (v' & Ev' & Wv' & Nv').
    exists tt, (mset mm r (pos x) v'). split; [exact Ev'|]. split.
    + intros r' c' Hnf. rewrite mget_mset. destruct (Nat.eqb_spec r r'), (Nat.eqb_spec (pos x) c'); cbn; try reflexivity. exfalso. apply Hnf. auto.
    + destruct Hc as (v & Ev & _). exists v'. rewrite mget_mset, !Nat.eqb_refl. cbn. rewrite Ev. split; [reflexivity|]. split; [exact Wv'|exact Nv'].
  - exists us, m'. split; [exact Er|]. split; [exact Hs|]. split.
    + intros c Hc. assert (In c (map pos l)) as Hin by (rewrite Hpos; apply in_seq; lia). apply in_map_iff in Hin as (x & <- & Hx).
      apply In_nth_error in Hx as (t & Ht). destruct (Forall2_nth2 _ _ _ _ _ HF Ht) as (u & _ & Hu). exact Hu.
    + intros r' c Hne. apply Hun. intros x _ [Hr _]. contradiction.
Qed.
Lemma map_fst_combine {A C} (l : list A) (l' : list C) : length l = length l' -> map fst (combine l l') = l.
Proof. revert l'; induction l as [|x l IH]; intros [|y l'] H; cbn in *; try discriminate; [reflexivity|]. f_equal. apply IH. congruence. Qed.
Lemma update_db_mt_ok pool : exists m', srun (update_db_mt pool fft cx qy r ls) m = (Ok tt, m') /\ row_updated m m' r g (B + G).
Proof.
  unfold update_db_mt. rewrite (srun_bind_ok _ _ _ _ _ (eq_trans (srun_sone _ _) (run_row_len r m _ Hlen))). rewrite (on_worker_pow a Ha). cbn [tid].
  pose proof Hls as [Ll _].
  destruct (upd_loop (update_task fft cx qy r) fst (combine (seq 0 (2 ^ a)) ls)) as (us & m' & Er & Hu).
  - apply map_fst_combine. rewrite seq_length. congruence.
  - intros [j l] mm Hin. cbn [fst]. exists l. split; [|reflexivity]. apply In_nth_error in Hin as (t & Ht).
    assert (t < 2 ^ a)%nat as Hlt. { assert (t < length (combine (seq 0 (2 ^ a)) ls))%nat by (apply nth_error_Some; congruence). rewrite combine_length, seq_length in H. lia. }
    rewrite (nth_error_nth' _ (0%nat, l)) in Ht by (rewrite combine_length, seq_length; lia).
    rewrite combine_nth in Ht by (rewrite seq_length; congruence). injection Ht as Hj Hl. rewrite seq_nth in Hj by exact Hlt. cbn in Hj. subst j.
    rewrite <- Hl. apply nth_error_nth'. lia.
  - rewrite (srun_bind_ok _ _ _ _ _ (eq_trans (srun_spar _ _ _) Er)). exists m'. split; [reflexivity|exact Hu].
Qed.
Lemma update_db_st_ok : exists m', run (update_db_st fft cx qy r ls) m = (Ok tt, m') /\ row_updated m m' r g (B + G).
Proof.
  unfold update_db_st. rewrite (run_bind_ok _ _ _ _ _ (run_row_len r m _ Hlen)). pose proof Hls as [Ll _].
  destruct (upd_loop (fun j => l <-- plift (index ls j) ;;; update_task fft cx qy r (j, l)) (fun j => j) (seq 0 (2 ^ a))) as (us & m' & Er & Hu).
  - apply map_id.
  - intros j mm Hin. apply in_seq in Hin. destruct (nth_error ls j) as [l|] eqn:El; [|apply nth_error_None in El; lia].
    exists l. split; [reflexivity|]. unfold index. rewrite El. reflexivity.
  - rewrite (run_bind_ok _ _ _ _ _ Er). exists m'. split; [reflexivity|exact Hu].
Qed.
End Upd.

(** [process_one]. *)
Lemma process_one_ok pool m f B Ed qy i o d : mlen m 0 = Some (2 ^ a)%nat -> (forall c, (c < 2 ^ a)%nat -> cnear m 0 c (f c) B) ->
  request_ct Ed qy i o d -> Ed <= B -> (i < 2 ^ a)%nat -> spread pool (c_level cx) ->
  exists y m', srun (process_one pool fft cx neg_s qy) m = (Ok y, m') /\ answer (f i) B y /\
    row_updated m m' 0 (fun j => if ((j =? i)%nat && o)%bool then d else f j) (B + G).
Proof.
  intros Hlen Hc Hq HE Hi Hpool. pose proof Hq as (Hsel & _). unfold process_one.
  destruct (process_one_mt_ok cx lg k Hp fft eps Hf s S E HS neg_s Hneg Hnegb Hnegl a Ha m 0 f B Hlen Hc qy i Hsel Hi pool Hpool) as (y & ls & E1 & Hy & Hls).
  rewrite (srun_bind_ok _ _ _ _ _ E1). cbn [fst snd].
  destruct (update_db_mt_ok m 0 f B Ed Hlen Hc qy i o d Hq HE ls Hls pool) as (m' & E2 & Hu).
  rewrite (srun_bind_ok _ _ _ _ _ E2). exists y, m'. split; [reflexivity|]. split; assumption.
Qed.
End Or.

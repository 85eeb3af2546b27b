(** * process_batch *)
From Coq Require Import Setoid Morphisms Ring Permutation.
From Verif Require Import MBase MUtils MCodec MPoly MRlwe MHash MTree MEncTree MSched MOram SpecOram PolyRing PfPoly PfNear PfRlwe PfRlwe2 PfRlwe3
  PfRlwe5 PfCodec LRlwe LKeys PfEnc PfEnc2 PfEnc3 PfEnc4 LEnc PfHash PfSched PfOram1 PfOram2 PfOram3 PfOram4 PfOram5 PfOram8.
Local Open Scope Z_scope.

Lemma nth_error_combine {A B} (l1 : list A) (l2 : list B) i x y :
  nth_error (combine l1 l2) i = Some (x, y) <-> nth_error l1 i = Some x /\ nth_error l2 i = Some y.
Proof.
  revert l2 i; induction l1 as [|u l1 IH]; intros [|v l2] [|i]; cbn; try (split; [intros H|intros [H H']]; discriminate).
  - split; [intros H; injection H as -> ->; auto|intros [H H']; congruence].
  - apply IH.
Qed.
Lemma nth_error_seq0 len i : (i < len)%nat -> nth_error (seq 0 len) i = Some i.
Proof. intros H. rewrite (nth_error_nth' _ 0%nat) by (rewrite seq_length; exact H). now rewrite seq_nth by exact H. Qed.

Section Or.
Variable cx : ctx.
Variables (lg : nat) (k : Z).
Hypothesis Hp : params_ok cx lg k.
Notation n := (c_n cx).
Let Hn : (0 < n)%nat := params_n cx lg k Hp.
Add Ring Pring : (P_ring n Hn) (setoid (peq_equiv n) (P_ext n)).
Variable fft : fftT.
Variable eps : Z.
Hypothesis Hf : fft_for cx fft eps.
Variable s : poly.
Variables S E : Z.
Hypothesis HS : l1 n (tof s) S.
Variable neg_s : rgsw.
Hypothesis Hneg : rgsw_encrypts n s neg_s (popp (tof s)) E.
Hypothesis Hnegb : g_base neg_s = c_base cx.
Hypothesis Hnegl : g_level neg_s = c_negs_level cx.
Variable a : nat.
Hypothesis Ha : (1 <= a)%nat.
Notation EPB := (ep_fresh cx S E eps).
Notation EL := (sel_noise cx a S E eps).
Notation EPL := (ep_sel cx a S E eps).
Notation G := (growth cx a S E eps).
Notation cct := (const_ct n s (c_base cx) (c_level cx)).
Notation selects := (selects cx s E a).
Notation cnear := (cnear cx s).
Notation sel_list := (sel_list cx eps s S E a).
Notation answer := (answer cx eps s S E a).
Notation request_ct := (request_ct cx s E a).
Variable shuffle : list nat -> list nat.
Hypothesis shuffle_perm : forall l, Permutation (shuffle l) l.
Variables (hc dom : nat) (nh : nhash).
Hypothesis Hnew : nh_new shuffle hc dom = Ok nh.
Variable rows : nat.
Hypothesis Hdim : (rows * 2 ^ a = hc * dom)%nat.
Hypothesis Hrows : (0 < rows)%nat.

(** Position of copy [h] of item [i]. *)
Definition posn (h i : nat) : nat * nat := match hash_to_tuple nh h i (2 ^ a) with Ok p => p | Panic _ => (0%nat, 0%nat) end.
Lemma posn_ok h i : (h < hc)%nat -> (i < dom)%nat ->
  hash_to_tuple nh h i (2 ^ a) = Ok (posn h i) /\ (fst (posn h i) < rows)%nat /\ (snd (posn h i) < 2 ^ a)%nat.
Proof.
  intros Hh Hi. destruct (tuple_in rows (2 ^ a) shuffle shuffle_perm hc dom nh Hnew Hdim h i Hh Hi) as (r & c & Et & Hr & Hc).
  unfold posn. rewrite Et. auto.
Qed.
Lemma pow2_pos_nat : (0 < 2 ^ a)%nat.
Proof. clear. pose proof (Nat.pow_nonzero 2 a ltac:(lia)). lia. Qed.
Lemma posn_inj h i h' i' : (h < hc)%nat -> (i < dom)%nat -> (h' < hc)%nat -> (i' < dom)%nat -> posn h i = posn h' i' -> h = h' /\ i = i'.
Proof.
  intros H1 H2 H3 H4 He. destruct (posn_ok h i H1 H2) as [E1 _], (posn_ok h' i' H3 H4) as [E2 _]. rewrite <- He in E2.
  destruct (posn h i) as [r c]. exact (tuple_inj shuffle shuffle_perm hc dom nh Hnew h i h' i' (2 ^ a) r c H1 H2 H3 H4 pow2_pos_nat E1 E2).
Qed.

Variables (m : mem) (f : nat -> nat -> P) (B Ed : Z).
Hypothesis Hshape : shape m = repeat (2 ^ a)%nat rows.
Hypothesis Hcells : forall r c, (r < rows)%nat -> (c < 2 ^ a)%nat -> cnear m r c (f r c) B.
Hypothesis HEd : Ed <= B.
Variable qs : list query.
Variables (sl : nat -> nat) (o : nat -> bool) (d : nat -> P).
Hypothesis Lqs : length qs = rows.
Hypothesis Hqs : forall r qy, nth_error qs r = Some qy -> request_ct Ed qy (sl r) (o r) (d r).
Hypothesis Hsl : forall r, (r < rows)%nat -> (sl r < 2 ^ a)%nat.

Lemma shape_mlen mm r : shape mm = repeat (2 ^ a)%nat rows -> (r < rows)%nat -> mlen mm r = Some (2 ^ a)%nat.
Proof.
  intros Hs Hr. unfold mlen. transitivity (nth_error (shape mm) r); [unfold shape; now rewrite nth_error_map|]. rewrite Hs.
  rewrite (nth_error_nth' _ (2 ^ a)%nat) by (rewrite repeat_length; exact Hr). f_equal. apply nth_repeat.
Qed.

(** Content after the row updates. *)
Notation ht := (hit sl o).
Definition upd_val (p : nat * nat) : P := if ht p then d (fst p) else f (fst p) (snd p).
(** Content of all copies of item [i] after the consistency correction. *)
Definition item_val (i : nat) : P :=
  padd (upd_val (posn 0 i)) (lsum (map (fun h => if ht (posn h i) then psub (upd_val (posn h i)) (upd_val (posn 0 i)) else pzero) (seq 1 (hc - 1)))).
Definition item_hits (i : nat) : nat := length (filter (fun h => ht (posn h i)) (seq 1 (hc - 1))).
Definition item_noise (i : nat) : Z :=
  (Z.abs (1 - Z.of_nat (item_hits i)) + Z.of_nat (item_hits i)) * (B + G) + 2 * Z.of_nat (hc - 1) * G.

Lemma near_hits (x y : nat -> P) (t : nat -> bool) N l :
  (forall h, In h l -> near n (x h) (y h) N) ->
  near n (lsum (map (fun h => if t h then x h else pzero) l)) (lsum (map (fun h => if t h then y h else pzero) l)) (Z.of_nat (length (filter t l)) * N).
Proof.
  induction l as [|h l IH]; intros H; cbn [map lsum fold_right filter length].
  - apply near_refl. reflexivity.
  - specialize (IH (fun h' Hin => H h' (or_intror Hin))). fold (lsum (map (fun h => if t h then x h else pzero) l)) (lsum (map (fun h => if t h then y h else pzero) l)).
    destruct (t h); cbn [length].
    + eapply near_weaken; [apply near_add; [exact Hn|apply H; left; reflexivity|exact IH]|]. lia.
    + eapply near_weaken; [eapply near_eq_l; [|eapply near_eq_r; [|exact IH]]; ring|]. lia.
Qed.
Lemma lsum_split (x : nat -> P) (x0 : P) (t : nat -> bool) l :
  peq n (lsum (map (fun h => if t h then psub (x h) x0 else pzero) l))
    (psub (lsum (map (fun h => if t h then x h else pzero) l)) (pmul n (pcst (Z.of_nat (length (filter t l)))) x0)).
Proof.
  induction l as [|h l IH]; cbn [map lsum fold_right filter length].
  - rewrite (pcst_0 n). ring.
  - fold (lsum (map (fun h => if t h then psub (x h) x0 else pzero) l)) (lsum (map (fun h => if t h then x h else pzero) l)). rewrite IH.
    destruct (t h); cbn [length]; [|ring].
    assert (peq n (pcst (Z.of_nat (Datatypes.S (length (filter t l))))) (padd (pcst 1) (pcst (Z.of_nat (length (filter t l)))))) as ->; [|ring].
    intros [|z] _; apply eq_eqm; unfold padd, pcst; clear; lia.
Qed.
Lemma near_combo (x y : nat -> P) x0 y0 (t : nat -> bool) N l : near n x0 y0 N -> (forall h, In h l -> near n (x h) (y h) N) ->
  near n (padd x0 (lsum (map (fun h => if t h then psub (x h) x0 else pzero) l)))
    (padd y0 (lsum (map (fun h => if t h then psub (y h) y0 else pzero) l)))
    ((Z.abs (1 - Z.of_nat (length (filter t l))) + Z.of_nat (length (filter t l))) * N).
Proof.
  intros H0 Hl. rewrite !lsum_split. set (L := Z.of_nat (length (filter t l))).
  eapply near_weaken; [eapply near_eq_l; [|eapply near_eq_r; [|eapply near_add; [exact Hn|eapply (near_mul_l1 n Hn (pcst (1 - L))); [apply (l1_pcst n Hn)|exact H0]|apply (near_hits x y t N l Hl)]]]|].
  - assert (peq n (pcst (1 - L)) (psub (pcst 1) (pcst L))) as -> by (intros [|z] _; cbn; apply eq_eqm; lia). ring.
  - assert (peq n (pcst (1 - L)) (psub (pcst 1) (pcst L))) as -> by (intros [|z] _; cbn; apply eq_eqm; lia). ring.
  - fold L. lia.
Qed.

Lemma process_batch_ok pool : spread pool rows -> spread pool dom -> exists ys m', srun (process_batch pool fft cx neg_s rows qs nh) m = (Ok ys, m') /\
  length ys = rows /\ (forall r y, nth_error ys r = Some y -> answer (f r (sl r)) B y) /\ shape m' = shape m /\
  forall h i, (h < hc)%nat -> (i < dom)%nat -> cnear m' (fst (posn h i)) (snd (posn h i)) (item_val i) (item_noise i).
Proof.
  intros Hpr Hpd. destruct (nh_fields shuffle hc dom nh Hnew) as (H0 & Hh & _).
  unfold process_batch. rewrite Lqs, Nat.eqb_refl, (on_worker_spread _ _ Hpr). cbn [rassert slift sbind tid].
  (* answers and selections *)
  destruct (run_pmapM_ro (fun qr => process_one_st fft cx neg_s (fst qr) (snd qr))
     (fun qr yl => answer (f (snd qr) (sl (snd qr))) B (fst yl) /\ sel_list (sl (snd qr)) (snd yl)) (combine qs (seq 0 rows)) m) as (yls & Ey & Hy).
  { intros [qy r] Hin. cbn [fst snd]. apply In_nth_error in Hin as (r' & Hr'). apply nth_error_combine in Hr' as [Hq' Hr'].
    apply nth_error_seq in Hr' as [-> Hr]. rewrite Nat.add_0_l in *. 
    destruct (process_one_st_ok cx lg k Hp fft eps Hf s S E HS neg_s Hneg Hnegb Hnegl a Ha m r' (f r') B (shape_mlen m r' Hshape Hr)
       (fun c Hc => Hcells r' c Hr Hc) qy (sl r') (proj1 (Hqs r' qy Hq')) (Hsl r' Hr)) as (y & ls & E1 & Hy & Hls).
    exists (y, ls). split; [exact E1|]. split; assumption. }
  rewrite (srun_bind_ok _ _ _ _ _ (eq_trans (srun_spar _ _ _) Ey)). cbv zeta.
  assert (length yls = rows) as Lyls by (rewrite <- (Forall2_len2 _ _ _ Hy), combine_length, seq_length; lia).
  assert (forall r yl, nth_error yls r = Some yl -> answer (f r (sl r)) B (fst yl) /\ sel_list (sl r) (snd yl)) as Hyl.
  { intros r yl Er. assert (r < rows)%nat as Hr by (rewrite <- Lyls; apply nth_error_Some; congruence).
    destruct (nth_error qs r) as [qy|] eqn:Eq; [|apply nth_error_None in Eq; lia].
    destruct (Forall2_nth2 _ _ _ r (qy, r) Hy) as (yl' & Eyl & R); [apply nth_error_combine; split; [exact Eq|apply nth_error_seq0; exact Hr]|].
    rewrite Er in Eyl. injection Eyl as <-. exact R. }
  clear Hy Ey.
  (* updates *)
  set (l2 := combine (combine (map snd yls) qs) (seq 0 rows)).
  assert (forall x t, nth_error l2 t = Some x -> snd x = t /\ (t < rows)%nat /\ sel_list (sl t) (fst (fst x)) /\ request_ct Ed (snd (fst x)) (sl t) (o t) (d t)) as Hl2.
  { intros [[l qy] r] t Ht. apply nth_error_combine in Ht as [Ht Hr]. apply nth_error_combine in Ht as [Hl Hq]. apply nth_error_seq in Hr as [-> Hr].
    rewrite nth_error_map in Hl. destruct (nth_error yls t) as [yl|] eqn:Eyl; [|discriminate]. cbn in Hl. injection Hl as <-. cbn [fst snd]. rewrite Nat.add_0_l.
    split; [reflexivity|]. split; [exact Hr|]. split; [apply Hyl; exact Eyl|apply Hqs; exact Hq]. }
  destruct (run_pmapM_foot (fun x r c => r = snd x) (fun x (_ : unit) mm => forall c, (c < 2 ^ a)%nat -> cnear mm (snd x) c (upd_val (snd x, c)) (B + G))
     (fun lqr => update_db_st fft cx (snd (fst lqr)) (snd lqr) (fst (fst lqr))) l2 m) as (us & m1 & Er1 & Hs1 & HF1 & _).
  { intros i j x y r c Hx Hy Fx Fy. apply Hl2 in Hx, Hy. destruct Hx as [Hx _], Hy as [Hy _]. congruence. }
  { intros x _ mm mm' H Hag c Hc. destruct (H c Hc) as (v & Ev & Hv). exists v. rewrite <- Hag by reflexivity. auto. }
  { intros x mm Hin Hs Hag. apply In_nth_error in Hin as (t & Ht). apply Hl2 in Ht as (Hx & Hr & Hls & Hq). rewrite <- Hx in *. clear t Hx.
    destruct (update_db_st_ok cx lg k Hp fft eps Hf s S E HS neg_s Hneg Hnegb Hnegl a Ha mm (snd x) (f (snd x)) B Ed
       (shape_mlen mm (snd x) (eq_trans Hs Hshape) Hr)) with (qy := snd (fst x)) (i := sl (snd x)) (o := o (snd x)) (d := d (snd x)) (ls := fst (fst x))
       as (m' & Er & Hs' & Hc' & Hu'); try assumption.
    { intros c Hc. destruct (Hcells (snd x) c Hr Hc) as (v & Ev & Hv). exists v. rewrite Hag by reflexivity. auto. }
    exists tt, m'. split; [exact Er|]. split; [intros r c Hne; apply Hu'; exact Hne|]. exact Hc'. }
  rewrite (srun_bind_ok _ _ _ _ _ (eq_trans (srun_spar _ _ _) Er1)).
  assert (forall r c, (r < rows)%nat -> (c < 2 ^ a)%nat -> cnear m1 r c (upd_val (r, c)) (B + G)) as Hc1.
  { intros r c Hr Hc. assert (length l2 = rows) as Ll2 by (unfold l2; rewrite !combine_length, map_length, seq_length; lia).
    destruct (nth_error l2 r) as [x|] eqn:Ex; [|apply nth_error_None in Ex; lia].
    destruct (Forall2_nth2 _ _ _ r x HF1 Ex) as (u & _ & R). destruct (Hl2 x r Ex) as [Hx _]. rewrite Hx in R. apply R; exact Hc. }
  clear HF1 Er1 Hl2 l2. rewrite Hshape in Hs1.
  assert (mlen m1 0 = Some (2 ^ a)%nat) as Hlen1 by (apply shape_mlen; assumption).
  rewrite (srun_bind_ok _ _ _ _ _ (eq_trans (srun_sone _ _) (run_row_len 0 m1 _ Hlen1))). rewrite Hh.
  destruct (Nat.eqb_spec hc 0) as [?|_]; [lia|]. rewrite Hdim, Nat.mul_comm, Nat.div_mul by lia. rewrite (on_worker_spread _ _ Hpd).
  (* consistency *)
  assert (forall r, (r < rows)%nat -> exists l, nth_error (map snd yls) r = Some l /\ sel_list (sl r) l) as HLs.
  { intros r Hr. rewrite nth_error_map. destruct (nth_error yls r) as [yl|] eqn:Eyl; [|apply nth_error_None in Eyl; lia].
    eexists; split; [reflexivity|]. apply Hyl; exact Eyl. }
  assert (forall r, (r < rows)%nat -> exists g, nth_error (map into_rw_flag qs) r = Some g /\ cct E (b2z (o r)) g) as HFl.
  { intros r Hr. rewrite nth_error_map. destruct (nth_error qs r) as [qy|] eqn:Eq; [|apply nth_error_None in Eq; lia].
    eexists; split; [reflexivity|]. destruct (Hqs r qy Eq) as (_ & Ho & _). exact Ho. }
  destruct (run_pmapM_foot (fun i r c => exists h, (h < hc)%nat /\ (i < dom)%nat /\ posn h i = (r, c))
     (fun i (_ : unit) mm => (i < dom)%nat -> forall h, (h < hc)%nat -> cnear mm (fst (posn h i)) (snd (posn h i)) (item_val i) (item_noise i))
     (consistency_task true fft cx nh (map snd yls) (map into_rw_flag qs)) (seq 0 dom) m1) as (us2 & m2 & Er2 & Hs2 & HF2 & _).
  { intros i j x y r c Hx Hy (h & Hh1 & Hi1 & E1) (h' & Hh2 & Hi2 & E2). apply nth_error_seq in Hx as [-> _], Hy as [-> _].
    rewrite <- E2 in E1. destruct (posn_inj h (0 + i) h' (0 + j) Hh1 Hi1 Hh2 Hi2 E1). lia. }
  { intros i _ mm mm' H Hag Hi h Hhh. destruct (H Hi h Hhh) as (v & Ev & Hv). exists v. rewrite <- Hag; [auto|]. exists h. rewrite <- surjective_pairing. auto. }
  { intros i mm Hin Hs Hag. apply in_seq in Hin. assert (i < dom)%nat as Hi by lia. clear Hin.
    unfold consistency_task. rewrite Hh.
    destruct (run_pmapM_ro (fun h => cols <-- row_len 0 ;;; plift (hash_to_tuple nh h i cols)) (fun h p => p = posn h i) (seq 0 hc) mm) as (ps & Eps & HFp).
    { intros h Hin. apply in_seq in Hin. exists (posn h i). split; [|reflexivity].
      rewrite (run_bind_ok _ _ _ _ _ (run_row_len 0 mm _ (shape_mlen mm 0 (eq_trans Hs Hs1) Hrows))).
      destruct (posn_ok h i ltac:(lia) Hi) as [-> _]. reflexivity. }
    rewrite (run_bind_ok _ _ _ _ _ Eps).
    assert (ps = map (fun h => posn h i) (seq 0 hc)) as -> by (clear - HFp; induction HFp as [|x y l l' H HF IH]; cbn; congruence). clear HFp Eps.
    assert (seq 0 hc = 0%nat :: seq 1 (hc - 1)) as Eseq by (destruct hc as [|hc']; [lia|]; cbn [seq]; f_equal; f_equal; lia).
    set (V := fun p : nat * nat => match mget mm (fst p) (snd p) with Some v => v | None => rlwe_allocate n end).
    assert (forall h, (h < hc)%nat -> mget mm (fst (posn h i)) (snd (posn h i)) = Some (V (posn h i)) /\ wfc n (V (posn h i)) /\ near n (phase n s (V (posn h i))) (upd_val (posn h i)) (B + G)) as HV.
    { intros h Hhh. destruct (posn_ok h i Hhh Hi) as (_ & Hr & Hc). destruct (Hc1 _ _ Hr Hc) as (v & Ev & Wv & Nv).
      unfold V. rewrite Hag by (exists h; rewrite <- surjective_pairing; auto). rewrite Ev. rewrite <- surjective_pairing in Nv. auto. }
    assert (exists c, run (correct_consistency fft cx (map (fun h => posn h i) (seq 0 hc)) (map snd yls) (map into_rw_flag qs)) mm = (Ok c, mm) /\ wfc n c /\
       near n (phase n s c) (item_val i) (item_noise i)) as (c & Ec & Wc & Nc).
    { rewrite Eseq. cbn [map].
      destruct (correct_ok cx lg k Hp fft eps Hf s S E HS neg_s Hneg Hnegb Hnegl a Ha rows sl o (map snd yls) (map into_rw_flag qs) HLs HFl mm V (posn 0 i)
         (map (fun h => posn h i) (seq 1 (hc - 1)))) as (c & Ec & Wc & Nc).
      { apply (posn_ok 0 i H0 Hi). }
      { apply Forall_map, Forall_forall. intros h Hin. apply in_seq in Hin. apply (posn_ok h i ltac:(lia) Hi). }
      { destruct (HV 0%nat H0) as (? & ? & _). auto. }
      { apply Forall_map, Forall_forall. intros h Hin. apply in_seq in Hin. destruct (HV h ltac:(lia)) as (? & ? & _). auto. }
      exists c. split; [exact Ec|]. split; [exact Wc|]. rewrite map_map, map_length, seq_length in Nc.
      eapply near_trans'; [exact Hn|exact Nc| |].
      - apply (near_combo (fun h => phase n s (V (posn h i))) (fun h => upd_val (posn h i)) _ _ (fun h => ht (posn h i)) (B + G)).
        + apply (HV 0%nat H0).
        + intros h Hin. apply in_seq in Hin. apply (HV h ltac:(lia)).
      - unfold item_noise, item_hits. lia. }
    rewrite (run_bind_ok _ _ _ _ _ Ec).
    destruct (run_puts c (map (fun h => posn h i) (seq 0 hc)) mm) as (us' & m' & Ep & Hs' & Hin' & Hout').
    { intros p Hin. apply in_map_iff in Hin as (h & <- & Hin). apply in_seq in Hin. destruct (HV h ltac:(lia)) as [-> _]. discriminate. }
    rewrite (run_bind_ok _ _ _ _ _ Ep). exists tt, m'. split; [reflexivity|]. split.
    - intros r cc Hnf. apply Hout'. intros Hin. apply in_map_iff in Hin as (h & Eh & Hin). apply in_seq in Hin. apply Hnf. exists h. split; [lia|auto].
    - intros _ h Hhh. exists c. split; [apply Hin', in_map_iff; exists h; split; [reflexivity|apply in_seq; lia]|auto]. }
  rewrite (srun_bind_ok _ _ _ _ _ (eq_trans (srun_spar _ _ _) Er2)).
  exists (map fst yls), m2. split; [reflexivity|]. split; [rewrite map_length; exact Lyls|]. split; [|split].
  - intros r y Ey. rewrite nth_error_map in Ey. destruct (nth_error yls r) as [yl|] eqn:Eyl; [|discriminate]. cbn in Ey. injection Ey as <-. apply Hyl; exact Eyl.
  - congruence.
  - intros h i Hhh Hi. destruct (Forall2_nth2 _ _ _ i i HF2) as (u & _ & R); [apply nth_error_seq0; exact Hi|]. apply R; assumption.
Qed.
End Or.

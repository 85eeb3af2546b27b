(** * Counting the accesses of the server's operations. *)
From Coq Require Import Permutation.
From Verif Require Import MBase MRlwe MHash MSched MOram SpecOram SpecShape SpecView SpecTouch PfHash PfTouch PfTouch2.
Local Open Scope nat_scope.

Lemma scosts_any {A} dims (p : sprog A) e n n' R : scosts dims p e n R -> n = n' -> scosts dims p e n' R. Proof. intros H <-. exact H. Qed.
Lemma scosts_weak {A} dims (p : sprog A) e (R R' : A -> Prop) : forall n, scosts dims p e n R -> (forall a, R a -> R' a) -> scosts dims p e n R'.
Proof.
  induction p as [a0|x|C tasks k IH|n0 k IH]; intros n H Hf; cbn [scosts] in *.
  - destruct H; auto.
  - exact I.
  - destruct H as (ev & Q & n' & -> & Hev & Hk). exists ev, Q, n'. split; [lia|]. split; [exact Hev|]. intros rs H1 H2. apply IH; auto.
  - intros t Ht. apply IH; auto.
Qed.
Lemma Forall2_len' {A B} (R : A -> B -> Prop) l l' : Forall2 R l l' -> length l = length l'. Proof. induction 1; cbn; congruence. Qed.

Lemma flat_map_map {A B} (f : B -> list event) (g : A -> B) l : flat_map f (map g l) = flat_map (fun x => f (g x)) l.
Proof. induction l as [|x l IH]; [reflexivity|]. cbn. rewrite IH. reflexivity. Qed.
Lemma fst_combine {A B} : forall (l : list A) (l' : list B), length l <= length l' -> map fst (combine l l') = l.
Proof. induction l as [|x l IH]; intros [|y l'] H; cbn in *; try reflexivity; try lia. f_equal. apply IH. lia. Qed.
Section Ops.
Variables (dims : nat -> option nat) (st : bool) (R J : nat).
Notation e := (ev0 st R J).
Notation LD := (ld st).
Notation SD := (sd st).
Notation here r := ((r =? R) && (J <? width dims r)).
Ltac cc := rewrite ?cnt_app, ?cnt_evc, ?cnt_evb, ?cnt_evl, ?cnt_evp, ?cnt_evo; cbn [count_occ].

Lemma cc_level (l : list nat) : cnt e (flat_map (fun _ => evb ++ []) l) = 0.
Proof. apply cnt_zero. intros. cc. reflexivity. Qed.
Lemma cc_row r f k : (forall j, cnt e (f j) = k * ind R J r j) -> cnt e (flat_map f (seq 0 (width dims r))) = if here r then k else 0.
Proof.
  intros H. destruct (Nat.eqb_spec r R) as [->|Hn]; cbn [andb].
  - apply cnt_cols. intros i _. rewrite H. unfold ind. rewrite Nat.eqb_refl. cbn [andb]. destruct (i =? J); lia.
  - apply cnt_zero. intros j _. rewrite H. unfold ind. destruct (Nat.eqb_spec r R); [contradiction|]. cbn. lia.
Qed.
Lemma cc_one_st (cx : ctx) r : cnt e (flat_map (fun _ : nat => evb ++ []) (seq 1 (c_level cx)) ++ evl r ++ [] ++ [] ++ flat_map (fun j => evb ++ [] ++ evc r j ++ []) (seq 0 (width dims r))) = if here r then LD else 0.
Proof. cc. rewrite cc_level, (cc_row r _ LD); [lia|]. intros j. cc. lia. Qed.
Lemma cc_update_st r : cnt e (evl r ++ flat_map (fun j => [] ++ evc r j ++ [] ++ evc r j ++ [] ++ evp r j) (seq 0 (width dims r)) ++ []) = if here r then 2 * LD + SD else 0.
Proof. cc. rewrite (cc_row r _ (2 * LD + SD)); [lia|]. intros j. cc. lia. Qed.

Lemma sc_one pool fft cx neg qy : scosts dims (process_one pool fft cx neg qy) e (if here 0 then 3 * LD + SD else 0) T.
Proof.
  unfold process_one, process_one_mt, update_db_mt. eapply scosts_any.
  - eapply scosts_bind with (R := fun yls => length (snd yls) = width dims 0).
    + eapply scosts_bind; [apply (sc_spar_map dims _ (fun _ => evb ++ []) (fun _ => T)); intros; apply em_tid, em_level|intros dr _].
      eapply scosts_bind; [apply sc_slift|intros dl _]. eapply scosts_bind; [apply sc_sone, em_len|intros cols Hc; cbv beta in Hc].
      eapply scosts_bind; [apply sc_slift|intros u _].
      assert (cols = width dims 0) as -> by (unfold width; rewrite Hc; reflexivity).
      eapply scosts_bind; [apply (sc_spar_map dims _ (fun j => evb ++ [] ++ evc 0 j ++ []) (fun _ => T)); intros; apply em_tid, em_select|intros rs Hrs].
      cbn. intros t _. split; [reflexivity|]. rewrite map_length. apply Forall2_len' in Hrs. rewrite seq_length in Hrs. congruence.
    + intros [y ls] Hl. cbn [fst snd] in *. eapply scosts_bind with (R := T); [|intros u _; cbn; split; [reflexivity|exact I]].
      eapply scosts_bind; [apply sc_sone, em_len|intros cols Hc; cbv beta in Hc].
      assert (cols = width dims 0) as -> by (unfold width; rewrite Hc; reflexivity).
      eapply scosts_bind with (n1 := cnt e (flat_map (fun j => evc 0 j ++ [] ++ evc 0 j ++ [] ++ evp 0 j) (seq 0 (width dims 0)))) (R := fun _ => True); [|intros u _; cbn; split; [reflexivity|exact I]].
      eapply scosts_weak; [|intros; exact I].
      eapply scosts_any; [apply (sc_spar_map dims _ (fun jl => evc 0 (fst jl) ++ [] ++ evc 0 (fst jl) ++ [] ++ evp 0 (fst jl)) (fun _ => T)); intros; apply em_tid, em_update|].
      f_equal. rewrite <- (flat_map_map (fun j => evc 0 j ++ [] ++ evc 0 j ++ [] ++ evp 0 j) fst). rewrite fst_combine by (rewrite seq_length; lia). reflexivity.
  - rewrite cc_level, cnt_evl. rewrite (cc_row 0 _ LD), (cc_row 0 _ (2 * LD + SD)); [destruct (here 0); lia| |]; intros j; cc; lia.
Qed.

Lemma sc_multi pool fft cx neg qs : scosts dims (process_multi pool fft cx neg qs) e (if here 0 then (2 * length qs + 1) * LD + SD else 0) T.
Proof.
  unfold process_multi. eapply scosts_any.
  - eapply scosts_bind; [apply sc_sone, em_len|intros cols Hc; cbv beta in Hc].
    assert (cols = width dims 0) as -> by (unfold width; rewrite Hc; reflexivity).
    eapply scosts_bind; [apply (sc_spar_map dims _ (fun _ => flat_map (fun _ : nat => evb ++ []) (seq 1 (c_level cx)) ++ evl 0 ++ [] ++ [] ++ flat_map (fun j => evb ++ [] ++ evc 0 j ++ []) (seq 0 (width dims 0))) (fun _ => T)); intros; apply em_tid; apply em_one_st|intros yls Hy]. cbv zeta.
    eapply scosts_bind with (n1 := length qs * (if here 0 then LD else 0)).
    + eapply scosts_any; [apply (sc_spar_map dims _ (fun _ => flat_map (fun j => evc 0 j ++ [] ++ evb ++ [] ++ []) (seq 0 (width dims 0))) (fun _ => T)); intros; apply em_tid; apply em_rw|].
      rewrite (cnt_same _ _ _ (if here 0 then LD else 0)).
      * rewrite combine_length, map_length. apply Forall2_len' in Hy. rewrite <- Hy, Nat.min_id. reflexivity.
      * intros. apply cc_row. intros j. cc. lia.
    + intros tmps _. apply scosts_bind with (n1 := 0) (R := T); [cbn; intros; split; [reflexivity|exact I]|intros t1 _].
      apply scosts_bind with (n1 := 0) (R := T); [cbn; intros; split; [reflexivity|exact I]|intros t2 _].
      eapply scosts_bind; [apply (sc_spar_map dims _ (fun j => evc 0 j ++ [] ++ evp 0 j) (fun _ => T)); intros; apply em_tid, em_merge|intros u _; cbn; split; [reflexivity|exact I]].
  - rewrite cnt_evl. rewrite (cc_row 0 _ (LD + SD)) by (intros j; cc; lia).
    rewrite (cnt_same _ _ _ (if here 0 then LD else 0)); [destruct (here 0); lia|]. intros. apply cc_one_st.
Qed.

Lemma snd_combine {A B} : forall (l : list A) (l' : list B), length l' <= length l -> map snd (combine l l') = l'.
Proof. induction l as [|x l IH]; intros [|y l'] H; cbn in *; try reflexivity; try lia. f_equal. apply IH. lia. Qed.
Section Batch.
Variables (nh : nhash) (hc dom rows cols : nat).
Hypothesis Hnh : hash_for nh hc dom.
Hypothesis Hsz : rows * cols = hc * dom.
Hypothesis Hdims : forall r, r < rows -> dims r = Some cols.

Lemma w_cols r : r < rows -> width dims r = cols. Proof. intros H. unfold width. rewrite Hdims by exact H. reflexivity. Qed.
Lemma rows_once f k : (forall r, r < rows -> cnt e (f r) = if (r =? R) && (J <? cols) then k else 0) ->
  cnt e (flat_map f (seq 0 rows)) = if (R <? rows) && (J <? cols) then k else 0.
Proof.
  intros H. destruct (J <? cols) eqn:E.
  - rewrite andb_true_r. apply cnt_cols. intros i Hi. rewrite H, andb_true_r by exact Hi. reflexivity.
  - rewrite andb_false_r. apply cnt_zero. intros i Hi. apply in_seq in Hi. rewrite H, andb_false_r by lia. reflexivity.
Qed.
Definition evt i := let ps := map (pos_of nh cols i) (seq 0 hc) in
   flat_map (fun _ => evl 0 ++ []) (seq 0 hc) ++ evcc ps ++ flat_map (fun rc => evp (fst rc) (snd rc)) ps ++ [].
(** The accesses of the consistency loop to the cell of copy [h0] of item [x0]. *)
Lemma cc_evm c : cnt e (evm c) = LD * ind R J (fst c) (snd c). Proof. unfold evm. cc. lia. Qed.
Lemma ind_hit h0 x0 h x : h0 < hc -> x0 < dom -> h < hc -> x < dom -> hash_to_tuple nh h0 x0 cols = Ok (R, J) ->
  ind R J (fst (pos_of nh cols x h)) (snd (pos_of nh cols x h)) = if (x =? x0) && (h =? h0) then 1 else 0.
Proof.
  intros Hh0 Hx0 Hh Hx E. destruct Hnh as (sh & Hsh & En). destruct (tuple_range sh Hsh hc dom nh En h x rows cols Hh Hx Hsz) as (y & r & c & _ & Et & Hr & Hc & _).
  unfold pos_of. rewrite Et. cbn [fst snd]. unfold ind. destruct (Nat.eqb_spec r R) as [->|Hn]; cbn [andb].
  - destruct (Nat.eqb_spec c J) as [->|Hn].
    + destruct (tuple_inj sh Hsh hc dom nh En h x h0 x0 cols R J) as [-> ->]; try assumption; [lia|]. rewrite !Nat.eqb_refl. reflexivity.
    + destruct (Nat.eqb_spec x x0) as [->|]; [|reflexivity]. destruct (Nat.eqb_spec h h0) as [->|]; [|reflexivity]. congruence.
  - destruct (Nat.eqb_spec x x0) as [->|]; [|reflexivity]. destruct (Nat.eqb_spec h h0) as [->|]; [|reflexivity]. congruence.
Qed.
Lemma one_pos (l : list nat) (f : nat -> list event) (k : nat) h0 (b : bool) : NoDup l -> (forall h, In h l -> cnt e (f h) = k * (if b && (h =? h0) then 1 else 0)) ->
  cnt e (flat_map f l) = if b && (if in_dec Nat.eq_dec h0 l then true else false) then k else 0.
Proof.
  intros Hl H. destruct b; cbn [andb] in *.
  - destruct (in_dec Nat.eq_dec h0 l) as [Hi|Hi].
    + apply (cnt_one e f h0 k); auto. { intros i Hin Hne. rewrite H by exact Hin. destruct (Nat.eqb_spec i h0); [contradiction|lia]. } rewrite H, Nat.eqb_refl by exact Hi. lia.
    + apply cnt_zero. intros i Hin. rewrite H by exact Hin. destruct (Nat.eqb_spec i h0); [congruence|lia].
  - apply cnt_zero. intros i Hin. rewrite H by exact Hin. lia.
Qed.
Lemma cc_evt h0 x0 x : h0 < hc -> x0 < dom -> x < dom -> hash_to_tuple nh h0 x0 cols = Ok (R, J) ->
  cnt e (evt x) = if x =? x0 then (if h0 =? 0 then (hc + 1) * LD else LD) + SD else 0.
Proof.
  intros Hh0 Hx0 Hx E. unfold evt. cbv zeta. rewrite !cnt_app. rewrite (cnt_zero e (fun _ => evl 0 ++ [])) by (intros; cc; reflexivity).
  rewrite flat_map_map. rewrite (one_pos (seq 0 hc) _ SD h0 (x =? x0)).
  2: { apply seq_NoDup. } 2: { intros h Hin. apply in_seq in Hin. rewrite cnt_evp. rewrite (ind_hit h0 x0 h x) by (assumption || lia). reflexivity. }
  destruct (in_dec Nat.eq_dec h0 (seq 0 hc)) as [Hi|Hi]; [clear Hi|exfalso; apply Hi, in_seq; lia]. rewrite andb_true_r.
  assert (exists k, hc = S k) as [k Ek] by (exists (hc - 1); lia).
  assert (evcc (map (pos_of nh cols x) (seq 0 hc)) = flat_map (fun _ => evm (pos_of nh cols x 0)) (map (pos_of nh cols x) (seq 0 hc)) ++ evo (fst (pos_of nh cols x 0)) (snd (pos_of nh cols x 0)) ++
     flat_map (fun h => evm (pos_of nh cols x h) ++ []) (seq 1 k) ++ []) as Ec.
  { rewrite Ek. cbn [seq map evcc skipn]. rewrite !app_nil_l. rewrite flat_map_map. reflexivity. }
  rewrite Ec. rewrite !cnt_app. rewrite (cnt_same _ _ _ (LD * (if (x =? x0) && (0 =? h0) then 1 else 0))), map_length, seq_length.
  2: { intros. rewrite cc_evm, (ind_hit h0 x0 0 x) by (assumption || lia). reflexivity. }
  rewrite cnt_evo, (ind_hit h0 x0 0 x) by (assumption || lia).
  rewrite (one_pos (seq 1 k) _ LD h0 (x =? x0)).
  2: { apply seq_NoDup. } 2: { intros h Hin. apply in_seq in Hin. rewrite cnt_app, cc_evm, (ind_hit h0 x0 h x) by (assumption || lia). cbn [count_occ]. lia. }
  cbn [count_occ]. destruct (x =? x0); cbn [andb]; [|lia]. destruct (in_dec Nat.eq_dec h0 (seq 1 k)) as [Hi|Hi].
  - apply in_seq in Hi. destruct (Nat.eqb_spec 0 h0); [lia|]. destruct (Nat.eqb_spec h0 0); [lia|]. lia.
  - assert (h0 = 0) as -> by (destruct (Nat.eq_dec h0 0); [assumption|exfalso; apply Hi, in_seq; lia]). cbn [Nat.eqb]. lia.
Qed.

Lemma sc_batch pool fft cx neg qs h0 x0 : h0 < hc -> x0 < dom -> hash_to_tuple nh h0 x0 cols = Ok (R, J) ->
  scosts dims (process_batch pool fft cx neg rows qs nh) e ((if h0 =? 0 then (hc + 4) * LD else 4 * LD) + 2 * SD) T.
Proof.
  intros Hh0 Hx0 E. destruct Hnh as (sh & Hsh & En). destruct (tuple_range sh Hsh hc dom nh En h0 x0 rows cols Hh0 Hx0 Hsz) as (y & r & c & _ & Et & Hr & Hc & _).
  rewrite E in Et. injection Et as <- <-. destruct (nh_fields sh hc dom nh En) as (_ & Eh & _ & _).
  unfold process_batch. eapply scosts_any.
  - eapply scosts_bind; [apply sc_slift|intros u Hq]. assert (length qs = rows) as Hql. { cbv beta in Hq. unfold rassert in Hq. destruct (Nat.eqb_spec (length qs) rows); [assumption|discriminate]. }
    eapply scosts_bind with (n1 := LD) (R := fun yls => length yls = rows).
    { eapply scosts_weak; [eapply scosts_any; [apply (sc_spar_map dims _ (fun qr => flat_map (fun _ : nat => evb ++ []) (seq 1 (c_level cx)) ++ evl (snd qr) ++ [] ++ [] ++ flat_map (fun j => evb ++ [] ++ evc (snd qr) j ++ []) (seq 0 (width dims (snd qr)))) (fun _ => T)); intros; apply em_tid; apply em_one_st|]|].
      - rewrite <- (flat_map_map (fun r => flat_map (fun _ : nat => evb ++ []) (seq 1 (c_level cx)) ++ evl r ++ [] ++ [] ++ flat_map (fun j => evb ++ [] ++ evc r j ++ []) (seq 0 (width dims r))) snd).
        rewrite snd_combine by (rewrite seq_length; lia). rewrite (rows_once _ LD).
        + destruct (Nat.ltb_spec R rows), (Nat.ltb_spec J cols); try lia. reflexivity.
        + intros r Hr'. rewrite cc_one_st, w_cols by exact Hr'. reflexivity.
      - intros a Ha. apply Forall2_len' in Ha. rewrite combine_length, seq_length in Ha. lia. }
    intros yls Hy. cbv zeta.
    eapply scosts_bind with (n1 := 2 * LD + SD) (R := T).
    { eapply scosts_weak; [eapply scosts_any; [apply (sc_spar_map dims _ (fun lqr => evl (snd lqr) ++ flat_map (fun j => [] ++ evc (snd lqr) j ++ [] ++ evc (snd lqr) j ++ [] ++ evp (snd lqr) j) (seq 0 (width dims (snd lqr))) ++ []) (fun _ => T)); intros; apply em_tid; apply em_update_st|]|intros; exact I].
      rewrite <- (flat_map_map (fun r => evl r ++ flat_map (fun j => [] ++ evc r j ++ [] ++ evc r j ++ [] ++ evp r j) (seq 0 (width dims r)) ++ []) snd).
      rewrite snd_combine by (rewrite combine_length, map_length, seq_length; lia). rewrite (rows_once _ (2 * LD + SD)).
      - destruct (Nat.ltb_spec R rows), (Nat.ltb_spec J cols); try lia. reflexivity.
      - intros r Hr'. rewrite cc_update_st, w_cols by exact Hr'. reflexivity. }
    intros u0 _. eapply scosts_bind; [apply sc_sone, em_len|intros cols' Hc'; cbv beta in Hc'].
    assert (cols' = cols) as -> by (rewrite Hdims in Hc' by lia; congruence).
    rewrite Eh. destruct (Nat.eqb_spec hc 0); [lia|].
    assert (rows * cols / hc = dom) as -> by (rewrite Hsz, Nat.mul_comm, Nat.div_mul; lia).
    eapply scosts_bind with (R := T) (n1 := (if h0 =? 0 then (hc + 1) * LD else LD) + SD); [|intros u1 _; cbn; split; [reflexivity|exact I]].
    eapply scosts_weak; [eapply scosts_any; [apply (sc_spar_map dims _ evt (fun _ => T))|]|intros; exact I].
    + intros i _. pose proof (em_consistency dims (on_worker pool dom) fft cx nh (map snd yls) (map into_rw_flag qs) i) as G. cbv zeta in G. rewrite Eh, (w_cols 0) in G by lia. exact G.
    + rewrite (cnt_cols _ _ x0 ((if h0 =? 0 then (hc + 1) * LD else LD) + SD)).
      * destruct (Nat.ltb_spec x0 dom); [reflexivity|lia].
      * intros i Hi. apply (cc_evt h0); assumption.
  - rewrite cnt_evl. destruct (h0 =? 0); lia.
Qed.
End Batch.
End Ops.

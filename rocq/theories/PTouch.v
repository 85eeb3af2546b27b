(** * Property C94: what is asked does not show in how often a cell is read or written.
    [SpecTouch] counts the accesses of a course, [SpecView] says what a course and a history are. *)
From Coq Require Import Permutation.
From Verif Require Import MBase MUtils MCodec MPoly MRlwe MHash MTree MEncTree MSched MOram.
From Verif Require Import SpecRing SpecLwe SpecOram SpecBatch SpecSched SpecShape SpecConc SpecView SpecTouch.
From Verif Require Import PfHash PfTouch PfTouch2 PfTouch3 LOram Demo PEnc POram PBatch PSched PView PMulti.
Local Open Scope nat_scope.

Lemma dims_width m : width (mlen m) 0 = length (hd [] m). Proof. unfold width, mlen. destruct m; reflexivity. Qed.

(** A single query reads every cell of row 0 three times and writes it once, and touches no other cell: whatever the query, the contents and the schedule. *)
Theorem C94_process_one : forall pool pref fft cx neg_s qy m c y m2, scourse pref (process_one pool fft cx neg_s qy) m c (Ok y) m2 -> forall r j,
  times (ELoad r j) c = (if (r =? 0) && (j <? length (hd [] m)) then 3 else 0) /\ times (EStore r j) c = (if (r =? 0) && (j <? length (hd [] m)) then 1 else 0).
Proof.
  intros pool pref fft cx neg_s qy m c y m2 H r j.
  destruct (scosts_sound (mlen m) pref _ _ _ m c y m2 _ (sc_one (mlen m) false r j pool fft cx neg_s qy) (fun _ => eq_refl) H) as [H1 _].
  destruct (scosts_sound (mlen m) pref _ _ _ m c y m2 _ (sc_one (mlen m) true r j pool fft cx neg_s qy) (fun _ => eq_refl) H) as [H2 _].
  cbn [ev0 ld sd] in *. rewrite H1, H2, dims_width, (Nat.eqb_sym 0 r). destruct ((r =? 0) && (j <? length (hd [] m))); split; reflexivity.
Qed.
Print Assumptions C94_process_one.

(** A multi-query of [x] queries reads every cell of row 0 2 [x] + 1 times and writes it once. *)
Theorem C94_process_multi : forall pool pref fft cx neg_s qs m c ys m2, scourse pref (process_multi pool fft cx neg_s qs) m c (Ok ys) m2 -> forall r j,
  times (ELoad r j) c = (if (r =? 0) && (j <? length (hd [] m)) then 2 * length qs + 1 else 0) /\ times (EStore r j) c = (if (r =? 0) && (j <? length (hd [] m)) then 1 else 0).
Proof.
  intros pool pref fft cx neg_s qs m c y m2 H r j.
  destruct (scosts_sound (mlen m) pref _ _ _ m c y m2 _ (sc_multi (mlen m) false r j pool fft cx neg_s qs) (fun _ => eq_refl) H) as [H1 _].
  destruct (scosts_sound (mlen m) pref _ _ _ m c y m2 _ (sc_multi (mlen m) true r j pool fft cx neg_s qs) (fun _ => eq_refl) H) as [H2 _].
  cbn [ev0 ld sd] in *. rewrite H1, H2, dims_width, (Nat.eqb_sym 0 r). destruct ((r =? 0) && (j <? length (hd [] m))); split; lia.
Qed.
Print Assumptions C94_process_multi.

(** A batch reads the first copy of every item [hc] + 4 times, every other copy four times, and writes every copy twice: also for the items the batch
    does not ask for.  (Every cell is a copy of exactly one item, C08.) *)
Theorem C94_process_batch : forall pool pref fft cx neg_s qs nh hc dom cols m c ys m2, hash_for nh hc dom -> Forall (fun row => length row = cols) m -> length m * cols = hc * dom ->
  scourse pref (process_batch pool fft cx neg_s (length m) qs nh) m c (Ok ys) m2 ->
  forall h x r j, h < hc -> x < dom -> hash_to_tuple nh h x cols = Ok (r, j) ->
  times (ELoad r j) c = (if h =? 0 then hc + 4 else 4) /\ times (EStore r j) c = 2.
Proof.
  intros pool pref fft cx neg_s qs nh hc dom cols m c ys m2 Hh Hm Hsz H h x r j Hlt Hx E.
  assert (forall r, r < length m -> mlen m r = Some cols) as Hd.
  { intros r0 Hr. unfold mlen. destruct (nth_error m r0) as [row|] eqn:Er; [|apply nth_error_None in Er; lia]. cbn. f_equal. rewrite Forall_forall in Hm. apply Hm. eapply nth_error_In; exact Er. }
  destruct (scosts_sound (mlen m) pref _ _ _ m c ys m2 _ (sc_batch (mlen m) false r j nh hc dom (length m) cols Hh Hsz Hd pool fft cx neg_s qs h x Hlt Hx E) (fun _ => eq_refl) H) as [H1 _].
  destruct (scosts_sound (mlen m) pref _ _ _ m c ys m2 _ (sc_batch (mlen m) true r j nh hc dom (length m) cols Hh Hsz Hd pool fft cx neg_s qs h x Hlt Hx E) (fun _ => eq_refl) H) as [H2 _].
  cbn [ev0 ld sd] in *. rewrite H1, H2. destruct (h =? 0); split; lia.
Qed.
Print Assumptions C94_process_batch.

(** The operations preserve the dimensions of the database. *)
Lemma keeps {A} pref (p : sprog A) e R m c a m2 n : scosts (mlen m) p e n R -> scourse pref p m c (Ok a) m2 -> forall r, mlen m2 r = mlen m r.
Proof. intros H Hc. eapply scosts_sound; [exact H|reflexivity|exact Hc]. Qed.
Lemma mlen_shape m m2 rows cols : (forall r, mlen m2 r = mlen m r) -> length m = rows -> Forall (fun row : list rlwe => length row = cols) m -> length m2 = rows /\ Forall (fun row => length row = cols) m2.
Proof.
  intros H Hl Hm. assert (length m2 = length m) as E.
  { destruct (Nat.lt_trichotomy (length m2) (length m)) as [L|[L|L]]; [|exact L|].
    - specialize (H (length m2)). unfold mlen in H. rewrite (proj2 (nth_error_None m2 _)) in H by lia. destruct (nth_error m (length m2)) eqn:E; [discriminate|]. apply nth_error_None in E. lia.
    - specialize (H (length m)). unfold mlen in H. rewrite (proj2 (nth_error_None m _)) in H by lia. destruct (nth_error m2 (length m)) eqn:E; [discriminate|]. apply nth_error_None in E. lia. }
  split; [congruence|]. rewrite Forall_forall in *. intros row Hin. apply In_nth_error in Hin as [r Hr]. specialize (H r). unfold mlen in H. rewrite Hr in H. cbn in H.
  destruct (nth_error m r) as [row'|] eqn:E'; [|discriminate]. cbn in H. injection H as ->. apply Hm. eapply nth_error_In; exact E'.
Qed.

(** In a whole history of single queries, multi-queries and batches, every step that is answered reads and writes every cell as often as its kind says. *)
Theorem C94_history : forall pool pref fft cl nh hc dom dm t rows cols j sv sts v, hash_for nh hc dom -> rows * cols = hc * dom ->
  length (srv_data sv) = rows -> Forall (fun row => length row = cols) (srv_data sv) -> history_seen pool pref fft cl nh dm t j sv sts v ->
  forall s, In s v -> sn_panicked s = false -> forall h x r c, h < hc -> x < dom -> hash_to_tuple nh h x cols = Ok (r, c) ->
  times (ELoad r c) (sn_course s) = reads_of (sn_kind s) hc r (h =? 0) /\ times (EStore r c) (sn_course s) = writes_of (sn_kind s) r.
Proof.
  intros pool pref fft cl nh hc dom dm t rows cols j sv sts v Hh Hsz Hr Hc Hs s Hin Hp h x r c Hlt Hx E.
  destruct Hh as (shuffle & Hsh & Hnew). destruct (tuple_range shuffle Hsh hc dom nh Hnew h x rows cols Hlt Hx Hsz) as (y & r0 & c0 & _ & Et & Hr0 & Hc0 & _).
  rewrite E in Et. injection Et as <- <-. assert (hash_for nh hc dom) as Hh by (exists shuffle; auto).
  induction Hs as [j sv|j sv st sts e Ea|j sv st sts qs co e m Ea Hco|j sv st sts qs co ys m v Ea Hco Hs IH]; [destruct Hin|destruct Hin| |].
  - destruct Hin as [<-|[]]. discriminate Hp.
  - assert (forall b, scosts (mlen (srv_data sv)) (hstep_prog pool fft nh sv (kind_of st) qs) (ev0 b r c)
       (if b then writes_of (kind_of st) r else reads_of (kind_of st) hc r (h =? 0)) T) as Hcost.
    { intros b. destruct st as [rq|rqs|br]; cbn [kind_of hstep_prog].
      - destruct qs as [|qy [|]]; try exact I. eapply scosts_any; [eapply scosts_bind; [apply sc_one|intros y0 _; cbn; split; [reflexivity|exact I]]|].
        assert (width (mlen (srv_data sv)) 0 = cols) as ->. { rewrite dims_width. destruct (srv_data sv) as [|row m0]; [cbn in Hr; lia|]. inversion Hc; assumption. }
        rewrite (Nat.eqb_sym 0 r). destruct (Nat.ltb_spec c cols); [|lia]. rewrite andb_true_r. cbn [reads_of writes_of]. destruct b, (r =? 0); reflexivity.
      - assert (length qs = length rqs) as Hl.
        { clear -Ea. cbn [ask_hstep] in Ea. revert Ea. generalize 0 as i. revert qs. induction rqs as [|rq rqs IH]; intros qs i Ea; cbn in Ea; [injection Ea as <-; reflexivity|].
          destruct (ask _ _ _ _ _); [|discriminate]. cbn in Ea. destruct (ask_all _ _ _ _ _ rqs) as [qs'|] eqn:E2; [|discriminate]. cbn in Ea. injection Ea as <-. cbn. f_equal. eapply IH. exact E2. }
        eapply scosts_any; [apply sc_multi|].
        assert (width (mlen (srv_data sv)) 0 = cols) as ->. { rewrite dims_width. destruct (srv_data sv) as [|row m0]; [cbn in Hr; lia|]. inversion Hc; assumption. }
        rewrite (Nat.eqb_sym 0 r), Hl. destruct (Nat.ltb_spec c cols); [|lia]. rewrite andb_true_r. cbn [reads_of writes_of]. destruct b, (r =? 0); cbn [ld sd]; lia.
      - unfold srv_rows. rewrite Hr. eapply scosts_any; [apply (sc_batch _ b r c nh hc dom rows cols Hh Hsz) with (h0 := h) (x0 := x); try assumption|].
        + intros r1 Hr1. unfold mlen. destruct (nth_error (srv_data sv) r1) as [row|] eqn:Er; [|apply nth_error_None in Er; lia]. cbn. f_equal. rewrite Forall_forall in Hc. apply Hc. eapply nth_error_In; exact Er.
        + cbn [reads_of writes_of]. destruct b, (h =? 0); cbn [ld sd]; lia. }
    destruct Hin as [<-|Hin].
    + cbn [see sn_course sn_kind]. split.
      * exact (proj1 (scosts_sound _ pref _ _ _ _ co ys m _ (Hcost false) (fun _ => eq_refl) Hco)).
      * exact (proj1 (scosts_sound _ pref _ _ _ _ co ys m _ (Hcost true) (fun _ => eq_refl) Hco)).
    + destruct (mlen_shape (srv_data sv) m rows cols (keeps _ _ _ _ _ _ _ _ _ (Hcost true) Hco) Hr Hc) as [Hr' Hc']. apply IH; assumption.
Qed.
Print Assumptions C94_history.

(** A batch of two items on a database of 3 rows and 2 columns, under any schedule: the first copies are read 7 times, the others 4 times. *)
Example C94_applies : exists cl sv pts qs ys sv', setup_random_oram 3 (2 ^ 1) demo_nh3 demo_cx2 demo_s (fun _ => [1; 0; 2; 3]%Z) demo_tape = Ok (cl, sv, pts) /\
  gen_read_query_batch cl [1; 0] demo_nh3 (fun _ => [0; 1; 1; 1]%Z) demo_tape = Ok qs /\
  forall pref, (exists c, scourse pref (process_batch false (exact_fft 4) (srv_cx sv) (srv_neg sv) (length (srv_data sv)) qs demo_nh3) (srv_data sv) c (Ok ys) (srv_data sv')) /\
  forall c, scourse pref (process_batch false (exact_fft 4) (srv_cx sv) (srv_neg sv) (length (srv_data sv)) qs demo_nh3) (srv_data sv) c (Ok ys) (srv_data sv') ->
    times (ELoad 0 0) c = 7 /\ times (ELoad 2 1) c = 4 /\ times (EStore 2 1) c = 2.
Proof.
  assert (forall i : nat, plaintext 4 2 [1; 0; 2; 3]%Z) as Hpt by (intros _; split; [reflexivity|]; repeat apply Forall_cons; try apply Forall_nil; lia).
  destruct C46_C47_apply as (cl & sv & pts & E1 & (qs & ys & sv' & y & E2 & E3 & _) & _).
  destruct (setup_C40 demo_cx2 2 2 demo_params2 demo_s 3 demo_key 3 (2 ^ 1) demo_shuffle demo_shuffle_perm 3 2 demo_nh3 demo_nh3_new (fun _ => [1; 0; 2; 3]%Z) Hpt demo_tape demo_tape_ok eq_refl)
    as (sv0 & D & Eq & (Hcx & _) & (Hl & Hc & _) & _). rewrite E1 in Eq. injection Eq as -> -> ->. exists (client_new 3 (2 ^ 1) demo_cx2 demo_s), sv0, (map (fun _ => [1; 0; 2; 3]%Z) (seq 0 2)), qs, ys, sv'.
  split; [exact E1|]. split; [exact E2|]. intros pref. split.
  - destruct (C49_process_batch_deterministic false (exact_fft 4) (srv_cx sv0) (srv_neg sv0) qs demo_nh3 3 2 (srv_data sv0) ltac:(rewrite Hcx; exact exact_fft_size) demo_hash3) as [Hd Hr].
    destruct (Hr pref) as (r & m' & Hx). pose proof (Hd pref r m' Hx) as G. unfold server_process_batch, with_server in E3. change (srv_rows sv0) with (length (srv_data sv0)) in E3.
    destruct (srun _ _) as [[a|e] m1]; [|discriminate]. injection E3 as -> <-. destruct G as [-> ->]. cbn [srv_data]. apply C73_courses_are_executions. exact Hx.
  - intros c Hco.
    pose proof (C94_process_batch false pref (exact_fft 4) (srv_cx sv0) (srv_neg sv0) qs demo_nh3 3 2 2 (srv_data sv0) c ys (srv_data sv') demo_hash3 Hc ltac:(rewrite Hl; reflexivity) Hco) as G.
    destruct (G 0 0 0 0 ltac:(lia) ltac:(lia) eq_refl) as [H1 _]. destruct (G 2 1 2 1 ltac:(lia) ltac:(lia) eq_refl) as [H2 H3]. auto.
Qed.

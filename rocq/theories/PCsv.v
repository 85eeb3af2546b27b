(** * Properties C70 and C71: reading a table of numbers; lock-step iteration. *)
From Coq Require Import String Ascii.
From Verif Require Import MBase MCsv PfUtils PfDet2.
Local Open Scope Z_scope.

(** ** Specification: decimal numerals. *)
Definition digit_char (d : Z) : ascii := ascii_of_nat (48 + Z.to_nat d).
Fixpoint numeral (ds : list Z) : string :=
  match ds with [] => EmptyString | d :: ds' => String (digit_char d) (numeral ds') end.
Fixpoint value (ds : list Z) : Z :=
  match ds with [] => 0 | d :: ds' => d * 10 ^ Z.of_nat (List.length ds') + value ds' end.
(** [s] writes [v] in decimal: one or more digits, most significant first, perhaps after a plus sign. *)
Definition decimal (s : string) (v : Z) : Prop :=
  exists ds, ds <> [] /\ Forall (fun d => 0 <= d <= 9) ds /\ (s = numeral ds \/ s = String "+"%char (numeral ds)) /\ v = value ds.

Lemma digit_of_char d : 0 <= d <= 9 -> digit_of (digit_char d) = Some d.
Proof.
  intros H. unfold digit_of, digit_char. rewrite nat_ascii_embedding by lia.
  rewrite Nat2Z.inj_add, Z2Nat.id by lia. change (Z.of_nat 48) with 48.
  destruct (Z.leb_spec 48 (48 + d)); [|lia]. destruct (Z.leb_spec (48 + d) 57); [|lia]. cbn [andb]. f_equal. lia.
Qed.
Lemma digit_of_some c d : digit_of c = Some d -> 0 <= d <= 9 /\ c = digit_char d.
Proof.
  unfold digit_of. set (m := nat_of_ascii c). intros H.
  destruct (Z.leb_spec 48 (Z.of_nat m)); cbn [andb] in H; [|discriminate].
  destruct (Z.leb_spec (Z.of_nat m) 57); [|discriminate]. injection H as <-. split; [lia|].
  unfold digit_char. replace (48 + Z.to_nat (Z.of_nat m - 48))%nat with m by lia. symmetry. apply ascii_nat_embedding.
Qed.
Lemma value_nonneg ds : Forall (fun d => 0 <= d <= 9) ds -> 0 <= value ds.
Proof.
  induction 1 as [|d ds Hd _ IH]; cbn [value]; [lia|]. pose proof (Z.pow_nonneg 10 (Z.of_nat (List.length ds)) ltac:(lia)).
  apply Z.add_nonneg_nonneg; [apply Z.mul_nonneg_nonneg|]; lia.
Qed.
Lemma parse_digits_numeral ds : Forall (fun d => 0 <= d <= 9) ds -> forall acc, 0 <= acc -> 
  parse_digits acc (numeral ds) = if acc * 10 ^ Z.of_nat (List.length ds) + value ds <? q then Some (acc * 10 ^ Z.of_nat (List.length ds) + value ds)
    else match ds with [] => Some acc | _ => None end.
Proof.
  induction 1 as [|d ds Hd Hds IH]; intros acc Ha; cbn [numeral parse_digits List.length value].
  - change (10 ^ Z.of_nat 0) with 1. replace (acc * 1 + 0) with acc by lia. destruct (acc <? q); reflexivity.
  - rewrite digit_of_char by exact Hd. rewrite Nat2Z.inj_succ, Z.pow_succ_r by lia.
    set (w := 10 ^ Z.of_nat (List.length ds)) in *. assert (1 <= w) as Hw by (unfold w; pose proof (Z.pow_pos_nonneg 10 (Z.of_nat (List.length ds)) ltac:(lia) ltac:(lia)); lia).
    pose proof (value_nonneg _ Hds) as Hv. replace (acc * (10 * w) + (d * w + value ds)) with ((acc * 10 + d) * w + value ds) by ring.
    assert (acc * 10 + d <= (acc * 10 + d) * w) as Hle by (rewrite <- (Z.mul_1_r (acc * 10 + d)) at 1; apply Z.mul_le_mono_nonneg_l; lia).
    destruct (Z.ltb_spec (acc * 10) q); [destruct (Z.ltb_spec (acc * 10 + d) q)|].
    + rewrite IH by lia. fold w. destruct (Z.ltb_spec ((acc * 10 + d) * w + value ds) q) as [Hlt|Hge]; [reflexivity|].
      destruct ds as [|d' ds']; [|reflexivity]. exfalso. assert (w = 1) as W1 by reflexivity. rewrite W1 in Hge. cbn [value] in Hge. lia.
    + destruct (Z.ltb_spec ((acc * 10 + d) * w + value ds) q); [lia|reflexivity].
    + destruct (Z.ltb_spec ((acc * 10 + d) * w + value ds) q); [lia|reflexivity].
Qed.
Lemma parse_digits_some s : forall acc v, parse_digits acc s = Some v -> exists ds, Forall (fun d => 0 <= d <= 9) ds /\ s = numeral ds.
Proof.
  induction s as [|c s IH]; intros acc v H; cbn [parse_digits] in H.
  - exists []. split; [constructor|reflexivity].
  - destruct (digit_of c) as [d|] eqn:Ed; [|discriminate]. apply digit_of_some in Ed as [Hd ->].
    destruct (acc * 10 <? q); [|discriminate]. destruct (acc * 10 + d <? q); [|discriminate].
    destruct (IH _ _ H) as (ds & Hds & ->). exists (d :: ds). split; [constructor; assumption|reflexivity].
Qed.
Lemma digit_not_plus d : 0 <= d <= 9 -> Ascii.eqb (digit_char d) "+"%char = false.
Proof.
  intros H. destruct (Ascii.eqb_spec (digit_char d) "+"%char) as [E|]; [|reflexivity]. pose proof (digit_of_char d H) as Hd. rewrite E in Hd. discriminate.
Qed.

(** A field is accepted exactly if it writes a number below 2^64 in decimal, and is read as that number. *)
Theorem C70_field : forall s v, parse_usize s = Some v <-> decimal s v /\ v < 2 ^ 64.
Proof.
  intros s v. change (2 ^ 64) with q. split.
  - intros H. destruct s as [|c s]; [discriminate|]. cbn [parse_usize] in H. destruct (Ascii.eqb_spec c "+"%char) as [->|Hc].
    + destruct s as [|c' s']; [discriminate|]. destruct (parse_digits_some _ _ _ H) as (ds & Hds & E). rewrite E, parse_digits_numeral in H by (trivial; lia).
      rewrite Z.mul_0_l, Z.add_0_l in H. destruct ds as [|d ds]; [discriminate E|]. destruct (Z.ltb_spec (value (d :: ds)) q); [|discriminate]. injection H as <-.
      split; [|assumption]. exists (d :: ds). split; [discriminate|]. split; [exact Hds|]. split; [right; rewrite E; reflexivity|reflexivity].
    + destruct (parse_digits_some _ _ _ H) as (ds & Hds & E). rewrite E, parse_digits_numeral in H by (trivial; lia).
      rewrite Z.mul_0_l, Z.add_0_l in H. destruct ds as [|d ds]; [discriminate E|]. destruct (Z.ltb_spec (value (d :: ds)) q); [|discriminate]. injection H as <-.
      split; [|assumption]. exists (d :: ds). split; [discriminate|]. split; [exact Hds|]. split; [left; exact E|reflexivity].
  - intros [(ds & Hne & Hds & Hs & ->) Hlt]. destruct ds as [|d ds]; [congruence|]. assert (parse_digits 0 (numeral (d :: ds)) = Some (value (d :: ds))) as E.
    { rewrite parse_digits_numeral by (trivial; lia). rewrite Z.mul_0_l, Z.add_0_l. destruct (Z.ltb_spec (value (d :: ds)) q); [reflexivity|lia]. }
    destruct Hs as [Hs|Hs]; subst s.
    + cbn [numeral parse_usize]. rewrite digit_not_plus by (inversion Hds; assumption). exact E.
    + cbn [parse_usize Ascii.eqb]. exact E.
Qed.
Print Assumptions C70_field.

(** The numbers a record stands for. *)
Definition row_of (width : nat) (r : csv_record) (row : list Z) : Prop :=
  rec_utf8 r = true /\ List.length (rec_fields r) = width /\ Forall2 (fun s v => decimal s v /\ v < 2 ^ 64) (rec_fields r) row.

Lemma unwrap_ok {A} (o : option A) a : unwrap o = Ok a <-> o = Some a.
Proof. destruct o; cbn; split; congruence. Qed.
Lemma mapM_forall2 {A B} (f : A -> res B) l : forall out, mapM f l = Ok out <-> Forall2 (fun x y => f x = Ok y) l out.
Proof.
  induction l as [|x l IH]; intros out; cbn [mapM]; split; intros H.
  - injection H as <-. constructor.
  - inversion H. reflexivity.
  - apply bind_ok in H as (y & Hy & H). apply bind_ok in H as (ys & Hys & H). injection H as <-. constructor; [exact Hy|]. apply IH. exact Hys.
  - inversion H as [|? y ? ys Hy Hys]; subst. rewrite Hy. cbn [bind]. apply IH in Hys. rewrite Hys. reflexivity.
Qed.
Lemma csv_loop rs : forall acc out,
  foldM (fun x_test (r : option (list string)) => record <- unwrap r ;; row <- mapM (fun s => unwrap (parse_usize s)) record ;; Ok (x_test ++ [row])) rs acc = Ok out <->
  exists rows, out = acc ++ rows /\ Forall2 (fun r row => exists fields, r = Some fields /\ Forall2 (fun s v => decimal s v /\ v < 2 ^ 64) fields row) rs rows.
Proof.
  induction rs as [|r rs IH]; intros acc out; cbn [foldM]; split; intros H.
  - injection H as <-. exists []. split; [symmetry; apply app_nil_r|constructor].
  - destruct H as (rows & -> & H). inversion H. rewrite app_nil_r. reflexivity.
  - apply bind_ok in H as (acc' & Ha & H). apply bind_ok in Ha as (fields & Hf & Ha). apply bind_ok in Ha as (row & Hr & Ha). injection Ha as <-.
    apply IH in H as (rows & -> & H). exists (row :: rows). split; [rewrite <- app_assoc; reflexivity|]. constructor; [|exact H].
    exists fields. split; [apply unwrap_ok; exact Hf|]. apply mapM_forall2 in Hr. clear - Hr.
    induction Hr as [|s v ss vs Hs _ IHr]; constructor; [|exact IHr]. apply C70_field. apply unwrap_ok. exact Hs.
  - destruct H as (rows & -> & H). inversion H as [|? row ? rows' (fields & -> & Hrow) Hrows]; subst. cbn [unwrap bind].
    assert (mapM (fun s => unwrap (parse_usize s)) fields = Ok row) as ->.
    { apply mapM_forall2. clear - Hrow. induction Hrow as [|s v ss vs Hs _ IHr]; constructor; [|exact IHr]. apply unwrap_ok, C70_field. exact Hs. }
    cbn [bind]. apply IH. exists rows'. split; [rewrite <- app_assoc; reflexivity|exact Hrows].
Qed.

(** Reading a file succeeds exactly if it can be opened and every record after the first is valid text of as
    many fields as the first one, each the decimal form of a 64-bit number.  The result is then those numbers,
    in order, one row per record after the first. *)
Theorem C70_table : forall file out, parse_csv file = Ok out <->
  exists records, file = Some records /\
    Forall2 (row_of (match records with h :: _ => List.length (rec_fields h) | [] => 0%nat end)) (tl records) out.
Proof.
  intros file out. unfold parse_csv. split.
  - intros H. apply bind_ok in H as (records & Hf & H). apply unwrap_ok in Hf. exists records. split; [exact Hf|].
    apply csv_loop in H as (rows & -> & H). cbn [app]. destruct records as [|h rs]; cbn [csv_records tl] in *; [inversion H; constructor|].
    clear Hf file. revert rows H. induction rs as [|r rs IH]; intros rows H; cbn [map] in H; inversion H as [|? row ? rows' (fields & E & Hrow) Hrows]; subst; [constructor|]. constructor; [|apply IH; exact Hrows].
    destruct (rec_utf8 r) eqn:Eu; [|discriminate E]. cbn [andb] in E. destruct (Nat.eqb_spec (List.length (rec_fields r)) (List.length (rec_fields h))) as [Hl|]; [|discriminate E].
    injection E as <-. split; [exact Eu|]. split; [exact Hl|exact Hrow].
  - intros (records & -> & H). cbn [unwrap bind]. apply csv_loop. exists out. split; [reflexivity|].
    destruct records as [|h rs]; cbn [csv_records tl] in *; [inversion H; constructor|].
    induction H as [|r row rs rows (Hu & Hl & Hrow) _ IH]; cbn [map]; constructor; [|exact IH]. exists (rec_fields r). rewrite Hu, Hl, Nat.eqb_refl. split; [reflexivity|exact Hrow].
Qed.
Print Assumptions C70_table.

(** Otherwise the call panics: no row is dropped or read as another number. *)
Lemma csv_panics file : (forall out, parse_csv file <> Ok out) -> parse_csv file = Panic PUnwrap.
Proof.
  intros H. destruct (parse_csv file) as [out|e] eqn:E; [exfalso; exact (H out eq_refl)|]. f_equal. clear H. revert E. unfold parse_csv.
  destruct file as [records|]; cbn [unwrap bind]; [|intros E; injection E as <-; reflexivity].
  generalize (@nil (list Z)) at 2. induction (csv_records records) as [|r rs IH]; intros acc E; cbn [foldM] in E; [discriminate|].
  destruct r as [fields|]; cbn [unwrap bind] in E; [|injection E as <-; reflexivity].
  destruct (mapM (fun s => unwrap (parse_usize s)) fields) as [row|e'] eqn:Em; cbn [bind] in E.
  - exact (IH _ E).
  - injection E as <-. clear IH. revert e' Em. induction fields as [|s fields IHf]; intros e' Em; cbn [mapM] in Em; [discriminate|].
    destruct (parse_usize s); cbn [unwrap bind] in Em; [|injection Em as <-; reflexivity].
    destruct (mapM (fun s0 => unwrap (parse_usize s0)) fields) as [|e'']; cbn [bind] in Em; [discriminate|]. injection Em as <-. exact (IHf e'' eq_refl).
Qed.
Theorem C70_rejects : forall file,
  (forall records out, file = Some records ->
     ~ Forall2 (row_of (match records with h :: _ => List.length (rec_fields h) | [] => 0%nat end)) (tl records) out) ->
  parse_csv file = Panic PUnwrap.
Proof.
  intros file H. apply csv_panics. intros out E. apply C70_table in E as (records & Ef & HF). exact (H records out Ef HF).
Qed.
Print Assumptions C70_rejects.

(** Finding: the claim that every record of a file becomes a row is false.  The first record is taken for a
    header: in a table without one the first row of numbers is silently lost, whatever it holds. *)
Theorem C70_first_row_refuted : ~ (forall records out, parse_csv (Some records) = Ok out -> List.length out = List.length records).
Proof.
  intros H. specialize (H [{| rec_fields := ["7"%string]; rec_utf8 := true |}] [] eq_refl). discriminate.
Qed.
Print Assumptions C70_first_row_refuted.
Theorem C70_header_ignored : forall h h' rs, List.length (rec_fields h) = List.length (rec_fields h') ->
  parse_csv (Some (h :: rs)) = parse_csv (Some (h' :: rs)).
Proof. intros h h' rs H. unfold parse_csv. cbn [unwrap bind csv_records]. rewrite H. reflexivity. Qed.
Print Assumptions C70_header_ignored.

Definition demo_record (fs : list string) : csv_record := {| rec_fields := fs; rec_utf8 := true |}.
Example C70_nonvacuous :
  parse_csv (Some [demo_record ["a"; "b"]%string; demo_record ["12"; "+007"]%string; demo_record ["18446744073709551615"; "0"]%string])
    = Ok [[12; 7]; [2 ^ 64 - 1; 0]] /\
  parse_csv (Some [demo_record ["a"]%string; demo_record ["18446744073709551616"]%string]) = Panic PUnwrap /\
  parse_csv (Some [demo_record ["a"]%string; demo_record ["-1"]%string]) = Panic PUnwrap /\
  parse_csv (Some [demo_record ["a"]%string; demo_record ["1"; "2"]%string]) = Panic PUnwrap.
Proof. repeat split. Qed.

(** ** Lock-step iteration *)

(** An iterator that says exactly how many items it has left. *)
Definition exact {A} (a : iter A) : Prop := hint a = (List.length (items a), Some (List.length (items a))).
Lemma slice_exact {A} (l : list A) : exact (slice_iter l).
Proof. reflexivity. Qed.

Lemma zip_exact {A B} (a : iter A) (b : iter B) : exact a -> exact b -> exact (zip_iter a b).
Proof. unfold exact, zip_iter. cbn [items hint]. intros -> ->. unfold min_hint. cbn [fst snd]. rewrite combine_length. reflexivity. Qed.
Lemma zip_checked_exact {A B} (a : iter A) (b : iter B) : exact a -> exact b ->
  zip_checked Checked a b = if (List.length (items a) =? List.length (items b))%nat then Ok (zip_iter a b) else Panic PAssert.
Proof.
  unfold exact. intros Ha Hb. unfold zip_checked, assert_same_len. rewrite Ha, Hb. cbn [fst snd opt_eqb]. rewrite !Nat.eqb_refl. cbn [rassert bind].
  unfold rassert. destruct (List.length (items a) =? List.length (items b))%nat; reflexivity.
Qed.

(** In a debug build, lock-step iteration over slices panics unless all have the same length, and then yields
    the elements at each position together, in order.  In a release build it stops silently at the end of the
    shortest. *)
Theorem C71_two : forall (A B : Type) (a : list A) (b : list B),
  (List.length a = List.length b -> exists z, izip2 Checked (slice_iter a) (slice_iter b) = Ok z /\ List.length z = List.length a /\
     forall i x y, nth_error z i = Some (x, y) <-> nth_error a i = Some x /\ nth_error b i = Some y) /\
  (List.length a <> List.length b -> izip2 Checked (slice_iter a) (slice_iter b) = Panic PAssert) /\
  (exists z, izip2 Wrapping (slice_iter a) (slice_iter b) = Ok z /\ List.length z = Nat.min (List.length a) (List.length b) /\
     forall i x y, nth_error z i = Some (x, y) <-> nth_error a i = Some x /\ nth_error b i = Some y).
Proof.
  intros A B a b.
  assert (forall i x y, nth_error (combine a b) i = Some (x, y) <-> nth_error a i = Some x /\ nth_error b i = Some y) as Hn.
  { revert b. induction a as [|u a IH]; intros b i x y.
    - destruct i; cbn; split; intros H; try discriminate; destruct H; discriminate.
    - destruct b as [|v b]; [destruct i; cbn; split; intros H; try discriminate; destruct H; discriminate|].
      destruct i as [|i]; cbn [combine nth_error]; [split; [intros E; injection E as -> ->; auto|intros [E1 E2]; congruence]|apply IH]. }
  unfold izip2. split; [|split].
  - intros Hl. rewrite zip_checked_exact by apply slice_exact. cbn [slice_iter items]. rewrite Hl, Nat.eqb_refl. cbn [bind zip_iter items].
    exists (combine a b). split; [reflexivity|]. split; [rewrite combine_length; lia|exact Hn].
  - intros Hl. rewrite zip_checked_exact by apply slice_exact. cbn [slice_iter items]. apply Nat.eqb_neq in Hl. rewrite Hl. reflexivity.
  - cbn. exists (combine a b). split; [reflexivity|]. split; [apply combine_length|exact Hn].
Qed.
Print Assumptions C71_two.

Lemma nth_combine {A B} (a : list A) : forall (b : list B) i x y, nth_error (combine a b) i = Some (x, y) <-> nth_error a i = Some x /\ nth_error b i = Some y.
Proof.
  induction a as [|u a IH]; intros b i x y.
  - destruct i; cbn; split; intros H; try discriminate; destruct H; discriminate.
  - destruct b as [|v b]; [destruct i; cbn; split; intros H; try discriminate; destruct H; discriminate|].
    destruct i as [|i]; cbn [combine nth_error]; [split; [intros E; injection E as -> ->; auto|intros [E1 E2]; congruence]|apply IH].
Qed.

Theorem C71_three : forall (A B C : Type) (a : list A) (b : list B) (c : list C),
  (List.length a = List.length b /\ List.length a = List.length c ->
     exists z, izip3 Checked (slice_iter a) (slice_iter b) (slice_iter c) = Ok z /\ List.length z = List.length a /\
     forall i x y w, nth_error z i = Some (x, y, w) <-> nth_error a i = Some x /\ nth_error b i = Some y /\ nth_error c i = Some w) /\
  (List.length a <> List.length b \/ List.length a <> List.length c -> izip3 Checked (slice_iter a) (slice_iter b) (slice_iter c) = Panic PAssert) /\
  (exists z, izip3 Wrapping (slice_iter a) (slice_iter b) (slice_iter c) = Ok z /\
     List.length z = Nat.min (List.length a) (Nat.min (List.length b) (List.length c)) /\
     forall i x y w, nth_error z i = Some (x, y, w) <-> nth_error a i = Some x /\ nth_error b i = Some y /\ nth_error c i = Some w).
Proof.
  intros A B C a b c.
  set (z := map (fun '((x, y), w) => (x, y, w)) (combine (combine a b) c) : list (A * B * C)).
  assert (List.length z = Nat.min (List.length a) (Nat.min (List.length b) (List.length c))) as Lz by (unfold z; rewrite map_length, !combine_length; lia).
  assert (forall i x y w, nth_error z i = Some (x, y, w) <-> nth_error a i = Some x /\ nth_error b i = Some y /\ nth_error c i = Some w) as Hn.
  { intros i x y w. unfold z. rewrite nth_error_map. split.
    - destruct (nth_error (combine (combine a b) c) i) as [[[x' y'] w']|] eqn:E; [|discriminate]. intros H. cbn in H. injection H as -> -> ->.
      apply nth_combine in E as [E Ec]. apply nth_combine in E as [Ea Eb]. auto.
    - intros (Ea & Eb & Ec). assert (nth_error (combine (combine a b) c) i = Some ((x, y), w)) as ->; [|reflexivity]. apply nth_combine. split; [apply nth_combine; auto|exact Ec]. }
  unfold izip3. split; [|split].
  - intros [Hb Hc]. rewrite zip_checked_exact by apply slice_exact. cbn [slice_iter items]. rewrite Hb, Nat.eqb_refl. cbn [bind].
    rewrite zip_checked_exact by (try apply zip_exact; apply slice_exact). cbn [zip_iter slice_iter items]. rewrite combine_length.
    replace (Nat.min (List.length a) (List.length b)) with (List.length c) by lia. rewrite Nat.eqb_refl. cbn [bind items]. exists z. split; [reflexivity|]. split; [lia|exact Hn].
  - intros H. rewrite zip_checked_exact by apply slice_exact. cbn [slice_iter items]. destruct (Nat.eqb_spec (List.length a) (List.length b)) as [Hb|]; [|reflexivity]. cbn [bind].
    rewrite zip_checked_exact by (try apply zip_exact; apply slice_exact). cbn [zip_iter slice_iter items]. rewrite combine_length.
    destruct (Nat.eqb_spec (Nat.min (List.length a) (List.length b)) (List.length c)); [exfalso; lia|reflexivity].
  - exists z. split; [reflexivity|]. split; [exact Lz|exact Hn].
Qed.
Print Assumptions C71_three.

Theorem C71_five : forall (A B C D E : Type) (a : list A) (b : list B) (c : list C) (d : list D) (e : list E),
  let n := List.length a in
  let same := List.length b = n /\ List.length c = n /\ List.length d = n /\ List.length e = n in
  (same -> exists z, izip5 Checked (slice_iter a) (slice_iter b) (slice_iter c) (slice_iter d) (slice_iter e) = Ok z /\ List.length z = n /\
     forall i x y w u v, nth_error z i = Some (x, y, w, u, v) <->
       nth_error a i = Some x /\ nth_error b i = Some y /\ nth_error c i = Some w /\ nth_error d i = Some u /\ nth_error e i = Some v) /\
  (~ same -> izip5 Checked (slice_iter a) (slice_iter b) (slice_iter c) (slice_iter d) (slice_iter e) = Panic PAssert) /\
  (exists z, izip5 Wrapping (slice_iter a) (slice_iter b) (slice_iter c) (slice_iter d) (slice_iter e) = Ok z /\
     List.length z = Nat.min n (Nat.min (List.length b) (Nat.min (List.length c) (Nat.min (List.length d) (List.length e)))) /\
     forall i x y w u v, nth_error z i = Some (x, y, w, u, v) <->
       nth_error a i = Some x /\ nth_error b i = Some y /\ nth_error c i = Some w /\ nth_error d i = Some u /\ nth_error e i = Some v).
Proof.
  intros A B C D E a b c d e n same.
  set (z := map (fun '((((x, y), w), u), v) => (x, y, w, u, v)) (combine (combine (combine (combine a b) c) d) e) : list (A * B * C * D * E)).
  assert (List.length z = Nat.min n (Nat.min (List.length b) (Nat.min (List.length c) (Nat.min (List.length d) (List.length e))))) as Lz
    by (unfold z, n; rewrite map_length, !combine_length; lia).
  assert (forall i x y w u v, nth_error z i = Some (x, y, w, u, v) <->
       nth_error a i = Some x /\ nth_error b i = Some y /\ nth_error c i = Some w /\ nth_error d i = Some u /\ nth_error e i = Some v) as Hn.
  { intros i x y w u v. unfold z. rewrite nth_error_map. split.
    - destruct (nth_error (combine (combine (combine (combine a b) c) d) e) i) as [[[[[x' y'] w'] u'] v']|] eqn:Ez; [|discriminate]. intros H. cbn in H. injection H as -> -> -> -> ->.
      apply nth_combine in Ez as [Ez Ee]. apply nth_combine in Ez as [Ez Ed]. apply nth_combine in Ez as [Ez Ec]. apply nth_combine in Ez as [Ea Eb]. auto.
    - intros (Ea & Eb & Ec & Ed & Ee). assert (nth_error (combine (combine (combine (combine a b) c) d) e) i = Some ((((x, y), w), u), v)) as ->; [|reflexivity].
      repeat (apply nth_combine; split; trivial). }
  assert (forall X Y (p : iter X) (l : list Y), exact p -> exact (zip_iter p (slice_iter l))) as Hz by (intros; apply zip_exact; [assumption|apply slice_exact]).
  assert (exact (slice_iter a)) as X1 by apply slice_exact.
  assert (exact (zip_iter (slice_iter a) (slice_iter b))) as X2 by (apply Hz, X1).
  assert (exact (zip_iter (zip_iter (slice_iter a) (slice_iter b)) (slice_iter c))) as X3 by (apply Hz, X2).
  assert (exact (zip_iter (zip_iter (zip_iter (slice_iter a) (slice_iter b)) (slice_iter c)) (slice_iter d))) as X4 by (apply Hz, X3).
  unfold izip5. split; [|split].
  - intros (Hb & Hc & Hd & He).
    rewrite zip_checked_exact by (trivial; apply slice_exact). cbn [slice_iter items]. fold n. rewrite Hb, Nat.eqb_refl. cbn [bind].
    rewrite zip_checked_exact by (trivial; apply slice_exact). cbn [zip_iter slice_iter items]. rewrite !combine_length. fold n. replace (Nat.min n (List.length b)) with n by lia. rewrite Hc, Nat.eqb_refl. cbn [bind].
    rewrite zip_checked_exact by (trivial; apply slice_exact). cbn [zip_iter slice_iter items]. rewrite !combine_length. fold n. replace (Nat.min (Nat.min n (List.length b)) (List.length c)) with n by lia. rewrite Hd, Nat.eqb_refl. cbn [bind].
    rewrite zip_checked_exact by (trivial; apply slice_exact). cbn [zip_iter slice_iter items]. rewrite !combine_length. fold n.
    replace (Nat.min (Nat.min (Nat.min n (List.length b)) (List.length c)) (List.length d)) with n by lia. rewrite He, Nat.eqb_refl. cbn [bind items].
    exists z. split; [reflexivity|]. split; [lia|exact Hn].
  - intros H.
    rewrite zip_checked_exact by (trivial; apply slice_exact). cbn [slice_iter items]. fold n. destruct (Nat.eqb_spec n (List.length b)); [|reflexivity]. cbn [bind].
    rewrite zip_checked_exact by (trivial; apply slice_exact). cbn [zip_iter slice_iter items]. rewrite !combine_length. fold n. destruct (Nat.eqb_spec (Nat.min n (List.length b)) (List.length c)); [|reflexivity]. cbn [bind].
    rewrite zip_checked_exact by (trivial; apply slice_exact). cbn [zip_iter slice_iter items]. rewrite !combine_length. fold n. destruct (Nat.eqb_spec (Nat.min (Nat.min n (List.length b)) (List.length c)) (List.length d)); [|reflexivity]. cbn [bind].
    rewrite zip_checked_exact by (trivial; apply slice_exact). cbn [zip_iter slice_iter items]. rewrite !combine_length. fold n.
    destruct (Nat.eqb_spec (Nat.min (Nat.min (Nat.min n (List.length b)) (List.length c)) (List.length d)) (List.length e)); [|reflexivity].
    exfalso. apply H. unfold same. lia.
  - exists z. split; [reflexivity|]. split; [exact Lz|exact Hn].
Qed.
Print Assumptions C71_five.

(** An iterator whose size is not known exactly is refused in a debug build even if it would fit. *)
Theorem C71_inexact : forall (A B : Type) (a : iter A) (b : iter B),
  (snd (hint a) <> Some (fst (hint a)) \/ snd (hint b) <> Some (fst (hint b))) -> izip2 Checked a b = Panic PAssert.
Proof.
  intros A B a b H. unfold izip2, zip_checked, assert_same_len.
  destruct (opt_eqb (snd (hint a)) (fst (hint a))) eqn:Ea; [|reflexivity].
  destruct (opt_eqb (snd (hint b)) (fst (hint b))) eqn:Eb; [|reflexivity]. exfalso.
  assert (forall o m, opt_eqb o m = true -> o = Some m) as He by (intros [o|] m E; [apply Nat.eqb_eq in E; congruence|discriminate]).
  apply He in Ea. apply He in Eb. destruct H; congruence.
Qed.
Print Assumptions C71_inexact.

Example C71_nonvacuous : izip2 Checked (slice_iter [1; 2]) (slice_iter [3; 4]) = Ok [(1, 3); (2, 4)] /\
  izip2 Checked (slice_iter [1; 2]) (slice_iter [3]) = Panic PAssert /\ izip2 Wrapping (slice_iter [1; 2]) (slice_iter [3]) = Ok [(1, 3)] /\
  izip5 Checked (slice_iter [1]) (slice_iter [2]) (slice_iter [3]) (slice_iter [4]) (slice_iter [5]) = Ok [(1, 2, 3, 4, 5)].
Proof. repeat split. Qed.

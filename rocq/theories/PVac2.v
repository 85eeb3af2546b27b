(** * More instances: the theorems on the whole program and on its drivers. *)
From Coq Require Import String Ascii Permutation Reals Lia Lra.
From Flocq Require Import IEEE754.BinarySingleNaN.
From Verif Require Import MBase MUtils MCodec MCsv MParams MHash MPoly MRlwe MLwe MEncTree MSched MOram MMain MJson MSerde MOut MCli MCtx MFft MNoise MIeee MIeee2 MShuffle MAvg.
From Verif Require Import SpecText SpecJson SpecOut SpecRing SpecLwe SpecEnc SpecOram SpecBatch SpecConc SpecDriver SpecCli SpecFft SpecNoise SpecDouble SpecIeee SpecIeee2 SpecTables SpecShuffle SpecLog SpecAvg SpecChance.
From Verif Require Import PfNear PfTables PfFloat PfDet2 PfMain PfOram4 LBatch PfCodec PfOut PfCli PfAvg LRlwe LOram Demo PEnc POram PBatch PCsv PMain PRun PDriver PCtx PSerde POut PCli PDefault PFft PNoise PIeee PShuffle PWhole PClose PClose2 PAvg PAvg2 PChance PVac.
Local Open Scope string_scope.
Local Open Scope Z_scope.

Lemma small_plain s : s = "-55" \/ s = "0" \/ s = "1ms" \/ s = "2ms" \/ s = "3ms" -> plain s.
Proof. intros Hs ch Hin. repeat (destruct Hs as [->|Hs]); try subst s; cbn in Hin; repeat (destruct Hin as [<-|Hin]; [split; discriminate|]); destruct Hin. Qed.

(** The figures in the table, from the arguments, with the double-precision FFT and log2. *)
Example C97_program_applies : forall kd, exists cx t text block figures, context_new Checked double_tfhe = Ok cx /\
  program demo_f64 demo_neg (fun _ => None) (fun _ => Absent) "about" (fun _ => "-55") (fun d es => (fun _ => "0") (average_over ideal_log2 d es))
    (fun n => ieee_fft_of kd (computed_tables rounded_sin_cos) one_by_one (Z.to_nat n)) Checked
    small_args (fun _ => drawn_coins cx (shuffled [1; 2; 3; 4; 5; 6; 7; 8; 9]) (fun i => Z.of_nat i) (fun i => Z.of_nat (2 * i)) (fun _ _ i => Z.of_nat i) t (fun _ _ => t))
    (fun _ => ("1ms", "2ms", "3ms")) = (text, 0) /\
  lines text = (header :: flat_map block_lines [block] ++ [""])%list /\
  Forall (possible {| sp_oram := SingleQuery 8 1; sp_tfhe := double_tfhe |}) figures /\ List.length figures = 1%nat /\ cell header (fst block) "final_noise" = Some "0".
Proof.
  intros kd. destruct (double_context Checked) as (cx & E & Hp & En & _). destruct (some_tape 32) as (t & Ht). exists cx, t.
  pose proof small_command as (Sp & F & N). destruct (proj1 C97_rounded ideal_log2 ideal_log2_ok) as [A O].
  set (fft := ieee_fft_of kd (computed_tables rounded_sin_cos) one_by_one 32).
  set (co := drawn_coins cx (shuffled [1; 2; 3; 4; 5; 6; 7; 8; 9]) (fun i => Z.of_nat i) (fun i => Z.of_nat (2 * i)) (fun _ _ i => Z.of_nat i) t (fun _ _ => t)).
  set (c := cli_of demo_f64 (rev (map as_pair small_settings))).
  assert (Forall is_word [1; 2; 3; 4; 5; 6; 7; 8; 9]) as Hwh by (repeat (apply Forall_cons; [split; [discriminate|reflexivity]|]); apply Forall_nil).
  assert (fft_for cx fft small_table) as Hf by (apply (close_small Checked cx _ _ _ E computed_32); intros ts; apply one_by_one_ok).
  assert (SpecOram.setting cx 5 1 fft small_table (co_sk co) 32) as Hset.
  { pose proof (drawn_setting cx 5 1 fft small_table (shuffled [1; 2; 3; 4; 5; 6; 7; 8; 9]) (fun i => Z.of_nat i) (fun i => Z.of_nat (2 * i)) (fun _ _ i => Z.of_nat i) t (fun _ _ => t) Hp Hf) as H. rewrite En in H. exact H. }
  assert (good_coins cx 1 default_noise co) as Hco.
  { pose proof Hp as (_ & _ & _ & _ & _ & _ & _ & Hk & Hcd). apply drawn_good; [exact Hk|exact Hcd|apply shuffled_perm, Hwh| |]; rewrite En; [|intros j i]; eapply sampled_default; eauto using double_noise. }
  assert (small_run c) as Hsm by (split; [reflexivity|]; vm_compute; auto).
  destruct (close_supported Checked cx fft c co E Hf Hset Hco Hsm) as [Hs Hfit]. cbv zeta in Hs, Hfit.
  change (cli_mode c =? 0) with true in Hs, Hfit. cbv iota in Hs, Hfit. change (cli_item_count c) with 8 in Hs, Hfit. change (cli_tfhe c) with double_tfhe in Hs, Hfit.
  destruct (C97_program ideal_log2 (fun _ => "0") demo_f64 demo_neg (fun _ => None) (fun _ => Absent) "about" (fun _ => "-55")
    (fun n => ieee_fft_of kd (computed_tables rounded_sin_cos) one_by_one (Z.to_nat n)) Checked small_args (fun _ => co) (fun _ => ("1ms", "2ms", "3ms")) small_settings c ""
    [{| sp_oram := SingleQuery 8 1; sp_tfhe := double_tfhe |}] A O) as (text & blocks & H1 & H2 & H3 & H4).
  - intros _. apply small_plain. auto.
  - intros _. apply small_plain. auto.
  - intros i. cbn [fst snd]. split; [|split]; apply small_plain; auto 6.
  - left. split; auto.
  - exact (fields_describe demo_f64 demo_neg small_settings N F).
  - unfold small_settings. cbn. intuition discriminate.
  - reflexivity.
  - repeat constructor; apply Hfit.
  - intros [|[|i]] sp Hi; try discriminate Hi. injection Hi as <-. split; [exact Hs|cbn; lia].
  - destruct (H4 0%nat _ eq_refl) as (block & figures & B & (S1 & S2 & S3 & S4) & Hpos). destruct blocks as [|b [|? ?]]; try discriminate H3. cbn in B. injection B as ->.
    exists text, block, figures. split; [exact E|]. split; [exact H1|]. split; [exact H2|]. split; [exact Hpos|]. cbn in S1.
    assert (List.length figures = 1%nat) as L by lia. split; [exact L|]. destruct figures as [|x [|? ?]]; try discriminate L. exact (S3 x eq_refl).
Qed.

(** Two queries per iteration with drawn coins; a batch of two with a drawn shuffle. *)
Example C62_multi_applies : forall ws wr wq, exists noises,
  multi_query (exact_fft 4) Checked (2 ^ 2) 2 3 demo_tfhe false (drawn_coins demo_cx (@rev nat) ws wr wq demo_tape (fun _ _ => demo_tape)) = Ok noises /\ List.length noises = 3%nat.
Proof.
  intros ws wr wq. apply (C62_drawn_multi_query Checked demo_tfhe demo_cx 2 1 (exact_fft 4) 0 3 2 2 3); try lia.
  - exact demo_context.
  - exact demo_params.
  - exact demo_fft_for.
  - intros l. symmetry. apply Permutation_rev.
  - exact demo_tape_ok.
  - intros j i. exact demo_tape_ok.
  - cbn. lia.
  - vm_compute. reflexivity.
Qed.
Example C86_batch_applies : forall ws wr wq, exists noises,
  batch_query (exact_fft 4) Checked 3 (2 ^ 1) 3 demo_tfhe false (drawn_coins demo_cx (shuffled [7; 7; 2; 9; 0; 1]) ws wr wq demo_tape (fun _ _ => demo_tape)) = Ok noises /\ List.length noises = 3%nat.
Proof.
  intros ws wr wq. apply (C86_batch_query Checked demo_tfhe demo_cx 2 1 (exact_fft 4) 0 3 1 3 2 3); try lia; try reflexivity.
  - exact demo_params.
  - exact demo_fft_for.
  - repeat (apply Forall_cons; [split; [discriminate|reflexivity]|]); apply Forall_nil.
  - exact demo_tape_ok.
  - intros j i. exact demo_tape_ok.
Qed.
(** A run whose second item is served answers two values in each iteration; one whose second item is dropped answers one. *)
Example C88_run_applies : exists noises, batch_query (exact_fft 4) Checked 3 (2 ^ 1) 3 demo_tfhe false (demo_coins demo_shuffle) = Ok noises /\
  List.length noises = 3%nat /\ Forall (fun ns => List.length ns = 2%nat) noises.
Proof.
  destruct (C59_batch_query Checked demo_tfhe demo_cx 2 1 (exact_fft 4) 0 3 3 1 3 2 3 (demo_coins demo_shuffle) demo_context demo_setting (demo_good _ demo_shuffle_perm)) as (ns & E & L & _);
    [lia|lia|lia|reflexivity|vm_compute; reflexivity|vm_compute; reflexivity|]. exists ns. split; [exact E|]. split; [exact L|]. apply Forall_forall. intros x Hx.
  exact (C88_run _ Checked 3 (2 ^ 1) 3 demo_tfhe (demo_coins demo_shuffle) 2 demo_nh3 ns demo_nh3_new demo_hash3 ltac:(lia) eq_refl E x Hx).
Qed.
Example C88_dropped_run_applies : exists cx fft co noises, context_new Checked double_tfhe = Ok cx /\ batch_query fft Checked 3 8 1 double_tfhe false co = Ok noises /\
  List.length noises = 1%nat /\ Forall (fun ns => List.length ns = 1%nat) noises.
Proof.
  destruct C97_dropped_applies as (cx & fft & co & nh & ns & Enh & Hh & Ecx & E & Es & L & _). exists cx, fft, co, ns. split; [exact Ecx|]. split; [exact E|]. split; [exact L|].
  apply Forall_forall. intros x Hx. pose proof (C88_run fft Checked 3 8 1 double_tfhe co 8 nh ns Enh Hh ltac:(lia) eq_refl E x Hx) as H. rewrite Es in H. exact H.
Qed.

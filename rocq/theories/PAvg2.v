(** * Property C97, continued: the noise figures in the printed table of the whole program. *)
From Coq Require Import String Ascii Permutation Reals Lia Lra.
From Flocq Require Import IEEE754.BinarySingleNaN.
From Verif Require Import MBase MUtils MCodec MCsv MParams MHash MPoly MRlwe MLwe MEncTree MSched MOram MMain MJson MSerde MOut MCli MCtx MFft MNoise MIeee MIeee2 MShuffle MAvg.
From Verif Require Import SpecText SpecJson SpecOut SpecRing SpecLwe SpecEnc SpecOram SpecBatch SpecConc SpecDriver SpecCli SpecFft SpecNoise SpecDouble SpecIeee SpecIeee2 SpecTables SpecShuffle SpecLog SpecAvg.
From Verif Require Import PfNear PfTables PfFloat PfDet2 PfMain PfOram4 LBatch PfCodec PfOut PfCli PfAvg LRlwe LOram Demo PEnc POram PBatch PCsv PMain PRun PDriver PCtx PSerde POut PCli PDefault PFft PNoise PIeee PShuffle PWhole PClose PClose2 PAvg.
From Verif Require SpecChance PChance.
Local Open Scope string_scope.
Local Open Scope Z_scope.

(** What the table shows about the noise of set [sp]: one figure per iteration, the first in the row of the set, the others on lines of their own. *)
Definition shows_figures (show : f64 -> string) (sp : server_params) (block : string * list string) (figures : list f64) : Prop :=
  Z.of_nat (List.length figures) = iterations_of sp /\ List.length (snd block) = (List.length figures - 1)%nat /\
  (forall x, nth_error figures 0 = Some x -> cell header (fst block) "final_noise" = Some (show x)) /\
  (forall j x line, nth_error figures (S j) = Some x -> nth_error (snd block) j = Some line ->
    exists m i, decimal_of m (mode_of sp) /\ decimal_of i (Z.of_nat (S j)) /\
      line = append "### mode=" (append m (append ", iter=" (append i (append ", noise=" (show x)))))).
(** A possible figure: not a number if nothing was asked; else minus infinity, or at most the logarithm of half the distance between two encoded values. *)
Definition possible (sp : server_params) (x : f64) : Prop :=
  (answers_of sp = 0%nat -> x = B754_nan) /\
  (answers_of sp <> 0%nat -> x = B754_infinity true \/ (is_finite x = true /\ 0 <= B2R x <= 63 - log2 (IZR (tp_plaintext_modulus (sp_tfhe sp))))%R).

Lemma modulus_power fft md sp co : set_fits sp -> supported fft md sp co -> exists k, 1 <= k <= 63 /\ tp_plaintext_modulus (sp_tfhe sp) = 2 ^ k.
Proof.
  intros Hfit (cx & lg & k & eps & S0 & E & a & Ecx & Hset & _). pose proof Hset as ((_ & _ & _ & _ & _ & _ & _ & Hk & Hc) & _).
  exists k. split; [exact Hk|]. apply (modulus_of md _ cx); trivial. destruct Hfit as (_ & _ & _ & _ & _ & _ & _ & Hw & _). exact Hw.
Qed.
Lemma figure_possible lg sp k vs : accurate_log2 lg -> ordered_log2 lg -> 1 <= k <= 63 -> tp_plaintext_modulus (sp_tfhe sp) = 2 ^ k -> Z.of_nat (answers_of sp) <= 2 ^ 40 ->
  Forall (fun v => 0 <= v /\ 2 * tp_plaintext_modulus (sp_tfhe sp) * v < 2 ^ 64) vs -> (List.length vs <= answers_of sp)%nat -> (vs = [] -> answers_of sp = 0%nat) ->
  possible sp (average_over lg (answers_of sp) vs).
Proof.
  intros A O Hk Em Hd HF Hl Hne. unfold possible. rewrite Em in *. split.
  - intros E0. rewrite E0 in *. destruct vs; [reflexivity|cbn in Hl; lia].
  - intros N0. assert (vs <> []) as Hv by (intros E; apply N0, Hne, E).
    assert (Forall (fun v => 0 <= v <= 2 ^ Z.of_nat (Z.to_nat (63 - k))) vs) as HB.
    { eapply Forall_impl; [|exact HF]. intros v [Hv0 Hv1]. cbv beta. rewrite Z2Nat.id by lia. replace (2 ^ 64) with (2 * 2 ^ k * 2 ^ (63 - k)) in Hv1.
      - pose proof (Z.pow_pos_nonneg 2 k ltac:(lia) ltac:(lia)). nia.
      - rewrite <- Z.mul_assoc, <- Z.pow_add_r by lia. rewrite <- Z.pow_succ_r by lia. f_equal. lia. }
    destruct (in_dec Z.eq_dec 0 vs) as [Hin|Hnin].
    + left. apply average_over_zero; trivial. eapply Forall_impl; [|exact HB]. intros v Hv0. cbv beta in Hv0 |- *. assert (2 ^ Z.of_nat (Z.to_nat (63 - k)) <= 2 ^ 63) by (apply Z.pow_le_mono_r; lia). lia.
    + right. destruct (average_over_range lg (answers_of sp) vs (Z.to_nat (63 - k)) A O Hv Hl Hd ltac:(lia)) as [F B].
      { apply Forall_forall. intros v Hin. rewrite Forall_forall in HB. specialize (HB v Hin). assert (v <> 0) by (intros ->; contradiction). lia. }
      split; [exact F|]. rewrite INR_IZR_INZ, Z2Nat.id, minus_IZR in B by lia.
      assert (log2 (IZR (2 ^ k)) = IZR k) as ->; [|exact B]. rewrite <- (Z2Nat.id k) at 1 by lia. rewrite <- pow_IZR, log2_pow, INR_IZR_INZ, Z2Nat.id by lia. reflexivity.
Qed.

(** The whole program on supported parameter sets (C93): every noise figure in the table is the average of the logarithms, in double precision, and is a possible one. *)
Theorem C97_program : forall lg show pf negative dev files about show_dev fft md args co cl ss c path sps,
  accurate_log2 lg -> ordered_log2 lg -> (forall x, plain (show x)) ->
  (forall z, plain (show_dev z)) -> (forall i, plain (fst (fst (cl i))) /\ plain (snd (fst (cl i))) /\ plain (snd (cl i))) ->
  command_line pf negative ss args -> describes pf ss c path -> ~ In (Flag "dryrun") ss -> asked dev files path c sps -> Forall set_fits sps ->
  (forall i sp, nth_error sps i = Some sp -> supported (fft (tp_polynomial_size (sp_tfhe sp))) md sp (co i) /\ Z.of_nat (answers_of sp) <= 2 ^ 40) ->
  exists text blocks, program pf negative dev files about show_dev (fun d es => show (average_over lg d es)) fft md args co cl = (text, 0) /\
    lines text = (header :: flat_map block_lines blocks ++ [""])%list /\ List.length blocks = List.length sps /\
    forall i sp, nth_error sps i = Some sp -> exists block figures, nth_error blocks i = Some block /\ shows_figures show sp block figures /\ Forall (possible sp) figures.
Proof.
  intros lg show pf negative dev files about sd fft md args co cl ss c path sps A O Hsh Hd Hcl Hc D Hdry Hask HF Hsup.
  destruct (C93_completes pf negative dev files about sd (fun d es => show (average_over lg d es)) fft md args co cl ss c path sps Hd (fun d l => Hsh _) Hcl Hc D Hdry Hask HF) as
    (text & outs & blocks & Hprog & Hlines & Lb & Lo & Hrep & _). { intros i sp Hi. apply (Hsup i sp Hi). }
  exists text, blocks. split; [exact Hprog|]. split; [exact Hlines|]. split; [exact Lb|]. intros i sp Hi.
  destruct (Hrep i sp Hi) as (out & block & _ & Eb & (R1 & _ & _ & R4 & R5 & R6) & Hh). destruct (Hsup i sp Hi) as [Hs Ha].
  assert (set_fits sp) as Hfit by (rewrite Forall_forall in HF; apply HF; eapply nth_error_In, Hi). destruct (modulus_power _ _ _ _ Hfit Hs) as (k & Hk & Em).
  exists block, (map (average_over lg (answers_of sp)) out). split; [exact Eb|]. split.
  - unfold shows_figures. rewrite map_length. split; [exact R1|]. split; [exact R5|]. split.
    + intros x Hx. destruct out as [|v out]; [discriminate|]. injection Hx as <-. apply R4.
    + intros j x line Hx Hline. rewrite nth_error_map in Hx. destruct (nth_error out (S j)) as [v|] eqn:Ev; [|discriminate]. injection Hx as <-. exact (R6 j v line Ev Hline).
  - apply Forall_forall. intros x Hin. apply in_map_iff in Hin as (vs & <- & Hin). unfold harmless in Hh. rewrite Forall_forall in Hh. destruct (Hh vs Hin) as (H1 & H2 & H3 & _).
    apply (figure_possible lg sp k); assumption.
Qed.
Print Assumptions C97_program.

(** Asking for no answers at all ([--mode 1 --query-count 0]) is accepted: the program ends with status 0 and reports NaN. *)
Definition none_args : list string :=
  ["--mode=1"; "--item-count=8"; "--query-count=0"; "--polynomial-size=32"; "--base-log=2"; "--level-count=19"; "--key-switch-base-log=2"; "--key-switch-level-count=19";
   "--negs-base-log=2"; "--negs-level-count=19"; "--plaintext-modulus=2"].
Definition none_settings : list SpecCli.setting :=
  [Opt "mode" "1"; Opt "item-count" "8"; Opt "query-count" "0"; Opt "polynomial-size" "32"; Opt "base-log" "2"; Opt "level-count" "19"; Opt "key-switch-base-log" "2"; Opt "key-switch-level-count" "19";
   Opt "negs-base-log" "2"; Opt "negs-level-count" "19"; Opt "plaintext-modulus" "2"].
Lemma none_command : wellformed demo_f64 demo_neg none_settings none_args.
Proof.
  split; [|split].
  - unfold none_args, none_settings.
    apply (S_cons _ (Opt "mode" "1") _ ["--mode=1"]); [apply (W_attached _ "mode" "1")|].
    apply (S_cons _ (Opt "item-count" "8") _ ["--item-count=8"]); [apply (W_attached _ "item-count" "8")|].
    apply (S_cons _ (Opt "query-count" "0") _ ["--query-count=0"]); [apply (W_attached _ "query-count" "0")|].
    apply (S_cons _ (Opt "polynomial-size" "32") _ ["--polynomial-size=32"]); [apply (W_attached _ "polynomial-size" "32")|].
    apply (S_cons _ (Opt "base-log" "2") _ ["--base-log=2"]); [apply (W_attached _ "base-log" "2")|].
    apply (S_cons _ (Opt "level-count" "19") _ ["--level-count=19"]); [apply (W_attached _ "level-count" "19")|].
    apply (S_cons _ (Opt "key-switch-base-log" "2") _ ["--key-switch-base-log=2"]); [apply (W_attached _ "key-switch-base-log" "2")|].
    apply (S_cons _ (Opt "key-switch-level-count" "19") _ ["--key-switch-level-count=19"]); [apply (W_attached _ "key-switch-level-count" "19")|].
    apply (S_cons _ (Opt "negs-base-log" "2") _ ["--negs-base-log=2"]); [apply (W_attached _ "negs-base-log" "2")|].
    apply (S_cons _ (Opt "negs-level-count" "19") _ ["--negs-level-count=19"]); [apply (W_attached _ "negs-level-count" "19")|].
    apply (S_cons _ (Opt "plaintext-modulus" "2") _ ["--plaintext-modulus=2"]); [apply (W_attached _ "plaintext-modulus" "2")|apply S_nil].
  - unfold none_settings. repeat apply Forall_cons; try apply Forall_nil; right; left;
      (split; [unfold numbers; cbn; tauto|]); eexists; (split; [apply C70_field; reflexivity|reflexivity]).
  - repeat constructor; cbn; intuition discriminate.
Qed.
(** As C96_program: any arguments [c] of a small run. *)
Lemma small_sets kd T shape fl lnf md c wh ws wr wq t0 t cx co : small_run c -> context_new md double_tfhe = Ok cx -> co = drawn_coins cx (shuffled wh) ws wr wq t0 t -> Forall is_word wh ->
  noise_arithmetic fl lnf -> sampled fl lnf (/ 2 ^ 55) 32 t0 -> (forall j i, sampled fl lnf (/ 2 ^ 55) 32 (t j i)) ->
  close_tables T 32 (INR 32 * / 2 ^ 53) -> (forall ts, (List.length ts <= 38)%nat -> sums 32 (shape ts) ts 38) ->
  let sp := {| sp_oram := if cli_mode c =? 0 then SingleQuery (cli_item_count c) 1 else if cli_mode c =? 1 then MultiQuery (cli_item_count c) (cli_query_count c) 1
                          else Batched (cli_rows c) (cli_cols c) 1; sp_tfhe := cli_tfhe c |} in
  supported (ieee_fft_of kd T shape 32) md sp co /\ set_fits sp.
Proof.
  intros Hsm Hcx Eco Hwh Ha Ht0 Ht HT Hsh sp. pose proof (close_small md cx kd T shape Hcx HT Hsh) as Hf. destruct (double_context md) as (cx' & E' & Hp & En & _). rewrite Hcx in E'. injection E' as <-.
  apply (close_supported md cx); trivial.
  - rewrite Eco. pose proof (drawn_setting cx 5 1 (ieee_fft_of kd T shape 32) small_table (shuffled wh) ws wr wq t0 t Hp Hf) as H. rewrite En in H. exact H.
  - rewrite Eco. pose proof Hp as (_ & _ & _ & _ & _ & _ & _ & Hk & Hcd). apply drawn_good; [exact Hk|exact Hcd|apply shuffled_perm, Hwh| |]; rewrite En; [|intros j i]; eapply sampled_default; eauto.
Qed.
Theorem C97_no_queries_refuted : forall kd, exists cx t text block, context_new Checked double_tfhe = Ok cx /\ sampled (machine binary64) lossy_ln (/ 2 ^ 55) 32 t /\
  program demo_f64 demo_neg (fun _ => None) (fun _ => Absent) "about" (fun _ => "-55") (fun d es => if is_nan (average_over ideal_log2 d es) then "NaN" else "0")
    (fun n => ieee_fft_of kd (computed_tables rounded_sin_cos) one_by_one (Z.to_nat n)) Checked
    none_args (fun _ => drawn_coins cx (shuffled [1; 2; 3; 4; 5; 6; 7; 8; 9]) (fun i => Z.of_nat i) (fun i => Z.of_nat (2 * i)) (fun _ _ i => Z.of_nat i) t (fun _ _ => t))
    (fun _ => ("1ms", "2ms", "3ms")) = (text, 0) /\
  lines text = (header :: block_lines block ++ [""])%list /\ cell header (fst block) "final_noise" = Some "NaN".
Proof.
  intros kd. destruct (double_context Checked) as (cx & E & _). destruct (some_tape 32) as (t & Ht). exists cx, t.
  pose proof none_command as (Sp & F & N). destruct (proj1 C97_rounded ideal_log2 ideal_log2_ok) as [A O].
  assert (forall s, (s = "-55" \/ s = "0" \/ s = "NaN" \/ s = "1ms" \/ s = "2ms" \/ s = "3ms") -> plain s) as Hpl.
  { intros s Hs ch Hin. repeat (destruct Hs as [->|Hs]); try subst s; cbn in Hin; repeat (destruct Hin as [<-|Hin]; [split; discriminate|]); destruct Hin. }
  set (c := cli_of demo_f64 (rev (map as_pair none_settings))).
  assert (small_run c) as Hsm by (split; [reflexivity|]; vm_compute; split; [auto|split; [split; [discriminate|reflexivity]|discriminate]]).
  destruct (small_sets kd (computed_tables rounded_sin_cos) one_by_one (machine binary64) lossy_ln Checked c [1; 2; 3; 4; 5; 6; 7; 8; 9] (fun i => Z.of_nat i) (fun i => Z.of_nat (2 * i))
    (fun _ _ i => Z.of_nat i) t (fun _ _ => t) cx _ Hsm E eq_refl) as [Hs Hfit]; auto.
  - repeat (apply Forall_cons; [split; [discriminate|reflexivity]|]). apply Forall_nil.
  - exact double_noise.
  - apply (close_mono _ _ (INR 17 * / 2 ^ 53)); [exact (C96_computed rounded_sin_cos 4 rounded_sin_cos_ok ltac:(lia))|]. apply Rmult_le_compat_r; [pose proof u_pos; lra|apply le_INR; lia].
  - intros ts. apply one_by_one_ok.
  - set (sp := {| sp_oram := _; sp_tfhe := cli_tfhe c |}) in Hs, Hfit.
    destruct (C97_program ideal_log2 (fun x => if is_nan x then "NaN" else "0") demo_f64 demo_neg (fun _ => None) (fun _ => Absent) "about" (fun _ => "-55")
      (fun n => ieee_fft_of kd (computed_tables rounded_sin_cos) one_by_one (Z.to_nat n)) Checked
      none_args (fun _ => drawn_coins cx (shuffled [1; 2; 3; 4; 5; 6; 7; 8; 9]) (fun i => Z.of_nat i) (fun i => Z.of_nat (2 * i)) (fun _ _ i => Z.of_nat i) t (fun _ _ => t))
      (fun _ => ("1ms", "2ms", "3ms")) none_settings c "" [sp]) as (text & blocks & H1 & H2 & H3 & H4); auto.
    + intros x. destruct (is_nan x); apply Hpl; auto.
    + intros i. cbn [fst snd]. split; [|split]; apply Hpl; auto 8.
    + left. split; auto.
    + exact (fields_describe demo_f64 demo_neg none_settings N F).
    + unfold none_settings. cbn. intuition discriminate.
    + unfold asked. reflexivity.
    + intros i sp0 Hi. destruct i as [|[|i]]; try discriminate Hi. injection Hi as <-. split; [exact Hs|]. vm_compute. discriminate.
    + destruct blocks as [|block [|? ?]]; try discriminate H3. destruct (H4 0%nat sp eq_refl) as (block' & figures & Eb & (L & _ & Hfirst & _) & HF). injection Eb as <-.
      exists text, block. split; [exact E|]. split; [exact Ht|]. split; [exact H1|]. split; [rewrite H2; cbn [flat_map]; rewrite app_nil_r; reflexivity|].
      destruct figures as [|x figures]; [exfalso; cbn in L; discriminate L|]. rewrite (Hfirst x eq_refl). apply Forall_inv in HF. destruct HF as [HF _]. rewrite HF by reflexivity. reflexivity.
Qed.
Print Assumptions C97_no_queries_refuted.

(** A batch that drops its second item (C10, C88) reports about half the logarithm of the noise of the only answer: the divisor is the number of items asked for. *)
Theorem C97_dropped_refuted : forall lg fft md rows cols iterations p co dom nh noises, accurate_log2 lg ->
  nh_new (co_shuffle co) 3 dom = Ok nh -> hash_for nh 3 dom -> (2 <= dom)%nat -> (rows * cols = 3 * dom)%nat ->
  batch_query fft md rows cols iterations p false co = Ok noises -> SpecChance.served nh [0; 1]%nat cols 1 = false ->
  Forall (fun vs : list Z => exists e, vs = [e] /\ (1 <= e <= 2 ^ 63 -> is_finite (average_over lg 2 vs) = true /\ (Rabs (B2R (average_over lg 2 vs) - log2 (IZR e) / 2) <= 258 * / 2 ^ 53)%R)) noises.
Proof.
  intros lg fft md rows cols it p co dom nh noises A Hn Hh Hd Hrc Hrun Hs. apply Forall_forall. intros vs Hin.
  pose proof (PChance.C88_run fft md rows cols it p co dom nh noises Hn Hh Hd Hrc Hrun vs Hin) as L. rewrite Hs in L. destruct vs as [|e [|? ?]]; try discriminate L. exists e. split; [reflexivity|]. intros He.
  destruct (C97_over lg 2 [e] A) as [F D]; [discriminate|cbn; lia|cbn; lia|constructor; [lia|constructor]|]. split; [exact F|]. unfold mean_log2 in D. cbn [map fold_right List.length] in D.
  replace ((log2 (IZR e) + 0) / INR 1 * (INR 1 / INR 2))%R with (log2 (IZR e) / 2)%R in D by (cbn; field). replace (64 * INR 1 + 194)%R with 258%R in D by (cbn; ring). exact D.
Qed.
Print Assumptions C97_dropped_refuted.
(** It happens: eight items in three rows of eight, cells in order. *)
Example C97_dropped_applies : exists cx fft co nh noises, nh_new (co_shuffle co) 3 8 = Ok nh /\ hash_for nh 3 8 /\ context_new Checked double_tfhe = Ok cx /\
  batch_query fft Checked 3 8 1 double_tfhe false co = Ok noises /\ SpecChance.served nh [0; 1]%nat 8 1 = false /\ List.length noises = 1%nat /\ Forall (Forall (fun v => 0 <= v < 2 ^ 62)) noises.
Proof.
  destruct (double_context Checked) as (cx & E & Hp & En & _). destruct (some_tape 32) as (t & Ht).
  set (fft := ieee_fft_of Separate (computed_tables rounded_sin_cos) one_by_one 32).
  assert (fft_for cx fft small_table) as Hf.
  { apply (close_small Checked cx _ _ _ E); [|intros ts; apply one_by_one_ok].
    apply (close_mono _ _ (INR 17 * / 2 ^ 53)); [exact (C96_computed rounded_sin_cos 4 rounded_sin_cos_ok ltac:(lia))|]. apply Rmult_le_compat_r; [pose proof u_pos; lra|apply le_INR; lia]. }
  set (co := drawn_coins cx (fun l => l) (fun i => Z.of_nat i) (fun i => Z.of_nat (2 * i)) (fun _ _ i => Z.of_nat i) t (fun _ _ => t)).
  set (c := {| cli_mode := 2; cli_item_count := 8; cli_query_count := 2; cli_rows := 3; cli_cols := 8; cli_tfhe := double_tfhe; cli_dryrun := false |}).
  assert (SpecOram.setting cx 5 1 fft small_table (co_sk co) 32) as Hset.
  { pose proof (drawn_setting cx 5 1 fft small_table (fun l => l) (fun i => Z.of_nat i) (fun i => Z.of_nat (2 * i)) (fun _ _ i => Z.of_nat i) t (fun _ _ => t) Hp Hf) as H. rewrite En in H. exact H. }
  assert (good_coins cx 1 default_noise co) as Hco.
  { pose proof Hp as (_ & _ & _ & _ & _ & _ & _ & Hk & Hcd). apply drawn_good; [exact Hk|exact Hcd|intros l; apply Permutation_refl| |]; rewrite En; [|intros j i]; eapply sampled_default; eauto using double_noise. }
  destruct (close_supported Checked cx fft c co E Hf Hset Hco) as [Hs Hfit]; [split; [reflexivity|]; vm_compute; split; [auto|split; [split; [discriminate|reflexivity]|reflexivity]]|].
  destruct (supported_noises _ _ _ _ Hfit Hs) as (out & Hrun & L & Hh). cbn in L.
  exists cx, fft, co, {| nh_tables := seq 0 24; nh_h_count := 3; nh_input_domain := 8 |}, out. split; [reflexivity|]. split; [exists (fun l => l); split; [intros l; apply Permutation_refl|reflexivity]|].
  split; [exact E|]. split.
  - unfold run_params in Hrun. apply bind_ok in Hrun as (l & _ & Hrun). exact Hrun.
  - split; [reflexivity|]. split; [lia|]. eapply Forall_impl; [|exact Hh]. intros vs [H _]. revert H. apply Forall_impl. intros v [H0 H1]. change (tp_plaintext_modulus (sp_tfhe _)) with 2 in H1. lia.
Qed.

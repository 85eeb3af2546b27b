(** * Property C96, continued: the whole program (C93) with close tables and any way to multiply. *)
From Coq Require Import String Ascii Permutation Reals Lia Lra.
From Verif Require Import MBase MUtils MCodec MCsv MParams MHash MPoly MRlwe MLwe MEncTree MSched MOram MMain MJson MSerde MOut MCli MCtx MFft MNoise MIeee MIeee2 MShuffle.
From Verif Require Import SpecText SpecJson SpecOut SpecRing SpecLwe SpecEnc SpecOram SpecBatch SpecConc SpecDriver SpecCli SpecFft SpecNoise SpecDouble SpecIeee SpecIeee2 SpecTables SpecShuffle.
From Verif Require Import PfNear PfTables PfDet2 PfMain PfOram4 LBatch PfCodec PfOut PfCli LRlwe LOram Demo PEnc POram PBatch PCsv PMain PRun PDriver PCtx PSerde POut PCli PDefault PFft PNoise PIeee PShuffle PWhole PClose.
Local Open Scope string_scope.
Local Open Scope Z_scope.

Lemma close_supported md cx fft c co : context_new md double_tfhe = Ok cx -> fft_for cx fft small_table -> SpecOram.setting cx 5 1 fft small_table (co_sk co) 32 ->
  good_coins cx 1 default_noise co -> small_run c ->
  let sp := {| sp_oram := if cli_mode c =? 0 then SingleQuery (cli_item_count c) 1 else if cli_mode c =? 1 then MultiQuery (cli_item_count c) (cli_query_count c) 1
                          else Batched (cli_rows c) (cli_cols c) 1; sp_tfhe := cli_tfhe c |} in
  supported fft md sp co /\ set_fits sp.
Proof.
  intros Hcx Hf Hset Hco [Et Hm] sp. destruct (double_context md) as (cx' & E' & Hp & En & Eb & El & Eg & Ekb & Ekl). rewrite Hcx in E'. injection E' as <-.
  assert (forall z, In z [2; 4; 8] -> word z) as Hw by (intros z [<-|[<-|[<-|[]]]]; split; reflexivity || discriminate).
  assert (word 1) as H1 by (split; reflexivity || discriminate).
  assert (forall o, match o with SingleQuery items it => word items /\ word it | MultiQuery items queries it => word items /\ word queries /\ word it
     | Batched rows cols it => word rows /\ word cols /\ word it /\ word (rows * cols) end -> set_fits {| sp_oram := o; sp_tfhe := double_tfhe |}) as Hfits.
  { intros o Ho. unfold set_fits. cbn [sp_tfhe sp_oram double_tfhe tp_polynomial_size tp_base_log tp_level_count tp_ks_base_log tp_ks_level_count tp_negs_base_log tp_negs_level_count tp_plaintext_modulus].
    repeat (split; [split; reflexivity || discriminate|]). exact Ho. }
  assert (forall a, (a = 1 \/ a = 2 \/ a = 3)%nat -> 0 <= growth cx a 32 default_noise small_table /\
    2 * (default_noise + 10 * growth cx a 32 default_noise small_table + answer_growth cx a 32 default_noise small_table) < 2 ^ (64 - 1)) as Hg.
  { intros a Ha. unfold growth, answer_growth, ep_sel, sel_noise, ep_fresh. rewrite En, Eb, El, Eg. destruct Ha as [-> | [-> | ->]]; vm_compute; split; congruence. }
  assert (forall a Q, (a = 1 \/ a = 2 \/ a = 3)%nat -> (Q < 8)%nat ->
    2 * (default_noise + 1 * multi_growth cx a 32 default_noise small_table Q + answer_growth cx a 32 default_noise small_table) < 2 ^ (64 - 1)) as Hmg.
  { intros a Q Ha HQ. unfold multi_growth, answer_growth, ep_sel, sel_noise, ep_fresh. rewrite En, Eb, El, Eg.
    do 8 (destruct Q as [|Q]; [destruct Ha as [-> | [-> | ->]]; vm_compute; congruence|]). lia. }
  unfold sp. rewrite Et. unfold supported. cbn [sp_tfhe sp_oram]. destruct (cli_mode c =? 0); [|destruct (cli_mode c =? 1)].
  - destruct (power_248 _ Hm) as (a & Ha & Ea). split; [|apply Hfits; split; [apply Hw, Hm|exact H1]].
    exists cx, 5%nat, 1, small_table, 32, default_noise, a. repeat (split; [assumption|]). split; [lia|]. split; [exact Ea|]. split; [rewrite El; discriminate|]. split; [lia|].
    destruct (Hg a Ha). lia.
  - destruct Hm as (Hm & Hq & Hq1). destruct (power_248 _ Hm) as (a & Ha & Ea). split.
    + exists cx, 5%nat, 1, small_table, 32, default_noise, a. repeat (split; [assumption|]). split; [lia|]. split; [exact Ea|]. split; [exact Hq|]. split; [exact Hq1|]. split; [lia|].
      apply Hmg; [exact Ha|]. assert (cli_item_count c <= 8) by (clear - Hm; destruct Hm as [<-|[<-|[<-|[]]]]; lia). lia.
    + apply Hfits. split; [apply Hw, Hm|]. split; [|exact H1]. pose proof (Hw _ Hm) as Hw0. unfold word in *. lia.
  - destruct Hm as (Hm & Hd & Hmod). destruct (power_248 _ Hm) as (a & Ha & Ea). split.
    + exists cx, 5%nat, 1, small_table, 32, default_noise, a. repeat (split; [assumption|]). split; [lia|].
      pose proof (Z.div_mod (cli_rows c * cli_cols c) 3 ltac:(lia)) as Ed. rewrite Hmod in Ed.
      exists (cli_rows c * cli_cols c / 3). split; [exact Ea|]. split; [lia|]. split; [lia|]. split; [lia|].
      unfold batch_growth. destruct (Hg a Ha). change (2 * Z.of_nat 3 - 1) with 5. lia.
    + apply Hfits. assert (2 <= cli_cols c) by (clear - Hm; destruct Hm as [<-|[<-|[<-|[]]]]; lia).
      split; [unfold word; nia|]. split; [apply Hw, Hm|]. split; [exact H1|]. unfold word. lia.
Qed.
(** From the arguments to the printed table, as C93_small_ring, with the Fourier transform on IEEE numbers, with tables accurate to 32 units of
    2^-53 and with or without fused multiply-add. *)
Theorem C96_program : forall f64 negative dev files about show_dev show_noise kd T shape fl lnf md args co cl ss c path cx wh ws wr wq t0 t,
  (forall z, plain (show_dev z)) -> (forall d l, plain (show_noise d l)) -> (forall i, plain (fst (fst (cl i))) /\ plain (snd (fst (cl i))) /\ plain (snd (cl i))) ->
  command_line f64 negative ss args -> describes f64 ss c path -> ~ In (Flag "dryrun") ss -> files path = Absent -> small_run c ->
  context_new md double_tfhe = Ok cx -> co 0%nat = drawn_coins cx (shuffled wh) ws wr wq t0 t -> Forall is_word wh ->
  noise_arithmetic fl lnf -> sampled fl lnf (/ 2 ^ 55) 32 t0 -> (forall j i, sampled fl lnf (/ 2 ^ 55) 32 (t j i)) ->
  close_tables T 32 (INR 32 * / 2 ^ 53) -> (forall ts, (List.length ts <= 38)%nat -> sums 32 (shape ts) ts 38) ->
  let fft := fun n => ieee_fft_of kd T shape (Z.to_nat n) in
  let sp := {| sp_oram := if cli_mode c =? 0 then SingleQuery (cli_item_count c) 1 else if cli_mode c =? 1 then MultiQuery (cli_item_count c) (cli_query_count c) 1
                          else Batched (cli_rows c) (cli_cols c) 1; sp_tfhe := double_tfhe |} in
  exists text out block, program f64 negative dev files about show_dev show_noise fft md args co cl = (text, 0) /\
    lines text = (header :: block_lines block ++ [""])%list /\ reported show_dev show_noise false (cl 0%nat) sp out block /\
    Forall (Forall (fun v => 0 <= v < 2 ^ 62)) out /\
    forall pref r, main_exec pref fft md (params_at dev files path) c co r -> r = Ok [out].
Proof.
  intros f64 negative dev files about sd sn kd T shape fl lnf md args co cl ss c path cx wh ws wr wq t0 t Hd Hn Hcl Hc D Hdry Hfile Hsm Hcx Eco Hwh Ha Ht0 Ht HT Hsh fft sp.
  pose proof (close_small md cx kd T shape Hcx HT Hsh) as Hf. destruct (double_context md) as (cx' & E' & Hp & En & _). rewrite Hcx in E'. injection E' as <-.
  assert (SpecOram.setting cx 5 1 (ieee_fft_of kd T shape 32) small_table (co_sk (co 0%nat)) 32) as Hset.
  { rewrite Eco. pose proof (drawn_setting cx 5 1 (ieee_fft_of kd T shape 32) small_table (shuffled wh) ws wr wq t0 t Hp Hf) as H. rewrite En in H. exact H. }
  assert (good_coins cx 1 default_noise (co 0%nat)) as Hco.
  { rewrite Eco. pose proof Hp as (_ & _ & _ & _ & _ & _ & _ & Hk & Hcd). apply drawn_good; [exact Hk|exact Hcd|apply shuffled_perm, Hwh| |]; rewrite En; [|intros j i]; eapply sampled_default; eauto. }
  destruct (close_supported md cx (ieee_fft_of kd T shape 32) c (co 0%nat) Hcx Hf Hset Hco Hsm) as [Hsup Hfit]. pose proof Hsm as [Et _]. cbv zeta in Hsup, Hfit. rewrite Et in Hsup, Hfit. fold sp in Hsup, Hfit.
  assert (asked dev files path c [sp]) as Hask by (unfold asked; rewrite Hfile; unfold sp; rewrite <- Et; reflexivity).
  destruct (C93_completes f64 negative dev files about sd sn fft md args co cl ss c path [sp] Hd Hn Hcl Hc D Hdry Hask) as (text & outs & blocks & Hprog & Hlines & Lb & Lo & Hrep & Hsched).
  - repeat constructor; apply Hfit.
  - intros i sp0 Hi. destruct i as [|[|i]]; try discriminate Hi. injection Hi as <-. exact Hsup.
  - destruct outs as [|out [|? ?]]; try discriminate Lo. destruct blocks as [|block [|? ?]]; try discriminate Lb.
    destruct (Hrep 0%nat sp eq_refl) as (out' & block' & E1 & E2 & R & Hh). cbn in E1, E2. injection E1 as <-. injection E2 as <-.
    exists text, out, block. split; [exact Hprog|]. split; [rewrite Hlines; cbn [flat_map]; rewrite app_nil_r; reflexivity|]. split; [exact R|]. split.
    + eapply Forall_impl; [|exact Hh]. intros l [Hl _]. revert Hl. apply Forall_impl. intros v [Hv0 Hv]. change (tp_plaintext_modulus (sp_tfhe sp)) with 2 in Hv. lia.
    + intros pref r. apply Hsched. intros i sp0 Hi ts. destruct i as [|[|i]]; try discriminate Hi. injection Hi as <-. change (Z.to_nat (tp_polynomial_size (sp_tfhe sp))) with 32%nat.
      unfold fft, ieee_fft_of, k_backward. change (Z.to_nat (tp_polynomial_size (sp_tfhe sp))) with 32%nat. rewrite app_length, !map_length, !seq_length. reflexivity.
Qed.
Print Assumptions C96_program.
Example C96_program_applies : forall kd, exists cx t text out block, context_new Checked double_tfhe = Ok cx /\ sampled (machine binary64) lossy_ln (/ 2 ^ 55) 32 t /\
  program demo_f64 demo_neg (fun _ => None) (fun _ => Absent) "about" (fun _ => "-55") (fun _ _ => "0")
    (fun n => ieee_fft_of kd (computed_tables rounded_sin_cos) one_by_one (Z.to_nat n)) Checked
    small_args (fun _ => drawn_coins cx (shuffled [1; 2; 3; 4; 5; 6; 7; 8; 9]) (fun i => Z.of_nat i) (fun i => Z.of_nat (2 * i)) (fun _ _ i => Z.of_nat i) t (fun _ _ => t))
    (fun _ => ("1ms", "2ms", "3ms")) = (text, 0) /\
  lines text = (header :: block_lines block ++ [""])%list /\ cell header (fst block) "setup_duration" = Some "1ms" /\ shows_word (cell header (fst block) "item_count") 8 /\
  Forall (Forall (fun v => 0 <= v < 2 ^ 62)) out.
Proof.
  intros kd. destruct (double_context Checked) as (cx & E & _). destruct (some_tape 32) as (t & Ht). exists cx, t.
  pose proof small_command as (Sp & F & N).
  assert (forall s, (s = "-55" \/ s = "0" \/ s = "1ms" \/ s = "2ms" \/ s = "3ms") -> plain s) as Hpl.
  { intros s Hs ch Hin. repeat (destruct Hs as [->|Hs]); try subst s; cbn in Hin; repeat (destruct Hin as [<-|Hin]; [split; discriminate|]); destruct Hin. }
  destruct (C96_program demo_f64 demo_neg (fun _ => None) (fun _ => Absent) "about" (fun _ => "-55") (fun _ _ => "0") kd (computed_tables rounded_sin_cos) one_by_one (machine binary64) lossy_ln Checked
    small_args (fun _ => drawn_coins cx (shuffled [1; 2; 3; 4; 5; 6; 7; 8; 9]) (fun i => Z.of_nat i) (fun i => Z.of_nat (2 * i)) (fun _ _ i => Z.of_nat i) t (fun _ _ => t))
    (fun _ => ("1ms", "2ms", "3ms")) small_settings (cli_of demo_f64 (rev (map as_pair small_settings))) "" cx [1; 2; 3; 4; 5; 6; 7; 8; 9] (fun i => Z.of_nat i) (fun i => Z.of_nat (2 * i)) (fun _ _ i => Z.of_nat i) t (fun _ _ => t))
    as (text & out & block & H1 & H2 & H3 & H4 & _); auto.
  - intros i. cbn [fst snd]. split; [|split]; apply Hpl; auto 6.
  - left. split; auto.
  - exact (fields_describe demo_f64 demo_neg small_settings N F).
  - unfold small_settings. cbn. intuition discriminate.
  - split; [reflexivity|]. vm_compute. auto.
  - repeat (apply Forall_cons; [split; [discriminate|reflexivity]|]). apply Forall_nil.
  - exact double_noise.
  - apply (close_mono _ _ (INR 17 * / 2 ^ 53)); [exact (C96_computed rounded_sin_cos 4 rounded_sin_cos_ok ltac:(lia))|]. apply Rmult_le_compat_r; [pose proof u_pos; lra|apply le_INR; lia].
  - intros ts. apply one_by_one_ok.
  - exists text, out, block. split; [exact E|]. split; [exact Ht|]. split; [exact H1|]. split; [exact H2|].
    destruct H3 as (L3 & _ & Hpar & Hres & _). cbn [sp_oram] in Hpar. split; [|split; [|exact H4]].
    + destruct out as [|first out]; [exfalso; cbn in L3; discriminate L3|]. apply Hres.
    + destruct Hpar as (_ & _ & _ & _ & _ & _ & _ & _ & _ & _ & Hm). apply Hm.
Qed.

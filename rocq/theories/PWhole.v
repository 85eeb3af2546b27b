(** * Property C93: the program from its arguments to its table.
    Everything at once: the command line (C84), the parameter files (C78), the drivers (C59), the noise generator (C85), the
    generators of the context (C62), the shuffle (C86), the Fourier transform on IEEE numbers (C92), the schedules (C72) and the table (C81). *)
From Coq Require Import String Ascii Permutation Reals.
From Verif Require Import MBase MUtils MCodec MCsv MParams MHash MPoly MRlwe MLwe MEncTree MSched MOram MMain MJson MSerde MOut MCli MCtx MFft MNoise MIeee MShuffle.
From Verif Require Import SpecText SpecJson SpecOut SpecRing SpecLwe SpecEnc SpecOram SpecBatch SpecConc SpecDriver SpecCli SpecFft SpecNoise SpecDouble SpecIeee SpecShuffle.
From Verif Require Import PfNear PfDet2 PfMain PfOram4 LBatch PfCodec PfOut PfCli LRlwe LOram Demo PEnc POram PBatch PCsv PMain PRun PDriver PCtx PSerde POut PCli PDefault PFft PNoise PIeee PShuffle.
Local Open Scope string_scope.
Local Open Scope Z_scope.

(** The parameter sets that the options [c] and the path ask for: those of the file if it opens, else the one of the options. *)
Definition asked (dev : string -> option Z) (files : string -> file) (path : string) (c : cli) (sps : list server_params) : Prop :=
  match files path with
  | Absent => sps = [{| sp_oram := if cli_mode c =? 0 then SingleQuery (cli_item_count c) 1 else if cli_mode c =? 1 then MultiQuery (cli_item_count c) (cli_query_count c) 1
                                   else Batched (cli_rows c) (cli_cols c) 1; sp_tfhe := cli_tfhe c |}]
  | f => PCli.chosen dev f sps
  end.
(** Every printed noise is less than half the distance between two encoded values.  It comes from as many answers as were asked for, except that
    a batch can drop answers (C10), but not all of them. *)
Definition harmless (sp : server_params) (out : list (list Z)) : Prop :=
  Forall (fun vs => Forall (fun v => 0 <= v /\ 2 * tp_plaintext_modulus (sp_tfhe sp) * v < 2 ^ 64) vs /\ (List.length vs <= answers_of sp)%nat /\ (vs = [] -> answers_of sp = 0%nat) /\
    (List.length vs = answers_of sp \/ exists rows cols it, sp_oram sp = Batched rows cols it)) out.

Lemma asked_selects dev files path c sps : asked dev files path c sps -> select_params (params_at dev files path) c = sps.
Proof.
  unfold asked. destruct (files path) as [| |s] eqn:Ef; [|rewrite <- Ef; apply chosen_selects|rewrite <- Ef; apply chosen_selects].
  intros ->. unfold params_at. rewrite Ef. reflexivity.
Qed.
Lemma modulus_of md p cx k : 0 <= tp_plaintext_modulus p < 2 ^ 64 -> context_new md p = Ok cx -> 1 <= k <= 63 -> codec_new (c_mode cx) (2 ^ k) = Ok (c_codec cx) ->
  tp_plaintext_modulus p = 2 ^ k.
Proof.
  intros Hw H Hk Hc. unfold context_new in H. apply bind_ok in H as (cd & Hd & H). injection H as <-. cbn [c_codec c_mode] in Hc.
  apply (codec_bits _ _ _ Hk) in Hc. unfold codec_new in Hd. destruct (is_power_of_two (tp_plaintext_modulus p)) eqn:Ep; [|discriminate]. cbn [negb] in Hd.
  unfold is_power_of_two in Ep. apply andb_true_iff in Ep as [E1 E2]. apply Z.ltb_lt in E1. apply Z.eqb_eq in E2.
  rewrite ulog2_pos in Hd by (change q with (2 ^ 64); lia). cbn [bind] in Hd. apply bind_ok in Hd as (u & _ & Hd). apply bind_ok in Hd as (d & _ & Hd). injection Hd as <-.
  cbn [pt_modulus_bits cd_base_log] in Hc. rewrite <- Hc. symmetry. exact E2.
Qed.
Lemma some_server cx lg k fft eps s S0 E (a : nat) co : SpecOram.setting cx lg k fft eps s S0 -> good_coins cx k E co -> s = co_sk co -> exists sv, server_for cx s E sv.
Proof.
  intros (Hp & _ & Hs & _) (Hperm & Hit & Hset0 & _) ->. destruct (nh_new (co_shuffle co) 1 (2 ^ a)) as [nh|] eqn:Hnew; [|discriminate].
  destruct (setup_C40 cx lg k Hp (co_sk co) E Hs 1 (2 ^ a) (co_shuffle co) Hperm 1 (2 ^ a) nh Hnew (co_items co) Hit (co_setup co) Hset0 ltac:(lia)) as (sv & D & _ & Hsv & _).
  exists sv. exact Hsv.
Qed.
Lemma supported_noises fft md sp co : set_fits sp -> supported fft md sp co ->
  exists out, run_params fft md false sp co = Ok out /\ Z.of_nat (List.length out) = iterations_of sp /\ harmless sp out.
Proof.
  intros Hfit (cx & lg & k & eps & S0 & E & a & Ecx & Hset & Hco & Ha & H). pose proof Hset as (Hp & Hf & _ & HS). pose proof Hp as (_ & _ & _ & _ & _ & _ & _ & Hk & Hc).
  destruct (modulus_log _ _ _ _ Ecx Hk Hc) as (l & El). unfold run_params, iterations_of, harmless, answers_of. rewrite El. cbn [bind].
  assert (tp_plaintext_modulus (sp_tfhe sp) = 2 ^ k) as ->. { apply (modulus_of md _ cx); trivial. destruct Hfit as (_ & _ & _ & _ & _ & _ & _ & Hw & _). exact Hw. }
  destruct (some_server cx lg k fft eps (co_sk co) S0 E a co Hset Hco eq_refl) as (sv & Hsv). pose proof Hco as (Hperm & Hit0 & Hset0 & Hdm & Ht).
  assert (forall b v j n g, 0 <= v <= b + Z.of_nat j * g -> (j < n)%nat -> 0 <= g -> 2 * (b + Z.of_nat n * g) < 2 ^ (64 - k) -> 0 <= v /\ 2 * 2 ^ k * v < 2 ^ 64) as Hv.
  { clear - Hk. intros b v j n g Hv Hj Hg Hb. split; [lia|]. replace (2 ^ 64) with (2 ^ k * 2 ^ (64 - k)) by (rewrite <- Z.pow_add_r by lia; f_equal; lia).
    pose proof (Z.pow_pos_nonneg 2 k ltac:(lia) ltac:(lia)). assert (2 * v < 2 ^ (64 - k)) by nia. nia. }
  destruct (sp_oram sp) as [items it|items qc it|rows cols it].
  - destruct H as (-> & Hlv & Hit & Hb). rewrite to_nat_pow.
    destruct (C59_single_query md (sp_tfhe sp) cx lg k fft eps S0 E a (Z.to_nat it) co Ecx Hset Hlv Hco Ha ltac:(lia)) as (ns & En & L & Hn).
    { rewrite Z2Nat.id by lia. exact Hb. }
    rewrite En. cbn [bind]. eexists. split; [reflexivity|]. rewrite map_length, L. split; [lia|].
    apply Forall_forall. intros vs Hin. apply in_map_iff in Hin as (v & <- & Hin). split; [|split; [cbn; lia|split; [discriminate|left; reflexivity]]]. constructor; [|constructor]. apply In_nth_error in Hin as (j & Hj).
    assert (j < Z.to_nat it)%nat as Hlt by (rewrite <- L; apply nth_error_Some; congruence). specialize (Hn j v Hj).
    pose proof (growth_nonneg cx lg k Hp fft eps Hf _ S0 E HS a Ha sv Hsv) as HG.
    apply (Hv (E + answer_growth cx a S0 E eps) v j (Z.to_nat it) (growth cx a S0 E eps)); [lia|exact Hlt|exact HG|rewrite Z2Nat.id by lia; lia].
  - destruct H as (-> & Hq & Hq1 & Hit & Hb). rewrite to_nat_pow.
    destruct (C59_multi_query md (sp_tfhe sp) cx lg k fft eps S0 E a (Z.to_nat qc) (Z.to_nat it) co Ecx Hset Hco Ha ltac:(lia)) as (ns & En & L & Hn).
    { rewrite <- to_nat_pow. apply Z2Nat.inj_lt; lia. }
    { lia. }
    { rewrite Z2Nat.id by lia. exact Hb. }
    exists ns. split; [exact En|]. split; [rewrite L; lia|]. apply Forall_forall. intros vs Hin. apply In_nth_error in Hin as (j & Hj).
    assert (j < Z.to_nat it)%nat as Hlt by (rewrite <- L; apply nth_error_Some; congruence). destruct (Hn j vs Hj) as [Lv F]. split; [|split; [rewrite Lv; lia|split; [intros ->; symmetry; exact Lv|left; exact Lv]]].
    pose proof (multi_growth_nonneg cx lg k fft eps S0 E co Hset Hdm Ht a Ha sv (Z.to_nat qc) Hsv) as HG.
    eapply Forall_impl; [|exact F]. intros v Hvb. cbv beta in Hvb |- *. apply (Hv (E + answer_growth cx a S0 E eps) v j (Z.to_nat it) (multi_growth cx a S0 E eps (Z.to_nat qc))); [lia|exact Hlt|exact HG|rewrite Z2Nat.id by lia; lia].
  - destruct H as (items & -> & Hi & Hdim & Hit & Hb). rewrite to_nat_pow.
    assert (0 <= rows) as Hr. { pose proof (Z.pow_pos_nonneg 2 (Z.of_nat a) ltac:(lia) ltac:(lia)). nia. }
    destruct (C59_batch_query md (sp_tfhe sp) cx lg k fft eps S0 E a (Z.to_nat rows) (Z.to_nat items) (Z.to_nat it) co Ecx Hset Hco Ha ltac:(lia) ltac:(lia)) as (ns & En & L & Hn).
    { apply Nat2Z.inj. rewrite !Nat2Z.inj_mul, Nat2Z.inj_pow, !Z2Nat.id by lia. exact Hdim. }
    { rewrite Z2Nat.id by lia. change q with (2 ^ 64). lia. }
    { rewrite Z2Nat.id by lia. exact Hb. }
    exists ns. split; [exact En|]. split; [rewrite L; lia|]. apply Forall_forall. intros vs Hin. apply In_nth_error in Hin as (j & Hj).
    assert (j < Z.to_nat it)%nat as Hlt by (rewrite <- L; apply nth_error_Some; congruence). destruct (Hn j vs Hj) as [Lv F]. split; [|split; [apply Lv|split; [intros ->; cbn in Lv; lia|right; eauto]]].
    assert (0 <= batch_growth cx a 3 S0 E eps) as HG by (unfold batch_growth; pose proof (growth_nonneg cx lg k Hp fft eps Hf _ S0 E HS a Ha sv Hsv); lia).
    eapply Forall_impl; [|exact F]. intros v Hvb. cbv beta in Hvb |- *. apply (Hv (E + answer_growth cx a S0 E eps) v j (Z.to_nat it) (batch_growth cx a 3 S0 E eps)); [lia|exact Hlt|exact HG|rewrite Z2Nat.id by lia; lia].
Qed.
Lemma supported_nonzero fft md sp co : set_fits sp -> supported fft md sp co -> nonzero sp.
Proof.
  intros Hfit (cx & lg & k & eps & S0 & E & a & Ecx & ((_ & _ & _ & _ & _ & _ & _ & Hk & Hc) & _) & _ & Ha & H). unfold nonzero, items_of.
  rewrite (modulus_of md _ cx k (proj1 (proj2 (proj2 (proj2 (proj2 (proj2 (proj2 (proj2 Hfit)))))))) Ecx Hk Hc). pose proof (Z.pow_pos_nonneg 2 k ltac:(lia) ltac:(lia)).
  pose proof (Z.pow_pos_nonneg 2 (Z.of_nat a) ltac:(lia) ltac:(lia)). split; [lia|]. destruct (sp_oram sp) as [items it|items qc it|rows cols it].
  - destruct H as (-> & _). lia.
  - destruct H as (-> & _). lia.
  - destruct H as (items & -> & Hi & -> & _). rewrite Z.mul_comm, Z.div_mul by lia. lia.
Qed.

(** The program run on a command line that asks for supported parameter sets (C65), not dry: it ends with status 0, whatever the schedules
    of its parallel loops; it has printed the complete table; and every noise in it is harmless. *)
Theorem C93_completes : forall f64 negative dev files about show_dev show_noise fft md args co cl ss c path sps,
  (forall z, plain (show_dev z)) -> (forall d l, plain (show_noise d l)) -> (forall i, plain (fst (fst (cl i))) /\ plain (snd (fst (cl i))) /\ plain (snd (cl i))) ->
  command_line f64 negative ss args -> describes f64 ss c path -> ~ In (Flag "dryrun") ss -> asked dev files path c sps -> Forall set_fits sps ->
  (forall i sp, nth_error sps i = Some sp -> supported (fft (tp_polynomial_size (sp_tfhe sp))) md sp (co i)) ->
  exists text outs blocks, program f64 negative dev files about show_dev show_noise fft md args co cl = (text, 0) /\
    lines text = (header :: flat_map block_lines blocks ++ [""])%list /\ List.length blocks = List.length sps /\ List.length outs = List.length sps /\
    (forall i sp, nth_error sps i = Some sp -> exists out block, nth_error outs i = Some out /\ nth_error blocks i = Some block /\
      reported show_dev show_noise false (cl i) sp out block /\ harmless sp out) /\
    ((forall i sp, nth_error sps i = Some sp -> forall ts, List.length (fft (tp_polynomial_size (sp_tfhe sp)) ts) = Z.to_nat (tp_polynomial_size (sp_tfhe sp))) ->
     forall pref r, main_exec pref fft md (params_at dev files path) c co r -> r = Ok outs).
Proof.
  intros f64 negative dev files about sd sn fft md args co cl ss c path sps Hd Hn Hcl Hc D Hdry Hask HF Hsup.
  pose proof (asked_selects _ _ _ _ _ Hask) as Es.
  assert (cli_dryrun c = false) as Edry.
  { destruct D as (_ & _ & _ & _ & _ & _ & _ & _ & _ & _ & _ & _ & _ & _ & _ & Df & _). destruct (cli_dryrun c); [|reflexivity]. exfalso. apply Hdry, Df. reflexivity. }
  set (f := params_at dev files path) in *.
  assert (Forall nonzero (select_params f c)) as HN.
  { rewrite Es. apply Forall_forall. intros sp Hin. apply In_nth_error in Hin as (i & Hi). apply (supported_nonzero (fft (tp_polynomial_size (sp_tfhe sp))) md sp (co i)); [|exact (Hsup i sp Hi)].
    rewrite Forall_forall in HF. apply HF. eapply nth_error_In, Hi. }
  assert (forall i sp, nth_error sps i = Some sp -> set_fits sp) as Hfit by (intros i sp Hi; rewrite Forall_forall in HF; apply HF; eapply nth_error_In, Hi).
  destruct (C65_runs_every_set_once fft md f c co) as (Hruns & Hok & _). rewrite Es, Edry in Hruns, Hok.
  destruct Hok as (outs & Em). { intros i sp Hi. destruct (supported_noises _ _ _ _ (Hfit i sp Hi) (Hsup i sp Hi)) as (out & Eo & _). exists out. exact Eo. }
  destruct (Hruns outs Em) as [L Houts].
  destruct (C81_table sd sn fft md f c co cl outs Hd Hn Hcl ltac:(rewrite Es; exact HF) (or_intror HN) Em) as (blocks & B1 & B2 & B3). rewrite Es, Edry in *.
  exists (fst (main_out sd sn fft md f c co cl)), outs, blocks. split; [|split; [exact B1|split; [exact B2|split; [exact L|split]]]].
  - destruct (proj2 (C84_command_line f64 negative args c path) (ex_intro _ ss (conj Hc D))) as (seen & E & Ec & Ep). unfold program. rewrite E. cbv zeta. rewrite Ec, Ep.
    fold f. rewrite C81_ends_alike, Em. reflexivity.
  - intros i sp Hi. destruct (B3 i sp Hi) as (out & block & Eo & Eb & R). exists out, block. split; [exact Eo|]. split; [exact Eb|]. split; [exact R|].
    destruct (supported_noises _ _ _ _ (Hfit i sp Hi) (Hsup i sp Hi)) as (out' & Eo' & _ & Hh). destruct (Houts i sp Hi) as (out2 & Eo2 & Er2). congruence.
  - intros Hlen pref r Hr. destruct (C72_main_any_schedule pref fft md f c co) as [_ H].
    + rewrite Es. intros i sp Hi. split; [exact (Hlen i sp Hi)|]. destruct (Hsup i sp Hi) as (cx & lg & k & eps & S0 & E & a & _ & _ & (Hperm & _) & _). exact Hperm.
    + specialize (H r Hr). rewrite Em in H. exact H.
Qed.
Print Assumptions C93_completes.

(** *** Nothing left to assume.
    A run of one of the three modes on the parameters of C82 (ring dimension 32, 2 bits x 19 levels, plaintext modulus 2, standard deviation 2^-55),
    with two, four or eight items or columns. *)
Definition small_run (c : cli) : Prop :=
  cli_tfhe c = double_tfhe /\
  if cli_mode c =? 0 then In (cli_item_count c) [2; 4; 8]
  else if cli_mode c =? 1 then In (cli_item_count c) [2; 4; 8] /\ 0 <= cli_query_count c < cli_item_count c /\ cli_query_count c <> 1
  else In (cli_cols c) [2; 4; 8] /\ 6 <= cli_rows c * cli_cols c < 2 ^ 64 /\ (cli_rows c * cli_cols c) mod 3 = 0.
Lemma power_248 z : In z [2; 4; 8] -> exists a, (a = 1 \/ a = 2 \/ a = 3)%nat /\ z = 2 ^ Z.of_nat a.
Proof. intros [<-|[<-|[<-|[]]]]; [exists 1%nat|exists 2%nat|exists 3%nat]; split; auto. Qed.
Lemma small_supported md cx fft c co : context_new md double_tfhe = Ok cx -> fft_for cx fft small_double -> SpecOram.setting cx 5 1 fft small_double (co_sk co) 32 ->
  good_coins cx 1 default_noise co -> small_run c ->
  let sp := {| sp_oram := if cli_mode c =? 0 then SingleQuery (cli_item_count c) 1 else if cli_mode c =? 1 then MultiQuery (cli_item_count c) (cli_query_count c) 1
                          else Batched (cli_rows c) (cli_cols c) 1; sp_tfhe := cli_tfhe c |} in
  supported fft md sp co /\ set_fits sp.
Proof.
  intros Hcx Hf Hset Hco [Et Hm] sp. destruct (double_context md) as (cx' & E' & Hp & En & Eb & El & Eg & Ekb & Ekl). rewrite Hcx in E'. injection E' as <-.
  assert (forall z, In z [2; 4; 8] -> word z) as Hw by (intros z [<-|[<-|[<-|[]]]]; split; reflexivity || discriminate).
  assert (word 1) as H1 by (split; reflexivity || discriminate).
  assert (forall o, match o with SingleQuery items it => word items /\ word it | MultiQuery items queries it => word items /\ word queries /\ word it
     | Batched rows cols it => word rows /\ word cols /\ word it /\ word (rows * cols) end -> set_fits {| sp_oram := o; sp_tfhe := double_tfhe |}) as Hfits.
  { intros o Ho. unfold set_fits. cbn [sp_tfhe sp_oram double_tfhe tp_polynomial_size tp_base_log tp_level_count tp_ks_base_log tp_ks_level_count tp_negs_base_log tp_negs_level_count tp_plaintext_modulus].
    repeat (split; [split; reflexivity || discriminate|]). exact Ho. }
  assert (forall a, (a = 1 \/ a = 2 \/ a = 3)%nat -> 0 <= growth cx a 32 default_noise small_double /\
    2 * (default_noise + 10 * growth cx a 32 default_noise small_double + answer_growth cx a 32 default_noise small_double) < 2 ^ (64 - 1)) as Hg.
  { intros a Ha. unfold growth, answer_growth, ep_sel, sel_noise, ep_fresh. rewrite En, Eb, El, Eg. destruct Ha as [-> | [-> | ->]]; vm_compute; split; congruence. }
  assert (forall a Q, (a = 1 \/ a = 2 \/ a = 3)%nat -> (Q < 8)%nat ->
    2 * (default_noise + 1 * multi_growth cx a 32 default_noise small_double Q + answer_growth cx a 32 default_noise small_double) < 2 ^ (64 - 1)) as Hmg.
  { intros a Q Ha HQ. unfold multi_growth, answer_growth, ep_sel, sel_noise, ep_fresh. rewrite En, Eb, El, Eg.
    do 8 (destruct Q as [|Q]; [destruct Ha as [-> | [-> | ->]]; vm_compute; congruence|]). lia. }
  unfold sp. rewrite Et. unfold supported. cbn [sp_tfhe sp_oram]. destruct (cli_mode c =? 0); [|destruct (cli_mode c =? 1)].
  - destruct (power_248 _ Hm) as (a & Ha & Ea). split; [|apply Hfits; split; [apply Hw, Hm|exact H1]].
    exists cx, 5%nat, 1, small_double, 32, default_noise, a. repeat (split; [assumption|]). split; [lia|]. split; [exact Ea|]. split; [rewrite El; discriminate|]. split; [lia|].
    destruct (Hg a Ha). lia.
  - destruct Hm as (Hm & Hq & Hq1). destruct (power_248 _ Hm) as (a & Ha & Ea). split.
    + exists cx, 5%nat, 1, small_double, 32, default_noise, a. repeat (split; [assumption|]). split; [lia|]. split; [exact Ea|]. split; [exact Hq|]. split; [exact Hq1|]. split; [lia|].
      apply Hmg; [exact Ha|]. assert (cli_item_count c <= 8) by (clear - Hm; destruct Hm as [<-|[<-|[<-|[]]]]; lia). lia.
    + apply Hfits. split; [apply Hw, Hm|]. split; [|exact H1]. pose proof (Hw _ Hm) as Hw0. unfold word in *. lia.
  - destruct Hm as (Hm & Hd & Hmod). destruct (power_248 _ Hm) as (a & Ha & Ea). split.
    + exists cx, 5%nat, 1, small_double, 32, default_noise, a. repeat (split; [assumption|]). split; [lia|].
      pose proof (Z.div_mod (cli_rows c * cli_cols c) 3 ltac:(lia)) as Ed. rewrite Hmod in Ed.
      exists (cli_rows c * cli_cols c / 3). split; [exact Ea|]. split; [lia|]. split; [lia|]. split; [lia|].
      unfold batch_growth. destruct (Hg a Ha). change (2 * Z.of_nat 3 - 1) with 5. lia.
    + apply Hfits. assert (2 <= cli_cols c) by (clear - Hm; destruct Hm as [<-|[<-|[<-|[]]]]; lia).
      split; [unfold word; nia|]. split; [apply Hw, Hm|]. split; [exact H1|]. unfold word. lia.
Qed.
(** For every way to write the command line; all random words [wh] for the hash function, [ws] for the key, [wr] for the items, [wq] for the
    queries; all noise that the generator makes; the Fourier transform computed on IEEE numbers with correctly rounded tables, its
    sums in any order; overflow checks or not; all schedules: the program ends with status 0 and prints its table. *)
Theorem C93_small_ring : forall f64 negative dev files about show_dev show_noise T shape fl lnf md args co cl ss c path cx wh ws wr wq t0 t,
  (forall z, plain (show_dev z)) -> (forall d l, plain (show_noise d l)) -> (forall i, plain (fst (fst (cl i))) /\ plain (snd (fst (cl i))) /\ plain (snd (cl i))) ->
  command_line f64 negative ss args -> describes f64 ss c path -> ~ In (Flag "dryrun") ss -> files path = Absent -> small_run c ->
  context_new md double_tfhe = Ok cx -> co 0%nat = drawn_coins cx (shuffled wh) ws wr wq t0 t -> Forall is_word wh ->
  noise_arithmetic fl lnf -> sampled fl lnf (/ 2 ^ 55) 32 t0 -> (forall j i, sampled fl lnf (/ 2 ^ 55) 32 (t j i)) ->
  rounded_tables T 32 -> (forall ts, (List.length ts <= 38)%nat -> sums 32 (shape ts) ts 38) ->
  let fft := fun n => ieee_fft T shape (Z.to_nat n) in
  let sp := {| sp_oram := if cli_mode c =? 0 then SingleQuery (cli_item_count c) 1 else if cli_mode c =? 1 then MultiQuery (cli_item_count c) (cli_query_count c) 1
                          else Batched (cli_rows c) (cli_cols c) 1; sp_tfhe := double_tfhe |} in
  exists text out block, program f64 negative dev files about show_dev show_noise fft md args co cl = (text, 0) /\
    lines text = (header :: block_lines block ++ [""])%list /\ reported show_dev show_noise false (cl 0%nat) sp out block /\
    Forall (Forall (fun v => 0 <= v < 2 ^ 62)) out /\
    forall pref r, main_exec pref fft md (params_at dev files path) c co r -> r = Ok [out].
Proof.
  intros f64 negative dev files about sd sn T shape fl lnf md args co cl ss c path cx wh ws wr wq t0 t Hd Hn Hcl Hc D Hdry Hfile Hsm Hcx Eco Hwh Ha Ht0 Ht HT Hsh fft sp.
  pose proof (ieee_small md cx T shape Hcx HT Hsh) as Hf. destruct (double_context md) as (cx' & E' & Hp & En & _). rewrite Hcx in E'. injection E' as <-.
  assert (SpecOram.setting cx 5 1 (ieee_fft T shape 32) small_double (co_sk (co 0%nat)) 32) as Hset.
  { rewrite Eco. pose proof (drawn_setting cx 5 1 (ieee_fft T shape 32) small_double (shuffled wh) ws wr wq t0 t Hp Hf) as H. rewrite En in H. exact H. }
  assert (good_coins cx 1 default_noise (co 0%nat)) as Hco.
  { rewrite Eco. pose proof Hp as (_ & _ & _ & _ & _ & _ & _ & Hk & Hcd). apply drawn_good; [exact Hk|exact Hcd|apply shuffled_perm, Hwh| |]; rewrite En; [|intros j i]; eapply sampled_default; eauto. }
  destruct (small_supported md cx (ieee_fft T shape 32) c (co 0%nat) Hcx Hf Hset Hco Hsm) as [Hsup Hfit]. pose proof Hsm as [Et _]. cbv zeta in Hsup, Hfit. rewrite Et in Hsup, Hfit. fold sp in Hsup, Hfit.
  assert (asked dev files path c [sp]) as Hask by (unfold asked; rewrite Hfile; unfold sp; rewrite <- Et; reflexivity).
  destruct (C93_completes f64 negative dev files about sd sn fft md args co cl ss c path [sp] Hd Hn Hcl Hc D Hdry Hask) as (text & outs & blocks & Hprog & Hlines & Lb & Lo & Hrep & Hsched).
  - repeat constructor; apply Hfit.
  - intros i sp0 Hi. destruct i as [|[|i]]; try discriminate Hi. injection Hi as <-. exact Hsup.
  - destruct outs as [|out [|? ?]]; try discriminate Lo. destruct blocks as [|block [|? ?]]; try discriminate Lb.
    destruct (Hrep 0%nat sp eq_refl) as (out' & block' & E1 & E2 & R & Hh). cbn in E1, E2. injection E1 as <-. injection E2 as <-.
    exists text, out, block. split; [exact Hprog|]. split; [rewrite Hlines; cbn [flat_map]; rewrite app_nil_r; reflexivity|]. split; [exact R|]. split.
    + eapply Forall_impl; [|exact Hh]. intros l [Hl _]. revert Hl. apply Forall_impl. intros v [Hv0 Hv]. change (tp_plaintext_modulus (sp_tfhe sp)) with 2 in Hv. lia.
    + intros pref r. apply Hsched. intros i sp0 Hi ts. destruct i as [|[|i]]; try discriminate Hi. injection Hi as <-. change (Z.to_nat (tp_polynomial_size (sp_tfhe sp))) with 32%nat.
      unfold fft, ieee_fft, c_backward. change (Z.to_nat (tp_polynomial_size (sp_tfhe sp))) with 32%nat. rewrite app_length, !map_length, !seq_length. reflexivity.
Qed.
Print Assumptions C93_small_ring.

(** A case: eight items, from the arguments to the table, on IEEE numbers, for the noise tape of C85. *)
Definition small_args : list string :=
  ["--mode=0"; "--item-count=8"; "--polynomial-size=32"; "--base-log=2"; "--level-count=19"; "--key-switch-base-log=2"; "--key-switch-level-count=19";
   "--negs-base-log=2"; "--negs-level-count=19"; "--plaintext-modulus=2"].
Definition small_settings : list setting :=
  [Opt "mode" "0"; Opt "item-count" "8"; Opt "polynomial-size" "32"; Opt "base-log" "2"; Opt "level-count" "19"; Opt "key-switch-base-log" "2"; Opt "key-switch-level-count" "19";
   Opt "negs-base-log" "2"; Opt "negs-level-count" "19"; Opt "plaintext-modulus" "2"].
Lemma small_command : wellformed demo_f64 demo_neg small_settings small_args.
Proof.
  split; [|split].
  - unfold small_args, small_settings.
    apply (S_cons _ (Opt "mode" "0") _ ["--mode=0"]); [apply (W_attached _ "mode" "0")|].
    apply (S_cons _ (Opt "item-count" "8") _ ["--item-count=8"]); [apply (W_attached _ "item-count" "8")|].
    apply (S_cons _ (Opt "polynomial-size" "32") _ ["--polynomial-size=32"]); [apply (W_attached _ "polynomial-size" "32")|].
    apply (S_cons _ (Opt "base-log" "2") _ ["--base-log=2"]); [apply (W_attached _ "base-log" "2")|].
    apply (S_cons _ (Opt "level-count" "19") _ ["--level-count=19"]); [apply (W_attached _ "level-count" "19")|].
    apply (S_cons _ (Opt "key-switch-base-log" "2") _ ["--key-switch-base-log=2"]); [apply (W_attached _ "key-switch-base-log" "2")|].
    apply (S_cons _ (Opt "key-switch-level-count" "19") _ ["--key-switch-level-count=19"]); [apply (W_attached _ "key-switch-level-count" "19")|].
    apply (S_cons _ (Opt "negs-base-log" "2") _ ["--negs-base-log=2"]); [apply (W_attached _ "negs-base-log" "2")|].
    apply (S_cons _ (Opt "negs-level-count" "19") _ ["--negs-level-count=19"]); [apply (W_attached _ "negs-level-count" "19")|].
    apply (S_cons _ (Opt "plaintext-modulus" "2") _ ["--plaintext-modulus=2"]); [apply (W_attached _ "plaintext-modulus" "2")|apply S_nil].
  - unfold small_settings. repeat apply Forall_cons; try apply Forall_nil; right; left;
      (split; [unfold numbers; cbn; tauto|]); eexists; (split; [apply C70_field; reflexivity|reflexivity]).
  - repeat constructor; cbn; intuition discriminate.
Qed.
Example C93_applies : exists cx t text out block, context_new Checked double_tfhe = Ok cx /\ sampled (machine binary64) lossy_ln (/ 2 ^ 55) 32 t /\
  program demo_f64 demo_neg (fun _ => None) (fun _ => Absent) "about" (fun _ => "-55") (fun _ _ => "0") (fun n => ieee_fft ideal_tables one_by_one (Z.to_nat n)) Checked
    small_args (fun _ => drawn_coins cx (shuffled [1; 2; 3; 4; 5; 6; 7; 8; 9]) (fun i => Z.of_nat i) (fun i => Z.of_nat (2 * i)) (fun _ _ i => Z.of_nat i) t (fun _ _ => t))
    (fun _ => ("1ms", "2ms", "3ms")) = (text, 0) /\
  lines text = (header :: block_lines block ++ [""])%list /\ cell header (fst block) "setup_duration" = Some "1ms" /\ shows_word (cell header (fst block) "item_count") 8 /\
  Forall (Forall (fun v => 0 <= v < 2 ^ 62)) out.
Proof.
  destruct (double_context Checked) as (cx & E & _). destruct (some_tape 32) as (t & Ht). exists cx, t.
  pose proof small_command as (Sp & F & N).
  assert (forall s, (s = "-55" \/ s = "0" \/ s = "1ms" \/ s = "2ms" \/ s = "3ms") -> plain s) as Hpl.
  { intros s Hs ch Hin. repeat (destruct Hs as [->|Hs]); try subst s; cbn in Hin; repeat (destruct Hin as [<-|Hin]; [split; discriminate|]); destruct Hin. }
  destruct (C93_small_ring demo_f64 demo_neg (fun _ => None) (fun _ => Absent) "about" (fun _ => "-55") (fun _ _ => "0") ideal_tables one_by_one (machine binary64) lossy_ln Checked
    small_args (fun _ => drawn_coins cx (shuffled [1; 2; 3; 4; 5; 6; 7; 8; 9]) (fun i => Z.of_nat i) (fun i => Z.of_nat (2 * i)) (fun _ _ i => Z.of_nat i) t (fun _ _ => t))
    (fun _ => ("1ms", "2ms", "3ms")) small_settings (cli_of demo_f64 (rev (map as_pair small_settings))) "" cx [1; 2; 3; 4; 5; 6; 7; 8; 9] (fun i => Z.of_nat i) (fun i => Z.of_nat (2 * i)) (fun _ _ i => Z.of_nat i) t (fun _ _ => t))
    as (text & out & block & H1 & H2 & H3 & H4 & _); auto.
  - intros i. cbn [fst snd]. split; [|split]; apply Hpl; auto 6.
  - left. split; auto.
  - exact (fields_describe demo_f64 demo_neg small_settings N F).
  - unfold small_settings. cbn. intuition discriminate.
  - split; [reflexivity|]. vm_compute. auto.
  - repeat (apply Forall_cons; [split; [discriminate|reflexivity]|]). apply Forall_nil.
  - exact double_noise.
  - apply ideal_rounded. lia.
  - intros ts. apply one_by_one_ok.
  - exists text, out, block. split; [exact E|]. split; [exact Ht|]. split; [exact H1|]. split; [exact H2|].
    destruct H3 as (L3 & _ & Hpar & Hres & _). cbn [sp_oram] in Hpar. split; [|split; [|exact H4]].
    + destruct out as [|first out]; [exfalso; cbn in L3; discriminate L3|]. apply Hres.
    + destruct Hpar as (_ & _ & _ & _ & _ & _ & _ & _ & _ & _ & Hm). apply Hm.
Qed.

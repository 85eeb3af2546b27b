(** * Property C84: the command line and the program as a whole.
    [SpecCli]: [command_line f64 negative ss args] - the arguments [args] write down the settings [ss];
    [describes f64 ss c path] - the options [c] and the parameter path that the settings ask for. *)
From Coq Require Import String Ascii Permutation.
From Verif Require Import MBase MUtils MCsv MParams MHash MPoly MRlwe MOram MMain MJson MSerde MOut MCli SpecText SpecJson SpecOut SpecLwe SpecCli PCsv PfCodec PfOut PfCli PMain PRun PSerde POut Demo.
Local Open Scope string_scope.
Local Open Scope Z_scope.

Lemma numeral_inj : forall ds ds', Forall (fun d => 0 <= d <= 9) ds -> Forall (fun d => 0 <= d <= 9) ds' -> numeral ds = numeral ds' -> ds = ds'.
Proof.
  induction ds as [|d ds IH]; intros [|d' ds'] F F' E; try reflexivity; try discriminate E. inversion F; inversion F'; subst. cbn [numeral] in E.
  injection E as E1 E2. rewrite (IH ds'); trivial. f_equal. assert (digit_of (digit_char d) = digit_of (digit_char d')) as E by (f_equal; exact E1).
  rewrite !digit_of_char in E by assumption. congruence.
Qed.
Lemma decimal_fun s a b : decimal s a -> decimal s b -> a = b.
Proof.
  assert (forall ds s, Forall (fun d => 0 <= d <= 9) ds -> numeral ds <> String "+" s) as Hp.
  { intros [|d ds] s' F E; [discriminate|]. cbn [numeral] in E. injection E as E _. inversion F; subst. apply (f_equal digit_of) in E. rewrite digit_of_char in E by assumption. discriminate. }
  intros (ds & _ & F & E & ->) (ds' & _ & F' & E' & ->). f_equal. apply numeral_inj; trivial.
  destruct E as [E|E], E' as [E'|E']; rewrite E in E'; try (symmetry in E'; exfalso; eapply Hp; [|exact E']; assumption); try (exfalso; eapply Hp; [|exact E']; assumption); [exact E'|].
  injection E' as E'. exact E'.
Qed.
Lemma opt_unique ss n v v' : NoDup (map name_of ss) -> In (Opt n v) ss -> In (Opt n v') ss -> v = v'.
Proof.
  induction ss as [|st ss IH]; [intros _ []|]. cbn [map]. intros N H H'. inversion N as [|? ? N1 N2]; subst. destruct H as [->|H], H' as [E|H'].
  - injection E as ->. reflexivity.
  - exfalso. apply N1. change (name_of (Opt n v)) with (name_of (Opt n v')). apply in_map, H'.
  - subst st. exfalso. apply N1. change (name_of (Opt n v')) with (name_of (Opt n v)). apply in_map, H.
  - auto.
Qed.
Section UNIQUE.
Context (f64 : string -> option Z) (ss ss' : list setting) (N : NoDup (map name_of ss)) (Same : forall st, In st ss <-> In st ss').
Lemma number_unique n d z z' : is_number ss n d z -> is_number ss' n d z' -> z = z'.
Proof.
  intros [(v & H & D)|[H ->]] [(v' & H' & D')|[H' ->]]; trivial.
  - apply Same in H'. assert (v = v') as -> by exact (opt_unique _ _ _ _ N H H'). exact (decimal_fun _ _ _ D D').
  - apply Same in H. destruct (H' _ H).
  - apply Same in H'. destruct (H _ H').
Qed.
Lemma float_unique n d z z' : is_float f64 ss n d z -> is_float f64 ss' n d z' -> z = z'.
Proof.
  intros [(v & H & D)|[H ->]] [(v' & H' & D')|[H' ->]]; trivial.
  - apply Same in H'. assert (v = v') as -> by exact (opt_unique _ _ _ _ N H H'). congruence.
  - apply Same in H. destruct (H' _ H).
  - apply Same in H'. destruct (H _ H').
Qed.
Lemma text_unique n d z z' : is_text ss n d z -> is_text ss' n d z' -> z = z'.
Proof.
  intros [H|[H ->]] [H'|[H' ->]]; trivial.
  - apply Same in H'. exact (opt_unique _ _ _ _ N H H').
  - apply Same in H. destruct (H' _ H).
  - apply Same in H'. destruct (H _ H').
Qed.
Lemma flag_unique n b b' : is_flag ss n b -> is_flag ss' n b' -> b = b'.
Proof. unfold is_flag. intros H H'. rewrite Same in H. destruct b, b'; try reflexivity; [symmetry|]; intuition. Qed.
Lemma describes_unique c c' path path' : describes f64 ss c path -> describes f64 ss' c' path' -> c = c' /\ path = path'.
Proof.
  intros (T & A1 & A2 & A3 & A4 & A5 & A6 & A7 & A8 & A9 & A10 & A11 & A12 & A13 & A14 & A15 & A16) (T' & B1 & B2 & B3 & B4 & B5 & B6 & B7 & B8 & B9 & B10 & B11 & B12 & B13 & B14 & B15 & B16).
  split; [|exact (text_unique _ _ _ _ T T')].
  destruct c as [a1 a2 a3 a4 a5 [t1 t2 t3 t4 t5 t6 t7 t8 t9 t10] a7], c' as [b1 b2 b3 b4 b5 [u1 u2 u3 u4 u5 u6 u7 u8 u9 u10] b7].
  cbn [cli_tfhe cli_mode cli_item_count cli_query_count cli_rows cli_cols cli_dryrun tp_standard_deviation tp_polynomial_size tp_base_log
    tp_level_count tp_ks_base_log tp_ks_level_count tp_negs_base_log tp_negs_level_count tp_plaintext_modulus tp_secure_seed] in *.
  rewrite (number_unique _ _ _ _ A1 B1), (number_unique _ _ _ _ A2 B2), (number_unique _ _ _ _ A3 B3), (number_unique _ _ _ _ A4 B4), (number_unique _ _ _ _ A5 B5),
    (float_unique _ _ _ _ A6 B6), (number_unique _ _ _ _ A7 B7), (number_unique _ _ _ _ A8 B8), (number_unique _ _ _ _ A9 B9), (number_unique _ _ _ _ A10 B10),
    (number_unique _ _ _ _ A11 B11), (number_unique _ _ _ _ A12 B12), (number_unique _ _ _ _ A13 B13), (number_unique _ _ _ _ A14 B14), (flag_unique _ _ _ A15 B15), A16, B16.
  reflexivity.
Qed.
End UNIQUE.

Lemma command_scan f64 negative ss args : command_line f64 negative ss args -> scan f64 negative [] args = Given (rev (map as_pair ss)).
Proof.
  intros [(Sp & F & N)|(args' & -> & Sp & F & N)].
  - rewrite <- (app_nil_r args), (scan_complete _ _ _ _ Sp F N [] []) by reflexivity. rewrite app_nil_r. reflexivity.
  - rewrite (scan_complete _ _ _ _ Sp F N [] ["--"]) by reflexivity. rewrite app_nil_r. reflexivity.
Qed.
Lemma command_wf f64 negative ss args : command_line f64 negative ss args -> NoDup (map name_of ss) /\ Forall (sensible f64) ss.
Proof. intros [(_ & F & N)|(_ & _ & _ & F & N)]; auto. Qed.

(** The program reads its arguments as options and path exactly if they are a command line; every option then has
    the value given to it, or its default. *)
Theorem C84_command_line : forall f64 negative args c path,
  (exists seen, scan f64 negative [] args = Given seen /\ cli_of f64 seen = c /\ text_of seen "params" "" = path) <->
  exists ss, command_line f64 negative ss args /\ describes f64 ss c path.
Proof.
  intros f64 negative args c path. split.
  - intros (seen & H & <- & <-). pose proof (scan_outcome f64 negative _ args (le_n _) []) as O. rewrite H in O.
    destruct O as (ss & args' & E & Sp & F & Es & N & _). exists ss. rewrite app_nil_r in Es. subst seen. split.
    + destruct E as [-> | ->]; [left|right; exists args'; split; [reflexivity|]]; (split; [exact Sp|split; [exact F|exact N]]).
    + apply fields_describe; assumption.
  - intros (ss & Hc & Hd). destruct (command_wf _ _ _ _ Hc) as [N F]. exists (rev (map as_pair ss)). split; [apply command_scan, Hc|].
    destruct (describes_unique f64 ss ss N (fun st => conj (fun H => H) (fun H => H)) _ _ _ _ (fields_describe f64 negative ss N F) Hd) as [-> ->]. auto.
Qed.
Print Assumptions C84_command_line.

(** Otherwise nothing is run: after sensible settings a request for help ends the program with status 0, and
    everything else is an error, with status 2 and nothing on stdout. *)
Theorem C84_not_run : forall f64 negative dev files about show_dev show_noise fft md args co cl,
  (forall ss, ~ command_line f64 negative ss args) ->
  let run := program f64 negative dev files about show_dev show_noise fft md args co cl in
  (run = ("", 2) \/ run = (about, 0)) /\
  (forall ss pre h rest, args = (pre ++ h :: rest)%list -> wellformed f64 negative ss pre -> asks_help h -> run = (about, 0)) /\
  ((forall ss pre h rest, args = (pre ++ h :: rest)%list -> wellformed f64 negative ss pre -> ~ asks_help h) -> run = ("", 2)).
Proof.
  intros f64 negative dev files about sd sn fft md args co cl Hn run.
  pose proof (scan_outcome f64 negative _ args (le_n _) []) as O. unfold run, program. destruct (scan f64 negative [] args) as [seen| |] eqn:E.
  - exfalso. destruct O as (ss & args' & Ea & Sp & F & _ & N & _). apply (Hn ss). destruct Ea as [-> | ->]; [left|right; exists args'; split; [reflexivity|]]; (split; [exact Sp|split; [exact F|exact N]]).
  - split; [auto|]. split; [auto|]. intros H. exfalso. destruct O as (ss & pre & h & rest & -> & Sp & F & N & _ & Hh). apply (H ss pre h rest eq_refl); [split; auto|exact Hh].
  - split; [auto|]. split; [|auto]. intros ss pre h rest -> (Sp & F & N) Hh. exfalso. rewrite (scan_complete _ _ _ _ Sp F N [] (h :: rest)) in E by reflexivity.
    cbn [scan] in E. destruct Hh as [->|[->|(s & [-> | ->])]]; discriminate E.
Qed.
Print Assumptions C84_not_run.

(** The order of the settings and the way each is written do not matter. *)
Theorem C84_order : forall f64 negative dev files about show_dev show_noise fft md args args' co cl ss ss',
  command_line f64 negative ss args -> command_line f64 negative ss' args' -> Permutation ss ss' ->
  program f64 negative dev files about show_dev show_noise fft md args co cl = program f64 negative dev files about show_dev show_noise fft md args' co cl.
Proof.
  intros f64 negative dev files about sd sn fft md args args' co cl ss ss' H H' P. unfold program. rewrite (command_scan _ _ _ _ H), (command_scan _ _ _ _ H').
  destruct (command_wf _ _ _ _ H) as [N F]. destruct (command_wf _ _ _ _ H') as [N' F'].
  destruct (describes_unique f64 ss ss' N (fun st => conj (Permutation_in st P) (Permutation_in st (Permutation_sym P))) _ _ _ _ (fields_describe f64 negative ss N F) (fields_describe f64 negative ss' N' F')) as [-> ->].
  reflexivity.
Qed.
Print Assumptions C84_order.

(** A parameter file that opens decides everything but --dryrun. *)
Theorem C84_file_decides : forall f64 negative dev files about show_dev show_noise fft md args args' co cl ss ss' path,
  command_line f64 negative ss args -> command_line f64 negative ss' args' -> In (Opt "params" path) ss -> In (Opt "params" path) ss' -> files path <> Absent ->
  (In (Flag "dryrun") ss <-> In (Flag "dryrun") ss') ->
  program f64 negative dev files about show_dev show_noise fft md args co cl = program f64 negative dev files about show_dev show_noise fft md args' co cl.
Proof.
  intros f64 negative dev files about sd sn fft md args args' co cl ss ss' path H H' Hp Hp' Hf Hd. unfold program. rewrite (command_scan _ _ _ _ H), (command_scan _ _ _ _ H').
  destruct (command_wf _ _ _ _ H) as [N F]. destruct (command_wf _ _ _ _ H') as [N' F'].
  destruct (fields_describe f64 negative ss N F) as (T & R). destruct (fields_describe f64 negative ss' N' F') as (T' & R').
  assert (text_of (rev (map as_pair ss)) "params" "" = path) as ->.
  { destruct T as [T|[T _]]; [exact (opt_unique _ _ _ _ N T Hp)|destruct (T _ Hp)]. }
  assert (text_of (rev (map as_pair ss')) "params" "" = path) as ->.
  { destruct T' as [T'|[T' _]]; [exact (opt_unique _ _ _ _ N' T' Hp')|destruct (T' _ Hp')]. }
  assert (cli_dryrun (cli_of f64 (rev (map as_pair ss))) = cli_dryrun (cli_of f64 (rev (map as_pair ss')))) as Ed.
  { destruct R as (_ & _ & _ & _ & _ & _ & _ & _ & _ & _ & _ & _ & _ & _ & D & _). destruct R' as (_ & _ & _ & _ & _ & _ & _ & _ & _ & _ & _ & _ & _ & _ & D' & _).
    unfold is_flag in D, D'. rewrite Hd in D. destruct (cli_dryrun _), (cli_dryrun _); try reflexivity; [symmetry|]; intuition. }
  unfold main_out. rewrite Ed. unfold params_at, select_params. destruct (files path) as [| |s]; [congruence|reflexivity|reflexivity].
Qed.
Print Assumptions C84_file_decides.

(** The parameter sets a file stands for. *)
Definition chosen (dev : string -> option Z) (f : file) (sps : list server_params) : Prop :=
  match f with
  | Absent => False
  | Unreadable => sps = [{| sp_oram := Batched 384 16 1; sp_tfhe := default_tfhe |}]
  | Readable s => (exists j l, json_text s j /\ input_is (literal dev) j l /\ sps = every_pair l) \/
      ((forall j l, json_text s j -> ~ input_is (literal dev) j l) /\ sps = [{| sp_oram := Batched 384 16 1; sp_tfhe := default_tfhe |}])
  end.
Lemma chosen_selects dev files path c sps : chosen dev (files path) sps -> select_params (params_at dev files path) c = sps.
Proof.
  unfold chosen, params_at. destruct (files path) as [| |s]; [intros []|intros ->; reflexivity|].
  change (Opened (read_params dev s)) with (open_params dev (Some s)). destruct (C78_selects dev s c) as [H1 H2].
  intros [(j & l & Hj & Hl & ->)|[Hn ->]]; [exact (H1 j l Hj Hl)|exact (H2 Hn)].
Qed.
Lemma program_table f64 negative dev files about show_dev show_noise fft md args co cl text ss sps c :
  (forall z, plain (show_dev z)) -> (forall d l, plain (show_noise d l)) -> (forall i, plain (fst (fst (cl i))) /\ plain (snd (fst (cl i))) /\ plain (snd (cl i))) ->
  command_line f64 negative ss args ->
  (forall path, describes f64 ss c path -> select_params (params_at dev files path) c = sps) -> (exists path, describes f64 ss c path) ->
  Forall set_fits sps -> (md = Checked \/ Forall nonzero sps) ->
  program f64 negative dev files about show_dev show_noise fft md args co cl = (text, 0) ->
  exists outs blocks, lines text = (header :: flat_map block_lines blocks ++ [""])%list /\ List.length blocks = List.length sps /\ List.length outs = List.length sps /\
    forall i sp, nth_error sps i = Some sp -> exists out block, nth_error outs i = Some out /\ nth_error blocks i = Some block /\
      reported show_dev show_noise (cli_dryrun c) (cl i) sp out block.
Proof.
  intros Hd Hn Hcl Hc Hs (path & Hp) HF HN H. destruct (proj2 (C84_command_line f64 negative args c path) (ex_intro _ ss (conj Hc Hp))) as (seen & E & <- & <-).
  unfold program in H. rewrite E in H. cbv zeta in H. apply pair_equal_spec in H as [<- Hst]. specialize (Hs _ Hp).
  pose proof (C81_ends_alike show_dev show_noise fft md (params_at dev files (text_of seen "params" "")) (cli_of f64 seen) co cl) as He. rewrite He in Hst.
  destruct (main_run fft md (params_at dev files (text_of seen "params" "")) (cli_of f64 seen) co) as [outs|e] eqn:Em; [|discriminate].
  exists outs. destruct (C81_table show_dev show_noise fft md (params_at dev files (text_of seen "params" "")) (cli_of f64 seen) co cl outs Hd Hn Hcl) as (blocks & B1 & B2 & B3);
    [rewrite Hs; exact HF|rewrite Hs; exact HN|exact Em|].
  exists blocks. rewrite Hs in B2, B3. split; [exact B1|]. split; [exact B2|]. split; [|exact B3].
  destruct (proj1 (C65_runs_every_set_once fft md _ _ co) outs Em) as [L _]. rewrite L, Hs. reflexivity.
Qed.
(** From end to end: started with a file that describes [l], a run with exit status 0 has printed the table of every
    pair of settings of [l]; a file that opens but describes nothing gives the table of the default setting. *)
Theorem C84_file_table : forall f64 negative dev files about show_dev show_noise fft md args co cl text ss path sps,
  (forall z, plain (show_dev z)) -> (forall d l, plain (show_noise d l)) -> (forall i, plain (fst (fst (cl i))) /\ plain (snd (fst (cl i))) /\ plain (snd (cl i))) ->
  command_line f64 negative ss args -> In (Opt "params" path) ss -> chosen dev (files path) sps ->
  Forall set_fits sps -> (md = Checked \/ Forall nonzero sps) ->
  program f64 negative dev files about show_dev show_noise fft md args co cl = (text, 0) ->
  exists outs blocks dry, (dry = true <-> In (Flag "dryrun") ss) /\
    lines text = (header :: flat_map block_lines blocks ++ [""])%list /\ List.length blocks = List.length sps /\ List.length outs = List.length sps /\
    forall i sp, nth_error sps i = Some sp -> exists out block, nth_error outs i = Some out /\ nth_error blocks i = Some block /\
      reported show_dev show_noise dry (cl i) sp out block.
Proof.
  intros f64 negative dev files about sd sn fft md args co cl text ss path sps Hd Hn Hcl Hc Hi Hch HF HN H. destruct (command_wf _ _ _ _ Hc) as [N F].
  pose proof (fields_describe f64 negative ss N F) as D.
  destruct (program_table f64 negative dev files about sd sn fft md args co cl text ss sps (cli_of f64 (rev (map as_pair ss))) Hd Hn Hcl Hc) as (outs & blocks & B); trivial.
  - intros p (T & _). assert (p = path) as -> by (destruct T as [T|[T _]]; [exact (opt_unique _ _ _ _ N T Hi)|destruct (T _ Hi)]). apply chosen_selects, Hch.
  - eexists. exact D.
  - exists outs, blocks, (cli_dryrun (cli_of f64 (rev (map as_pair ss)))). split; [|exact B].
    destruct D as (_ & _ & _ & _ & _ & _ & _ & _ & _ & _ & _ & _ & _ & _ & _ & D & _). exact D.
Qed.
Print Assumptions C84_file_table.

(** Without a parameter file the table has one block, for the setting the options describe. *)
Theorem C84_options_table : forall f64 negative dev files about show_dev show_noise fft md args co cl text ss c path,
  (forall z, plain (show_dev z)) -> (forall d l, plain (show_noise d l)) -> (forall i, plain (fst (fst (cl i))) /\ plain (snd (fst (cl i))) /\ plain (snd (cl i))) ->
  command_line f64 negative ss args -> describes f64 ss c path -> files path = Absent ->
  let sp := {| sp_oram := if cli_mode c =? 0 then SingleQuery (cli_item_count c) 1 else if cli_mode c =? 1 then MultiQuery (cli_item_count c) (cli_query_count c) 1
                          else Batched (cli_rows c) (cli_cols c) 1; sp_tfhe := cli_tfhe c |} in
  set_fits sp -> (md = Checked \/ nonzero sp) ->
  program f64 negative dev files about show_dev show_noise fft md args co cl = (text, 0) ->
  exists out block, lines text = (header :: block_lines block ++ [""])%list /\ reported show_dev show_noise (cli_dryrun c) (cl 0%nat) sp out block.
Proof.
  intros f64 negative dev files about sd sn fft md args co cl text ss c path Hd Hn Hcl Hc D Hf sp HF HN H. destruct (command_wf _ _ _ _ Hc) as [N F].
  destruct (program_table f64 negative dev files about sd sn fft md args co cl text ss [sp] c Hd Hn Hcl Hc) as (outs & blocks & B1 & B2 & _ & B3).
  - intros p D'. destruct (describes_unique f64 ss ss N (fun st => conj (fun H => H) (fun H => H)) _ _ _ _ D D') as [_ <-]. unfold params_at. rewrite Hf. reflexivity.
  - exists path. exact D.
  - repeat constructor; apply HF.
  - destruct HN as [HN|HN]; [left; exact HN|right; repeat constructor; apply HN].
  - exact H.
  - destruct (B3 0%nat sp eq_refl) as (out & block & _ & E & R). destruct blocks as [|b0 [|? ?]]; try discriminate B2. cbn in E. injection E as ->.
    exists out, block. split; [|exact R]. rewrite B1. cbn [flat_map]. rewrite app_nil_r. reflexivity.
Qed.
Print Assumptions C84_options_table.

(** The exit status tells how the run ended: 101 exactly if the computation panics. *)
Theorem C84_status : forall f64 negative dev files about show_dev show_noise fft md args co cl ss c path,
  command_line f64 negative ss args -> describes f64 ss c path ->
  snd (program f64 negative dev files about show_dev show_noise fft md args co cl) =
    match main_run fft md (params_at dev files path) c co with Ok _ => 0 | Panic _ => 101 end.
Proof.
  intros f64 negative dev files about sd sn fft md args co cl ss c path Hc D.
  destruct (proj2 (C84_command_line f64 negative args c path) (ex_intro _ ss (conj Hc D))) as (seen & E & <- & <-). unfold program. rewrite E. cbv zeta. cbn [snd].
  rewrite C81_ends_alike. destruct (main_run _ _ _ _ _); reflexivity.
Qed.
Print Assumptions C84_status.

(** Claimed by the option --secure-seed, "true" by default: the seeding can be chosen.  Refuted: no command line
    turns it off; writing "false" behind the option is an error. *)
Theorem C84_secure_seed_refuted : forall f64 negative,
  (forall ss c path args, command_line f64 negative ss args -> describes f64 ss c path -> tp_secure_seed (cli_tfhe c) = true) /\
  (forall args seen, scan f64 negative [] args = Given seen -> tp_secure_seed (cli_tfhe (cli_of f64 seen)) = true) /\
  scan f64 negative [] ["--secure-seed=false"] = Rejected /\ scan f64 negative [] ["--secure-seed"; "false"] = Rejected.
Proof.
  intros f64 negative. split; [intros ss c path args _ D; apply D|]. split; [|split; reflexivity].
  intros args seen _. cbn. unfold flag_of. destruct (lookup "secure-seed" seen); reflexivity.
Qed.
Print Assumptions C84_secure_seed_refuted.

(** Nothing on the command line: the program runs with the documented defaults, that is (if there is no file with
    the empty name) one batched set of 96 rows and 64 columns. *)
Theorem C84_no_arguments : forall f64 negative dev files about show_dev show_noise fft md co cl,
  command_line f64 negative [] [] /\ describes f64 [] default_cli "" /\
  program f64 negative dev files about show_dev show_noise fft md [] co cl =
    (let out := main_out show_dev show_noise fft md (params_at dev files "") default_cli co cl in (fst out, match snd out with Ok _ => 0 | Panic _ => 101 end)) /\
  select_params NotOpened default_cli = [{| sp_oram := Batched 96 64 1; sp_tfhe := default_tfhe |}].
Proof.
  intros f64 negative dev files about sd sn fft md co cl.
  split; [left; split; [constructor|split; constructor]|]. split; [|split; reflexivity].
  change default_cli with (cli_of f64 []). apply (fields_describe f64 negative []); constructor.
Qed.
Print Assumptions C84_no_arguments.

(** A case: three ways to ask for the same run, one of them with a negative number, and what it prints. *)
Definition demo_f64 (s : string) : option Z := if String.eqb s "-55" then Some (-55) else None.
Definition demo_neg (s : string) : bool := String.eqb s "55".
Definition demo_settings : list setting := [Opt "mode" "0"; Flag "dryrun"; Opt "item-count" "+64"; Opt "standard-deviation" "-55"].
Lemma demo_sensible : Forall (sensible demo_f64) demo_settings /\ NoDup (map name_of demo_settings).
Proof.
  split; [|repeat constructor; cbn; intuition discriminate]. unfold demo_settings. repeat apply Forall_cons; try apply Forall_nil.
  - right. left. split; [left; reflexivity|]. exists 0. apply C70_field. reflexivity.
  - right. right. left. reflexivity.
  - right. left. split; [right; left; reflexivity|]. exists 64. apply C70_field. reflexivity.
  - right. right. split; [reflexivity|]. exists (-55). reflexivity.
Qed.
Example C84_applies :
  command_line demo_f64 demo_neg demo_settings ["--mode"; "0"; "--dryrun"; "--item-count=+64"; "--standard-deviation"; "-55"] /\
  command_line demo_f64 demo_neg (rev demo_settings) ["--standard-deviation=-55"; "--item-count"; "+64"; "--dryrun"; "--mode=0"; "--"] /\
  (exists c, describes demo_f64 demo_settings c "" /\ cli_mode c = 0 /\ cli_item_count c = 64 /\ cli_cols c = 64 /\ cli_dryrun c = true) /\
  forall dev fft md co cl, program demo_f64 demo_neg dev (fun _ => Absent) "about" (fun _ => "-55") (fun _ _ => "0") fft md
      ["--standard-deviation=-55"; "--item-count"; "+64"; "--dryrun"; "--mode=0"; "--"] co cl =
    (header +++ NL +++ "-55,2048,5,9,5,11,5,11,2^8,true,0,64,-,-,-,2^6,-,-,-,-" +++ NL, 0).
Proof.
  destruct demo_sensible as [F N].
  assert (own_argument demo_neg "mode" "0" /\ own_argument demo_neg "item-count" "+64" /\ own_argument demo_neg "standard-deviation" "-55") as (O1 & O2 & O3).
  { split; [right; left; intros s; discriminate|]. split; [right; left; intros s; discriminate|]. right. right. split; [reflexivity|].
    exists "5"%char, "5". split; [reflexivity|]. split; [discriminate|reflexivity]. }
  split; [|split; [|split]].
  - left. split; [|split; assumption].
    apply (S_cons _ (Opt "mode" "0") _ ["--mode"; "0"]); [apply W_separate, O1|]. apply (S_cons _ (Flag "dryrun") _ ["--dryrun"]); [apply (W_flag _ "dryrun")|].
    apply (S_cons _ (Opt "item-count" "+64") _ ["--item-count=+64"]); [apply (W_attached _ "item-count" "+64")|].
    apply (S_cons _ (Opt "standard-deviation" "-55") _ ["--standard-deviation"; "-55"]); [apply W_separate, O3|apply S_nil].
  - right. exists ["--standard-deviation=-55"; "--item-count"; "+64"; "--dryrun"; "--mode=0"]. split; [reflexivity|]. split; [|split].
    + apply (S_cons _ (Opt "standard-deviation" "-55") _ ["--standard-deviation=-55"]); [apply (W_attached _ "standard-deviation" "-55")|].
      apply (S_cons _ (Opt "item-count" "+64") _ ["--item-count"; "+64"]); [apply W_separate, O2|]. apply (S_cons _ (Flag "dryrun") _ ["--dryrun"]); [apply (W_flag _ "dryrun")|].
      apply (S_cons _ (Opt "mode" "0") _ ["--mode=0"]); [apply (W_attached _ "mode" "0")|apply S_nil].
    + apply Forall_rev, F.
    + rewrite map_rev. apply NoDup_rev, N.
  - eexists. split; [apply (fields_describe demo_f64 demo_neg); assumption|]. repeat split; reflexivity.
  - intros dev fft md co cl. destruct md; vm_compute; reflexivity.
Qed.

(** * Proofs about the command line (C84). *)
From Coq Require Import String Ascii.
From Verif Require Import MBase MCsv MParams MJson MSerde MCli SpecCli PCsv.
Local Open Scope string_scope.
Local Open Scope Z_scope.

Definition no_eq (s : string) : Prop := ~ In "="%char (list_ascii_of_string s).
Lemma cut_eq_attached n v : no_eq n -> cut_eq (n +++ "=" +++ v) = (n, Some v).
Proof.
  unfold no_eq. induction n as [|c n IH]; intros H; [reflexivity|]. cbn [append cut_eq]. destruct (Ascii.eqb_spec c "=") as [->|]; [exfalso; apply H; left; reflexivity|].
  change (n +++ String "=" v) with (n +++ "=" +++ v). rewrite IH; [reflexivity|]. intros G. apply H. right. exact G.
Qed.
Lemma cut_eq_alone n : no_eq n -> cut_eq n = (n, None).
Proof.
  unfold no_eq. induction n as [|c n IH]; intros H; [reflexivity|]. cbn [cut_eq]. destruct (Ascii.eqb_spec c "=") as [->|]; [exfalso; apply H; left; reflexivity|].
  rewrite IH; [reflexivity|]. intros G. apply H. right. exact G.
Qed.
Lemma cut_eq_inv s n o : cut_eq s = (n, o) -> no_eq n /\ s = match o with Some v => n +++ "=" +++ v | None => n end.
Proof.
  unfold no_eq. revert n o. induction s as [|c s IH]; intros n o H; cbn [cut_eq] in H; [injection H as <- <-; split; [intros []|reflexivity]|].
  destruct (Ascii.eqb_spec c "=") as [->|Hc]; [injection H as <- <-; split; [intros []|reflexivity]|].
  destruct (cut_eq s) as [n' o'] eqn:E. injection H as <- <-. destruct (IH _ _ eq_refl) as [H1 H2]. split; [intros [G|G]; [congruence|exact (H1 G)]|].
  rewrite H2. destruct o'; reflexivity.
Qed.
Lemma shape_long s : s <> "" -> shape_of ("--" +++ s) = Long s.
Proof. destruct s; [congruence|reflexivity]. Qed.
Lemma shape_inv a : match shape_of a with
  | Escape => a = "--" | Long s => s <> "" /\ a = "--" +++ s | Short c s => c <> "-"%char /\ a = "-" +++ String c s
  | Plain => a = "-" \/ forall s, a <> "-" +++ s end.
Proof.
  destruct a as [|c1 [|c2 s2]]; cbn [shape_of].
  - right. intros s. discriminate.
  - destruct (Ascii.eqb_spec c1 "-") as [->|H]; [left; reflexivity|]. right. intros s E. injection E as -> _. congruence.
  - destruct (Ascii.eqb_spec c1 "-") as [->|H]; [|right; intros s E; injection E as -> _; congruence].
    destruct (Ascii.eqb_spec c2 "-") as [->|H2]; [|split; [exact H2|reflexivity]]. destruct s2; [reflexivity|]. split; [discriminate|reflexivity].
Qed.

(** The options. *)
Lemma lookup_in {A} n (l : list (string * A)) a : lookup n l = Some a -> In (n, a) l.
Proof. induction l as [|[m b] l IH]; [discriminate|]. cbn [lookup]. destruct (String.eqb_spec m n) as [->|]; [intros E; injection E as ->; left; reflexivity|]. intros H. right. auto. Qed.
Lemma lookup_none {A} n (l : list (string * A)) : lookup n l = None <-> ~ In n (map fst l).
Proof.
  induction l as [|[m b] l IH]; [split; [intros _ []|reflexivity]|]. cbn [lookup map fst]. destruct (String.eqb_spec m n) as [->|H].
  - split; [discriminate|]. intros G. exfalso. apply G. left. reflexivity.
  - rewrite IH. split; [intros G [E|E]; [congruence|exact (G E)]|]. intros G E. apply G. right. exact E.
Qed.
Definition as_pair (st : setting) : string * string := match st with Opt n v => (n, v) | Flag n => (n, "") end.
Lemma as_pair_name st : fst (as_pair st) = name_of st. Proof. destruct st; reflexivity. Qed.

Section CLAP.
Context (f64 : string -> option Z) (negative : string -> bool).
Lemma accepts_number v : accepts f64 KNumber v = true <-> exists z, decimal v z /\ z < 2 ^ 64.
Proof.
  unfold accepts. split.
  - destruct (parse_usize v) as [z|] eqn:E; [|discriminate]. intros _. exists z. apply C70_field, E.
  - intros (z & Hz). apply C70_field in Hz. rewrite Hz. reflexivity.
Qed.
Lemma accepts_float v : accepts f64 KFloat v = true <-> exists z, f64 v = Some z.
Proof. unfold accepts. destruct (f64 v) as [z|]; split; try discriminate; eauto. intros (z & E); discriminate. Qed.
(** The table of options and the specification agree. *)
Lemma kinds n k : lookup n options = Some k <->
  (n = "params" /\ k = KText) \/ (In n numbers /\ k = KNumber) \/ (n = "standard-deviation" /\ k = KFloat) \/ (In n flags /\ k = KFlag).
Proof.
  split.
  - intros H. apply lookup_in in H. unfold options in H. cbn [In] in H.
    repeat (destruct H as [H|H]; [injection H as <- <-; unfold numbers, flags; cbn [In]; tauto|]). destruct H.
  - intros [[-> ->]|[[H ->]|[[-> ->]|[H ->]]]]; try reflexivity; unfold numbers, flags in H; cbn [In] in H;
      repeat (destruct H as [<-|H]; [reflexivity|]); destruct H.
Qed.
Lemma names_ok n k : lookup n options = Some k -> n <> "" /\ no_eq n.
Proof.
  intros H. apply lookup_in in H. unfold options in H. cbn [In] in H.
  repeat (destruct H as [H|H]; [injection H as <- _; split; [discriminate|intros G; cbn in G; repeat (destruct G as [G|G]; [discriminate G|]); exact G]|]). destruct H.
Qed.
Lemma sensible_opt n v : sensible f64 (Opt n v) <-> exists k, lookup n options = Some k /\ k <> KFlag /\ accepts f64 k v = true.
Proof.
  cbn [sensible]. split.
  - intros [-> |[[H Hz]|[-> Hz]]].
    + exists KText. split; [reflexivity|]. split; [discriminate|reflexivity].
    + exists KNumber. split; [apply kinds; auto|]. split; [discriminate|apply accepts_number, Hz].
    + exists KFloat. split; [reflexivity|]. split; [discriminate|apply accepts_float, Hz].
  - intros (k & H & Hk & Ha). apply kinds in H as [[-> ->]|[[H ->]|[[-> ->]|[H ->]]]]; try congruence; [auto| |].
    + right. left. split; [exact H|apply accepts_number, Ha].
    + right. right. split; [reflexivity|apply accepts_float, Ha].
Qed.
Lemma own_separate n v k : lookup n options = Some k -> (own_argument negative n v <-> separate negative k v = true).
Proof.
  intros Hk. unfold own_argument, separate. pose proof (shape_inv v) as Hs. destruct (shape_of v) as [|s|c s|] eqn:Es.
  - subst v. split; [|discriminate]. intros [E|[E|(_ & c & s & E & Hc & _)]]; [discriminate|destruct (E "-" eq_refl)|injection E as E0 _; congruence].
  - destruct Hs as [_ ->]. split; [|discriminate]. intros [E|[E|(_ & c & s' & E & Hc & _)]]; [discriminate|destruct (E ("-" +++ s) eq_refl)|injection E as E0 _; congruence].
  - destruct Hs as [Hc ->]. split.
    + intros [E|[E|(-> & c' & s' & E & Hc' & Hn)]]; [discriminate|destruct (E (String c s) eq_refl)|]. injection E as -> ->.
      assert (k = KFloat) as -> by (vm_compute in Hk; congruence). exact Hn.
    + intros H. destruct k; try discriminate. apply kinds in Hk as [[_ E]|[[_ E]|[[-> _]|[_ E]]]]; try discriminate. right. right. split; [reflexivity|].
      exists c, s. auto.
  - split; [reflexivity|]. intros _. destruct Hs as [-> |Hs]; auto.
Qed.

Notation scan := (scan f64 negative).
Lemma scan_step st w seen rest : written negative st w -> sensible f64 st -> lookup (name_of st) seen = None ->
  scan seen (w ++ rest) = scan (as_pair st :: seen) rest.
Proof.
  intros Hw Hs Hl. inversion Hw as [n v|n v Ho|n]; subst st w; cbn [name_of as_pair] in *.
  - apply sensible_opt in Hs as (k & Hk & Hf & Ha). destruct (names_ok n k Hk) as [Hne He]. cbn [app MCli.scan].
    rewrite shape_long by (destruct n; [congruence|discriminate]). rewrite cut_eq_attached by exact He. rewrite Hk. destruct k; try congruence;
      rewrite Ha; unfold record; rewrite Hl; reflexivity.
  - apply sensible_opt in Hs as (k & Hk & Hf & Ha). destruct (names_ok n k Hk) as [Hne He]. apply (own_separate _ _ _ Hk) in Ho. cbn [app MCli.scan].
    rewrite shape_long by exact Hne. rewrite cut_eq_alone by exact He. rewrite Hk. destruct k; try congruence; rewrite Ho, Ha; cbn [andb]; unfold record; rewrite Hl; reflexivity.
  - cbn [sensible] in Hs. assert (lookup n options = Some KFlag) as Hk by (apply kinds; auto). destruct (names_ok n _ Hk) as [Hne He]. cbn [app MCli.scan].
    rewrite shape_long by exact Hne. rewrite cut_eq_alone by exact He. rewrite Hk. unfold record. rewrite Hl. reflexivity.
Qed.
(** What the first arguments are. *)
Lemma scan_cases seen a rest :
  (exists st w rest', a :: rest = (w ++ rest')%list /\ written negative st w /\ sensible f64 st /\ lookup (name_of st) seen = None) \/
  (a = "--" /\ rest = [] /\ scan seen (a :: rest) = Given seen) \/ (asks_help a /\ scan seen (a :: rest) = Shown) \/ scan seen (a :: rest) = Rejected.
Proof.
  cbn [MCli.scan]. pose proof (shape_inv a) as Ha. destruct (shape_of a) as [|s|c s|].
  - destruct rest; auto.
  - destruct Ha as [Hne ->]. destruct (cut_eq s) as [n o] eqn:Ec. apply cut_eq_inv in Ec as [He ->]. destruct (lookup n options) as [k|] eqn:Hk.
    + assert (k = KFlag \/ k <> KFlag) as [-> |Hf] by (destruct k; auto; right; discriminate).
      * destruct o as [v|]; [auto|]. unfold record. destruct (lookup n seen) eqn:El; [auto|]. left. exists (Flag n), ["--" +++ n], rest.
        split; [reflexivity|]. split; [constructor|]. split; [|exact El]. cbn. apply kinds in Hk as [[_ E]|[[_ E]|[[_ E]|[H _]]]]; try discriminate. exact H.
      * assert (forall X Y, match k with KFlag => X | _ => Y end = Y :> parsed) as Ek by (destruct k; congruence). rewrite Ek. clear Ek.
        destruct o as [v|].
        -- destruct (accepts f64 k v) eqn:Ea; [|auto]. unfold record. destruct (lookup n seen) eqn:El; [auto|]. left. exists (Opt n v), ["--" +++ n +++ "=" +++ v], rest.
           split; [reflexivity|]. split; [constructor|]. split; [|exact El]. apply sensible_opt. eauto.
        -- destruct rest as [|v rest]; [auto|]. destruct (separate negative k v && accepts f64 k v) eqn:Ea; [|auto]. apply andb_prop in Ea as [Es Ea].
           unfold record. destruct (lookup n seen) eqn:El; [auto|]. left. exists (Opt n v), ["--" +++ n; v], rest.
           split; [reflexivity|]. split; [constructor; apply (own_separate _ _ _ Hk), Es|]. split; [|exact El]. apply sensible_opt. eauto.
    + destruct (String.eqb_spec n "help") as [->|H1]; [|destruct (String.eqb_spec n "version") as [->|H2]]; cbn [orb]; destruct o; auto; right; right; left; (split; [|reflexivity]);
        unfold asks_help; auto.
  - destruct Ha as [Hc ->]. destruct (Ascii.eqb_spec c "h") as [->|H1]; [|destruct (Ascii.eqb_spec c "V") as [->|H2]]; cbn [orb]; auto;
      right; right; left; (split; [|reflexivity]); unfold asks_help; right; right; exists s; auto.
  - auto.
Qed.
Lemma written_nonempty st w : written negative st w -> (0 < List.length w)%nat.
Proof. intros H. inversion H; cbn; lia. Qed.

Lemma scan_outcome m : forall args, (List.length args <= m)%nat -> forall seen,
  match scan seen args with
  | Given seen' => exists ss args', (args = args' \/ args = args' ++ ["--"])%list /\ spells negative ss args' /\ Forall (sensible f64) ss /\
      seen' = (rev (map as_pair ss) ++ seen)%list /\ NoDup (map name_of ss) /\ (forall n, In n (map name_of ss) -> lookup n seen = None)
  | Shown => exists ss pre h rest, args = (pre ++ h :: rest)%list /\ spells negative ss pre /\ Forall (sensible f64) ss /\
      NoDup (map name_of ss) /\ (forall n, In n (map name_of ss) -> lookup n seen = None) /\ asks_help h
  | Rejected => True
  end.
Proof.
  induction m as [|m IH]; intros args Hm seen.
  - destruct args; [|cbn in Hm; lia]. cbn. exists [], []. repeat split; auto; try constructor. intros n [].
  - destruct args as [|a rest].
    { cbn. exists [], []. repeat split; auto; try constructor. intros n []. }
    destruct (scan_cases seen a rest) as [(st & w & rest' & E & Hw & Hs & Hl)|[(-> & -> & ->)|[(Hh & ->)| ->]]].
    + rewrite E. rewrite (scan_step _ _ _ _ Hw Hs Hl). assert (List.length rest' <= m)%nat as Hr.
      { pose proof (written_nonempty _ _ Hw). apply (f_equal (@List.length string)) in E. rewrite app_length in E. cbn [List.length] in E, Hm. lia. }
      specialize (IH rest' Hr (as_pair st :: seen)).
      assert (forall ss, NoDup (map name_of ss) -> (forall n, In n (map name_of ss) -> lookup n (as_pair st :: seen) = None) ->
        NoDup (map name_of (st :: ss)) /\ forall n, In n (map name_of (st :: ss)) -> lookup n seen = None) as Hnd.
      { intros ss N1 N2. assert (forall n, In n (map name_of ss) -> lookup n seen = None /\ n <> name_of st) as N3.
        { intros n Hn. specialize (N2 n Hn). pose proof (as_pair_name st) as Ep. destruct (as_pair st) as [x y]. cbn [lookup fst] in N2, Ep. subst x. destruct (String.eqb_spec (name_of st) n); [discriminate|]. split; [exact N2|congruence]. }
        split; [cbn [map]; constructor; [intros G; destruct (N3 _ G); congruence|exact N1]|]. intros n [<-|Hn]; [exact Hl|apply N3, Hn]. }
      destruct (scan (as_pair st :: seen) rest') as [seen'| |]; [| |exact I].
      * destruct IH as (ss & args' & Ea & Sp & Fs & Es & N1 & N2). destruct (Hnd ss N1 N2) as [N3 N4].
        exists (st :: ss), (w ++ args')%list. split; [destruct Ea as [-> | ->]; [left; reflexivity|right; rewrite app_assoc; reflexivity]|].
        split; [constructor; assumption|]. split; [constructor; assumption|]. split; [|split; assumption]. rewrite Es. cbn [map rev]. rewrite <- app_assoc. reflexivity.
      * destruct IH as (ss & pre & h & rest2 & -> & Sp & Fs & N1 & N2 & Hh). destruct (Hnd ss N1 N2) as [N3 N4].
        exists (st :: ss), (w ++ pre)%list, h, rest2. split; [rewrite app_assoc; reflexivity|]. split; [constructor; assumption|]. split; [constructor; assumption|]. auto.
    + exists [], []. repeat split; auto; try constructor. intros n [].
    + exists [], [], a, rest. repeat split; auto; try constructor. intros n [].
    + exact I.
Qed.
Lemma scan_complete ss args : spells negative ss args -> Forall (sensible f64) ss -> NoDup (map name_of ss) -> forall seen rest,
  (forall n, In n (map name_of ss) -> lookup n seen = None) -> scan seen (args ++ rest) = scan (rev (map as_pair ss) ++ seen) rest.
Proof.
  induction 1 as [|st ss w args Hw Hsp IH]; intros Hf Hn seen rest Hs; [reflexivity|]. inversion Hf; subst. inversion Hn as [|? ? N1 N2]; subst.
  rewrite <- app_assoc. rewrite (scan_step st) by (trivial; apply Hs; left; reflexivity). rewrite IH; trivial.
  - cbn [map rev]. rewrite <- app_assoc. reflexivity.
  - intros n Hi. pose proof (as_pair_name st) as Ep. destruct (as_pair st) as [x y]. cbn [fst] in Ep. subst x. cbn [lookup].
    destruct (String.eqb_spec (name_of st) n) as [E0|]; [subst n; contradiction|]. apply Hs. right. exact Hi.
Qed.

(** Looking values up. *)
Lemma lookup_pair (l : list (string * string)) n v : NoDup (map fst l) -> In (n, v) l -> lookup n l = Some v.
Proof.
  induction l as [|[m w] l IH]; [intros _ []|]. cbn [map fst lookup]. intros N H. inversion N; subst. destruct H as [E|H].
  - injection E as -> ->. rewrite String.eqb_refl. reflexivity.
  - destruct (String.eqb_spec m n) as [->|]; [exfalso; apply H2; change n with (fst (n, v)); apply in_map, H|]. auto.
Qed.
Lemma fst_as_pair ss : map fst (map as_pair ss) = map name_of ss.
Proof. rewrite map_map. apply map_ext, as_pair_name. Qed.
Lemma seen_lookup ss n : NoDup (map name_of ss) -> (exists k, lookup n options = Some k) -> Forall (sensible f64) ss ->
  match lookup n (rev (map as_pair ss)) with
  | Some v => In (Opt n v) ss \/ (In (Flag n) ss /\ v = "")
  | None => (forall v, ~ In (Opt n v) ss) /\ ~ In (Flag n) ss
  end.
Proof.
  intros N Hk Hf. destruct (lookup n (rev (map as_pair ss))) as [v|] eqn:E.
  - apply lookup_in in E. apply in_rev in E. apply in_map_iff in E as (st & E & Hi). destruct st as [m w|m]; cbn in E; injection E as -> <-; auto.
  - apply lookup_none in E. rewrite map_rev, fst_as_pair in E. split.
    + intros v Hi. apply E. apply in_rev. rewrite rev_involutive. change n with (name_of (Opt n v)). apply in_map, Hi.
    + intros Hi. apply E. apply in_rev. rewrite rev_involutive. change n with (name_of (Flag n)). apply in_map, Hi.
Qed.
Lemma flag_opt n v k ss : Forall (sensible f64) ss -> lookup n options = Some k -> (In (Opt n v) ss -> k <> KFlag) /\ (In (Flag n) ss -> k = KFlag).
Proof.
  intros Hf Hk. rewrite Forall_forall in Hf. split; intros Hi; apply Hf in Hi.
  - apply sensible_opt in Hi as (k' & Hk' & Hn & _). congruence.
  - cbn in Hi. assert (lookup n options = Some KFlag) by (apply kinds; auto). congruence.
Qed.
Section FIELDS.
Context (ss : list setting) (N : NoDup (map name_of ss)) (F : Forall (sensible f64) ss).
Notation seen := (rev (map as_pair ss)).
Lemma number_field n d : In n numbers -> is_number ss n d (number_of seen n d).
Proof.
  intros Hn. assert (lookup n options = Some KNumber) as Hk by (apply kinds; auto). pose proof (seen_lookup ss n N (ex_intro _ _ Hk) F) as H. unfold number_of, is_number.
  destruct (lookup n seen) as [v|].
  - destruct H as [H|[H _]]; [|destruct (flag_opt n "" _ ss F Hk) as [_ G]; specialize (G H); discriminate]. left. exists v. split; [exact H|].
    rewrite Forall_forall in F. apply F in H. apply sensible_opt in H as (k & Hk' & _ & Ha). assert (k = KNumber) as -> by congruence. unfold accepts in Ha.
    destruct (parse_usize v) as [z|] eqn:E; [|discriminate]. apply C70_field in E. tauto.
  - right. split; [apply H|reflexivity].
Qed.
Lemma float_field d : is_float f64 ss "standard-deviation" d (float_of f64 seen "standard-deviation" d).
Proof.
  assert (lookup "standard-deviation" options = Some KFloat) as Hk by reflexivity. pose proof (seen_lookup ss _ N (ex_intro _ _ Hk) F) as H. unfold float_of, is_float.
  destruct (lookup _ seen) as [v|].
  - destruct H as [H|[H _]]; [|destruct (flag_opt _ "" _ ss F Hk) as [_ G]; specialize (G H); discriminate]. left. exists v. split; [exact H|].
    rewrite Forall_forall in F. apply F in H. apply sensible_opt in H as (k & Hk' & _ & Ha). assert (k = KFloat) as -> by congruence. unfold accepts in Ha.
    destruct (f64 v); [reflexivity|discriminate].
  - right. split; [apply H|reflexivity].
Qed.
Lemma text_field d : is_text ss "params" d (text_of seen "params" d).
Proof.
  assert (lookup "params" options = Some KText) as Hk by reflexivity. pose proof (seen_lookup ss _ N (ex_intro _ _ Hk) F) as H. unfold text_of, is_text.
  destruct (lookup _ seen) as [v|].
  - destruct H as [H|[H _]]; [|destruct (flag_opt _ "" _ ss F Hk) as [_ G]; specialize (G H); discriminate]. left. exact H.
  - right. split; [apply H|reflexivity].
Qed.
Lemma flag_field n : In n flags -> is_flag ss n (flag_of seen n false).
Proof.
  intros Hn. assert (lookup n options = Some KFlag) as Hk by (apply kinds; auto). pose proof (seen_lookup ss n N (ex_intro _ _ Hk) F) as H. unfold flag_of, is_flag.
  destruct (lookup n seen) as [v|].
  - split; [|reflexivity]. intros _. destruct H as [H|[H _]]; [|exact H]. destruct (flag_opt n v _ ss F Hk) as [G _]. destruct (G H eq_refl).
  - split; [discriminate|]. intros G. destruct H as [_ H]. contradiction.
Qed.
Lemma fields_describe : describes f64 ss (cli_of f64 seen) (text_of seen "params" "").
Proof.
  unfold describes, cli_of. cbn [cli_tfhe cli_mode cli_item_count cli_query_count cli_rows cli_cols cli_dryrun tp_standard_deviation tp_polynomial_size tp_base_log
    tp_level_count tp_ks_base_log tp_ks_level_count tp_negs_base_log tp_negs_level_count tp_plaintext_modulus tp_secure_seed default_tfhe].
  split; [apply text_field|]. change (2 ^ 8) with 256.
  repeat (split; [first [apply float_field | apply flag_field; unfold flags; cbn [In]; tauto | apply number_field; unfold numbers; cbn [In]; tauto]|]).
  unfold flag_of. destruct (lookup _ _); reflexivity.
Qed.
End FIELDS.
End CLAP.

(** * The reader accepts exactly the texts of the grammar. *)
From Coq Require Import String Ascii Lia.
From Verif Require Import MBase MCsv MJson PfJson PfSerde SpecText.
Local Open Scope Z_scope.

(** Characters. *)
Definition space_case (c : ascii) : bool :=
  Bool.eqb (is_space c) (Ascii.eqb c " " || Ascii.eqb c "009" || Ascii.eqb c "010" || Ascii.eqb c "013") &&
  (negb (is_space c) || negb (is_digit c) && negb (Ascii.eqb c ".") && negb (Ascii.eqb c "e") && negb (Ascii.eqb c "E")).
Lemma space_cases c : space_case c = true.
Proof. revert c. apply for_all_ascii. vm_compute. reflexivity. Qed.
Lemma is_space_spec c : is_space c = true <-> space c.
Proof.
  pose proof (space_cases c) as H. unfold space_case in H. apply andb_prop in H as [H _]. apply eqb_prop in H. rewrite H. unfold space.
  rewrite !orb_true_iff, !Ascii.eqb_eq. tauto.
Qed.
Lemma space_follow c s : space c -> follow (String c s).
Proof.
  intros Hs. apply is_space_spec in Hs. pose proof (space_cases c) as H. unfold space_case in H. rewrite Hs in H. apply andb_prop in H as [_ H]. cbn [negb orb] in H.
  repeat (apply andb_prop in H as [H ?]). repeat match goal with h : negb _ = true |- _ => apply negb_true_iff in h end.
  cbn. repeat split; [assumption| | |]; apply Ascii.eqb_neq; assumption.
Qed.
Lemma skip_spaces w s : spaces w -> skip (w +++ s) = skip s.
Proof. induction w as [|c w IH]; [reflexivity|]. intros [Hc Hw]. cbn [append skip]. apply is_space_spec in Hc. rewrite Hc. apply IH, Hw. Qed.
Lemma skip_split s : exists w, s = w +++ skip s /\ spaces w /\ forall c r, skip s = String c r -> is_space c = false.
Proof.
  induction s as [|c s (w & E & Hw & Hn)].
  - exists EmptyString. repeat split. discriminate.
  - cbn [skip]. destruct (is_space c) eqn:Ec.
    + exists (String c w). split; [cbn; rewrite <- E; reflexivity|]. split; [split; [apply is_space_spec, Ec|exact Hw]|exact Hn].
    + exists EmptyString. repeat split. intros c' r H. injection H as <- _. exact Ec.
Qed.
Lemma skip_idem s : skip (skip s) = skip s.
Proof.
  destruct (skip_split s) as (w & _ & _ & H). destruct (skip s) as [|c r]; [reflexivity|]. apply skip_nonspace, (H c r eq_refl).
Qed.
Lemma skip_len s : (String.length (skip s) <= String.length s)%nat.
Proof. destruct (skip_split s) as (w & E & _). rewrite E at 2. rewrite app_len. lia. Qed.

Lemma expect_spec p : forall s r, expect p s = Some r <-> s = p +++ r.
Proof.
  induction p as [|a p IH]; intros s r; cbn [expect append].
  - split; congruence.
  - destruct s as [|b s]; [split; discriminate|]. destruct (Ascii.eqb_spec a b) as [->|Hn].
    + rewrite IH. split; congruence.
    + split; [discriminate|congruence].
Qed.
Lemma expect_app p r : expect p (p +++ r) = Some r.
Proof. apply expect_spec. reflexivity. Qed.

(** Strings. *)
Lemma hex_iff a x : hex_val a = Some x <-> hex a x.
Proof.
  unfold hex. split.
  - intros H. destruct a as [[] [] [] [] [] [] [] []]; vm_compute in H; try discriminate H; injection H as <-; cbn [In]; repeat (first [left; reflexivity|right]).
  - intros H. cbn [In] in H. repeat (destruct H as [H|H]; [injection H as <- <-; reflexivity|]). destruct H.
Qed.
Lemma hex_range a x : hex a x -> 0 <= x < 16.
Proof. unfold hex. intros H. cbn [In] in H. repeat (destruct H as [H|H]; [injection H as <- <-; lia|]). destruct H. Qed.
Lemma code_byte z : 0 <= z < 256 -> code (byte z) = z.
Proof. intros H. unfold code, byte. rewrite nat_ascii_embedding by lia. lia. Qed.
Lemma byte_code a : byte (code a) = a.
Proof. unfold code, byte. rewrite Nat2Z.id. apply ascii_nat_embedding. Qed.
Lemma code_eq a z : code a = z -> a = byte z.
Proof. intros <-. symmetry. apply byte_code. Qed.
Lemma code_range a : 0 <= code a < 256.
Proof. unfold code. pose proof (nat_ascii_bounded a). lia. Qed.
Lemma utf8_sound n : 0 <= n < 1114112 -> code_point n (utf8 n).
Proof.
  intros H. unfold utf8. pose proof (Z.div_mod n 64 ltac:(lia)) as E0. pose proof (Z.mod_pos_bound n 64 ltac:(lia)) as B0.
  destruct (Z.ltb_spec n 128) as [H1|H1].
  { rewrite <- (code_byte n) at 1 by lia. apply one_byte. rewrite code_byte; lia. }
  destruct (Z.ltb_spec n 2048) as [H2|H2].
  { replace n with (n / 64 * 64 + n mod 64) at 1 by lia. apply two_bytes; try (rewrite code_byte; lia); unfold six; lia. }
  pose proof (Z.div_mod (n / 64) 64 ltac:(lia)) as E1. pose proof (Z.mod_pos_bound (n / 64) 64 ltac:(lia)) as B1.
  rewrite Z.div_div in E1 by lia. change (64 * 64) with 4096 in E1.
  destruct (Z.ltb_spec n 65536) as [H3|H3].
  { replace n with ((n / 4096 * 64 + n / 64 mod 64) * 64 + n mod 64) at 1 by lia. apply three_bytes; try (rewrite code_byte; lia); unfold six; lia. }
  pose proof (Z.div_mod (n / 4096) 64 ltac:(lia)) as E2. pose proof (Z.mod_pos_bound (n / 4096) 64 ltac:(lia)) as B2.
  rewrite Z.div_div in E2 by lia. change (4096 * 64) with 262144 in E2.
  replace n with (((n / 262144 * 64 + n / 4096 mod 64) * 64 + n / 64 mod 64) * 64 + n mod 64) at 1 by lia. apply four_bytes; try (rewrite code_byte; lia); unfold six; lia.
Qed.
Lemma sixes x y : six y -> (x * 64 + y) / 64 = x /\ (x * 64 + y) mod 64 = y.
Proof. intros H. rewrite Z.add_comm, Z.div_add, Z.mod_add by lia. rewrite Z.div_small, Z.mod_small by exact H. lia. Qed.
Lemma utf8_complete n t : code_point n t -> utf8 n = t.
Proof.
  intros H. destruct H as [a H|x y a b Hx Hy H Ha Hb|x y z a b c Hx Hy Hz H Ha Hb Hc|x y z w a b c d Hx Hy Hz Hw H Ha Hb Hc Hd]; unfold utf8.
  - destruct (Z.ltb_spec (code a) 128); [|lia]. rewrite byte_code. reflexivity.
  - destruct (Z.ltb_spec (x * 64 + y) 128); [lia|]. destruct (Z.ltb_spec (x * 64 + y) 2048); [|lia].
    destruct (sixes x y Hy) as [-> ->]. rewrite (code_eq _ _ Ha), (code_eq _ _ Hb). reflexivity.
  - destruct (Z.ltb_spec ((x * 64 + y) * 64 + z) 128); [lia|]. destruct (Z.ltb_spec ((x * 64 + y) * 64 + z) 2048); [lia|].
    destruct (Z.ltb_spec ((x * 64 + y) * 64 + z) 65536); [|lia]. change 4096 with (64 * 64). rewrite <- Z.div_div by lia.
    destruct (sixes (x * 64 + y) z Hz) as [-> ->]. destruct (sixes x y Hy) as [-> ->]. rewrite (code_eq _ _ Ha), (code_eq _ _ Hb), (code_eq _ _ Hc). reflexivity.
  - destruct (Z.ltb_spec (((x * 64 + y) * 64 + z) * 64 + w) 128); [lia|]. destruct (Z.ltb_spec (((x * 64 + y) * 64 + z) * 64 + w) 2048); [lia|].
    destruct (Z.ltb_spec (((x * 64 + y) * 64 + z) * 64 + w) 65536); [lia|]. change 262144 with (64 * 64 * 64). change 4096 with (64 * 64). rewrite <- !Z.div_div by lia.
    destruct (sixes ((x * 64 + y) * 64 + z) w Hw) as [-> ->]. destruct (sixes (x * 64 + y) z Hz) as [-> ->]. destruct (sixes x y Hy) as [-> ->].
    rewrite (code_eq _ _ Ha), (code_eq _ _ Hb), (code_eq _ _ Hc), (code_eq _ _ Hd). reflexivity.
Qed.

Lemma hex4_spec s n r : hex4 s = Some (n, r) <-> exists a b c d x y z w, s = String a (String b (String c (String d r))) /\
  hex a x /\ hex b y /\ hex c z /\ hex d w /\ n = x * 4096 + y * 256 + z * 16 + w.
Proof.
  split.
  - destruct s as [|a [|b [|c [|d s]]]]; try discriminate. cbn [hex4]. intros H.
    apply obind_some in H as (x & Hx & H). apply obind_some in H as (y & Hy & H). apply obind_some in H as (z & Hz & H). apply obind_some in H as (w & Hw & H).
    injection H as <- <-. exists a, b, c, d, x, y, z, w. split; [reflexivity|]. repeat (split; [apply hex_iff; assumption|]). ring.
  - intros (a & b & c & d & x & y & z & w & -> & Hx & Hy & Hz & Hw & ->). apply hex_iff in Hx, Hy, Hz, Hw. cbn [hex4]. rewrite Hx, Hy, Hz, Hw. cbn [obind]. do 2 f_equal. ring.
Qed.

Lemma some_pair {A B} (a c : A) (b d : B) : Some (a, b) = Some (c, d) -> a = c /\ b = d.
Proof. intros H. injection H. auto. Qed.
Lemma unescape_sound s x r : unescape s = Some (x, r) -> exists e, char_text x (String BSLASH e) /\ s = e +++ r.
Proof.
  destruct s as [|c s]; [discriminate|]. cbn [unescape].
  destruct (Ascii.eqb c QUOTE || Ascii.eqb c BSLASH || Ascii.eqb c "/") eqn:E1.
  { intros H. injection H as <- <-. exists (ch c). split; [|reflexivity]. apply short.
    apply orb_prop in E1 as [E1|E1]; [apply orb_prop in E1 as [E1|E1]|]; apply Ascii.eqb_eq in E1; subst c; cbn; auto. }
  destruct (Ascii.eqb_spec c "b") as [->|]; [intros H; injection H as <- <-; exists (ch "b"); split; [apply short; cbn; auto 9|reflexivity]|].
  destruct (Ascii.eqb_spec c "t") as [->|]; [intros H; injection H as <- <-; exists (ch "t"); split; [apply short; cbn; auto 9|reflexivity]|].
  destruct (Ascii.eqb_spec c "n") as [->|]; [intros H; injection H as <- <-; exists (ch "n"); split; [apply short; cbn; auto 9|reflexivity]|].
  destruct (Ascii.eqb_spec c "f") as [->|]; [intros H; injection H as <- <-; exists (ch "f"); split; [apply short; cbn; auto 9|reflexivity]|].
  destruct (Ascii.eqb_spec c "r") as [->|]; [intros H; injection H as <- <-; exists (ch "r"); split; [apply short; cbn; auto 9|reflexivity]|].
  destruct (Ascii.eqb_spec c "u") as [->|]; [|discriminate].
  unfold unicode. intros H. apply obind_some in H as ([u s1] & H1 & H). apply hex4_spec in H1 as (a & b & c & d & x1 & y1 & z1 & w1 & -> & Ha & Hb & Hc & Hd & Hn).
  destruct ((56320 <=? u) && (u <? 57344)) eqn:E2; [discriminate|].
  destruct ((55296 <=? u) && (u <? 56320)) eqn:E3.
  - apply obind_some in H as (s2 & H2 & H). apply expect_spec in H2. subst s1. apply obind_some in H as ([m s3] & H3 & H).
    apply hex4_spec in H3 as (a' & b' & c' & d' & x2 & y2 & z2 & w2 & -> & Ha' & Hb' & Hc' & Hd' & Hm).
    destruct ((56320 <=? m) && (m <? 57344)) eqn:E4; [|discriminate]. apply some_pair in H as [<- <-].
    exists (String "u" (String a (String b (String c (String d (String BSLASH (String "u" (String a' (String b' (String c' (ch d'))))))))))).
    split; [|reflexivity]. pose proof (hex_range _ _ Ha). pose proof (hex_range _ _ Ha').
    eapply surrogates; try eassumption; try lia. apply utf8_sound. lia.
  - apply some_pair in H as [<- <-]. exists (String "u" (String a (String b (String c (ch d))))). split; [|reflexivity]. subst u. pose proof (hex_range _ _ Ha). pose proof (hex_range _ _ Hb). pose proof (hex_range _ _ Hc). pose proof (hex_range _ _ Hd).
    eapply unit; try eassumption; [lia|]. apply utf8_sound. lia.
Qed.

Lemma read_string_sound fuel : forall s x r, read_string fuel s = Some (x, r) -> exists e, chars_text x e /\ s = e +++ String QUOTE r.
Proof.
  induction fuel as [|f IH]; intros s x r H; [discriminate|]. cbn [read_string] in H. destruct s as [|c s]; [discriminate|].
  destruct (Ascii.eqb_spec c QUOTE) as [->|Hq].
  - injection H as <- <-. exists EmptyString. split; [constructor|reflexivity].
  - destruct (Ascii.eqb_spec c BSLASH) as [->|Hb].
    + apply obind_some in H as ([y s1] & H1 & H). apply obind_some in H as ([z s2] & H2 & H). injection H as <- <-.
      apply unescape_sound in H1 as (e & He & ->). apply IH in H2 as (e2 & He2 & ->). exists (String BSLASH e +++ e2). split; [constructor; assumption|].
      cbn [append]. rewrite app_assoc_s. reflexivity.
    + destruct (code c <? 32) eqn:Ec; [discriminate|]. apply obind_some in H as ([z s2] & H2 & H). injection H as <- <-.
      apply IH in H2 as (e2 & He2 & ->). exists (ch c +++ e2). split; [|reflexivity]. change (String c z) with (ch c +++ z). constructor; [|exact He2].
      apply plain; [lia|assumption|assumption].
Qed.

Lemma unescape_complete x e rest : char_text x (String BSLASH e) -> unescape (e +++ rest) = Some (x, rest).
Proof.
  intros H. remember (String BSLASH e) as t eqn:Et. destruct H as [c H1 H2 H3|a c H|a b c d x y z w t Ha Hb Hc Hd Hn Ht|a b c d x y z w a' b' c' d' x' y' z' w' hi lo t Ha Hb Hc Hd Ha' Hb' Hc' Hd' Ehi Elo Hhi Hlo Ht].
  - injection Et as -> _. contradiction.
  - injection Et as <-. cbn [In] in H. repeat (destruct H as [H|H]; [injection H as <- <-; reflexivity|]). destruct H.
  - apply utf8_complete in Ht. subst t. injection Et as <-. cbn [append ch]. change (unicode (String a (String b (String c (String d rest)))) = Some (utf8 (x * 4096 + y * 256 + z * 16 + w), rest)).
    unfold unicode. assert (hex4 (String a (String b (String c (String d rest)))) = Some (x * 4096 + y * 256 + z * 16 + w, rest)) as -> by (apply hex4_spec; exists a, b, c, d, x, y, z, w; auto 9).
    cbn [obind]. destruct ((56320 <=? _) && (_ <? 57344)) eqn:E1; [lia|]. destruct ((55296 <=? _) && (_ <? 56320)) eqn:E2; [lia|]. reflexivity.
  - apply utf8_complete in Ht. subst t. injection Et as <-. cbn [append ch].
    change (unicode (String a (String b (String c (String d (String BSLASH (String "u" (String a' (String b' (String c' (String d' rest)))))))))) = Some (utf8 (65536 + (hi - 55296) * 1024 + (lo - 56320)), rest)).
    unfold unicode. assert (hex4 (String a (String b (String c (String d (String BSLASH (String "u" (String a' (String b' (String c' (String d' rest)))))))))) = Some (hi, String BSLASH (String "u" (String a' (String b' (String c' (String d' rest))))))) as -> by (apply hex4_spec; exists a, b, c, d, x, y, z, w; auto 9).
    cbn [obind]. destruct ((56320 <=? hi) && (hi <? 57344)) eqn:E1; [lia|]. destruct ((55296 <=? hi) && (hi <? 56320)) eqn:E2; [|lia].
    change (String BSLASH (String "u" (String a' (String b' (String c' (String d' rest)))))) with (String BSLASH "u" +++ String a' (String b' (String c' (String d' rest)))).
    rewrite expect_app. cbn [obind]. assert (hex4 (String a' (String b' (String c' (String d' rest)))) = Some (lo, rest)) as -> by (apply hex4_spec; exists a', b', c', d', x', y', z', w'; auto 9).
    cbn [obind]. destruct ((56320 <=? lo) && (lo <? 57344)) eqn:E3; [reflexivity|lia].
Qed.
Lemma char_text_start x e : char_text x e -> (exists c, e = ch c /\ x = ch c /\ 32 <= code c /\ c <> QUOTE /\ c <> BSLASH) \/ (exists e', e = String BSLASH e').
Proof. intros H. destruct H; [left; eauto 9|right; eauto|right; eauto|right; eauto]. Qed.
Lemma read_string_complete x e : chars_text x e -> forall fuel rest, (String.length e < fuel)%nat -> read_string fuel (e +++ String QUOTE rest) = Some (x, rest).
Proof.
  induction 1 as [|x e y s Hc _ IH]; intros fuel rest Hf.
  - destruct fuel as [|f]; [lia|]. reflexivity.
  - destruct fuel as [|f]; [lia|]. rewrite app_assoc_s. rewrite app_len in Hf. destruct (char_text_start _ _ Hc) as [(c & -> & -> & H1 & H2 & H3)|(e' & ->)].
    + cbn [ch append read_string]. rewrite (proj2 (Ascii.eqb_neq c QUOTE) H2), (proj2 (Ascii.eqb_neq c BSLASH) H3). destruct (code c <? 32) eqn:E; [lia|].
      rewrite IH by (cbn in Hf; lia). reflexivity.
    + cbn [append read_string]. change (Ascii.eqb BSLASH QUOTE) with false. change (Ascii.eqb BSLASH BSLASH) with true. cbn iota.
      rewrite (unescape_complete _ _ _ Hc). cbn [obind]. rewrite IH by (cbn in Hf; lia). reflexivity.
Qed.

(** Numbers. *)
Lemma is_digit_spec c : is_digit c = true <-> 48 <= code c <= 57.
Proof. unfold is_digit. rewrite andb_true_iff, !Z.leb_le. reflexivity. Qed.
Lemma digits_spec s : forall d r, digits s = (d, r) -> s = d +++ r /\ SpecText.all_digits d.
Proof.
  induction s as [|c s IH]; intros d r H; cbn [digits] in H.
  - injection H as <- <-. split; [reflexivity|exact I].
  - destruct (is_digit c) eqn:Ec.
    + destruct (digits s) as [d' r'] eqn:E. injection H as <- <-. destruct (IH _ _ eq_refl) as [-> Hd]. split; [reflexivity|]. split; [apply is_digit_spec, Ec|exact Hd].
    + injection H as <- <-. split; [reflexivity|exact I].
Qed.
Lemma digits1_spec s d r : digits1 s = Some (d, r) -> s = d +++ r /\ some_digits d.
Proof.
  unfold digits1. destruct (digits s) as [d' r'] eqn:E. destruct d' as [|c d']; [discriminate|]. intros H. injection H as <- <-.
  apply digits_spec in E as [-> Hd]. split; [reflexivity|]. split; [discriminate|exact Hd].
Qed.
Lemma read_number_sound s t r : read_number s = Some (t, r) -> s = t +++ r /\ number_text t.
Proof.
  unfold read_number. intros H.
  assert (exists sign s0, sign_text sign /\ s = sign +++ s0 /\
    (match s with String c s' => if Ascii.eqb c "-" then ("-"%string, s') else (""%string, s) | EmptyString => (""%string, s) end) = (sign, s0)) as (sign & s0 & Hsign & Es & E0).
  { destruct s as [|c s']; [exists ""%string, ""%string; repeat split; left; reflexivity|]. destruct (Ascii.eqb_spec c "-") as [->|].
    - exists "-"%string, s'. repeat split. right. reflexivity.
    - exists ""%string, (String c s'). repeat split. left. reflexivity. }
  rewrite E0 in H. clear E0. apply obind_some in H as ([int s1] & H1 & H). apply obind_some in H as ([frac s2] & H2 & H). apply obind_some in H as ([exp s3] & H3 & H).
  injection H as <- <-.
  assert (s0 = int +++ s1 /\ int_text int) as [-> Hint].
  { destruct s0 as [|c s0]; [discriminate|]. destruct (Ascii.eqb_spec c "0") as [->|Hn].
    - injection H1 as <- <-. split; [reflexivity|left; reflexivity].
    - apply digits1_spec in H1 as [Ei Hi]. split; [exact Ei|]. right. split; [exact Hi|]. intros s' ->. cbn in Ei. congruence. }
  assert (s1 = frac +++ s2 /\ frac_text frac) as [-> Hfrac].
  { destruct s1 as [|c s1]; [injection H2 as <- <-; split; [reflexivity|left; reflexivity]|]. destruct (Ascii.eqb_spec c ".") as [->|Hn].
    - apply obind_some in H2 as ([d r] & H2 & E). injection E as <- <-. apply digits1_spec in H2 as [-> Hd]. split; [reflexivity|]. right. exists d. auto.
    - injection H2 as <- <-. split; [reflexivity|left; reflexivity]. }
  assert (s2 = exp +++ s3 /\ exp_text exp) as [-> Hexp].
  { destruct s2 as [|c s2]; [injection H3 as <- <-; split; [reflexivity|left; reflexivity]|]. destruct (Ascii.eqb c "e" || Ascii.eqb c "E") eqn:Ee.
    - assert (exists sg s'', (sg = "" \/ sg = "+" \/ sg = "-")%string /\ s2 = sg +++ s'' /\
        (match s2 with String c' r => if Ascii.eqb c' "+" || Ascii.eqb c' "-" then (ch c', r) else (""%string, s2) | EmptyString => (""%string, s2) end) = (sg, s'')) as (sg & s'' & Hsg & Es2 & E0).
      { destruct s2 as [|c' s2]; [exists ""%string, ""%string; repeat split; auto|]. destruct (Ascii.eqb c' "+" || Ascii.eqb c' "-") eqn:Ec.
        - exists (ch c'), s2. repeat split. apply orb_prop in Ec as [Ec|Ec]; apply Ascii.eqb_eq in Ec; subst c'; auto.
        - exists ""%string, (String c' s2). repeat split; auto. }
      rewrite E0 in H3. apply obind_some in H3 as ([d r] & H3 & E). injection E as <- <-. apply digits1_spec in H3 as [-> Hd].
      split; [rewrite Es2; cbn; rewrite app_assoc_s; reflexivity|]. right. exists c, sg, d. apply orb_prop in Ee.
      split; [destruct Ee as [Ee|Ee]; apply Ascii.eqb_eq in Ee; auto|auto].
    - injection H3 as <- <-. split; [reflexivity|left; reflexivity]. }
  split; [rewrite Es, !app_assoc_s; reflexivity|]. exists sign, int, frac, exp. auto.
Qed.

Lemma all_digits_same s : SpecText.all_digits s -> PfJson.all_digits s = true.
Proof. induction s as [|c s IH]; [reflexivity|]. intros [Hc Hs]. cbn [PfJson.all_digits]. rewrite (proj2 (is_digit_spec c) Hc), (IH Hs). reflexivity. Qed.
Definition no_digit (s : string) : Prop := match s with EmptyString => True | String c _ => is_digit c = false end.
Lemma digits_complete d rest : SpecText.all_digits d -> no_digit rest -> digits (d +++ rest) = (d, rest).
Proof.
  intros Hd Hr. induction d as [|c d IH].
  - cbn [append]. destruct rest as [|c rest]; [reflexivity|]. cbn [digits]. rewrite Hr. reflexivity.
  - destruct Hd as [Hc Hd]. cbn [append digits]. rewrite (proj2 (is_digit_spec c) Hc), (IH Hd). reflexivity.
Qed.
Lemma digits1_complete d rest : some_digits d -> no_digit rest -> digits1 (d +++ rest) = Some (d, rest).
Proof. intros [Hn Hd] Hr. unfold digits1. rewrite (digits_complete d rest Hd Hr). destruct d; [congruence|reflexivity]. Qed.
Definition digit_case2 (c : ascii) : bool := negb (is_digit c) || (negb (Ascii.eqb c "-") && negb (Ascii.eqb c "+")).
Lemma digit_cases2 c : digit_case2 c = true.
Proof. revert c. apply for_all_ascii. vm_compute. reflexivity. Qed.
Lemma digit_not c : 48 <= code c <= 57 -> Ascii.eqb c "-" = false /\ Ascii.eqb c "+" = false.
Proof.
  intros H. apply is_digit_spec in H. pose proof (digit_cases2 c) as Hc. unfold digit_case2 in Hc. rewrite H in Hc. cbn [negb orb] in Hc. apply andb_prop in Hc as [H1 H2].
  apply negb_true_iff in H1, H2. auto.
Qed.
Lemma int_start s : int_text s -> exists c s', s = String c s' /\ 48 <= code c <= 57 /\ (c = "0"%char -> s' = EmptyString).
Proof.
  intros [->|[[Hn Hd] H0]]; [exists "0"%char, EmptyString; (split; [reflexivity|]); (split; [vm_compute; split; discriminate|reflexivity])|]. destruct s as [|c s]; [congruence|]. destruct Hd as [Hc _].
  exists c, s. split; [reflexivity|]. split; [exact Hc|]. intros ->. exfalso. apply (H0 s). reflexivity.
Qed.

Lemma read_number_complete t rest : number_text t -> follow rest -> read_number (t +++ rest) = Some (t, rest).
Proof.
  intros (sign & int & frac & exp & Hsign & Hint & Hfrac & Hexp & ->) Hr. unfold read_number.
  set (body := int +++ frac +++ exp). rewrite app_assoc_s.
  destruct (int_start int Hint) as (ci & si & Ei & Hci & Hzi).
  assert ((match sign +++ (body +++ rest) with String c s' => if Ascii.eqb c "-" then ("-"%string, s') else (""%string, sign +++ (body +++ rest)) | EmptyString => (""%string, sign +++ (body +++ rest)) end) = (sign, body +++ rest)) as ->.
  { destruct Hsign as [Hsn|Hsn]; rewrite Hsn; [|reflexivity]. cbn [append]. unfold body. rewrite Ei. cbn [append]. rewrite (proj1 (digit_not ci Hci)). reflexivity. }
  unfold body. rewrite !app_assoc_s.
  (* what follows each part *)
  assert (no_digit rest /\ match rest with EmptyString => True | String c _ => Ascii.eqb c "." = false /\ Ascii.eqb c "e" = false /\ Ascii.eqb c "E" = false end) as [Hnr Hfr].
  { destruct rest as [|c rest]; [split; exact I|]. destruct Hr as (R1 & R2 & R3 & R4). split; [exact R1|]. repeat split; apply Ascii.eqb_neq; assumption. }
  assert (no_digit (exp +++ rest) /\ match exp +++ rest with EmptyString => True | String c _ => Ascii.eqb c "." = false end) as [Hne Hfe].
  { destruct Hexp as [->|(e & sg & d & He & _ & _ & ->)]; [cbn [append]; split; [exact Hnr|]; destruct rest; [exact I|apply Hfr]|].
    destruct He as [He|He]; subst e; split; reflexivity. }
  assert (no_digit (frac +++ exp +++ rest)) as Hnf.
  { destruct Hfrac as [->|(d & _ & ->)]; [exact Hne|reflexivity]. }
  assert ((match int +++ frac +++ exp +++ rest with String c s' => if Ascii.eqb c "0" then Some ("0"%string, s') else digits1 (int +++ frac +++ exp +++ rest) | EmptyString => None end) = Some (int, frac +++ exp +++ rest)) as ->.
  { rewrite Ei at 1. cbn [append]. destruct (Ascii.eqb_spec ci "0") as [E0|E0].
    - rewrite Ei, E0, (Hzi E0). reflexivity.
    - destruct Hint as [Hi|[Hi _]]; [rewrite Hi in Ei; injection Ei as <- _; congruence|]. apply digits1_complete; assumption. }
  cbn [obind].
  assert ((match frac +++ exp +++ rest with String c s' => if Ascii.eqb c "." then ' (d, r) <-? digits1 s' ;; Some (String "." d, r) else Some (""%string, frac +++ exp +++ rest) | EmptyString => Some (""%string, frac +++ exp +++ rest) end) = Some (frac, exp +++ rest)) as ->.
  { destruct Hfrac as [->|(d & Hd & ->)].
    - cbn [append]. destruct (exp +++ rest) as [|c er]; [reflexivity|]. rewrite Hfe. reflexivity.
    - cbn [append]. change (Ascii.eqb "." ".") with true. cbn iota. rewrite (digits1_complete d _ Hd Hne). reflexivity. }
  cbn [obind].
  match goal with |- context [obind ?m _] => assert (m = Some (exp, rest)) as -> end.
  { destruct Hexp as [->|(e & sg & d & He & Hsg & Hd & ->)].
    - cbn [append]. destruct rest as [|c rest]; [reflexivity|]. destruct Hfr as (_ & -> & ->). reflexivity.
    - cbn [append]. assert (Ascii.eqb e "e" || Ascii.eqb e "E" = true) as -> by (destruct He as [He|He]; subst e; reflexivity).
      rewrite app_assoc_s.
      assert ((match sg +++ d +++ rest with String c' r => if Ascii.eqb c' "+" || Ascii.eqb c' "-" then (ch c', r) else (""%string, sg +++ d +++ rest) | EmptyString => (""%string, sg +++ d +++ rest) end) = (sg, d +++ rest)) as ->.
      { destruct Hsg as [Hsn|[Hsn|Hsn]]; rewrite Hsn; [|reflexivity|reflexivity]. cbn [append]. destruct Hd as [Hdn Hd]. destruct d as [|c d]; [congruence|]. destruct Hd as [Hc _].
        cbn [append]. destruct (digit_not c Hc) as [-> ->]. reflexivity. }
      rewrite (digits1_complete d rest Hd Hnr). reflexivity. }
  reflexivity.
Qed.
Lemma number_start t : number_text t -> exists c t', t = String c t' /\ num_start c = true.
Proof.
  intros (sign & int & frac & exp & Hsign & Hint & _ & _ & ->). destruct (int_start int Hint) as (c & s & -> & Hc & _).
  destruct Hsign as [Hsn|Hsn]; rewrite Hsn; cbn [append]; eexists _, _; (split; [reflexivity|]); [|reflexivity]. unfold num_start. rewrite (proj2 (is_digit_spec c) Hc). reflexivity.
Qed.

(** Values: soundness. *)
Lemma value_spaces w s j : spaces w -> value_text s j -> value_text (w +++ s) j.
Proof. induction w as [|c w IH]; [trivial|]. intros [Hc Hw] H. apply value_space; [exact Hc|]. apply IH; assumption. Qed.
Lemma elems_spaces w b s j : spaces w -> elems_text b s j -> elems_text b (w +++ s) j.
Proof. induction w as [|c w IH]; [trivial|]. intros [Hc Hw] H. apply elems_space; [exact Hc|]. apply IH; assumption. Qed.
Lemma members_spaces w b s j : spaces w -> members_text b s j -> members_text b (w +++ s) j.
Proof. induction w as [|c w IH]; [trivial|]. intros [Hc Hw] H. apply members_space; [exact Hc|]. apply IH; assumption. Qed.

Lemma read_sound fuel :
  (forall s j r, read_value fuel s = Some (j, r) -> exists a, s = a +++ r /\ value_text a j) /\
  (forall b s vs r, read_elems fuel b s = Some (vs, r) -> exists a, s = a +++ r /\ elems_text b a vs) /\
  (forall b s fs r, read_members fuel b s = Some (fs, r) -> exists a, s = a +++ r /\ members_text b a fs).
Proof.
  induction fuel as [|f (IHv & IHe & IHm)]; [repeat split; discriminate|]. split; [|split].
  - intros s j r H. cbn [read_value] in H. destruct (skip_split s) as (w & Es & Hw & _). destruct (skip s) as [|c s']; [discriminate|].
    assert (exists a, String c s' = a +++ r /\ value_text a j) as (a & Ea & Ha).
    { destruct (Ascii.eqb_spec c "n") as [->|]; [apply obind_some in H as (r0 & H & E); injection E as <- <-; apply expect_spec in H; subst s'; exists "null"%string; split; [reflexivity|apply value_null]|].
      destruct (Ascii.eqb_spec c "t") as [->|]; [apply obind_some in H as (r0 & H & E); injection E as <- <-; apply expect_spec in H; subst s'; exists "true"%string; split; [reflexivity|apply value_true]|].
      destruct (Ascii.eqb_spec c "f") as [->|]; [apply obind_some in H as (r0 & H & E); injection E as <- <-; apply expect_spec in H; subst s'; exists "false"%string; split; [reflexivity|apply value_false]|].
      destruct (Ascii.eqb_spec c QUOTE) as [->|].
      { apply obind_some in H as ([x r0] & H & E); injection E as <- <-. apply read_string_sound in H as (e & He & ->). exists (String QUOTE (e +++ ch QUOTE)).
        split; [cbn; rewrite app_assoc_s; reflexivity|]. apply value_string. exists e. auto. }
      destruct (Ascii.eqb_spec c "[") as [->|].
      { apply obind_some in H as ([x r0] & H & E); injection E as <- <-. apply IHe in H as (a & -> & Ha). exists (String "[" a). split; [reflexivity|]. apply value_array, Ha. }
      destruct (Ascii.eqb_spec c "{") as [->|].
      { apply obind_some in H as ([x r0] & H & E); injection E as <- <-. apply IHm in H as (a & -> & Ha). exists (String "{" a). split; [reflexivity|]. apply value_object, Ha. }
      apply obind_some in H as ([x r0] & H & E); injection E as <- <-. apply read_number_sound in H as [E Ht]. exists x. split; [exact E|]. apply value_number, Ht. }
    exists (w +++ a). split; [rewrite app_assoc_s, <- Ea; exact Es|]. apply value_spaces; assumption.
  - intros b s vs r H. cbn [read_elems] in H. destruct (skip_split s) as (w & Es & Hw & _). destruct (skip s) as [|c s']; [discriminate|].
    assert (exists a, String c s' = a +++ r /\ elems_text b a vs) as (a & Ea & Ha).
    { destruct (Ascii.eqb_spec c "]") as [->|]; [injection H as <- <-; exists "]"%string; split; [reflexivity|apply elems_end]|].
      destruct b.
      - apply obind_some in H as ([v r0] & H1 & H). apply obind_some in H as ([vs' r1] & H2 & H). injection H as <- <-.
        apply IHv in H1 as (a1 & E1 & T1). apply IHe in H2 as (a2 & -> & T2). exists (a1 +++ a2). split; [rewrite E1, app_assoc_s; reflexivity|]. apply elems_first; assumption.
      - destruct (Ascii.eqb_spec c ",") as [->|]; [|discriminate].
        apply obind_some in H as ([v r0] & H1 & H). apply obind_some in H as ([vs' r1] & H2 & H). injection H as <- <-.
        apply IHv in H1 as (a1 & -> & T1). apply IHe in H2 as (a2 & -> & T2). exists (String "," (a1 +++ a2)). split; [cbn; rewrite app_assoc_s; reflexivity|]. apply elems_next; assumption. }
    exists (w +++ a). split; [rewrite app_assoc_s, <- Ea; exact Es|]. apply elems_spaces; assumption.
  - intros b s fs r H. cbn [read_members] in H. destruct (skip_split s) as (w & Es & Hw & _). destruct (skip s) as [|c s']; [discriminate|].
    assert (exists a, String c s' = a +++ r /\ members_text b a fs) as (a & Ea & Ha).
    { destruct (Ascii.eqb_spec c "}") as [->|]; [injection H as <- <-; exists "}"%string; split; [reflexivity|apply members_end]|].
      apply obind_some in H as (s1 & H0 & H). apply obind_some in H as (s2 & H1 & H). apply expect_spec in H1. apply obind_some in H as ([k s3] & H2 & H). apply read_string_sound in H2 as (e & He & E2).
      apply obind_some in H as (s4 & H3 & H). apply expect_spec in H3. apply obind_some in H as ([v s5] & H4 & H). apply IHv in H4 as (a1 & E4 & T1).
      apply obind_some in H as ([fs' s6] & H5 & H). apply IHm in H5 as (a2 & E5 & T2). injection H as <- <-.
      destruct (skip_split s3) as (w3 & E3 & Hw3 & _). rewrite H3 in E3. rewrite E4, E5 in E3. clear H3.
      assert (s1 = (String QUOTE (e +++ ch QUOTE)) +++ w3 +++ String ":" (a1 +++ a2) +++ s6) as E1.
      { rewrite H1, E2, E3. cbn. rewrite !app_assoc_s. reflexivity. }
      destruct b.
      - injection H0 as <-. eexists. split; [|apply (members_first (String QUOTE (e +++ ch QUOTE)) w3 a1 a2 k v fs'); [exists e; auto|exact Hw3|exact T1|exact T2]].
        rewrite E1. rewrite !app_assoc_s. cbn. rewrite !app_assoc_s. reflexivity.
      - destruct (Ascii.eqb_spec c ",") as [->|]; [|discriminate]. injection H0 as H0. destruct (skip_split s') as (w0 & E0 & Hw0 & _). rewrite H0 in E0.
        eexists. split; [|apply (members_next w0 (String QUOTE (e +++ ch QUOTE)) w3 a1 a2 k v fs'); [exact Hw0|exists e; auto|exact Hw3|exact T1|exact T2]].
        rewrite E0, E1. repeat (progress (cbn [append ch]; rewrite ?app_assoc_s)). reflexivity. }
    exists (w +++ a). split; [rewrite app_assoc_s, <- Ea; exact Es|]. apply members_spaces; assumption.
Qed.

(** Completeness. *)
Scheme value_mut := Minimality for value_text Sort Prop
with elems_mut := Minimality for elems_text Sort Prop
with members_mut := Minimality for members_text Sort Prop.
Combined Scheme text_mut from value_mut, elems_mut, members_mut.

Definition stops (s : string) : Prop := match s with EmptyString => True | String c _ => space c \/ c = ","%char \/ c = "]"%char \/ c = "}"%char end.
Lemma stops_follow s : stops s -> follow s.
Proof. destruct s as [|c s]; [trivial|]. intros [H|H]; [apply space_follow, H|]. apply (sep_follow (String c s)). exact H. Qed.
Lemma skip_space c s : space c -> skip (String c s) = skip s.
Proof. intros H. apply is_space_spec in H. cbn [skip]. rewrite H. reflexivity. Qed.

(** Reading depends on the text only from its first character that is not white space. *)
Lemma read_value_skip f c s : space c -> read_value f (String c s) = read_value f s.
Proof. intros H. destruct f; [reflexivity|]. cbn [read_value]. rewrite skip_space by exact H. reflexivity. Qed.
Lemma read_elems_skip f b c s : space c -> read_elems f b (String c s) = read_elems f b s.
Proof. intros H. destruct f; [reflexivity|]. cbn [read_elems]. rewrite skip_space by exact H. reflexivity. Qed.
Lemma read_members_skip f b c s : space c -> read_members f b (String c s) = read_members f b s.
Proof. intros H. destruct f; [reflexivity|]. cbn [read_members]. rewrite skip_space by exact H. reflexivity. Qed.

(** The first character of a value after white space is not a closing bracket. *)
Lemma value_open s j : value_text s j -> exists c r, skip s = String c r /\ Ascii.eqb c "]" = false /\ (1 <= String.length s)%nat.
Proof.
  induction 1 as [c s j Hc _ (c' & r & E & H & L)| | | |t Ht|x s (e & _ & ->)|s vs _|s fs _].
  - exists c', r. rewrite skip_space by exact Hc. split; [exact E|]. split; [exact H|cbn; lia].
  - eexists _, _. repeat split. cbn; lia.
  - eexists _, _. repeat split. cbn; lia.
  - eexists _, _. repeat split. cbn; lia.
  - destruct (number_start t Ht) as (c & t' & -> & Hs). exists c, t'. pose proof (num_start_cases c) as H. unfold num_start_case in H. rewrite Hs in H. cbn [negb orb] in H.
    repeat (apply andb_prop in H as [H ?]). repeat match goal with h : negb _ = true |- _ => apply negb_true_iff in h end.
    split; [apply skip_nonspace; assumption|]. split; [assumption|cbn; lia].
  - eexists _, _. split; [reflexivity|]. split; [reflexivity|cbn; lia].
  - eexists _, _. split; [reflexivity|]. split; [reflexivity|cbn; lia].
  - eexists _, _. split; [reflexivity|]. split; [reflexivity|cbn; lia].
Qed.
Lemma skip_app_some s r c t : skip s = String c t -> skip (s +++ r) = String c (t +++ r).
Proof.
  induction s as [|a s IH]; [discriminate|]. cbn [skip append]. destruct (is_space a); [apply IH|]. intros H. injection H as -> ->. reflexivity.
Qed.
Lemma read_value_skipped f s : read_value f (skip s) = read_value f s.
Proof. destruct f; [reflexivity|]. cbn [read_value]. rewrite skip_idem. reflexivity. Qed.

Lemma elems_len b s vs : elems_text b s vs -> (1 <= String.length s)%nat.
Proof. intros H. inversion H as [| |s' r v vs' Hv _|]; subst; cbn; try lia. rewrite app_len. destruct (value_open _ _ Hv) as (_ & _ & _ & _ & L). lia. Qed.
Lemma elems_stops s vs : elems_text false s vs -> forall rest, stops (s +++ rest).
Proof. intros H rest. inversion H; subst; cbn; auto. Qed.
Lemma members_stops s vs : members_text false s vs -> forall rest, stops (s +++ rest).
Proof. intros H rest. inversion H; subst; cbn; auto. Qed.

Lemma member_complete f sk k w s v r fs rest :
  string_text k sk -> spaces w -> (2 * String.length (sk +++ w +++ String ":" (s +++ r)) < S f)%nat ->
  read_value f (s +++ r +++ rest) = Some (v, r +++ rest) -> read_members f false (r +++ rest) = Some (fs, rest) ->
  (s2 <-? expect (ch QUOTE) ((sk +++ w +++ String ":" (s +++ r)) +++ rest) ;; ' (k', s3) <-? read_string f s2 ;; s4 <-? expect ":" (skip s3) ;; ' (v', s5) <-? read_value f s4 ;;
     ' (fs', s6) <-? read_members f false s5 ;; Some ((k', v') :: fs', s6)) = Some ((k, v) :: fs, rest).
Proof.
  intros (e & He & ->) Hw Hf Hv Hm. cbn [append expect ch]. rewrite Ascii.eqb_refl. cbn [expect obind].
  rewrite !app_assoc_s. cbn [append ch]. rewrite ?app_assoc_s. cbn [append]. cbn [append String.length] in Hf. rewrite !app_len in Hf. rewrite (read_string_complete _ _ He) by lia. cbn [obind].
  rewrite skip_spaces by exact Hw. rewrite skip_nonspace by reflexivity. cbn [expect]. rewrite Ascii.eqb_refl. cbn [expect obind].
  rewrite Hv. cbn [obind]. rewrite Hm. reflexivity.
Qed.

Lemma read_complete :
  (forall s j, value_text s j -> forall fuel rest, stops rest -> (2 * String.length s < fuel)%nat -> read_value fuel (s +++ rest) = Some (j, rest)) /\
  (forall b s vs, elems_text b s vs -> forall fuel rest, (2 * String.length s < fuel)%nat -> read_elems fuel b (s +++ rest) = Some (vs, rest)) /\
  (forall b s fs, members_text b s fs -> forall fuel rest, (2 * String.length s < fuel)%nat -> read_members fuel b (s +++ rest) = Some (fs, rest)).
Proof.
  apply text_mut.
  - intros c s j Hc _ IH fuel rest Hs Hf. cbn [append]. rewrite read_value_skip by exact Hc. apply IH; [exact Hs|cbn in Hf; lia].
  - intros fuel rest Hs Hf. destruct fuel; [lia|]. reflexivity.
  - intros fuel rest Hs Hf. destruct fuel; [lia|]. reflexivity.
  - intros fuel rest Hs Hf. destruct fuel; [lia|]. reflexivity.
  - intros t Ht fuel rest Hs Hf. destruct fuel as [|f]; [lia|]. destruct (number_start t Ht) as (c & t' & -> & Hst).
    pose proof (num_start_cases c) as H. unfold num_start_case in H. rewrite Hst in H. cbn [negb orb] in H.
    repeat (apply andb_prop in H as [H ?]). repeat match goal with h : negb _ = true |- _ => apply negb_true_iff in h end.
    pose proof (read_number_complete _ rest Ht (stops_follow _ Hs)) as Er.
    cbn [append]. cbn [read_value]. rewrite skip_nonspace by assumption.
    repeat match goal with h : Ascii.eqb _ _ = false |- _ => rewrite h; clear h end. cbn [append] in Er. rewrite Er. reflexivity.
  - intros x s (e & He & ->) fuel rest Hs Hf. destruct fuel as [|f]; [lia|]. cbn [append String.length] in *. rewrite app_len in Hf.
    cbn [read_value]. rewrite skip_nonspace by reflexivity. rewrite app_assoc_s. cbn [ch append].
    change (Ascii.eqb QUOTE "n") with false. change (Ascii.eqb QUOTE "t") with false. change (Ascii.eqb QUOTE "f") with false. change (Ascii.eqb QUOTE QUOTE) with true. cbn iota.
    rewrite (read_string_complete _ _ He) by lia. reflexivity.
  - intros s vs _ IH fuel rest Hs Hf. destruct fuel as [|f]; [lia|]. cbn [append String.length] in *. cbn [read_value]. rewrite skip_nonspace by reflexivity.
    change (Ascii.eqb "[" "n") with false. change (Ascii.eqb "[" "t") with false. change (Ascii.eqb "[" "f") with false. change (Ascii.eqb "[" QUOTE) with false. change (Ascii.eqb "[" "[") with true. cbn iota.
    rewrite IH by lia. reflexivity.
  - intros s fs _ IH fuel rest Hs Hf. destruct fuel as [|f]; [lia|]. cbn [append String.length] in *. cbn [read_value]. rewrite skip_nonspace by reflexivity.
    change (Ascii.eqb "{" "n") with false. change (Ascii.eqb "{" "t") with false. change (Ascii.eqb "{" "f") with false. change (Ascii.eqb "{" QUOTE) with false. change (Ascii.eqb "{" "[") with false. change (Ascii.eqb "{" "{") with true. cbn iota.
    rewrite IH by lia. reflexivity.
  - intros c s b vs Hc _ IH fuel rest Hf. cbn [append]. rewrite read_elems_skip by exact Hc. apply IH. cbn in Hf. lia.
  - intros b fuel rest Hf. destruct fuel; [lia|]. reflexivity.
  - intros s r v vs Hv IHv Hr IHr fuel rest Hf. destruct fuel as [|f]; [lia|]. rewrite app_len in Hf. rewrite app_assoc_s. cbn [read_elems].
    destruct (value_open _ _ Hv) as (c & t & Es & Hc & L). pose proof (elems_len _ _ _ Hr) as Lr. rewrite (skip_app_some _ _ _ _ Es), Hc.
    rewrite <- (skip_app_some _ (r +++ rest) _ _ Es), read_value_skipped.
    rewrite (IHv f (r +++ rest) (elems_stops _ _ Hr rest)) by lia. cbn [obind]. rewrite IHr by lia. reflexivity.
  - intros s r v vs Hv IHv Hr IHr fuel rest Hf. destruct fuel as [|f]; [lia|]. cbn [append String.length] in *. rewrite app_len in Hf. rewrite app_assoc_s. cbn [read_elems]. rewrite skip_nonspace by reflexivity.
    change (Ascii.eqb "," "]") with false. change (Ascii.eqb "," ",") with true. cbn iota.
    rewrite (IHv f (r +++ rest) (elems_stops _ _ Hr rest)) by lia. cbn [obind]. rewrite IHr by lia. reflexivity.
  - intros c s b vs Hc _ IH fuel rest Hf. cbn [append]. rewrite read_members_skip by exact Hc. apply IH. cbn in Hf. lia.
  - intros b fuel rest Hf. destruct fuel; [lia|]. reflexivity.
  - intros sk w s r k v fs Hk Hw Hv IHv Hr IHr fuel rest Hf. destruct fuel as [|f]; [lia|].
    assert (2 * String.length s < f)%nat as L1 by (rewrite !app_len in Hf; cbn [String.length] in Hf; rewrite app_len in Hf; lia).
    assert (2 * String.length r < f)%nat as L2 by (rewrite !app_len in Hf; cbn [String.length] in Hf; rewrite app_len in Hf; lia).
    pose proof (member_complete f sk k w s v r fs rest Hk Hw Hf (IHv f (r +++ rest) (members_stops _ _ Hr rest) L1) (IHr f rest L2)) as Hm.
    destruct Hk as (e & He & ->). cbn [append] in *. cbn [read_members]. rewrite skip_nonspace by reflexivity.
    change (Ascii.eqb QUOTE "}") with false. cbn iota. cbn [obind]. exact Hm.
  - intros w0 sk w s r k v fs Hw0 Hk Hw Hv IHv Hr IHr fuel rest Hf. destruct fuel as [|f]; [lia|].
    assert (2 * String.length s < f)%nat as L1 by (cbn [String.length] in Hf; rewrite !app_len in Hf; cbn [String.length] in Hf; rewrite app_len in Hf; lia).
    assert (2 * String.length r < f)%nat as L2 by (cbn [String.length] in Hf; rewrite !app_len in Hf; cbn [String.length] in Hf; rewrite app_len in Hf; lia).
    assert (2 * String.length (sk +++ w +++ String ":" (s +++ r)) < S f)%nat as L3 by (cbn [String.length] in Hf; rewrite app_len in Hf; lia).
    pose proof (member_complete f sk k w s v r fs rest Hk Hw L3 (IHv f (r +++ rest) (members_stops _ _ Hr rest) L1) (IHr f rest L2)) as Hm.
    destruct Hk as (e & He & ->). cbn [append] in *. cbn [read_members]. rewrite skip_nonspace by reflexivity.
    change (Ascii.eqb "," "}") with false. change (Ascii.eqb "," ",") with true. cbn iota. cbn [obind].
    rewrite app_assoc_s. rewrite skip_spaces by exact Hw0. cbn [append]. rewrite skip_nonspace by reflexivity. exact Hm.
Qed.

Theorem read_json_spec s j : read_json s = Some j <-> json_text s j.
Proof.
  unfold read_json, json_text. split.
  - intros H. apply obind_some in H as ([j' r] & H & E). apply (proj1 (read_sound _)) in H as (a & -> & Ha).
    destruct (skip_split r) as (w & Er & Hw & _). destruct (skip r); [|discriminate]. injection E as <-. rewrite app_nil_s in Er. subst r.
    exists a, w. auto.
  - intros (a & w & -> & Ha & Hw). rewrite (proj1 read_complete a j Ha).
    + cbn [obind]. pose proof (skip_spaces w EmptyString Hw) as H. rewrite app_nil_s in H. rewrite H. reflexivity.
    + destruct w as [|c w]; [exact I|]. left. apply Hw.
    + rewrite app_len. lia.
Qed.

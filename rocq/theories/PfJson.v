(** * Reading back what the JSON printer wrote. *)
From Coq Require Import String Ascii Lia.
From Verif Require Import MBase MCsv MJson.
Local Open Scope Z_scope.

Lemma app_assoc_s a b c : (a +++ b) +++ c = a +++ (b +++ c).
Proof. induction a as [|x a IH]; [reflexivity|]. cbn. rewrite IH. reflexivity. Qed.
Lemma app_nil_s a : a +++ EmptyString = a.
Proof. induction a as [|x a IH]; [reflexivity|]. cbn. rewrite IH. reflexivity. Qed.
Lemma app_len a b : String.length (a +++ b) = (String.length a + String.length b)%nat.
Proof. induction a as [|x a IH]; [reflexivity|]. cbn. rewrite IH. reflexivity. Qed.

(** Induction on JSON values with their elements. *)
Section IND.
Variable P : json -> Prop.
Hypothesis Hnull : P JNull.
Hypothesis Hbool : forall b, P (JBool b).
Hypothesis Hnum : forall t, P (JNum t).
Hypothesis Hstr : forall s, P (JStr s).
Hypothesis Harr : forall vs, Forall P vs -> P (JArr vs).
Hypothesis Hobj : forall fs, Forall (fun e => P (snd e)) fs -> P (JObj fs).
Fixpoint json_ind' (j : json) : P j :=
  match j with
  | JNull => Hnull | JBool b => Hbool b | JNum t => Hnum t | JStr s => Hstr s
  | JArr vs => Harr vs ((fix go (vs : list json) : Forall P vs :=
      match vs with [] => Forall_nil _ | v :: vs' => Forall_cons v (json_ind' v) (go vs') end) vs)
  | JObj fs => Hobj fs ((fix go (fs : list (string * json)) : Forall (fun e => P (snd e)) fs :=
      match fs with [] => Forall_nil _ | e :: fs' => Forall_cons e (json_ind' (snd e)) (go fs') end) fs)
  end.
End IND.

(** The two inner loops of the printer. *)
Fixpoint elems (vs : list json) : string :=
  match vs with [] => EmptyString | [v] => render v | v :: vs' => render v +++ String "," (elems vs') end.
Fixpoint members (fs : list (string * json)) : string :=
  match fs with
  | [] => EmptyString
  | [(k, v)] => quoted k +++ String ":" (render v)
  | (k, v) :: fs' => quoted k +++ String ":" (render v +++ String "," (members fs'))
  end.
Lemma render_arr vs : render (JArr vs) = String "[" (elems vs +++ String "]" EmptyString).
Proof. reflexivity. Qed.
Lemma render_obj fs : render (JObj fs) = String "{" (members fs +++ String "}" EmptyString).
Proof. reflexivity. Qed.

(** What may follow a number. *)
Definition follow (s : string) : Prop :=
  match s with
  | EmptyString => True
  | String c _ => is_digit c = false /\ c <> "."%char /\ c <> "e"%char /\ c <> "E"%char
  end.
Definition good_num (t : string) : Prop :=
  match t with EmptyString => False | String c _ => is_digit c = true \/ c = "-"%char end /\
  forall rest, follow rest -> read_number (t +++ rest) = Some (t, rest).
Fixpoint good (j : json) : Prop :=
  match j with
  | JNum t => good_num t
  | JArr vs => (fix go (vs : list json) : Prop := match vs with [] => True | v :: vs' => good v /\ go vs' end) vs
  | JObj fs => (fix go (fs : list (string * json)) : Prop := match fs with [] => True | e :: fs' => good (snd e) /\ go fs' end) fs
  | _ => True
  end.
Lemma good_arr vs : good (JArr vs) <-> Forall good vs.
Proof.
  cbn [good]. induction vs as [|v vs IH]; [split; [constructor|trivial]|]. rewrite IH. split; [intros [? ?]; constructor; assumption|intros H; inversion H; auto].
Qed.
Lemma good_obj fs : good (JObj fs) <-> Forall (fun e => good (snd e)) fs.
Proof.
  cbn [good]. induction fs as [|v fs IH]; [split; [constructor|trivial]|]. rewrite IH. split; [intros [? ?]; constructor; assumption|intros H; inversion H; auto].
Qed.

(** Strings. *)
Definition all_ascii : list ascii := map ascii_of_nat (seq 0 256).
Lemma all_ascii_In c : In c all_ascii.
Proof.
  unfold all_ascii. apply in_map_iff. exists (nat_of_ascii c). split; [apply ascii_nat_embedding|]. apply in_seq. split; [lia|].
  apply nat_ascii_bounded.
Qed.
Lemma for_all_ascii (f : ascii -> bool) : forallb f all_ascii = true -> forall c, f c = true.
Proof. intros H c. rewrite forallb_forall in H. apply H, all_ascii_In. Qed.

Definition esc_case (c : ascii) : bool :=
  if Ascii.eqb c QUOTE || Ascii.eqb c BSLASH || (code c <? 32) then
    match escape_char c with
    | String a (String b s) =>
        Ascii.eqb a BSLASH && (negb (Ascii.eqb a QUOTE)) &&
        match unescape (String b s) with Some (x, EmptyString) => String.eqb x (ch c) | _ => false end
        && (String.eqb s EmptyString || Ascii.eqb b "u" && match s with String _ (String _ (String _ (String _ EmptyString))) => true | _ => false end)
    | _ => false
    end
  else String.eqb (escape_char c) (ch c).
Lemma esc_cases c : esc_case c = true.
Proof. revert c. apply for_all_ascii. vm_compute. reflexivity. Qed.

Lemma hex4_app a b c d s rest : hex4 (String a (String b (String c (String d (s +++ rest))))) =
  match hex4 (String a (String b (String c (String d s)))) with Some (x, r) => Some (x, r +++ rest) | None => None end.
Proof.
  cbn [hex4]. destruct (hex_val a); [|reflexivity]. destruct (hex_val b); [|reflexivity]. destruct (hex_val c); [|reflexivity]. destruct (hex_val d); reflexivity.
Qed.
Lemma unicode_app a b c d rest x :
  unicode (String a (String b (String c (String d EmptyString)))) = Some (x, EmptyString) ->
  unicode (String a (String b (String c (String d rest)))) = Some (x, rest).
Proof.
  unfold unicode. pose proof (hex4_app a b c d EmptyString rest) as H. cbn [append] in H. rewrite H. clear H.
  destruct (hex4 _) as [[n r]|] eqn:Eh; [|discriminate]. cbn [hex4] in Eh.
  assert (r = EmptyString) as ->.
  { destruct (hex_val a); [|discriminate]. destruct (hex_val b); [|discriminate]. destruct (hex_val c); [|discriminate]. destruct (hex_val d); [|discriminate].
    cbn in Eh. congruence. }
  cbn [obind append]. destruct ((56320 <=? n) && (n <? 57344)); [discriminate|].
  destruct ((55296 <=? n) && (n <? 56320)); [cbn; discriminate|]. intros H. congruence.
Qed.

Lemma unescape_short b rest x : unescape (String b EmptyString) = Some (x, EmptyString) -> unescape (String b rest) = Some (x, rest).
Proof.
  unfold unescape. repeat match goal with |- context [if ?t then _ else _] => destruct t end; try (intros H; congruence).
  all: cbn; discriminate.
Qed.
Lemma unescape_u s0 rest x : match s0 with String _ (String _ (String _ (String _ EmptyString))) => true | _ => false end = true ->
  unescape (String "u" s0) = Some (x, EmptyString) -> unescape (String "u" (s0 +++ rest)) = Some (x, rest).
Proof.
  destruct s0 as [|a [|b [|c [|d [|e s0]]]]]; try discriminate. intros _. apply unicode_app.
Qed.

Lemma escape_char_len c : (1 <= String.length (escape_char c))%nat.
Proof.
  pose proof (esc_cases c) as H. unfold esc_case in H. destruct (escape_char c) as [|a s]; [|cbn; lia].
  destruct (Ascii.eqb c QUOTE || Ascii.eqb c BSLASH || (code c <? 32)); discriminate.
Qed.
Lemma read_string_escape s : forall fuel rest, (String.length (escape s) < fuel)%nat ->
  read_string fuel (escape s +++ String QUOTE rest) = Some (s, rest).
Proof.
  induction s as [|c s IH]; intros fuel rest Hf.
  - destruct fuel as [|f]; [cbn in Hf; lia|]. cbn [escape append read_string]. rewrite Ascii.eqb_refl. reflexivity.
  - cbn [escape]. cbn [escape] in Hf. rewrite app_len in Hf. pose proof (escape_char_len c) as Hl.
    destruct fuel as [|f]; [lia|]. rewrite app_assoc_s. pose proof (esc_cases c) as H. unfold esc_case in H.
    destruct (Ascii.eqb c QUOTE || Ascii.eqb c BSLASH || (code c <? 32)) eqn:Ec.
    + destruct (escape_char c) as [|a [|b e]]; try discriminate. apply andb_prop in H as [H H4]. apply andb_prop in H as [H H3]. apply andb_prop in H as [H1 H2].
      apply negb_true_iff in H2. cbn [append read_string]. rewrite H2, H1.
      destruct (unescape (String b e)) as [[x r]|] eqn:Eu; [|discriminate]. destruct r; [|discriminate]. apply String.eqb_eq in H3. subst x.
      assert (unescape (String b (e +++ (escape s +++ String QUOTE rest))) = Some (ch c, escape s +++ String QUOTE rest)) as Hu.
      { apply orb_prop in H4 as [H4|H4].
        - apply String.eqb_eq in H4. subst e. cbn [append]. apply unescape_short. exact Eu.
        - apply andb_prop in H4 as [Hb He]. apply Ascii.eqb_eq in Hb. subst b. apply unescape_u; assumption. }
      rewrite Hu. cbn [obind]. rewrite IH by (cbn in Hf; lia). reflexivity.
    + apply String.eqb_eq in H. rewrite H. cbn [ch append read_string].
      apply orb_false_iff in Ec as [Ec E3]. apply orb_false_iff in Ec as [E1 E2]. rewrite E1, E2, E3.
      rewrite IH by (rewrite H in Hf; cbn in Hf; lia). reflexivity.
Qed.

(** Values. *)
Lemma skip_nonspace c s : is_space c = false -> skip (String c s) = String c s.
Proof. intros H. cbn [skip]. rewrite H. reflexivity. Qed.

Definition num_start (c : ascii) : bool := is_digit c || Ascii.eqb c "-".
Definition num_start_case (c : ascii) : bool :=
  negb (num_start c) || (negb (is_space c) && negb (Ascii.eqb c "n") && negb (Ascii.eqb c "t") && negb (Ascii.eqb c "f") &&
    negb (Ascii.eqb c QUOTE) && negb (Ascii.eqb c "[") && negb (Ascii.eqb c "{") && negb (Ascii.eqb c "]") && negb (Ascii.eqb c "}")).
Lemma num_start_cases c : num_start_case c = true.
Proof. revert c. apply for_all_ascii. vm_compute. reflexivity. Qed.

(** How a value starts: not with white space nor a closing bracket. *)
Definition opens (s : string) : Prop :=
  match s with EmptyString => False | String c _ => is_space c = false /\ Ascii.eqb c "]" = false /\ Ascii.eqb c "}" = false end.
Lemma render_opens j : good j -> opens (render j).
Proof.
  destruct j as [|b|t|s|vs|fs]; intros Hg.
  - cbn. auto.
  - destruct b; cbn; auto.
  - cbn [render]. destruct Hg as [Hc _]. destruct t as [|c t]; [destruct Hc|]. cbn.
    assert (num_start c = true) as Hs by (unfold num_start; destruct Hc as [Hc|Hc]; [rewrite Hc; reflexivity|subst c; reflexivity]).
    pose proof (num_start_cases c) as H. unfold num_start_case in H. rewrite Hs in H. cbn [negb orb] in H.
    repeat (apply andb_prop in H as [H ?]). repeat match goal with h : negb _ = true |- _ => apply negb_true_iff in h end. auto.
  - cbn. auto.
  - rewrite render_arr. cbn. auto.
  - rewrite render_obj. cbn. auto.
Qed.
Lemma opens_app s r : opens s -> opens (s +++ r).
Proof. destruct s; cbn; [intros []|auto]. Qed.
Lemma opens_skip s : opens s -> skip s = s.
Proof. destruct s as [|c s]; [reflexivity|]. intros [H _]. apply skip_nonspace, H. Qed.

Definition sep_ok (s : string) : Prop := match s with EmptyString => True | String c _ => c = ","%char \/ c = "]"%char \/ c = "}"%char end.
Lemma sep_follow s : sep_ok s -> follow s.
Proof.
  destruct s as [|c s]; [trivial|]. intros [H|[H|H]]; subst c; cbn; repeat split; discriminate.
Qed.

Definition reads_back (j : json) : Prop := forall rest fuel, sep_ok rest -> (2 * String.length (render j) < fuel)%nat ->
  read_value fuel (render j +++ rest) = Some (j, rest).

Lemma elems_back vs : Forall good vs -> Forall reads_back vs -> forall first rest fuel, (2 * String.length (elems vs) + 1 < fuel)%nat ->
  read_elems fuel first ((if first then elems vs else match vs with [] => EmptyString | _ => String "," (elems vs) end) +++ String "]" rest) = Some (vs, rest).
Proof.
  induction vs as [|v vs IH]; intros HG HR first rest fuel Hf.
  - destruct fuel as [|f]; [cbn in Hf; lia|]. destruct first; cbn; reflexivity.
  - inversion HG as [|? ? Hg HG' E1]; subst. inversion HR as [|? ? Hr HR' E2]; subst.
    pose proof (render_opens v Hg) as Ho.
    assert (1 <= String.length (render v))%nat as Hlv by (destruct (render v); [destruct Ho|cbn; lia]).
    set (tail := match vs with [] => EmptyString | _ => String "," (elems vs) end).
    assert (elems (v :: vs) = render v +++ tail) as Ee by (unfold tail; destruct vs; [symmetry; apply app_nil_s|reflexivity]).
    assert (2 * String.length tail + 2 * String.length (render v) + 1 < fuel)%nat as Hf' by (rewrite Ee, app_len in Hf; lia).
    rewrite Ee. destruct fuel as [|f]; [lia|].
    assert (sep_ok (tail +++ String "]" rest)) as Hsep by (unfold tail; destruct vs; cbn; auto).
    assert (read_elems f false (tail +++ String "]" rest) = Some (vs, rest)) as Ht.
    { apply (IH HG' HR' false rest f). unfold tail in Hf'. destruct vs; cbn [String.length] in *; cbn [elems String.length] in *; lia. }
    destruct first.
    + rewrite app_assoc_s. cbn [read_elems]. rewrite (opens_skip _ (opens_app _ _ Ho)).
      destruct (render v) as [|c w] eqn:Er; [destruct Ho|]. cbn [append] in *. destruct Ho as (_ & Hb & _). rewrite Hb.
      pose proof (Hr (tail +++ String "]" rest) f Hsep ltac:(rewrite Er; lia)) as Hv. rewrite Er in Hv. cbn [append] in Hv. rewrite Hv. cbn [obind]. rewrite Ht. reflexivity.
    + cbn [append]. rewrite app_assoc_s. cbn [read_elems]. rewrite skip_nonspace by reflexivity. cbn [Ascii.eqb Bool.eqb].
      rewrite (Hr (tail +++ String "]" rest) f Hsep ltac:(lia)). cbn [obind]. rewrite Ht. reflexivity.
Qed.

Lemma members_back fs : Forall (fun e => good (snd e)) fs -> Forall (fun e => reads_back (snd e)) fs -> forall first rest fuel, (2 * String.length (members fs) + 1 < fuel)%nat ->
  read_members fuel first ((if first then members fs else match fs with [] => EmptyString | _ => String "," (members fs) end) +++ String "}" rest) = Some (fs, rest).
Proof.
  induction fs as [|[k v] fs IH]; intros HG HR first rest fuel Hf.
  - destruct fuel as [|f]; [cbn in Hf; lia|]. destruct first; cbn; reflexivity.
  - inversion HG as [|? ? Hg HG' E1]; subst. inversion HR as [|? ? Hr HR' E2]; subst. cbn [snd] in Hg, Hr.
    set (tail := match fs with [] => EmptyString | _ => String "," (members fs) end).
    assert (members ((k, v) :: fs) = quoted k +++ String ":" (render v +++ tail)) as Ee by (unfold tail; destruct fs; [rewrite app_nil_s; reflexivity|reflexivity]).
    assert (2 * String.length tail + 2 * String.length (render v) + 2 * String.length (escape k) + 7 < fuel)%nat as Hf'.
    { rewrite Ee in Hf. unfold quoted in Hf. cbn [append String.length] in Hf. rewrite !app_len in Hf. cbn [String.length ch] in Hf. rewrite app_len in Hf. lia. }
    rewrite Ee. destruct fuel as [|f]; [lia|].
    assert (sep_ok (tail +++ String "}" rest)) as Hsep by (unfold tail; destruct fs; cbn; auto).
    assert (read_members f false (tail +++ String "}" rest) = Some (fs, rest)) as Ht.
    { apply (IH HG' HR' false rest f). unfold tail in Hf'. destruct fs; cbn [String.length] in *; cbn [members String.length] in *; lia. }
    assert (forall s1, s1 = (quoted k +++ String ":" (render v +++ tail)) +++ String "}" rest ->
      (s2 <-? expect (ch QUOTE) s1 ;; ' (k', s3) <-? read_string f s2 ;; s4 <-? expect ":" (skip s3) ;; ' (v', s5) <-? read_value f s4 ;;
       ' (fs', s6) <-? read_members f false s5 ;; Some ((k', v') :: fs', s6)) = Some ((k, v) :: fs, rest)) as Hmain.
    { intros s1 ->. unfold quoted. cbn [append expect ch]. rewrite Ascii.eqb_refl. cbn [expect obind].
      rewrite !app_assoc_s. cbn [append ch]. rewrite read_string_escape by lia. cbn [obind]. rewrite skip_nonspace by reflexivity. cbn [expect]. rewrite Ascii.eqb_refl. cbn [expect obind].
      rewrite app_assoc_s. rewrite (Hr (tail +++ String "}" rest) f Hsep ltac:(lia)). cbn [obind]. rewrite Ht. reflexivity. }
    destruct first.
    + cbn [read_members]. unfold quoted at 1. cbn [append]. rewrite skip_nonspace by reflexivity.
      change (Ascii.eqb QUOTE "}") with false. cbn iota. cbn [obind]. apply Hmain. reflexivity.
    + cbn [append]. cbn [read_members]. rewrite skip_nonspace by reflexivity. change (Ascii.eqb "," "}") with false. change (Ascii.eqb "," ",") with true. cbn iota. cbn [obind].
      apply Hmain. unfold quoted at 1. cbn [append]. rewrite skip_nonspace by reflexivity. reflexivity.
Qed.

Theorem value_back j : good j -> reads_back j.
Proof.
  induction j as [|b|t|s|vs IH|fs IH] using json_ind'; intros Hg rest fuel Hs Hf.
  - destruct fuel as [|f]; [lia|]. reflexivity.
  - destruct fuel as [|f]; [lia|]. destruct b; reflexivity.
  - destruct fuel as [|f]; [lia|]. cbn [render]. destruct Hg as [Hc Hn].
    pose proof (Hn rest (sep_follow _ Hs)) as Er. destruct t as [|c t]; [destruct Hc|].
    assert (num_start c = true) as Hst by (unfold num_start; destruct Hc as [Hc|Hc]; [rewrite Hc; reflexivity|subst c; reflexivity]).
    pose proof (num_start_cases c) as H. unfold num_start_case in H. rewrite Hst in H. cbn [negb orb] in H.
    repeat (apply andb_prop in H as [H ?]). repeat match goal with h : negb _ = true |- _ => apply negb_true_iff in h end.
    cbn [append]. cbn [read_value]. rewrite skip_nonspace by assumption.
    repeat match goal with h : Ascii.eqb _ _ = false |- _ => rewrite h; clear h end.
    cbn [append] in Er. rewrite Er. reflexivity.
  - destruct fuel as [|f]; [lia|]. cbn [render] in *. unfold quoted in *. cbn [append String.length] in *. rewrite app_len in Hf. cbn in Hf.
    cbn [read_value]. rewrite skip_nonspace by reflexivity. rewrite app_assoc_s. cbn [ch append].
    change (Ascii.eqb QUOTE "n") with false. change (Ascii.eqb QUOTE "t") with false. change (Ascii.eqb QUOTE "f") with false. change (Ascii.eqb QUOTE QUOTE) with true. cbn iota.
    rewrite read_string_escape by lia. reflexivity.
  - destruct fuel as [|f]; [lia|]. apply good_arr in Hg. rewrite render_arr in *. cbn [append String.length] in *. rewrite app_len in Hf. cbn in Hf.
    cbn [read_value]. rewrite skip_nonspace by reflexivity. rewrite app_assoc_s. cbn [append].
    change (Ascii.eqb "[" "n") with false. change (Ascii.eqb "[" "t") with false. change (Ascii.eqb "[" "f") with false. change (Ascii.eqb "[" QUOTE) with false. change (Ascii.eqb "[" "[") with true. cbn iota.
    rewrite (elems_back vs Hg) with (first := true) by (try lia; clear - IH Hg; rewrite Forall_forall in *; intros x Hx; apply IH; auto). reflexivity.
  - destruct fuel as [|f]; [lia|]. apply good_obj in Hg. rewrite render_obj in *. cbn [append String.length] in *. rewrite app_len in Hf. cbn in Hf.
    cbn [read_value]. rewrite skip_nonspace by reflexivity. rewrite app_assoc_s. cbn [append].
    change (Ascii.eqb "{" "n") with false. change (Ascii.eqb "{" "t") with false. change (Ascii.eqb "{" "f") with false. change (Ascii.eqb "{" QUOTE) with false. change (Ascii.eqb "{" "[") with false. change (Ascii.eqb "{" "{") with true. cbn iota.
    rewrite (members_back fs Hg) with (first := true) by (try lia; clear - IH Hg; rewrite Forall_forall in *; intros x Hx; apply IH; auto). reflexivity.
Qed.

Theorem read_render j : good j -> read_json (render j) = Some j.
Proof.
  intros Hg. unfold read_json. pose proof (value_back j Hg EmptyString (2 * String.length (render j) + 2)%nat I ltac:(lia)) as H.
  rewrite app_nil_s in H. rewrite H. reflexivity.
Qed.

(** Decimal numbers. *)
Fixpoint all_digits (s : string) : bool := match s with EmptyString => true | String c s' => is_digit c && all_digits s' end.
Lemma digits_all t rest : all_digits t = true -> follow rest -> digits (t +++ rest) = (t, rest).
Proof.
  intros Ht Hr. induction t as [|c t IH].
  - cbn [append]. destruct rest as [|c rest]; [reflexivity|]. cbn [digits]. destruct Hr as [-> _]. reflexivity.
  - cbn [all_digits] in Ht. apply andb_prop in Ht as [Hc Ht]. cbn [append digits]. rewrite Hc, (IH Ht). reflexivity.
Qed.
Definition canonical (t : string) : Prop := all_digits t = true /\ match t with EmptyString => False | String c t' => c = "0"%char -> t' = EmptyString end.

Definition digit_case (c : ascii) : bool := negb (is_digit c) || (negb (Ascii.eqb c "-") && negb (Ascii.eqb c ".") && negb (Ascii.eqb c "e") && negb (Ascii.eqb c "E")).
Lemma digit_cases c : digit_case c = true.
Proof. revert c. apply for_all_ascii. vm_compute. reflexivity. Qed.
Lemma canonical_good t : canonical t -> good_num t.
Proof.
  intros [Hd Hz]. destruct t as [|c t]; [destruct Hz|]. split; [left; cbn in Hd; apply andb_prop in Hd as [Hc _]; exact Hc|].
  intros rest Hr. unfold read_number. cbn [append]. pose proof Hd as Hd'. cbn [all_digits] in Hd. apply andb_prop in Hd as [Hc Ht].
  pose proof (digit_cases c) as Hcase. unfold digit_case in Hcase. rewrite Hc in Hcase. cbn [negb orb] in Hcase. repeat (apply andb_prop in Hcase as [Hcase ?]).
  repeat match goal with h : negb _ = true |- _ => apply negb_true_iff in h end.
  match goal with h : Ascii.eqb c "-" = false |- _ => rewrite h end.
  assert ((if Ascii.eqb c "0" then Some ("0"%string, t +++ rest) else digits1 (String c (t +++ rest))) = Some (String c t, rest)) as ->.
  { destruct (Ascii.eqb c "0") eqn:E0.
    - apply Ascii.eqb_eq in E0. subst c. rewrite (Hz eq_refl). reflexivity.
    - unfold digits1. change (String c (t +++ rest)) with (String c t +++ rest). rewrite (digits_all _ _ Hd' Hr). reflexivity. }
  cbn [obind]. destruct rest as [|r rest].
  - cbn. rewrite app_nil_s. reflexivity.
  - destruct Hr as (_ & F1 & F2 & F3). rewrite (proj2 (Ascii.eqb_neq r ".") F1). cbn [obind].
    rewrite (proj2 (Ascii.eqb_neq r "e") F2), (proj2 (Ascii.eqb_neq r "E") F3). cbn [orb obind append]. rewrite app_nil_s. reflexivity.
Qed.

Definition digit_val_case (d : nat) : bool :=
  let c := byte (48 + Z.of_nat d) in
  is_digit c && match digit_of c with Some v => v =? Z.of_nat d | None => false end && (Bool.eqb (Ascii.eqb c "0") (d =? 0)%nat).
Lemma digit_byte z : 0 <= z < 10 -> is_digit (byte (48 + z)) = true /\ digit_of (byte (48 + z)) = Some z /\ (byte (48 + z) = "0"%char -> z = 0).
Proof.
  intros Hz. assert (forallb digit_val_case (seq 0 10) = true) as H by (vm_compute; reflexivity).
  rewrite forallb_forall in H. specialize (H (Z.to_nat z) ltac:(apply in_seq; lia)). unfold digit_val_case in H. rewrite Z2Nat.id in H by lia.
  apply andb_prop in H as [H H3]. apply andb_prop in H as [H1 H2]. split; [exact H1|].
  destruct (digit_of (byte (48 + z))); [|discriminate]. split; [f_equal; lia|]. intros Hc. rewrite Hc in H3. apply eqb_prop in H3. cbn in H3. symmetry in H3. apply Nat.eqb_eq in H3. lia.
Qed.

(** Digits already there are kept; the value read from the left. *)
Lemma itoa_digits fuel : forall z acc, 0 <= z -> all_digits acc = true -> all_digits (itoa_loop fuel z acc) = true.
Proof.
  induction fuel as [|f IH]; intros z acc Hz Ha; [exact Ha|]. cbn [itoa_loop].
  assert (all_digits (String (byte (48 + z mod 10)) acc) = true) as H.
  { cbn [all_digits]. rewrite (proj1 (digit_byte (z mod 10) ltac:(apply Z.mod_pos_bound; lia))), Ha. reflexivity. }
  destruct (z / 10 =? 0); [exact H|]. apply IH; [apply Z.div_pos; lia|exact H].
Qed.
Lemma itoa_lead fuel : forall z acc, 0 < z < 10 ^ Z.of_nat fuel -> exists c s, itoa_loop fuel z acc = String c s /\ c <> "0"%char.
Proof.
  induction fuel as [|f IH]; intros z acc Hz; [cbn in Hz; lia|]. cbn [itoa_loop].
  pose proof (Z.mod_pos_bound z 10 ltac:(lia)) as Hm. destruct (z / 10 =? 0) eqn:E.
  - exists (byte (48 + z mod 10)), acc. split; [reflexivity|]. intros Hc. apply (proj2 (proj2 (digit_byte (z mod 10) Hm))) in Hc.
    apply Z.eqb_eq in E. pose proof (Z.div_mod z 10 ltac:(lia)). lia.
  - apply IH. apply Z.eqb_neq in E. pose proof (Z.div_pos z 10 ltac:(lia) ltac:(lia)). split; [lia|].
    apply Z.div_lt_upper_bound; [lia|]. rewrite Nat2Z.inj_succ, Z.pow_succ_r in Hz by lia. lia.
Qed.
Lemma itoa_value fuel : forall z acc, 0 <= z < 10 ^ Z.of_nat fuel -> (0 < fuel)%nat -> z < q ->
  parse_digits 0 (itoa_loop fuel z acc) = parse_digits z acc.
Proof.
  induction fuel as [|f IH]; intros z acc Hz Hf Hq; [lia|]. cbn [itoa_loop].
  pose proof (Z.mod_pos_bound z 10 ltac:(lia)) as Hm. pose proof (Z.div_mod z 10 ltac:(lia)) as Hdm. pose proof (Z.div_pos z 10 ltac:(lia) ltac:(lia)) as Hdp.
  destruct (digit_byte (z mod 10) Hm) as (_ & Hv & _). destruct (z / 10 =? 0) eqn:E.
  - apply Z.eqb_eq in E. cbn [parse_digits]. rewrite Hv. change (0 * 10) with 0. rewrite Z.add_0_l.
    assert (z mod 10 = z) as -> by lia. rewrite (proj2 (Z.ltb_lt z q)) by lia. change (0 <? q) with true. reflexivity.
  - destruct f as [|f'].
    { exfalso. apply Z.eqb_neq in E. change (10 ^ Z.of_nat 1) with 10 in Hz. lia. }
    rewrite IH.
    + cbn [parse_digits]. rewrite Hv. rewrite (proj2 (Z.ltb_lt (z / 10 * 10) q)) by lia. replace (z / 10 * 10 + z mod 10) with z by lia.
      rewrite (proj2 (Z.ltb_lt z q)) by lia. reflexivity.
    + split; [lia|]. apply Z.div_lt_upper_bound; [lia|]. rewrite Nat2Z.inj_succ, Z.pow_succ_r in Hz by lia. lia.
    + lia.
    + apply Z.le_lt_trans with z; [|exact Hq]. clear - Hz Hdm Hm. lia.
Qed.
Lemma q_20 : q < 10 ^ Z.of_nat 20.
Proof. vm_compute. reflexivity. Qed.
Theorem itoa_parse z : 0 <= z < q -> parse_digits 0 (itoa z) = Some z /\ canonical (itoa z).
Proof.
  intros Hz. pose proof q_20 as Hq. unfold itoa. split.
  - rewrite itoa_value by lia. reflexivity.
  - split; [apply itoa_digits; [lia|reflexivity]|]. destruct (Z.eq_dec z 0) as [->|Hn]; [cbn; auto|].
    destruct (itoa_lead 20 z EmptyString ltac:(lia)) as (c & s & E & Hc). rewrite E. intros H. contradiction.
Qed.

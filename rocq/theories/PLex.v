(** * Property C87: CSV files as texts. *)
From Coq Require Import String Ascii.
From Verif Require Import MBase MCsv MLex PfUtils PfDet2 PCsv SpecLex PfLex.
Local Open Scope string_scope.
Local Open Scope Z_scope.

(** The text of a file is split into rows and fields as its grammar says: fields separated by commas, perhaps quoted, rows ended by CR, LF
    or both, blank lines skipped.  Every text has exactly one such reading. *)
Theorem C87_grammar : forall text rs, lex StartRecord "" [] (strip_bom text) = rs <-> csv_text text rs.
Proof. exact csv_lex. Qed.
Print Assumptions C87_grammar.
Theorem C87_unambiguous : forall text, exists! rs, csv_text text rs.
Proof.
  intros text. exists (lex StartRecord "" [] (strip_bom text)). split; [apply csv_lex; reflexivity|]. intros rs H. apply csv_lex. exact H.
Qed.
Print Assumptions C87_unambiguous.

Lemma numeral_plain ds : Forall (fun d => 0 <= d <= 9) ds -> plain_text (numeral ds).
Proof.
  induction 1 as [|d ds Hd _ IH]; [exact I|]. split; [|exact IH]. unfold digit_char. rewrite nat_ascii_embedding by lia. lia.
Qed.
Lemma decimal_plain s v : decimal s v -> plain_text s.
Proof.
  intros (ds & _ & Hds & [-> | ->] & _); [apply numeral_plain, Hds|]. split; [cbn; lia|apply numeral_plain, Hds].
Qed.
Lemma row_plain fs row : Forall2 (fun s v => decimal s v /\ v < 2 ^ 64) fs row -> Forall plain_text fs.
Proof. induction 1 as [|s v fs row [H _] _ IH]; constructor; [apply (decimal_plain _ _ H)|exact IH]. Qed.

Definition width (rs : list (list string)) : nat := match rs with [] => 0%nat | h :: _ => List.length h end.
(** Reading a file succeeds exactly if it can be opened and every row of the text after the first has as many fields as the first, each a
    decimal number below 2^64; the result is then those numbers.  Otherwise the program panics. *)
Theorem C87_read : forall utf8 file out, utf8_check utf8 ->
  (parse_csv_text utf8 file = Ok out <->
   exists text rs, file = Some text /\ csv_text text rs /\
     Forall2 (fun fs row => List.length fs = width rs /\ Forall2 (fun s v => decimal s v /\ v < 2 ^ 64) fs row) (tl rs) out).
Proof.
  intros utf8 file out U. unfold parse_csv_text. rewrite C70_table. split.
  - intros (records & E & H). destruct file as [text|]; [|discriminate]. injection E as <-.
    exists text, (lex StartRecord "" [] (strip_bom text)). split; [reflexivity|]. split; [apply csv_lex; reflexivity|].
    set (rs := lex StartRecord "" [] (strip_bom text)) in *. destruct rs as [|h rs]; cbn [map tl width rec_fields] in *; [inversion H; constructor|].
    clear - H. remember (map (fun fs => {| rec_fields := fs; rec_utf8 := utf8 fs |}) rs) as recs eqn:E. revert rs E.
    induction H as [|r row recs rows (_ & H1 & H2) _ IH]; intros rs E; destruct rs as [|fs rs]; try discriminate; constructor.
    + cbn [map] in E. injection E as -> _. split; assumption.
    + apply IH. cbn [map] in E. injection E as _ E. exact E.
  - intros (text & rs & -> & Ht & H). apply csv_lex in Ht. rewrite Ht. eexists. split; [reflexivity|].
    destruct rs as [|h rs]; cbn [map tl width rec_fields] in *; [inversion H; constructor|]. clear Ht. revert H. generalize (List.length h). intros w H.
    induction H as [|fs row rs rows [H1 H2] _ IH]; cbn [map]; constructor; [|exact IH].
    split; [apply U, (row_plain _ _ H2)|]. split; [exact H1|exact H2].
Qed.
Print Assumptions C87_read.
Theorem C87_rejects : forall utf8 file, utf8_check utf8 ->
  (forall text rs out, file = Some text -> csv_text text rs ->
     ~ Forall2 (fun fs row => List.length fs = width rs /\ Forall2 (fun s v => decimal s v /\ v < 2 ^ 64) fs row) (tl rs) out) ->
  parse_csv_text utf8 file = Panic PUnwrap.
Proof.
  intros utf8 file U H. unfold parse_csv_text. apply C70_rejects. intros records out E HF.
  assert (parse_csv_text utf8 file = Ok out) as K. { unfold parse_csv_text. apply C70_table. eauto. }
  apply (C87_read _ _ _ U) in K as (text & rs & Ef & Ht & K). exact (H text rs out Ef Ht K).
Qed.
Print Assumptions C87_rejects.

(** *** Files as they are written *)
Lemma digit_simple d : 0 <= d <= 9 -> digit_char d <> ","%char /\ ~ line_end (digit_char d) /\ digit_char d <> a_quote.
Proof.
  intros H. assert (nat_of_ascii (digit_char d) = (48 + Z.to_nat d)%nat) as E by (unfold digit_char; apply nat_ascii_embedding; lia).
  repeat split.
  - intros K. apply (f_equal nat_of_ascii) in K. rewrite E in K. cbn in K. lia.
  - intros [K|K]; apply (f_equal nat_of_ascii) in K; rewrite E in K; rewrite nat_ascii_embedding in K by lia; lia.
  - intros K. apply (f_equal nat_of_ascii) in K. rewrite E in K. unfold a_quote in K. rewrite nat_ascii_embedding in K by lia. lia.
Qed.
Lemma numeral_simple ds : Forall (fun d => 0 <= d <= 9) ds -> simple (numeral ds).
Proof. induction 1 as [|d ds Hd _ IH]; [exact I|]. destruct (digit_simple d Hd) as (A & B & _). split; [exact A|]. split; [exact B|exact IH]. Qed.
Lemma decimal_field s v : decimal s v -> field_text s s /\ s <> "".
Proof.
  intros (ds & Hne & Hds & Hs & _). destruct ds as [|d ds]; [congruence|]. inversion Hds as [|? ? Hd _]; subst. destruct Hs as [-> | ->].
  - split; [|discriminate]. apply F_plain; [apply numeral_simple, Hds|]. intros (s' & E). cbn [numeral] in E. injection E as E _. apply (proj2 (proj2 (digit_simple d Hd))), E.
  - split; [|discriminate]. apply F_plain; [|intros (s' & E); discriminate]. split; [discriminate|]. split; [intros [K|K]; discriminate|apply numeral_simple, Hds].
Qed.
Lemma comma_row fs : fs <> [] -> Forall (fun s => field_text s s) fs -> row_text (comma_list fs) fs.
Proof.
  intros Hne H. induction H as [|s fs Hs H IH]; [congruence|]. destruct fs as [|s' fs]; [apply R_one, Hs|].
  change (comma_list (s :: s' :: fs)) with (s ++ String "," (comma_list (s' :: fs))). apply R_more; [exact Hs|]. apply IH. discriminate.
Qed.
Lemma comma_nonempty fs : fs <> [] -> Forall (fun s => s <> "") fs -> comma_list fs <> "".
Proof.
  intros Hne H. destruct H as [|s fs Hs _]; [congruence|]. destruct s as [|c s]; [congruence|]. destruct fs; discriminate.
Qed.
Lemma lines_rows ending ls rs : ending = unix_end \/ ending = dos_end ->
  Forall2 (fun l fs => l <> "" /\ row_text l fs) ls rs -> rows_text (lines ending ls) rs.
Proof.
  intros He H. induction H as [|l fs ls rs [Hl Hr] _ IH]; [constructor|]. cbn [lines]. destruct He as [-> | ->].
  - apply (T_row l fs (ascii_of_nat 10) (lines unix_end ls) rs); [exact Hl|exact Hr|right; reflexivity|exact IH].
  - apply (T_row l fs (ascii_of_nat 13) (String (ascii_of_nat 10) (lines dos_end ls)) rs); [exact Hl|exact Hr|left; reflexivity|].
    apply T_blank; [right; reflexivity|exact IH].
Qed.
Lemma no_mark ending h ls : Forall plain_text [h] -> h <> "" -> forall t, lines ending (h :: ls) <> mark ++ t.
Proof.
  intros H Hh t E. destruct h as [|c h]; [congruence|]. inversion H as [|? ? Hp _]; subst. destruct Hp as [Hc _]. cbn [lines append] in E. unfold mark in E. cbn [append] in E.
  injection E as E _. subst c. rewrite nat_ascii_embedding in Hc by lia. lia.
Qed.
(** A table of numbers written with a header line (plain text, no quotes or empty line), comma-separated, one row per line, lines ended by LF
    or by CR LF, is read back as the numbers that were written. *)
Theorem C87_written : forall utf8 ending header rows texts, utf8_check utf8 -> ending = unix_end \/ ending = dos_end ->
  header <> [] -> comma_list header <> "" -> plain_text (comma_list header) -> Forall (fun s => simple s /\ ~ begins_with a_quote s) header ->
  Forall2 (fun fs row => List.length fs = List.length header /\ Forall2 (fun s v => decimal s v /\ v < 2 ^ 64) fs row) texts rows ->
  parse_csv_text utf8 (Some (lines ending (comma_list header :: map comma_list texts))) = Ok rows.
Proof.
  intros utf8 ending header rows texts U He H1 H2 H3 H4 H5. apply (C87_read _ _ _ U).
  exists (lines ending (comma_list header :: map comma_list texts)), (header :: texts). split; [reflexivity|]. split.
  - right. split; [apply no_mark; [constructor; [exact H3|constructor]|exact H2]|]. apply lines_rows; [exact He|]. constructor.
    + split; [exact H2|]. apply comma_row; [exact H1|]. clear - H4. induction H4 as [|s h [A B] _ IH]; constructor; [apply F_plain; assumption|exact IH].
    + clear - H1 H5. induction H5 as [|fs row texts rows [Hl Hr] _ IH]; cbn [map]; constructor; [|exact IH].
      assert (fs <> []) as Hne by (intros ->; destruct header; [congruence|discriminate]).
      assert (Forall (fun s => field_text s s) fs /\ Forall (fun s => s <> "") fs) as [F1 F2].
      { clear - Hr. induction Hr as [|s v fs row [Hd _] _ [I1 I2]]; [split; constructor|]. destruct (decimal_field _ _ Hd). split; constructor; assumption. }
      split; [apply comma_nonempty; assumption|apply comma_row; assumption].
  - cbn [tl width]. exact H5.
Qed.
Print Assumptions C87_written.

(** Finding: a quotation that is never closed is not reported; everything after it, line ends and all, silently becomes one field, and if
    that is in the header the rows are lost. *)
Theorem C87_open_quotation_refuted : ~ (forall utf8 a b out, utf8_check utf8 -> parse_csv_text utf8 (Some (a ++ unix_end ++ b ++ unix_end)) = Ok out ->
  out <> [] \/ forall v, ~ decimal b v).
Proof.
  intros H. specialize (H (fun _ => true) (String a_quote "x") "7" [] (fun _ _ => eq_refl)). destruct H as [H|H].
  - vm_compute. reflexivity.
  - congruence.
  - apply (H 7). exists [7]. split; [discriminate|]. split; [constructor; [lia|constructor]|]. split; [left; reflexivity|reflexivity].
Qed.
Print Assumptions C87_open_quotation_refuted.

Example C87_nonvacuous :
  parse_csv_text (fun _ => true) (Some (lines dos_end ["a,b"; "12,+007"; ""; "18446744073709551615,0"])) = Ok [[12; 7]; [2 ^ 64 - 1; 0]] /\
  parse_csv_text (fun _ => true) (Some (String a_quote ("a,b" ++ String a_quote (unix_end ++ "3")))) = Ok [[3]] /\
  parse_csv_text (fun _ => true) (Some (lines unix_end ["a,b"; "12, 7"])) = Panic PUnwrap /\
  parse_csv_text (fun _ => true) (Some (lines unix_end ["a"; "1,2"])) = Panic PUnwrap /\
  parse_csv_text (fun _ => true) None = Panic PUnwrap.
Proof. repeat split. Qed.
Example C87_written_nonvacuous : parse_csv_text (fun _ => true) (Some (lines unix_end (comma_list ["x"; "y"] :: map comma_list [["1"; "2"]; ["30"; "4"]]))) = Ok [[1; 2]; [30; 4]].
Proof.
  assert (forall s ds, s = numeral ds -> ds <> [] -> Forall (fun d => 0 <= d <= 9) ds -> value ds < 2 ^ 64 -> decimal s (value ds) /\ value ds < 2 ^ 64) as D.
  { intros s ds E H1 H2 H3. split; [|exact H3]. exists ds. auto. }
  apply C87_written; try discriminate.
  - intros fs _. reflexivity.
  - left. reflexivity.
  - cbn. repeat split; lia.
  - assert (forall c s, c <> ","%char -> c <> a_quote -> ~ line_end c -> s = String c "" -> simple s /\ ~ begins_with a_quote s) as S.
    { intros c s A B C ->. split; [split; [exact A|split; [exact C|exact I]]|]. intros (s' & E). congruence. }
    constructor; [|constructor; [|constructor]]; (eapply S; [| | |reflexivity]); try discriminate; intros [K|K]; discriminate.
  - repeat constructor.
    + apply (D "1" [1]); try reflexivity; try discriminate. repeat constructor; lia.
    + apply (D "2" [2]); try reflexivity; try discriminate. repeat constructor; lia.
    + apply (D "30" [3; 0]); try reflexivity; try discriminate. repeat constructor; lia.
    + apply (D "4" [4]); try reflexivity; try discriminate. repeat constructor; lia.
Qed.

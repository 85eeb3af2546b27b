(** * The csv automaton and the grammar of CSV texts. *)
From Coq Require Import String Ascii.
From Verif Require Import MBase MCsv MLex SpecLex.
Local Open Scope string_scope.

Lemma app_nil s : s ++ "" = s.
Proof. induction s as [|c s IH]; [reflexivity|]. change (String c (s ++ "") = String c s). rewrite IH. reflexivity. Qed.
Lemma app_ass a b c : (a ++ b) ++ c = a ++ (b ++ c).
Proof. induction a as [|x a IH]; [reflexivity|]. change (String x ((a ++ b) ++ c) = String x (a ++ (b ++ c))). rewrite IH. reflexivity. Qed.
Lemma app_char a c b : (a ++ String c "") ++ b = a ++ String c b.
Proof. apply app_ass. Qed.
Lemma len_app a b : String.length (a ++ b) = (String.length a + String.length b)%nat.
Proof. induction a as [|x a IH]; [reflexivity|]. cbn. rewrite IH. reflexivity. Qed.

Lemma is_end_iff c : is_end c = true <-> line_end c.
Proof.
  unfold is_end, line_end. fold CR LF. split.
  - intros H. apply orb_prop in H as [H|H]; apply Ascii.eqb_eq in H; auto.
  - intros [-> | ->]; reflexivity.
Qed.
Lemma is_end_false c : ~ line_end c -> is_end c = false.
Proof. intros H. destruct (is_end c) eqn:E; [|reflexivity]. destruct H. apply is_end_iff. exact E. Qed.
Lemma eqb_no (a b : ascii) : a <> b -> Ascii.eqb a b = false.
Proof. intros H. destruct (Ascii.eqb_spec a b); [contradiction|reflexivity]. Qed.
Lemma in_field_plain c : c <> comma -> ~ line_end c -> in_field c = (InField, Copy).
Proof. intros H E. unfold in_field. rewrite (eqb_no _ _ H), (is_end_false _ E). reflexivity. Qed.
Lemma end_not_comma c : line_end c -> c <> comma.
Proof. intros [-> | ->]; discriminate. Qed.
Lemma end_not_quote c : line_end c -> c <> quote.
Proof. intros [-> | ->]; discriminate. Qed.

Lemma after_cr cur fs t : lex AfterCR cur fs t = lex StartRecord cur fs t.
Proof.
  destruct t as [|c t]; [reflexivity|]. cbn [lex transition]. destruct (Ascii.eqb_spec c LF) as [->|]; reflexivity.
Qed.
(** What ends a field. *)
Definition stops (t : string) : Prop := match t with "" => True | String c _ => c = comma \/ line_end c end.
Definition row_stops (t : string) : Prop := match t with "" => True | String c _ => line_end c end.
Lemma row_stops_stops t : row_stops t -> stops t.
Proof. destruct t; cbn; auto. Qed.

Lemma lex_comma cur fs t : lex InField cur fs (String comma t) = lex StartField "" (fs ++ [cur])%list t.
Proof. reflexivity. Qed.
Lemma lex_end cur fs c t : line_end c -> lex InField cur fs (String c t) = ((fs ++ [cur])%list :: lex StartRecord "" [] t).
Proof.
  intros H. cbn [lex transition]. unfold in_field. rewrite (eqb_no _ _ (end_not_comma _ H)), (proj2 (is_end_iff c) H).
  destruct (Ascii.eqb c CR); [rewrite after_cr|]; reflexivity.
Qed.
Lemma stop_start cur fs t : stops t -> lex StartField cur fs t = lex InField cur fs t.
Proof.
  destruct t as [|c t]; [reflexivity|]. intros H. cbn [lex transition]. unfold start_field. rewrite eqb_no; [reflexivity|].
  destruct H as [->|H]; [discriminate|apply end_not_quote, H].
Qed.
Lemma stop_double cur fs t : stops t -> lex InDouble cur fs t = lex InField cur fs t.
Proof.
  destruct t as [|c t]; [reflexivity|]. intros H. cbn [lex transition]. rewrite eqb_no; [reflexivity|].
  destruct H as [->|H]; [discriminate|apply end_not_quote, H].
Qed.
Lemma lex_simple s : simple s -> forall cur fs t, lex InField cur fs (s ++ t) = lex InField (cur ++ s) fs t.
Proof.
  induction s as [|c s IH]; intros H cur fs t; [rewrite app_nil; reflexivity|]. destruct H as (Hc & He & Hs).
  change (lex InField cur fs (String c (s ++ t)) = lex InField (cur ++ String c s) fs t). cbn [lex transition].
  rewrite in_field_plain by assumption. rewrite IH by exact Hs. rewrite app_char. reflexivity.
Qed.
Lemma lex_doubled b v : doubled b v -> forall cur fs t, lex InQuoted cur fs (b ++ t) = lex InQuoted (cur ++ v) fs t.
Proof.
  induction 1 as [|b v _ IH|c b v Hc _ IH]; intros cur fs t.
  - rewrite app_nil. reflexivity.
  - change (lex InQuoted cur fs (String quote (String quote (b ++ t))) = lex InQuoted (cur ++ String a_quote v) fs t). cbn [lex transition].
    rewrite Ascii.eqb_refl. cbn [lex transition]. rewrite Ascii.eqb_refl. cbv iota. rewrite IH, app_char. reflexivity.
  - change (lex InQuoted cur fs (String c (b ++ t)) = lex InQuoted (cur ++ String c v) fs t). cbn [lex transition].
    rewrite (eqb_no c quote Hc). cbv iota. rewrite IH, app_char. reflexivity.
Qed.
Lemma lex_field s v : field_text s v -> forall fs t, stops t -> lex StartField "" fs (s ++ t) = lex InField v fs t.
Proof.
  intros H fs t Ht. destruct H as [s Hs Hb|b v s Hd Hs Hb].
  - destruct s as [|c s]; [apply stop_start, Ht|]. destruct Hs as (Hc & He & Hs).
    change (lex StartField "" fs (String c (s ++ t)) = lex InField (String c s) fs t). cbn [lex transition]. unfold start_field.
    rewrite eqb_no by (intros ->; apply Hb; eexists; reflexivity). rewrite in_field_plain by assumption. rewrite lex_simple by exact Hs. reflexivity.
  - change (lex StartField "" fs (String quote ((b ++ String a_quote s) ++ t)) = lex InField (v ++ s) fs t). cbn [lex transition]. unfold start_field.
    rewrite Ascii.eqb_refl. cbv iota. rewrite app_ass, (lex_doubled _ _ Hd).
    change (lex InQuoted ("" ++ v) fs (String quote (s ++ t)) = lex InField (v ++ s) fs t). cbn [lex transition append]. rewrite Ascii.eqb_refl.
    destruct s as [|c s]; [rewrite app_nil; apply stop_double, Ht|]. destruct Hs as (Hc & He & Hs).
    change (lex InDouble v fs (String c (s ++ t)) = lex InField (v ++ String c s) fs t). cbn [lex transition].
    rewrite eqb_no by (intros ->; apply Hb; eexists; reflexivity). rewrite in_field_plain by assumption. rewrite lex_simple by exact Hs. rewrite app_char. reflexivity.
Qed.
Lemma lex_row s vs : row_text s vs -> forall fs,
  (lex StartField "" fs s = [(fs ++ vs)%list]) /\
  (forall c t, line_end c -> lex StartField "" fs (s ++ String c t) = ((fs ++ vs)%list :: lex StartRecord "" [] t)).
Proof.
  induction 1 as [s v Hf|s v t vs Hf Hr IH]; intros fs.
  - split.
    + rewrite <- (app_nil s), (lex_field _ _ Hf) by exact I. reflexivity.
    + intros c t Hc. rewrite (lex_field _ _ Hf) by (right; exact Hc). apply lex_end, Hc.
  - destruct (IH (fs ++ [v])%list) as [I1 I2]. rewrite <- app_assoc in I1, I2. cbn [app] in I1, I2. split.
    + rewrite (lex_field _ _ Hf) by (left; reflexivity). rewrite lex_comma. exact I1.
    + intros c u Hc. rewrite app_ass. change (String "," t ++ String c u) with (String comma (t ++ String c u)).
      rewrite (lex_field _ _ Hf) by (left; reflexivity). rewrite lex_comma. apply I2, Hc.
Qed.
Lemma lex_last s vs : last_row s vs -> forall fs, lex StartField "" fs s = [(fs ++ vs)%list].
Proof.
  induction 1 as [s vs Hr|b v Hd|s v t vs Hf _ IH]; intros fs.
  - apply (lex_row _ _ Hr).
  - change (lex StartField "" fs (String quote b) = [(fs ++ [v])%list]). cbn [lex transition]. unfold start_field. rewrite Ascii.eqb_refl.
    rewrite <- (app_nil b), (lex_doubled _ _ Hd). reflexivity.
  - rewrite (lex_field _ _ Hf) by (left; reflexivity). change (String "," t) with (String comma t). rewrite lex_comma, IH, <- app_assoc. reflexivity.
Qed.

(** No row begins with the end of a line. *)
Definition fresh (s : string) : Prop := match s with "" => True | String c _ => ~ line_end c end.
Lemma comma_fresh t : fresh (String "," t).
Proof. cbn. intros [H|H]; discriminate. Qed.
Lemma quote_fresh t : fresh (String a_quote t).
Proof. cbn. intros [H|H]; discriminate. Qed.
Lemma field_fresh s v t : field_text s v -> fresh (s ++ String "," t).
Proof.
  intros [s' Hs _|b v' s' _ _ _]; [|apply quote_fresh]. destruct s' as [|c s']; [apply comma_fresh|]. exact (proj1 (proj2 Hs)).
Qed.
Lemma field_fresh0 s v : field_text s v -> fresh s.
Proof. intros [s' Hs _|b v' s' _ _ _]; [|apply quote_fresh]. destruct s' as [|c s']; [exact I|]. exact (proj1 (proj2 Hs)). Qed.
Lemma row_fresh s vs : row_text s vs -> fresh s.
Proof. intros [s' v H|s' v t vs' H _]; [apply (field_fresh0 _ _ H)|apply (field_fresh _ _ _ H)]. Qed.
Lemma last_fresh s vs : last_row s vs -> fresh s.
Proof. intros [s' vs' H|b v _|s' v t vs' H _]; [apply (row_fresh _ _ H)|apply quote_fresh|apply (field_fresh _ _ _ H)]. Qed.
Lemma start_fresh s : s <> "" -> fresh s -> forall t, lex StartRecord "" [] (s ++ t) = lex StartField "" [] (s ++ t).
Proof.
  destruct s as [|c s]; [congruence|]. intros _ H t. change (String c s ++ t) with (String c (s ++ t)). cbn [lex transition]. unfold start_record.
  rewrite is_end_false by exact H. reflexivity.
Qed.
Theorem rows_lex text rs : rows_text text rs -> lex StartRecord "" [] text = rs.
Proof.
  induction 1 as [|c t rs Hc _ IH|s vs c t rs Hs Hr Hc _ IH|s vs Hs Hl].
  - reflexivity.
  - cbn [lex transition]. unfold start_record. rewrite (proj2 (is_end_iff c) Hc). exact IH.
  - rewrite start_fresh by (trivial; apply (row_fresh _ _ Hr)). rewrite (proj2 (lex_row _ _ Hr [])) by exact Hc. rewrite IH. reflexivity.
  - rewrite <- (app_nil s), start_fresh, app_nil by (trivial; apply (last_fresh _ _ Hl)). apply (lex_last _ _ Hl []).
Qed.

(** Every text follows the grammar. *)
Lemma stop_dec (c : ascii) : (c = comma \/ line_end c) \/ (c <> comma /\ ~ line_end c).
Proof.
  destruct (Ascii.eqb_spec c comma) as [->|Hc]; [left; left; reflexivity|]. destruct (is_end c) eqn:E; [left; right; apply is_end_iff, E|].
  right. split; [exact Hc|]. intros H. apply is_end_iff in H. congruence.
Qed.
Lemma split_simple t : exists s r, t = s ++ r /\ simple s /\ stops r.
Proof.
  induction t as [|c t IH]; [exists "", ""; repeat split|]. destruct (stop_dec c) as [H|[H1 H2]].
  - exists "", (String c t). split; [reflexivity|]. split; [exact I|exact H].
  - destruct IH as (s & r & -> & Hs & Hr). exists (String c s), r. split; [reflexivity|]. split; [|exact Hr]. split; [exact H1|]. split; [exact H2|exact Hs].
Qed.
Lemma split_quoted : forall m t, (String.length t <= m)%nat ->
  (exists b v r, t = b ++ String a_quote r /\ doubled b v /\ ~ begins_with a_quote r) \/ (exists v, doubled t v).
Proof.
  induction m as [|m IH]; intros t Hm.
  - destruct t; [right; exists ""; constructor|cbn in Hm; lia].
  - destruct t as [|c t]; [right; exists ""; constructor|]. cbn in Hm. destruct (Ascii.eqb_spec c a_quote) as [->|Hc].
    + destruct t as [|d t].
      * left. exists "", "", "". split; [reflexivity|]. split; [constructor|]. intros (s & E). discriminate.
      * cbn in Hm. destruct (Ascii.eqb_spec d a_quote) as [->|Hd].
        -- destruct (IH t ltac:(lia)) as [(b & v & r & -> & H & Hr)|(v & H)].
           ++ left. exists (String a_quote (String a_quote b)), (String a_quote v), r. split; [reflexivity|]. split; [apply Q_quote, H|exact Hr].
           ++ right. exists (String a_quote v). apply Q_quote, H.
        -- left. exists "", "", (String d t). split; [reflexivity|]. split; [constructor|]. intros (s & E). congruence.
    + destruct (IH t ltac:(lia)) as [(b & v & r & -> & H & Hr)|(v & H)].
      * left. exists (String c b), (String c v), r. split; [reflexivity|]. split; [apply Q_other; assumption|exact Hr].
      * right. exists (String c v). apply Q_other; assumption.
Qed.
Lemma begins_app s r : begins_with a_quote s -> begins_with a_quote (s ++ r).
Proof. intros (s' & ->). eexists. reflexivity. Qed.
Lemma split_field t : (exists s v r, t = s ++ r /\ field_text s v /\ stops r) \/ (exists b v, t = String a_quote b /\ doubled b v).
Proof.
  assert ((exists t', t = String a_quote t') \/ ~ begins_with a_quote t) as [(t' & ->)|H].
  { destruct t as [|c t]; [right; intros (s & E); discriminate|]. destruct (Ascii.eqb_spec c a_quote) as [->|Hc]; [left; eexists; reflexivity|].
    right. intros (s & E). congruence. }
  - destruct (split_quoted _ t' (le_n _)) as [(b & v & r & -> & Hd & Hr)|(v & Hd)]; [|right; exists t', v; auto]. left.
    destruct (split_simple r) as (s & r' & -> & Hs & Hr'). exists (String a_quote (b ++ String a_quote s)), (v ++ s), r'.
    split; [|split; [|exact Hr']].
    + change (String a_quote (b ++ String a_quote (s ++ r')) = String a_quote ((b ++ String a_quote s) ++ r')). rewrite app_ass. reflexivity.
    + apply F_quoted; trivial. intros Hb. apply Hr. apply begins_app, Hb.
  - left. destruct (split_simple t) as (s & r & -> & Hs & Hr). exists s, s, r. split; [reflexivity|]. split; [|exact Hr].
    apply F_plain; [exact Hs|]. intros Hb. apply H. apply begins_app, Hb.
Qed.
Lemma split_row : forall m t, (String.length t <= m)%nat ->
  (exists s vs r, t = s ++ r /\ row_text s vs /\ row_stops r) \/ (exists vs, last_row t vs).
Proof.
  induction m as [|m IH]; intros t Hm; (destruct (split_field t) as [(s & v & r & -> & Hf & Hr)|(b & v & -> & Hd)]; [|right; exists [v]; apply L_open, Hd]).
  - destruct r as [|c r]; [|rewrite len_app in Hm; cbn in Hm; lia]. left. exists s, [v], "". split; [reflexivity|]. split; [apply R_one, Hf|exact I].
  - destruct r as [|c r]; [left; exists s, [v], ""; split; [reflexivity|]; split; [apply R_one, Hf|exact I]|].
    destruct Hr as [->|Hc]; [|left; exists s, [v], (String c r); split; [reflexivity|]; split; [apply R_one, Hf|exact Hc]].
    rewrite len_app in Hm. cbn in Hm. destruct (IH r ltac:(lia)) as [(s' & vs & r' & -> & Hr & Hs)|(vs & Hl)].
    + left. exists (s ++ String "," s'), (v :: vs), r'. split; [|split; [apply R_more; assumption|exact Hs]].
      rewrite app_ass. reflexivity.
    + right. exists (v :: vs). apply L_more; assumption.
Qed.
Lemma rows_exist : forall m t, (String.length t <= m)%nat -> exists rs, rows_text t rs.
Proof.
  induction m as [|m IH]; intros t Hm.
  - destruct t; [exists []; constructor|cbn in Hm; lia].
  - destruct t as [|c t]; [exists []; constructor|]. destruct (is_end c) eqn:Ec.
    + apply is_end_iff in Ec. cbn in Hm. destruct (IH t ltac:(lia)) as (rs & H). exists rs. apply T_blank; assumption.
    + destruct (split_row _ (String c t) (le_n _)) as [(s & vs & r & E & Hr & Hs)|(vs & Hl)]; [|exists [vs]; apply T_last; [discriminate|exact Hl]].
      assert (s <> "") as Hne.
      { intros ->. cbn in E. subst r. cbn in Hs. apply is_end_iff in Hs. congruence. }
      destruct r as [|d r].
      * exists [vs]. rewrite E, app_nil. apply T_last; [exact Hne|apply L_row, Hr].
      * destruct (IH r) as (rs & H).
        { apply (f_equal String.length) in E. rewrite len_app in E. destruct s as [|x s]; [congruence|]. cbn in E, Hm. lia. }
        exists (vs :: rs). rewrite E. apply T_row; assumption.
Qed.
Theorem lex_rows text rs : lex StartRecord "" [] text = rs <-> rows_text text rs.
Proof.
  split; [|apply rows_lex]. intros <-. destruct (rows_exist _ text (le_n _)) as (rs & H). rewrite (rows_lex _ _ H). exact H.
Qed.
Lemma strip_cases text : (exists t, text = mark ++ t /\ strip_bom text = t) \/ ((forall t, text <> mark ++ t) /\ strip_bom text = text).
Proof.
  unfold strip_bom. destruct text as [|a [|b [|c t]]]; try (right; split; [intros t E; discriminate|reflexivity]).
  destruct (Ascii.eqb_spec a (ascii_of_nat 239)) as [->|Ha]; [|right; split; [intros u E; unfold mark in E; cbn [append] in E; injection E; intros; contradiction|reflexivity]].
  destruct (Ascii.eqb_spec b (ascii_of_nat 187)) as [->|Hb]; [|right; split; [intros u E; unfold mark in E; cbn [append] in E; injection E; intros; contradiction|reflexivity]].
  destruct (Ascii.eqb_spec c (ascii_of_nat 191)) as [->|Hc]; [|right; split; [intros u E; unfold mark in E; cbn [append] in E; injection E; intros; contradiction|reflexivity]].
  left. exists t. split; reflexivity.
Qed.
Lemma csv_lex text rs : lex StartRecord "" [] (strip_bom text) = rs <-> csv_text text rs.
Proof.
  rewrite lex_rows. unfold csv_text. destruct (strip_cases text) as [(t & -> & ->)|[Hn ->]]; split.
  - intros H. left. exists t. auto.
  - intros [(t' & E & H)|[H _]]; [|destruct (H t eq_refl)]. unfold mark in E. cbn [append] in E. injection E as <-. exact H.
  - intros H. right. auto.
  - intros [(t & E & _)|[_ H]]; [destruct (Hn t E)|exact H].
Qed.

(** * Property C83: the texts of a context and of a simulation result say what they are. *)
From Coq Require Import String Ascii.
From Verif Require Import MBase MUtils MCodec MPoly MRlwe MHash MTree MParams MOram MMain MJson MSim MSeed MShow SpecOut SpecShow SpecTree PCsv PfCodec PfDet2 PfJson PfOut PBasic PRun PSelf PContext.
Local Open Scope string_scope.
Local Open Scope Z_scope.

Lemma token_free c s : c = " "%char \/ c = "="%char \/ c = ","%char -> token s -> free c s.
Proof. intros Hc H G. apply H in G. destruct Hc as [-> | [-> | ->]]; tauto. Qed.
Lemma digits_token s : all_digits s = true -> token s.
Proof.
  induction s as [|x s IH]; [intros _ c []|]. cbn [all_digits]. intros H c [<-|Hc]; apply andb_prop in H as [Hx Hs].
  - repeat split; intros ->; discriminate Hx.
  - apply IH; assumption.
Qed.
Lemma itoa_token z : word z -> token (itoa z).
Proof. intros [H H2]. apply digits_token. apply (itoa_parse z). unfold q. lia. Qed.
Lemma chop_app s c : Ascii.eqb c "," = false -> chop (s +++ String c "") = s +++ String c "".
Proof.
  intros Hc. induction s as [|x s IH]; cbn [append chop]; [rewrite Hc; reflexivity|]. rewrite IH. destruct s; reflexivity.
Qed.
Lemma chop_comma s : chop (s +++ ",") = s.
Proof. induction s as [|x s IH]; [reflexivity|]. cbn [append]. cbn [chop]. rewrite IH. destruct s; reflexivity. Qed.
Lemma chop_free s : free "," s -> chop s = s.
Proof.
  induction s as [|x s IH]; intros H; [reflexivity|]. cbn [chop]. destruct s as [|y s].
  - destruct (Ascii.eqb_spec x ","); [exfalso; apply H; left; exact e|reflexivity].
  - rewrite IH; [reflexivity|]. intros G. apply H. right. exact G.
Qed.

(** A text built from settings. *)
Fixpoint listing (l : list (string * string)) : string :=
  match l with
  | [] => ""
  | [(n, v)] => n +++ String "=" v
  | (n, v) :: l' => n +++ String "=" (v +++ String "," (String " " (listing l')))
  end.
Definition good (nv : string * string) : Prop := free " " (fst nv) /\ free "=" (fst nv) /\ free " " (snd nv) /\ free "=" (snd nv) /\ chop (snd nv) = snd nv.
Lemma chop_after n v : chop v = v -> chop (n +++ String "=" v) = n +++ String "=" v.
Proof.
  intros H. induction n as [|x n IH]; cbn [append].
  - cbn [chop]. destruct v; [reflexivity|]. rewrite H. reflexivity.
  - cbn [chop]. rewrite IH. destruct n; reflexivity.
Qed.
Lemma pair_good n v : free "=" n -> free "=" v -> pair_of (n +++ String "=" v) = Some (n, v).
Proof. intros Hn Hv. unfold pair_of. rewrite split_field by exact Hn. rewrite split_free by exact Hv. reflexivity. Qed.
Lemma settings_listing l : l <> [] -> Forall good l -> settings (listing l) = map Some l.
Proof.
  intros Hne H. unfold settings. induction H as [|[n v] l (H1 & H2 & H3 & H4 & H5) Hl IH]; [congruence|]. cbn [fst snd] in *. cbn [listing].
  assert (free " " (n +++ String "=" v)) as F1 by (apply free_app; [exact H1|]; intros [G|G]; [discriminate|apply H3, G]).
  destruct l as [|b l].
  - rewrite split_free by exact F1. cbn [map]. rewrite chop_after by exact H5. rewrite pair_good by assumption. reflexivity.
  - set (L := b :: l) in *. replace (n +++ String "=" (v +++ String "," (String " " (listing L)))) with ((n +++ String "=" (v +++ ",")) +++ String " " (listing L)).
    2: { rewrite !app_assoc_s. cbn [append]. rewrite app_assoc_s. reflexivity. }
    rewrite split_field.
    2: { apply free_app; [exact H1|]. intros [G|G]; [discriminate|]. revert G. apply free_app; [exact H3|]. intros [G|[]]; discriminate. }
    cbn [map]. rewrite IH by discriminate. f_equal.
    replace (n +++ String "=" (v +++ ",")) with ((n +++ String "=" v) +++ ",") by (rewrite app_assoc_s; reflexivity).
    rewrite chop_comma. apply pair_good; assumption.
Qed.
Lemma good_token n v : free " " n -> free "=" n -> token v -> good (n, v).
Proof.
  intros H1 H2 H3. unfold good. cbn [fst snd]. split; [exact H1|]. split; [exact H2|]. split; [apply token_free; auto|]. split; [apply token_free; auto|].
  apply chop_free. apply token_free; auto.
Qed.
Lemma good_bracket n v : free " " n -> free "=" n -> free " " v -> free "=" v -> good (n, "(" +++ v +++ ")").
Proof.
  intros H1 H2 H3 H4. unfold good. cbn [fst snd]. split; [exact H1|]. split; [exact H2|].
  assert (forall c, c <> "("%char -> c <> ")"%char -> free c v -> free c ("(" +++ v +++ ")")) as F.
  { intros c N1 N2 Hf. apply free_app; [intros [G|[]]; congruence|]. apply free_app; [exact Hf|]. intros [G|[]]; congruence. }
  split; [apply F; [discriminate|discriminate|exact H3]|]. split; [apply F; [discriminate|discriminate|exact H4]|].
  rewrite <- app_assoc_s. apply chop_app. reflexivity.
Qed.
Lemma literal c s : (if in_dec Ascii.ascii_dec c (list_ascii_of_string s) then false else true) = true -> free c s.
Proof. unfold free. destruct (in_dec _ c _); [discriminate|auto]. Qed.
Definition nword (n : nat) : Prop := Z.of_nat n < 2 ^ 64.
Lemma nword_word n : nword n -> word (Z.of_nat n). Proof. unfold nword, word. lia. Qed.
Lemma good_nat n x : free " " n -> free "=" n -> nword x -> good (n, show_nat x).
Proof. intros H1 H2 H3. apply good_token; trivial. apply itoa_token, nword_word, H3. Qed.
Lemma good_pair n a b : free " " n -> free "=" n -> nword a -> nword b -> good (n, show_pair a b).
Proof.
  intros H1 H2 Ha Hb. unfold show_pair. replace ("(" +++ show_nat a +++ "," +++ show_nat b +++ ")") with ("(" +++ (show_nat a +++ "," +++ show_nat b) +++ ")").
  2: { rewrite !app_assoc_s. reflexivity. }
  pose proof (itoa_token _ (nword_word _ Ha)) as Ta. pose proof (itoa_token _ (nword_word _ Hb)) as Tb.
  apply good_bracket; trivial; (apply free_app; [apply token_free; auto|]; apply free_app; [apply literal; reflexivity|apply token_free; auto]).
Qed.
Lemma shows_nat x : nword x -> shows_word (Some (show_nat x)) (Z.of_nat x).
Proof. intros H. exists (show_nat x). split; [reflexivity|]. apply itoa_decimal, nword_word, H. Qed.
Lemma shows_show_pair a b : nword a -> nword b -> shows_pair (Some (show_pair a b)) (Z.of_nat a) (Z.of_nat b).
Proof. intros Ha Hb. exists (show_nat a), (show_nat b). split; [reflexivity|]. split; apply itoa_decimal, nword_word; assumption. Qed.

Ltac lit := apply literal; reflexivity.
Ltac norm := repeat (cbn [append] || rewrite app_assoc_s).

(** All sizes fit a machine word. *)
Definition sizes_fit (p : tfhe_params) : Prop :=
  word (tp_polynomial_size p) /\ word (tp_base_log p) /\ word (tp_level_count p) /\ word (tp_ks_base_log p) /\ word (tp_ks_level_count p) /\
  word (tp_negs_base_log p) /\ word (tp_negs_level_count p) /\ word (tp_plaintext_modulus p).
Lemma fit_ok p : sizes_fit p -> sizes_ok p.
Proof. unfold sizes_fit, sizes_ok, word. intuition lia. Qed.

Lemma context_listing dev cx t : pt_modulus (c_mode cx) (c_codec cx) = Ok t ->
  context_text dev cx = Ok (listing [("q", "64"); ("poly_size", show_nat (c_n cx)); ("log_std", dev); ("default_decomp", show_pair (c_base cx) (c_level cx));
    ("ks_decomp", show_pair (c_ks_base cx) (c_ks_level cx)); ("negs_decomp", show_pair (c_negs_base cx) (c_negs_level cx)); ("pt_modulus", "(" +++ itoa t +++ ")")]).
Proof. intros H. unfold context_text. rewrite H. cbn [bind]. reflexivity. Qed.

(** The text of a context shows the parameters it was made from, each under its name. *)
Theorem C83_context : forall md p cx dev, sizes_fit p -> tp_plaintext_modulus p <> 1 -> token dev -> context_new md p = Ok cx ->
  exists text, context_text dev cx = Ok text /\ List.length (settings text) = 7%nat /\
    shows_word (setting_of text "q") 64 /\ shows_word (setting_of text "poly_size") (tp_polynomial_size p) /\
    setting_of text "log_std" = Some dev /\ shows_pair (setting_of text "default_decomp") (tp_base_log p) (tp_level_count p) /\
    shows_pair (setting_of text "ks_decomp") (tp_ks_base_log p) (tp_ks_level_count p) /\
    shows_pair (setting_of text "negs_decomp") (tp_negs_base_log p) (tp_negs_level_count p) /\
    shows_bracketed (setting_of text "pt_modulus") (tp_plaintext_modulus p).
Proof.
  intros md p cx dev Hf Hn1 Hd H. destruct (C80_context md p (fit_ok _ Hf) Hn1) as [_ HC]. destruct (HC cx H) as (Em & E1 & E2 & E3 & E4 & E5 & E6 & E7 & E8).
  destruct Hf as (W1 & W2 & W3 & W4 & W5 & W6 & W7 & W8). rewrite <- Em in E8.
  rewrite (context_listing dev cx _ E8). eexists. split; [reflexivity|]. unfold setting_of.
  assert (nword (c_n cx) /\ nword (c_base cx) /\ nword (c_level cx) /\ nword (c_ks_base cx) /\ nword (c_ks_level cx) /\ nword (c_negs_base cx) /\ nword (c_negs_level cx)) as (N1 & N2 & N3 & N4 & N5 & N6 & N7).
  { unfold nword, word in *. lia. }
  rewrite settings_listing; [|discriminate|].
  2: { apply Forall_cons; [apply good_token; [lit|lit|]; intros c [<-|[<-|[]]]; repeat split; discriminate|].
       apply Forall_cons; [apply good_nat; trivial; lit|]. apply Forall_cons; [apply good_token; trivial; lit|].
       do 3 (apply Forall_cons; [apply good_pair; trivial; lit|]). apply Forall_cons; [|apply Forall_nil].
       pose proof (itoa_token _ W8). apply good_bracket; try lit; apply token_free; auto. }
  split; [reflexivity|]. cbn [map find String.eqb Ascii.eqb Bool.eqb].
  split; [exists "64"; split; [reflexivity|]; exists [6; 4]; repeat split; try discriminate; repeat constructor; lia|].
  rewrite <- E1, <- E2, <- E3, <- E4, <- E5, <- E6, <- E7.
  split; [apply shows_nat, N1|]. split; [reflexivity|]. do 3 (split; [apply shows_show_pair; assumption|]).
  eexists. split; [reflexivity|]. apply itoa_decimal, W8.
Qed.
Print Assumptions C83_context.

(** The text of a simulation result shows the number of clients and all parameters. *)
Theorem C83_simulation : forall r dev setup server,
  token dev -> token setup -> token server -> Z.of_nat (sr_input_count r) < 2 ^ 64 -> Z.of_nat (sr_poly_size r) < 2 ^ 64 -> Z.of_nat (sr_base_log r) < 2 ^ 64 ->
  Z.of_nat (sr_level_count r) < 2 ^ 64 -> Z.of_nat (sr_ks_base_log r) < 2 ^ 64 -> Z.of_nat (sr_ks_level_count r) < 2 ^ 64 -> Z.of_nat (sr_negs_base_log r) < 2 ^ 64 -> Z.of_nat (sr_negs_level_count r) < 2 ^ 64 ->
  let text := simulation_text dev setup server r in
  List.length (settings text) = 9%nat /\ shows_word (setting_of text "input_count") (Z.of_nat (sr_input_count r)) /\
  setting_of text "setup_duration" = Some setup /\ setting_of text "server_duration" = Some server /\
  shows_word (setting_of text "q") 64 /\ shows_word (setting_of text "poly_size") (Z.of_nat (sr_poly_size r)) /\ setting_of text "log_std" = Some dev /\
  shows_pair (setting_of text "default_decomp") (Z.of_nat (sr_base_log r)) (Z.of_nat (sr_level_count r)) /\
  shows_pair (setting_of text "ks_decomp") (Z.of_nat (sr_ks_base_log r)) (Z.of_nat (sr_ks_level_count r)) /\
  shows_pair (setting_of text "negs_decomp") (Z.of_nat (sr_negs_base_log r)) (Z.of_nat (sr_negs_level_count r)).
Proof.
  intros r dev setup server Hd Hs1 Hs2 N0 N1 N2 N3 N4 N5 N6 N7 text.
  assert (text = listing [("input_count", show_nat (sr_input_count r)); ("setup_duration", setup); ("server_duration", server); ("q", "64");
    ("poly_size", show_nat (sr_poly_size r)); ("log_std", dev); ("default_decomp", show_pair (sr_base_log r) (sr_level_count r));
    ("ks_decomp", show_pair (sr_ks_base_log r) (sr_ks_level_count r)); ("negs_decomp", show_pair (sr_negs_base_log r) (sr_negs_level_count r))]) as E.
  { unfold text, simulation_text. cbn [listing]. norm. reflexivity. }
  unfold setting_of. rewrite E. rewrite settings_listing; [|discriminate|].
  2: { apply Forall_cons; [apply good_nat; trivial; lit|]. do 2 (apply Forall_cons; [apply good_token; trivial; lit|]).
       apply Forall_cons; [apply good_token; [lit|lit|]; intros c [<-|[<-|[]]]; repeat split; discriminate|].
       apply Forall_cons; [apply good_nat; trivial; lit|]. apply Forall_cons; [apply good_token; trivial; lit|].
       do 3 (apply Forall_cons; [apply good_pair; trivial; lit|]). apply Forall_nil. }
  split; [reflexivity|]. cbn [map find String.eqb Ascii.eqb Bool.eqb]. split; [apply shows_nat, N0|]. split; [reflexivity|]. split; [reflexivity|].
  split; [exists "64"; split; [reflexivity|]; exists [6; 4]; repeat split; try discriminate; repeat constructor; lia|].
  split; [apply shows_nat, N1|]. split; [reflexivity|]. split; [apply shows_show_pair; assumption|]. split; apply shows_show_pair; assumption.
Qed.
Print Assumptions C83_simulation.

(** Contexts with equal texts have equal parameters, up to the seeding, which the text does not show. *)
Lemma decimal_unique s a b : decimal_of s a -> decimal_of s b -> a = b.
Proof.
  assert (forall ds ds', Forall (fun d => 0 <= d <= 9) ds -> Forall (fun d => 0 <= d <= 9) ds' -> numeral ds = numeral ds' -> ds = ds') as Hi.
  { induction ds as [|d ds IH]; intros [|d' ds'] F F' E; try reflexivity; try discriminate E. inversion F; inversion F'; subst. cbn [numeral] in E.
    injection E as E1 E2. rewrite (IH ds'); trivial. f_equal.
    assert (forall x, 0 <= x <= 9 -> x = 0 \/ x = 1 \/ x = 2 \/ x = 3 \/ x = 4 \/ x = 5 \/ x = 6 \/ x = 7 \/ x = 8 \/ x = 9) as Hc by lia.
    destruct (Hc d) as [->|[->|[->|[->|[->|[->|[->|[->|[->| ->]]]]]]]]]; trivial;
    destruct (Hc d') as [->|[->|[->|[->|[->|[->|[->|[->|[->| ->]]]]]]]]]; trivial; reflexivity || discriminate E1. }
  intros (ds & _ & F & E & ->) (ds' & _ & F' & E' & ->). f_equal. apply Hi; congruence.
Qed.
Lemma word_unique o a b : shows_word o a -> shows_word o b -> a = b.
Proof. intros (s & E & H) (s' & E' & H'). rewrite E in E'. injection E' as <-. exact (decimal_unique _ _ _ H H'). Qed.
Lemma app_inj_s a b b' : a +++ b = a +++ b' -> b = b'.
Proof. induction a as [|x a IH]; [auto|]. cbn. intros E. injection E as E. auto. Qed.
Lemma decimal_token s z : decimal_of s z -> free "," s /\ free ")" s.
Proof.
  intros (ds & _ & F & -> & _). clear z. assert (forall c, (forall d, 0 <= d <= 9 -> digit_char d <> c) -> free c (numeral ds)) as H.
  { intros c Hc. induction F as [|d ds Hd F IH]; [intros []|]. cbn. intros [G|G]; [exact (Hc d Hd G)|exact (IH G)]. }
  assert (forall x, 0 <= x <= 9 -> x = 0 \/ x = 1 \/ x = 2 \/ x = 3 \/ x = 4 \/ x = 5 \/ x = 6 \/ x = 7 \/ x = 8 \/ x = 9) as Hc by lia.
  split; apply H; intros d Hd; destruct (Hc d Hd) as [->|[->|[->|[->|[->|[->|[->|[->|[->| ->]]]]]]]]]; discriminate.
Qed.
Lemma cut c a b a' b' : free c a -> free c a' -> a +++ String c b = a' +++ String c b' -> a = a' /\ b = b'.
Proof.
  revert a'. induction a as [|x a IH]; intros [|x' a'] F F' E; cbn in E.
  - injection E as ->. auto.
  - injection E as -> _. exfalso. apply F'. left. reflexivity.
  - injection E as -> _. exfalso. apply F. left. reflexivity.
  - injection E as -> E. destruct (IH a') as [-> ->]; trivial; try (intros G; first [apply F; right; exact G | apply F'; right; exact G]). auto.
Qed.
Lemma pair_unique o a b a' b' : shows_pair o a b -> shows_pair o a' b' -> a = a' /\ b = b'.
Proof.
  intros (s & t & E & Hs & Ht) (s' & t' & E' & Hs' & Ht'). rewrite E in E'. injection E' as E'.
  apply cut in E' as [-> E']; [|apply (decimal_token _ _ Hs)|apply (decimal_token _ _ Hs')]. apply cut in E' as [-> _]; [|apply (decimal_token _ _ Ht)|apply (decimal_token _ _ Ht')].
  split; eapply decimal_unique; eassumption.
Qed.
Lemma bracketed_unique o a a' : shows_bracketed o a -> shows_bracketed o a' -> a = a'.
Proof.
  intros (s & E & Hs) (s' & E' & Hs'). rewrite E in E'. injection E' as E'. apply cut in E' as [-> _]; [|apply (decimal_token _ _ Hs)|apply (decimal_token _ _ Hs')].
  eapply decimal_unique; eassumption.
Qed.
Theorem C83_unambiguous : forall show_dev md md' p p' cx cx', (forall z, token (show_dev z)) -> (forall z z' : Z, show_dev z = show_dev z' -> z = z') ->
  sizes_fit p -> sizes_fit p' -> tp_plaintext_modulus p <> 1 -> tp_plaintext_modulus p' <> 1 -> context_new md p = Ok cx -> context_new md' p' = Ok cx' ->
  context_text (show_dev (tp_standard_deviation p)) cx = context_text (show_dev (tp_standard_deviation p')) cx' ->
  {| tp_standard_deviation := tp_standard_deviation p; tp_polynomial_size := tp_polynomial_size p; tp_base_log := tp_base_log p; tp_level_count := tp_level_count p;
     tp_ks_base_log := tp_ks_base_log p; tp_ks_level_count := tp_ks_level_count p; tp_negs_base_log := tp_negs_base_log p; tp_negs_level_count := tp_negs_level_count p;
     tp_plaintext_modulus := tp_plaintext_modulus p; tp_secure_seed := tp_secure_seed p' |} = p'.
Proof.
  intros sd md md' p p' cx cx' Hd Hi F F' N N' H H' E.
  destruct (C83_context md p cx _ F N (Hd (tp_standard_deviation p)) H) as (x & Ex & _ & _ & A1 & A2 & A3 & A4 & A5 & A6).
  destruct (C83_context md' p' cx' _ F' N' (Hd (tp_standard_deviation p')) H') as (x' & Ex' & _ & _ & B1 & B2 & B3 & B4 & B5 & B6).
  rewrite E, Ex' in Ex. injection Ex as <-.
  pose proof (word_unique _ _ _ A1 B1) as ->. rewrite A2 in B2. injection B2 as B2. apply Hi in B2. rewrite B2.
  destruct (pair_unique _ _ _ _ _ A3 B3) as [-> ->]. destruct (pair_unique _ _ _ _ _ A4 B4) as [-> ->]. destruct (pair_unique _ _ _ _ _ A5 B5) as [-> ->].
  rewrite (bracketed_unique _ _ _ A6 B6). destruct p'; reflexivity.
Qed.
Print Assumptions C83_unambiguous.

(** The default context; and the text of a simulation of three clients. *)
Example C83_default : exists cx, context_new Checked default_tfhe = Ok cx /\
  context_text "-55.0" cx = Ok "q=64, poly_size=2048, log_std=-55.0, default_decomp=(5,9), ks_decomp=(5,11), negs_decomp=(5,11), pt_modulus=(256)" /\
  simulation_text "-55.0" "1.5s" "20ms" (simulation_result_new 3 [1; 2; 3] cx) =
    "input_count=3, setup_duration=1.5s, server_duration=20ms, q=64, poly_size=2048, log_std=-55.0, default_decomp=(5,9), ks_decomp=(5,11), negs_decomp=(5,11)".
Proof. eexists. split; [reflexivity|]. split; reflexivity. Qed.
Example C83_default_meets : sizes_fit default_tfhe /\ token "-55.0".
Proof. split; [repeat split; vm_compute; congruence|]. intros c Hc. repeat (destruct Hc as [<-|Hc]; [repeat split; discriminate|]). destruct Hc. Qed.

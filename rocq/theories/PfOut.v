(** * Proofs about printed texts (C81). *)
From Coq Require Import String Ascii.
From Verif Require Import MBase MUtils MParams MHash MOram MMain MJson MOut SpecOut PCsv PfCodec PfDet2 PfJson.
Local Open Scope string_scope.
Local Open Scope Z_scope.

Lemma app_assoc_s a b c : (a +++ b) +++ c = a +++ (b +++ c).
Proof. induction a as [|x a IH]; [reflexivity|]. cbn [append]. rewrite IH. reflexivity. Qed.
Lemma app_nil_s a : a +++ "" = a.
Proof. induction a as [|x a IH]; [reflexivity|]. cbn [append]. rewrite IH. reflexivity. Qed.

Definition free (c : ascii) (s : string) : Prop := ~ In c (list_ascii_of_string s).
Lemma free_app c a b : free c a -> free c b -> free c (a +++ b).
Proof. intros Ha Hb. unfold free. induction a as [|x a IH]; [exact Hb|]. cbn. intros [H|H]; [apply Ha; left; exact H|]. apply IH; [intros G; apply Ha; right; exact G|exact H]. Qed.
Lemma free_app_iff c a b : free c (a +++ b) -> free c a /\ free c b.
Proof.
  unfold free. induction a as [|x a IH]; [intros H; split; [intros []|exact H]|]. cbn. intros H. destruct IH as [I1 I2]; [tauto|]. split; [|exact I2]. intros [G|G]; tauto.
Qed.
Lemma plain_free s : plain s -> free "," s /\ free "010" s.
Proof. intros H. split; intros G; apply H in G; destruct G; congruence. Qed.
Lemma split_free c s : free c s -> split c s = [s].
Proof.
  induction s as [|x s IH]; intros H; [reflexivity|]. cbn [split]. destruct (Ascii.eqb_spec x c) as [->|]; [exfalso; apply H; left; reflexivity|].
  rewrite IH; [reflexivity|]. intros G. apply H. right. exact G.
Qed.
Lemma split_field c a b : free c a -> split c (a +++ String c b) = a :: split c b.
Proof.
  induction a as [|x a IH]; intros H; cbn [append split]; [rewrite Ascii.eqb_refl; reflexivity|].
  destruct (Ascii.eqb_spec x c) as [->|]; [exfalso; apply H; left; reflexivity|]. rewrite IH; [reflexivity|]. intros G. apply H. right. exact G.
Qed.
(** Pieces joined with commas; lines ended. *)
Fixpoint joined (l : list string) : string :=
  match l with [] => "" | [a] => a | a :: l' => a +++ String "," (joined l') end.
Lemma fields_joined l : l <> [] -> Forall (free ",") l -> fields (joined l) = l.
Proof.
  intros Hn H. unfold fields. induction H as [|a l Ha Hl IH]; [congruence|]. cbn [joined]. destruct l as [|b l]; [apply split_free, Ha|].
  rewrite split_field by exact Ha. rewrite IH by discriminate. reflexivity.
Qed.
Fixpoint unlines (l : list string) : string := match l with [] => "" | a :: l' => a +++ String "010" (unlines l') end.
Lemma lines_unlines l : Forall (free "010") l -> lines (unlines l) = (l ++ [EmptyString])%list.
Proof. unfold lines. induction 1 as [|a l Ha Hl IH]; [reflexivity|]. cbn [unlines app]. rewrite split_field by exact Ha. rewrite IH. reflexivity. Qed.
Lemma unlines_app a b : unlines (a ++ b) = unlines a +++ unlines b.
Proof. induction a as [|x a IH]; [reflexivity|]. cbn [app unlines]. rewrite IH, app_assoc_s. reflexivity. Qed.
Lemma free_joined c l : c <> ","%char -> Forall (free c) l -> free c (joined l).
Proof.
  intros Hc. induction 1 as [|a l Ha Hl IH]; [intros []|]. cbn [joined]. destruct l as [|b l]; [exact Ha|]. apply free_app; [exact Ha|]. intros [H|H]; [congruence|]. apply IH, H.
Qed.

(** Numbers. *)
Lemma digits_plain s : all_digits s = true -> plain s.
Proof.
  induction s as [|x s IH]; [intros _ c []|]. cbn [all_digits]. intros H c [<-|Hc]; apply andb_prop in H as [Hx Hs].
  - split; intros ->; discriminate Hx.
  - apply IH; assumption.
Qed.
Lemma itoa_plain z : word z -> plain (itoa z).
Proof. intros [H H2]. apply digits_plain. apply (itoa_parse z). unfold q. lia. Qed.
Lemma itoa_decimal z : word z -> decimal_of (itoa z) z.
Proof.
  intros Hz. assert (0 <= z < q) as Hq by exact Hz. destruct (itoa_parse z Hq) as [Hp Hc].
  destruct (parse_digits_some _ _ _ Hp) as (ds & Hds & E). exists ds.
  assert (ds <> []) as Hne by (intros ->; rewrite E in Hc; destruct Hc as [_ []]). split; [exact Hne|]. split; [exact Hds|]. split; [exact E|].
  rewrite E, parse_digits_numeral in Hp by (trivial; lia). rewrite Z.mul_0_l, Z.add_0_l in Hp. destruct (value ds <? q); [congruence|]. destruct ds; [congruence|discriminate].
Qed.

(** Printing and computing. *)
Definition ends {A} (x : res A) : res unit := match x with Ok _ => Ok tt | Panic e => Panic e end.
Lemma pbind_quiet {A B} (x : res A) (f : A -> printing B) : pbind (quiet x) f = match x with Ok a => f a | Panic e => ("", Panic e) end.
Proof. unfold pbind, quiet. cbn [fst snd]. destruct x as [a|e]; [|reflexivity]. cbn [append]. destruct (f a); reflexivity. Qed.
Lemma pbind_print {B} s (f : unit -> printing B) : pbind (print s) f = (s +++ fst (f tt), snd (f tt)).
Proof. reflexivity. Qed.

Section ITER.
Context {A : Type} (show : A -> string) (mode_no : string) (cl : clock) (f : nat -> server -> res (A * server)).
Definition comment (j : nat) (a : A) : string := "### mode=" +++ mode_no +++ ", iter=" +++ itoa (Z.of_nat j) +++ ", noise=" +++ show a.
Lemma iterate_ends js : forall sv, snd (iterate_out (report show mode_no cl) f js sv) = ends (iterate f js sv).
Proof.
  induction js as [|j js IH]; intros sv; [reflexivity|]. cbn [iterate_out iterate]. rewrite pbind_quiet. destruct (f j sv) as [[a sv1]|e]; [|reflexivity].
  cbn [bind fst snd]. assert (exists s, report show mode_no cl j a = print s) as [s ->] by (destruct j; cbn; [destruct cl as [[? ?] ?]|]; eauto).
  rewrite pbind_print. cbn [snd]. rewrite IH. destruct (iterate f js sv1); reflexivity.
Qed.
Lemma iterate_comments m : forall j sv out, iterate f (seq (S j) m) sv = Ok out ->
  fst (iterate_out (report show mode_no cl) f (seq (S j) m) sv) = unlines (map (fun ja => comment (fst ja) (snd ja)) (combine (seq (S j) m) out)).
Proof.
  induction m as [|m IH]; intros j sv out H; cbn [seq iterate] in *; [injection H as <-; reflexivity|].
  apply bind_ok in H as ([a sv1] & Ha & H). apply bind_ok in H as (out' & Ho & H). injection H as <-.
  cbn [iterate_out]. rewrite pbind_quiet, Ha. cbn [fst snd report]. rewrite pbind_print. cbn [fst]. rewrite (IH (S j) sv1 out' Ho).
  cbn [combine map fst snd unlines]. unfold comment, NL. rewrite !app_assoc_s. reflexivity.
Qed.
Lemma iterate_text m sv out : (0 < m)%nat -> iterate f (seq 0 m) sv = Ok out ->
  exists a out', out = a :: out' /\ List.length out = m /\
  fst (iterate_out (report show mode_no cl) f (seq 0 m) sv) =
    joined [fst (fst cl); snd (fst cl); snd cl; show a] +++ String "010" (unlines (map (fun ja => comment (fst ja) (snd ja)) (combine (seq 1 (m - 1)) out'))).
Proof.
  intros Hm H. assert (List.length out = m) as L.
  { rewrite <- (seq_length m 0). clear -H. revert sv out H. generalize (seq 0 m) as js. induction js as [|j js IH]; intros sv out H; cbn [iterate] in H; [injection H as <-; reflexivity|].
    apply bind_ok in H as ([a sv1] & _ & H). apply bind_ok in H as (o & Ho & H). injection H as <-. cbn. f_equal. apply (IH _ _ Ho). }
  destruct m as [|m]; [lia|]. cbn [seq iterate] in *. apply bind_ok in H as ([a sv1] & Ha & H). apply bind_ok in H as (out' & Ho & H). injection H as <-.
  exists a, out'. split; [reflexivity|]. split; [exact L|]. cbn [iterate_out]. rewrite pbind_quiet, Ha. cbn [fst snd].
  unfold pbind at 1. rewrite (iterate_comments m 0 sv1 out' Ho). cbn [report]. destruct cl as [[t1 t2] t3]. cbn [fst snd print]. replace (S m - 1)%nat with m by lia. cbn [joined]. unfold NL. rewrite !app_assoc_s. cbn [append].
  rewrite !app_assoc_s. cbn [append]. rewrite !app_assoc_s. reflexivity.
Qed.
End ITER.

Section DRIVERS.
Context (show_dev : Z -> string) (show_noise : list Z -> string).
Definition result_cells (cl : clock) (out : list (list Z)) : list string :=
  match out with [] => ["-"; "-"; "-"; "-"] | a :: _ => [fst (fst cl); snd (fst cl); snd cl; show_noise a] end.
Definition comments (mode_no : string) (out : list (list Z)) : list string :=
  map (fun ja => comment show_noise mode_no (fst ja) (snd ja)) (combine (seq 1 (List.length out - 1)) (tl out)).

Ltac norm := repeat (cbn [joined append app] || rewrite app_assoc_s).

Lemma single_text fft md items it p dry co cl out : single_query fft md items it p dry co = Ok out ->
  exists l, ulog2 md (Z.of_nat items) = Ok l /\ List.length out = (if dry then 0 else it)%nat /\ (0 < it)%nat /\
  fst (single_query_out show_noise fft md items it p dry co cl) =
    joined (["0"; itoa (Z.of_nat items); "-"; "-"; "-"; "2^" +++ itoa l] ++ result_cells cl (map (fun x => [x]) out))
    +++ String "010" (unlines (comments "0" (map (fun x => [x]) out))).
Proof.
  unfold single_query, single_query_out. intros H. apply bind_ok in H as (u & Eu & H). rewrite pbind_quiet, Eu. unfold rassert in Eu.
  destruct (0 <? it)%nat eqn:Hit; [|discriminate]. apply Nat.ltb_lt in Hit. apply bind_ok in H as (l & El & H). exists l. split; [exact El|].
  rewrite pbind_quiet, El, pbind_print. cbn [fst]. destruct dry.
  - injection H as <-. split; [reflexivity|]. split; [exact Hit|]. cbn [map result_cells comments List.length Nat.sub tl seq combine unlines print fst].
    unfold NL. norm. reflexivity.
  - apply bind_ok in H as (nh & En & H). rewrite pbind_quiet, En. apply bind_ok in H as (cx & Ec & H). rewrite pbind_quiet, Ec.
    apply bind_ok in H as ([[c sv] pts] & Es & H). rewrite pbind_quiet, Es.
    destruct (iterate_text (fun v => show_noise [v]) "0" cl _ it sv out Hit H) as (a & out' & -> & L & ->). split; [exact L|]. split; [exact Hit|].
    cbn [map result_cells]. unfold comments. cbn [List.length tl]. rewrite map_length. cbn [List.length] in L. subst it. rewrite Nat.sub_succ, Nat.sub_0_r.
    assert (forall j, map (fun ja : nat * list Z => comment show_noise "0" (fst ja) (snd ja)) (combine (seq j (List.length out')) (map (fun x => [x]) out'))
      = map (fun ja : nat * Z => comment (fun v => show_noise [v]) "0" (fst ja) (snd ja)) (combine (seq j (List.length out')) out')) as ->.
    { clear. induction out' as [|x l IH]; intros j; [reflexivity|]. cbn [List.length seq map combine fst snd]. rewrite IH. reflexivity. }
    norm. reflexivity.
Qed.
Lemma multi_text fft md items qc it p dry co cl out : multi_query fft md items qc it p dry co = Ok out ->
  exists l, ulog2 md (Z.of_nat items) = Ok l /\ List.length out = (if dry then 0 else it)%nat /\ (0 < it)%nat /\
  fst (multi_query_out show_noise fft md items qc it p dry co cl) =
    joined (["1"; itoa (Z.of_nat items); itoa (Z.of_nat qc); "-"; "-"; "2^" +++ itoa l] ++ result_cells cl out) +++ String "010" (unlines (comments "1" out)).
Proof.
  unfold multi_query, multi_query_out. intros H. apply bind_ok in H as (u & Eu & H). rewrite pbind_quiet, Eu. unfold rassert in Eu.
  destruct (0 <? it)%nat eqn:Hit; [|discriminate]. apply Nat.ltb_lt in Hit. apply bind_ok in H as (l & El & H). exists l. split; [exact El|].
  rewrite pbind_quiet, El, pbind_print. cbn [fst]. destruct dry.
  - injection H as <-. split; [reflexivity|]. split; [exact Hit|]. cbn [result_cells comments List.length Nat.sub tl seq combine map unlines print fst]. unfold NL. norm. reflexivity.
  - apply bind_ok in H as (nh & En & H). rewrite pbind_quiet, En. apply bind_ok in H as (cx & Ec & H). rewrite pbind_quiet, Ec.
    apply bind_ok in H as ([[c sv] pts] & Es & H). rewrite pbind_quiet, Es. apply bind_ok in H as (u' & Eu' & H). rewrite pbind_quiet, Eu'.
    destruct (iterate_text show_noise "1" cl _ it sv out Hit H) as (a & out' & -> & L & ->). split; [exact L|]. split; [exact Hit|].
    cbn [result_cells]. unfold comments. cbn [List.length tl]. cbn [List.length] in L. subst it. norm. reflexivity.
Qed.
Lemma batch_text fft md rows cols it p dry co cl out : batch_query fft md rows cols it p dry co = Ok out ->
  exists l, ulog2 md (Z.of_nat (rows * cols / 3)) = Ok l /\ List.length out = (if dry then 0 else it)%nat /\ (0 < it)%nat /\
  fst (batch_query_out show_noise fft md rows cols it p dry co cl) =
    joined (["2"; itoa (Z.of_nat (rows * cols / 3)); "-"; itoa (Z.of_nat rows); itoa (Z.of_nat cols); "2^" +++ itoa l] ++ result_cells cl out) +++ String "010" (unlines (comments "2" out)).
Proof.
  unfold batch_query, batch_query_with, batch_query_out. cbv zeta. intros H. apply bind_ok in H as (u & Eu & H). rewrite pbind_quiet, Eu. unfold rassert in Eu.
  destruct (0 <? it)%nat eqn:Hit; [|discriminate]. apply Nat.ltb_lt in Hit. apply bind_ok in H as (l & El & H). exists l. split; [exact El|].
  rewrite pbind_quiet, El, pbind_print. cbn [fst]. destruct dry.
  - injection H as <-. split; [reflexivity|]. split; [exact Hit|]. cbn [result_cells comments List.length Nat.sub tl seq combine map unlines print fst]. unfold NL. norm. reflexivity.
  - apply bind_ok in H as (nh & En & H). rewrite pbind_quiet, En. apply bind_ok in H as (cx & Ec & H). rewrite pbind_quiet, Ec.
    apply bind_ok in H as ([[c sv] pts] & Es & H). rewrite pbind_quiet, Es.
    destruct (iterate_text show_noise "2" cl _ it sv out Hit H) as (a & out' & -> & L & ->). split; [exact L|]. split; [exact Hit|].
    cbn [result_cells]. unfold comments. cbn [List.length tl]. cbn [List.length] in L. subst it. norm. reflexivity.
Qed.

(** Computing and printing end alike. *)
Lemma run_ends_with fft md dry sp co cl : snd (run_params_with show_dev show_noise fft md dry sp co cl) = ends (run_params fft md dry sp co).
Proof.
  unfold run_params_with, run_params. cbv zeta. rewrite pbind_quiet. destruct (ulog2 md (tp_plaintext_modulus (sp_tfhe sp))) as [l|e]; [|reflexivity]. cbn [bind].
  rewrite pbind_print. cbn [snd]. destruct (sp_oram sp) as [items it|items qc it|rows cols it].
  - unfold single_query_out, single_query. rewrite pbind_quiet. destruct (rassert _); [|reflexivity]. cbn [bind].
    rewrite pbind_quiet. destruct (ulog2 _ _); [|reflexivity]. cbn [bind]. rewrite pbind_print. cbn [snd]. destruct dry; [reflexivity|].
    rewrite pbind_quiet. destruct (nh_new _ _ _); [|reflexivity]. cbn [bind]. rewrite pbind_quiet. destruct (context_new _ _); [|reflexivity]. cbn [bind].
    rewrite pbind_quiet. destruct (setup_random_oram _ _ _ _ _ _ _) as [[[c sv] pts]|]; [|reflexivity]. cbn [bind]. rewrite iterate_ends. destruct (iterate _ _ _); reflexivity.
  - unfold multi_query_out, multi_query. rewrite pbind_quiet. destruct (rassert _); [|reflexivity]. cbn [bind].
    rewrite pbind_quiet. destruct (ulog2 _ _); [|reflexivity]. cbn [bind]. rewrite pbind_print. cbn [snd]. destruct dry; [reflexivity|].
    rewrite pbind_quiet. destruct (nh_new _ _ _); [|reflexivity]. cbn [bind]. rewrite pbind_quiet. destruct (context_new _ _); [|reflexivity]. cbn [bind].
    rewrite pbind_quiet. destruct (setup_random_oram _ _ _ _ _ _ _) as [[[c sv] pts]|]; [|reflexivity]. cbn [bind]. rewrite pbind_quiet.
    destruct (rassert _); [|reflexivity]. cbn [bind]. rewrite iterate_ends. destruct (iterate _ _ _); reflexivity.
  - unfold batch_query_out, batch_query, batch_query_with. cbv zeta. rewrite pbind_quiet. destruct (rassert _); [|reflexivity]. cbn [bind].
    rewrite pbind_quiet. destruct (ulog2 _ _); [|reflexivity]. cbn [bind]. rewrite pbind_print. cbn [snd]. destruct dry; [reflexivity|].
    rewrite pbind_quiet. destruct (nh_new _ _ _); [|reflexivity]. cbn [bind]. rewrite pbind_quiet. destruct (context_new _ _); [|reflexivity]. cbn [bind].
    rewrite pbind_quiet. destruct (setup_random_oram _ _ _ _ _ _ _) as [[[c sv] pts]|]; [|reflexivity]. cbn [bind]. rewrite iterate_ends. destruct (iterate _ _ _); reflexivity.
Qed.
End DRIVERS.
Lemma run_ends show_dev show_noise fft md dry sp co cl : snd (run_params_out show_dev show_noise fft md dry sp co cl) = ends (run_params fft md dry sp co).
Proof. apply run_ends_with. Qed.

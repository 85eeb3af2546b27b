(** * Property C81: what the program prints is a table of what it ran.
    [SpecOut]: [lines], [fields], [cell header row name] (the entry of a row in a named column), ... *)
From Coq Require Import String Ascii.
From Verif Require Import MBase MUtils MParams MHash MPoly MRlwe MOram MMain MJson MOut SpecOut SpecLwe PCsv PfCodec PfUtils PfDet2 PfJson PfOut PMain PRun Demo.
Local Open Scope string_scope.
Local Open Scope Z_scope.

(** The program ends as [main_run] (C65) does: printing neither hides nor causes a panic. *)
Theorem C81_ends_alike : forall show_dev show_noise fft md f c co cl,
  snd (main_out show_dev show_noise fft md f c co cl) = match main_run fft md f c co with Ok _ => Ok tt | Panic e => Panic e end.
Proof.
  intros sd sn fft md f c co cl. unfold main_out, main_run. rewrite pbind_print. cbn [snd]. generalize (select_params f c) as sps. intros sps.
  generalize 0%nat as i. induction sps as [|sp sps IH]; intros i; [reflexivity|]. cbn [sets_out List.length seq combine mapM fst snd].
  unfold pbind. rewrite run_ends. destruct (run_params _ md (cli_dryrun c) sp (co i)) as [out|e]; [|reflexivity]. cbn [ends bind snd]. rewrite IH.
  destruct (mapM _ (combine (seq (S i) (List.length sps)) sps)); reflexivity.
Qed.
Print Assumptions C81_ends_alike.

Section ROW.
Context (show_dev : Z -> string) (show_noise : list Z -> string).
Hypothesis Hdev : forall z, plain (show_dev z).
Hypothesis Hnoise : forall l, plain (show_noise l).

Lemma free_plain c s : c = ","%char \/ c = "010"%char -> plain s -> free c s.
Proof. intros [E|E] H; subst c; apply plain_free in H; tauto. Qed.
Lemma literal_free c s : (if in_dec Ascii.ascii_dec c (list_ascii_of_string s) then false else true) = true -> free c s.
Proof. unfold free. destruct (in_dec _ c _); [discriminate|auto]. Qed.
Lemma log_power md x l : (md = Checked \/ 0 < x) -> word x -> ulog2 md x = Ok l -> word l /\ 0 <= l /\ 2 ^ l <= x < 2 ^ (l + 1).
Proof.
  intros Hm [H0 Hq] H. destruct (Z.eq_dec x 0) as [->|Hn].
  - destruct Hm as [->|Hm]; [|lia]. rewrite (proj1 ulog2_zero) in H. discriminate.
  - assert (0 < x < q) as Hx by (change q with (2 ^ 64); lia). rewrite ulog2_pos in H by exact Hx. injection H as <-.
    destruct (Z.log2_spec x ltac:(lia)) as [Ha Hb]. pose proof (Z.log2_nonneg x). change (Z.succ (Z.log2 x)) with (Z.log2 x + 1) in Hb.
    assert (Z.log2 x < 64) by (apply Z.log2_lt_pow2; lia). unfold word. lia.
Qed.

Lemma comments_lines mode_no sp out : decimal_of mode_no (mode_of sp) -> free "010" mode_no -> Z.of_nat (List.length out) < 2 ^ 64 ->
  Forall (free "010") (comments show_noise mode_no out) /\ List.length (comments show_noise mode_no out) = (List.length out - 1)%nat /\
  forall j v line, nth_error out (S j) = Some v -> nth_error (comments show_noise mode_no out) j = Some line -> shows_iteration show_noise sp (S j) v line.
Proof.
  intros Hd Hm Hl. unfold comments. split; [|split].
  - apply Forall_forall. intros x Hx. apply in_map_iff in Hx as ([j v] & <- & Hx). apply in_combine_l in Hx. apply in_seq in Hx. unfold comment.
    apply free_app; [apply literal_free; reflexivity|]. apply free_app; [exact Hm|]. apply free_app; [apply literal_free; reflexivity|].
    apply free_app; [apply free_plain; [auto|]; apply itoa_plain; unfold word; cbn [fst]; lia|]. apply free_app; [apply literal_free; reflexivity|].
    apply free_plain; auto.
  - rewrite map_length, combine_length, seq_length. destruct out; cbn; lia.
  - destruct out as [|a out]; [discriminate|]. cbn [nth_error tl List.length]. rewrite Nat.sub_succ, Nat.sub_0_r. intros j v line Hv.
    assert (j < List.length out)%nat as Hj by (apply nth_error_Some; congruence).
    rewrite nth_error_map. assert (nth_error (combine (seq 1 (List.length out)) out) j = Some (S j, v)) as ->.
    { clear -Hv. change (S j) with (1 + j)%nat. generalize 1%nat as b. revert j Hv. induction out as [|x out IH]; intros j Hv b; [destruct j; discriminate|].
      destruct j as [|j]; cbn [nth_error List.length seq combine] in *; [injection Hv as ->; rewrite Nat.add_0_r; reflexivity|].
      rewrite (IH j Hv (S b)). rewrite Nat.add_succ_r. reflexivity. }
    cbn [option_map fst snd]. intros E. injection E as <-. cbn [List.length] in Hl. exists mode_no, (itoa (Z.of_nat (S j))).
    split; [exact Hd|]. split; [apply itoa_decimal; unfold word; lia|reflexivity].
Qed.

(** One set: its row and its other iterations. *)
Definition block_ok (sp : server_params) (cl : clock) (out : list (list Z)) (row : string) (others : list string) : Prop :=
  List.length (fields row) = 20%nat /\ shows_params show_dev (cell header row) sp /\ shows_results show_noise (cell header row) cl out /\
  List.length others = (List.length out - 1)%nat /\
  forall j v line, nth_error out (S j) = Some v -> nth_error others j = Some line -> shows_iteration show_noise sp (S j) v line.

Lemma row_block sp cl out l l2 f1 f2 f3 f4 f5 :
  (plain (fst (fst cl)) /\ plain (snd (fst cl)) /\ plain (snd cl)) -> set_fits sp ->
  word l -> word l2 -> plain f1 -> plain f2 -> plain f3 -> plain f4 -> plain f5 ->
  let t := sp_tfhe sp in
  let cells := ([show_dev (tp_standard_deviation t); itoa (tp_polynomial_size t); itoa (tp_base_log t); itoa (tp_level_count t); itoa (tp_ks_base_log t);
    itoa (tp_ks_level_count t); itoa (tp_negs_base_log t); itoa (tp_negs_level_count t); "2^" +++ itoa l; show_bool (tp_secure_seed t);
    f1; f2; f3; f4; f5; "2^" +++ itoa l2] ++ result_cells show_noise cl out)%list in
  fields (joined cells) = cells /\ free "010" (joined cells).
Proof.
  intros (C1 & C2 & C3) (W1 & W2 & W3 & W4 & W5 & W6 & W7 & _ & _) Wl Wl2 P1 P2 P3 P4 P5 t cells.
  assert (forall c, c = ","%char \/ c = "010"%char -> Forall (free c) cells) as HF.
  { intros c Hc. apply Forall_app. split.
    - repeat (apply Forall_cons || apply Forall_nil); try (apply free_plain; [exact Hc|]; first [assumption | apply itoa_plain; assumption | apply Hdev]).
      + apply free_app; [destruct Hc; subst c; apply literal_free; reflexivity|]. apply free_plain; [exact Hc|]. apply itoa_plain, Wl.
      + destruct Hc; subst c; destruct (tp_secure_seed t); apply literal_free; reflexivity.
      + apply free_app; [destruct Hc; subst c; apply literal_free; reflexivity|]. apply free_plain; [exact Hc|]. apply itoa_plain, Wl2.
    - unfold result_cells. destruct out as [|a out].
      + destruct Hc; subst c; repeat constructor; apply literal_free; reflexivity.
      + repeat (apply Forall_cons || apply Forall_nil); apply free_plain; auto. }
  split; [apply fields_joined; [discriminate|apply HF; auto]|]. apply free_joined; [discriminate|apply HF; auto].
Qed.

Lemma words_dec z : word z -> shows_word (Some (itoa z)) z.
Proof. intros H. exists (itoa z). split; [reflexivity|apply itoa_decimal, H]. Qed.

Lemma dec_0 : decimal_of "0" 0. Proof. exists [0]. repeat split; try reflexivity; [discriminate|repeat constructor; lia]. Qed.
Lemma dec_1 : decimal_of "1" 1. Proof. exists [1]. repeat split; try reflexivity; [discriminate|repeat constructor; lia]. Qed.
Lemma dec_2 : decimal_of "2" 2. Proof. exists [2]. repeat split; try reflexivity; [discriminate|repeat constructor; lia]. Qed.
Lemma plain_lit s : forallb (fun c => negb (Ascii.eqb c ",") && negb (Ascii.eqb c "010")) (list_ascii_of_string s) = true -> plain s.
Proof.
  intros H c Hc. rewrite forallb_forall in H. apply H in Hc. apply andb_prop in Hc as [H1 H2]. split; intros ->; discriminate.
Qed.

Lemma run_block fft md dry sp co cl out : (plain (fst (fst cl)) /\ plain (snd (fst cl)) /\ plain (snd cl)) -> set_fits sp -> (md = Checked \/ nonzero sp) ->
  run_params fft md dry sp co = Ok out ->
  Z.of_nat (List.length out) = (if dry then 0 else iterations_of sp) /\
  exists row others, fst (run_params_with show_dev show_noise fft md dry sp co cl) = unlines (row :: others) /\
    Forall (free "010") (row :: others) /\ block_ok sp cl out row others.
Proof.
  intros Hcl Hfit Hnz H. unfold run_params in H. apply bind_ok in H as (l & El & H).
  pose proof Hfit as (W1 & W2 & W3 & W4 & W5 & W6 & W7 & W8 & W9).
  assert (md = Checked \/ 0 < tp_plaintext_modulus (sp_tfhe sp)) as HM by (unfold nonzero in Hnz; tauto).
  assert (md = Checked \/ 0 < items_of sp) as HI by (unfold nonzero in Hnz; tauto). clear Hnz.
  destruct (log_power md _ l HM W8 El) as (Wl & Hl0 & Hlp).
  unfold run_params_with. cbv zeta. rewrite pbind_quiet, El, pbind_print. cbn [fst].
  assert (forall m o l2 f1 f2 f3 f4 f5, Z.of_nat (List.length o) = (if dry then 0 else iterations_of sp) -> iterations_of sp < 2 ^ 64 ->
    decimal_of m (mode_of sp) -> plain m -> word l2 -> plain f1 -> plain f2 -> plain f3 -> plain f4 -> plain f5 ->
    (forall at_ : string -> option string, at_ "mode" = Some f1 -> at_ "item_count" = Some f2 -> at_ "query_count" = Some f3 -> at_ "rows" = Some f4 -> at_ "cols" = Some f5 ->
      at_ "n" = Some ("2^" +++ itoa l2) ->
      match sp_oram sp with
      | SingleQuery items _ =>
          shows_word (at_ "mode") 0 /\ shows_word (at_ "item_count") items /\ shows_nothing (at_ "query_count") /\
          shows_nothing (at_ "rows") /\ shows_nothing (at_ "cols") /\ shows_power (at_ "n") items
      | MultiQuery items queries _ =>
          shows_word (at_ "mode") 1 /\ shows_word (at_ "item_count") items /\ shows_word (at_ "query_count") queries /\
          shows_nothing (at_ "rows") /\ shows_nothing (at_ "cols") /\ shows_power (at_ "n") items
      | Batched rows cols _ =>
          shows_word (at_ "mode") 2 /\ shows_word (at_ "item_count") (rows * cols / 3) /\ shows_nothing (at_ "query_count") /\
          shows_word (at_ "rows") rows /\ shows_word (at_ "cols") cols /\ shows_power (at_ "n") (rows * cols / 3)
      end) ->
    forall head, head = joined (f1 :: f2 :: f3 :: f4 :: f5 :: ("2^" +++ itoa l2) :: result_cells show_noise cl o) +++ String "010" (unlines (comments show_noise m o)) ->
    exists row others, (show_dev (tp_standard_deviation (sp_tfhe sp)) +++ "," +++ itoa (tp_polynomial_size (sp_tfhe sp)) +++ "," +++ itoa (tp_base_log (sp_tfhe sp)) +++ "," +++
         itoa (tp_level_count (sp_tfhe sp)) +++ "," +++ itoa (tp_ks_base_log (sp_tfhe sp)) +++ "," +++ itoa (tp_ks_level_count (sp_tfhe sp)) +++ "," +++
         itoa (tp_negs_base_log (sp_tfhe sp)) +++ "," +++ itoa (tp_negs_level_count (sp_tfhe sp)) +++ ",2^" +++ itoa l +++ "," +++
         show_bool (tp_secure_seed (sp_tfhe sp)) +++ ",") +++ head = unlines (row :: others) /\
      Forall (free "010") (row :: others) /\ block_ok sp cl o row others) as Finish.
  { intros m o l2 f1 f2 f3 f4 f5 Ho Hit Dm Pm Wl2 P1 P2 P3 P4 P5 Horam head ->.
    destruct (row_block sp cl o l l2 f1 f2 f3 f4 f5 Hcl Hfit Wl Wl2 P1 P2 P3 P4 P5) as [Hf Hfree]. cbv zeta in Hf, Hfree.
    destruct (comments_lines m sp o Dm) as (CF & CL & CN); [apply free_plain; auto|rewrite Ho; destruct dry; lia|].
    exists (joined ([show_dev (tp_standard_deviation (sp_tfhe sp)); itoa (tp_polynomial_size (sp_tfhe sp)); itoa (tp_base_log (sp_tfhe sp)); itoa (tp_level_count (sp_tfhe sp));
      itoa (tp_ks_base_log (sp_tfhe sp)); itoa (tp_ks_level_count (sp_tfhe sp)); itoa (tp_negs_base_log (sp_tfhe sp)); itoa (tp_negs_level_count (sp_tfhe sp));
      "2^" +++ itoa l; show_bool (tp_secure_seed (sp_tfhe sp)); f1; f2; f3; f4; f5; "2^" +++ itoa l2] ++ result_cells show_noise cl o)%list), (comments show_noise m o).
    split; [|split; [constructor; [exact Hfree|exact CF]|]].
    { cbn [unlines]. cbn [app joined]. repeat (cbn [append] || rewrite app_assoc_s). reflexivity. }
    unfold block_ok, cell. rewrite Hf. split; [unfold result_cells; destruct o; reflexivity|]. split; [|split; [|split; [exact CL|exact CN]]].
    - split; [reflexivity|]. do 7 (split; [apply words_dec; assumption|]).
      split; [eexists _, _; split; [reflexivity|]; split; [apply itoa_decimal, Wl|]; split; assumption|].
      split; [reflexivity|]. apply Horam; reflexivity.
    - unfold shows_results, result_cells. destruct o as [|a o]; repeat split; reflexivity. }
  unfold items_of, iterations_of in *. unfold mode_of in *.
  assert (forall z, word z -> Z.of_nat (Z.to_nat z) = z) as Wn by (unfold word; intros; lia).
  destruct (sp_oram sp) as [items it|items qc it|rows cols it] eqn:Eo.
  - destruct W9 as [Wi Wit]. apply bind_ok in H as (o & Ho & H). injection H as <-.
    destruct (single_text show_noise _ _ _ _ _ _ _ cl _ Ho) as (l2 & El2 & Lo & Hit & ET). rewrite (Wn _ Wi) in ET, El2.
    assert (Z.of_nat (List.length (map (fun x => [x]) o)) = if dry then 0 else it) as Lz by (rewrite map_length, Lo; unfold word in Wit; destruct dry; lia).
    split; [exact Lz|].
    destruct (log_power md _ l2 HI Wi El2) as (Wl2 & Hl20 & Hl2p).
    apply (Finish "0" _ l2 "0" (itoa items) "-" "-" "-"); try assumption; try apply dec_0; try (apply plain_lit; reflexivity); [unfold word in Wit; lia|apply itoa_plain, Wi|].
    intros at_ -> -> -> -> -> ->. split; [exists "0"; split; [reflexivity|apply dec_0]|]. split; [apply words_dec, Wi|]. repeat (split; [reflexivity|]).
    eexists _, _; split; [reflexivity|]; split; [apply itoa_decimal, Wl2|]; split; assumption.
  - destruct W9 as (Wi & Wq & Wit).
    destruct (multi_text show_noise _ _ _ _ _ _ _ _ cl _ H) as (l2 & El2 & Lo & Hit & ET). rewrite (Wn _ Wi) in ET, El2. rewrite (Wn _ Wq) in ET.
    assert (Z.of_nat (List.length out) = if dry then 0 else it) as Lz by (rewrite Lo; unfold word in Wit; destruct dry; lia).
    split; [exact Lz|].
    destruct (log_power md _ l2 HI Wi El2) as (Wl2 & Hl20 & Hl2p).
    apply (Finish "1" _ l2 "1" (itoa items) (itoa qc) "-" "-"); try assumption; try apply dec_1; try (apply plain_lit; reflexivity); [unfold word in Wit; lia|apply itoa_plain, Wi|apply itoa_plain, Wq|].
    intros at_ -> -> -> -> -> ->. split; [exists "1"; split; [reflexivity|apply dec_1]|]. split; [apply words_dec, Wi|]. split; [apply words_dec, Wq|]. repeat (split; [reflexivity|]).
    eexists _, _; split; [reflexivity|]; split; [apply itoa_decimal, Wl2|]; split; assumption.
  - destruct W9 as (Wr & Wc & Wit & Wrc).
    destruct (batch_text show_noise _ _ _ _ _ _ _ _ cl _ H) as (l2 & El2 & Lo & Hit & ET).
    assert (Z.of_nat (Z.to_nat rows * Z.to_nat cols / 3) = rows * cols / 3) as Ei.
    { rewrite Nat2Z.inj_div, Nat2Z.inj_mul, (Wn _ Wr), (Wn _ Wc). reflexivity. }
    rewrite Ei in El2, ET. rewrite (Wn _ Wr), (Wn _ Wc) in ET.
    assert (word (rows * cols / 3)) as Wi.
    { unfold word in *. split; [apply Z.div_pos; lia|]. apply Z.le_lt_trans with (rows * cols); [apply Z.div_le_upper_bound; lia|lia]. }
    assert (Z.of_nat (List.length out) = if dry then 0 else it) as Lz by (rewrite Lo; unfold word in Wit; destruct dry; lia).
    split; [exact Lz|].
    destruct (log_power md _ l2 HI Wi El2) as (Wl2 & Hl20 & Hl2p).
    apply (Finish "2" _ l2 "2" (itoa (rows * cols / 3)) "-" (itoa rows) (itoa cols)); try assumption; try apply dec_2; try (apply plain_lit; reflexivity);
      [unfold word in Wit; lia|apply itoa_plain, Wi|apply itoa_plain, Wr|apply itoa_plain, Wc|].
    intros at_ -> -> -> -> -> ->. split; [exists "2"; split; [reflexivity|apply dec_2]|]. split; [apply words_dec, Wi|]. split; [reflexivity|].
    split; [apply words_dec, Wr|]. split; [apply words_dec, Wc|].
    eexists _, _; split; [reflexivity|]; split; [apply itoa_decimal, Wl2|]; split; assumption.
Qed.
End ROW.

(** What is printed about set number [i], [sp]: a row of the table with the parameters and the results, then a
    line for each further iteration. *)
Definition reported (show_dev : Z -> string) (show_noise : nat -> list Z -> string) (dryrun : bool) (cl : clock) (sp : server_params) (out : list (list Z)) (block : string * list string) : Prop :=
  Z.of_nat (List.length out) = (if dryrun then 0 else iterations_of sp) /\
  List.length (fields (fst block)) = List.length (fields header) /\
  shows_params show_dev (cell header (fst block)) sp /\
  shows_results (show_noise (answers_of sp)) (cell header (fst block)) cl out /\
  List.length (snd block) = (List.length out - 1)%nat /\
  forall j v line, nth_error out (S j) = Some v -> nth_error (snd block) j = Some line -> shows_iteration (show_noise (answers_of sp)) sp (S j) v line.
Definition block_lines (b : string * list string) : list string := fst b :: snd b.

Section MAIN.
Context (show_dev : Z -> string) (show_noise : nat -> list Z -> string) (fft : Z -> fftT) (md : mode) (dry : bool) (co : nat -> coins) (cl : nat -> clock).
Hypothesis Hdev : forall z, plain (show_dev z).
Hypothesis Hnoise : forall d l, plain (show_noise d l).
Hypothesis Hcl : forall i, plain (fst (fst (cl i))) /\ plain (snd (fst (cl i))) /\ plain (snd (cl i)).

Lemma sets_text sps : Forall set_fits sps -> (md = Checked \/ Forall nonzero sps) -> forall i outs,
  mapM (fun isp => run_params (fft (tp_polynomial_size (sp_tfhe (snd isp)))) md dry (snd isp) (co (fst isp))) (combine (seq i (List.length sps)) sps) = Ok outs ->
  exists blocks, fst (sets_out show_dev show_noise fft md dry co cl i sps) = unlines (flat_map block_lines blocks) /\ Forall (free "010") (flat_map block_lines blocks) /\
    List.length blocks = List.length sps /\
    forall j sp, nth_error sps j = Some sp -> exists out block, nth_error outs j = Some out /\ nth_error blocks j = Some block /\ reported show_dev show_noise dry (cl (i + j)%nat) sp out block.
Proof.
  intros HF HN. induction HF as [|sp sps Hf HF IH]; intros i outs H.
  - exists []. split; [reflexivity|]. split; [constructor|]. split; [reflexivity|]. intros [|j] sp Hsp; discriminate.
  - cbn [List.length seq combine mapM fst snd] in H. apply bind_ok in H as (out & Ho & H). apply bind_ok in H as (outs' & Hs & H). injection H as <-.
    assert (md = Checked \/ nonzero sp) as HN1 by (destruct HN as [?|HN]; [auto|right; inversion HN; assumption]).
    assert (md = Checked \/ Forall nonzero sps) as HN2 by (destruct HN as [?|HN]; [auto|right; inversion HN; assumption]).
    destruct (IH HN2 (S i) outs' Hs) as (blocks & Et & Fb & Lb & Hb).
    destruct (run_block show_dev (show_noise (answers_of sp)) Hdev (Hnoise _) _ md dry sp (co i) (cl i) out (Hcl i) Hf HN1 Ho) as (Lo & row & others & Er & Fr & B1 & B2 & B3 & B4 & B5).
    change (fst (run_params_out show_dev show_noise (fft (tp_polynomial_size (sp_tfhe sp))) md dry sp (co i) (cl i)) = unlines (row :: others)) in Er.
    exists ((row, others) :: blocks). split; [|split; [|split]].
    + cbn [sets_out]. unfold pbind. rewrite run_ends, Ho. cbn [ends fst]. rewrite Er, Et. cbn [flat_map]. rewrite unlines_app. reflexivity.
    + cbn [flat_map]. apply Forall_app. split; [exact Fr|exact Fb].
    + cbn. congruence.
    + intros [|j] sp' Hsp; cbn [nth_error] in *.
      * injection Hsp as <-. exists out, (row, others). split; [reflexivity|]. split; [reflexivity|]. rewrite Nat.add_0_r.
        split; [exact Lo|]. split; [exact B1|]. split; [exact B2|]. split; [exact B3|]. split; [exact B4|exact B5].
      * destruct (Hb j sp' Hsp) as (o & b & H1 & H2 & H3). exists o, b. rewrite Nat.add_succ_r. auto.
Qed.
Lemma header_free : free "010" header. Proof. apply literal_free. vm_compute. reflexivity. Qed.
Lemma sets_out_app sps1 sps2 : forall i outs,
  mapM (fun isp => run_params (fft (tp_polynomial_size (sp_tfhe (snd isp)))) md dry (snd isp) (co (fst isp))) (combine (seq i (List.length sps1)) sps1) = Ok outs ->
  fst (sets_out show_dev show_noise fft md dry co cl i (sps1 ++ sps2)) =
  fst (sets_out show_dev show_noise fft md dry co cl i sps1) +++ fst (sets_out show_dev show_noise fft md dry co cl (i + List.length sps1) sps2).
Proof.
  induction sps1 as [|sp sps1 IH]; intros i outs H; [cbn [app List.length]; rewrite Nat.add_0_r; reflexivity|].
  cbn [List.length seq combine mapM fst snd] in H. apply bind_ok in H as (out & Ho & H). apply bind_ok in H as (outs' & Hs & H).
  cbn [app sets_out List.length]. unfold pbind. rewrite run_ends, Ho. cbn [ends fst]. rewrite (IH _ _ Hs), app_assoc_s, Nat.add_succ_r. reflexivity.
Qed.
End MAIN.

(** A run that ends normally prints the header, and for every selected set, in order, its row and the lines of
    its further iterations; nothing else. *)
Theorem C81_table : forall show_dev show_noise fft md f c co cl outs,
  (forall z, plain (show_dev z)) -> (forall d l, plain (show_noise d l)) -> (forall i, plain (fst (fst (cl i))) /\ plain (snd (fst (cl i))) /\ plain (snd (cl i))) ->
  Forall set_fits (select_params f c) -> (md = Checked \/ Forall nonzero (select_params f c)) ->
  main_run fft md f c co = Ok outs ->
  exists blocks, lines (fst (main_out show_dev show_noise fft md f c co cl)) = (header :: flat_map block_lines blocks ++ [""])%list /\
    List.length blocks = List.length (select_params f c) /\
    forall i sp, nth_error (select_params f c) i = Some sp ->
      exists out block, nth_error outs i = Some out /\ nth_error blocks i = Some block /\ reported show_dev show_noise (cli_dryrun c) (cl i) sp out block.
Proof.
  intros sd sn fft md f c co cl outs Hd Hn Hc HF HN H. unfold main_run in H.
  destruct (sets_text sd sn fft md (cli_dryrun c) co cl Hd Hn Hc _ HF HN 0%nat outs H) as (blocks & Et & Fb & Lb & Hb).
  exists blocks. split; [|split; [exact Lb|exact Hb]]. unfold main_out. rewrite pbind_print. cbn [fst]. rewrite Et.
  change ((header +++ NL) +++ unlines (flat_map block_lines blocks)) with ((header +++ String "010" "") +++ unlines (flat_map block_lines blocks)).
  rewrite app_assoc_s. cbn [append]. change (header +++ String "010" (unlines (flat_map block_lines blocks))) with (unlines (header :: flat_map block_lines blocks)).
  rewrite lines_unlines; [reflexivity|]. constructor; [exact header_free|exact Fb].
Qed.
Print Assumptions C81_table.

(** A run that panics in set number [k] has printed the complete reports of all sets before it. *)
Theorem C81_panic_keeps_rows : forall show_dev show_noise fft md f c co cl before sp after outs,
  (forall z, plain (show_dev z)) -> (forall d l, plain (show_noise d l)) -> (forall i, plain (fst (fst (cl i))) /\ plain (snd (fst (cl i))) /\ plain (snd (cl i))) ->
  Forall set_fits before -> (md = Checked \/ Forall nonzero before) ->
  select_params f c = (before ++ sp :: after)%list ->
  mapM (fun isp => run_params (fft (tp_polynomial_size (sp_tfhe (snd isp)))) md (cli_dryrun c) (snd isp) (co (fst isp))) (combine (seq 0 (List.length before)) before) = Ok outs ->
  exists blocks rest, fst (main_out show_dev show_noise fft md f c co cl) = append (unlines (header :: flat_map block_lines blocks)) rest /\
    lines (unlines (header :: flat_map block_lines blocks)) = (header :: flat_map block_lines blocks ++ [""])%list /\
    List.length blocks = List.length before /\
    forall i sp, nth_error before i = Some sp ->
      exists out block, nth_error outs i = Some out /\ nth_error blocks i = Some block /\ reported show_dev show_noise (cli_dryrun c) (cl i) sp out block.
Proof.
  intros sd sn fft md f c co cl before sp after outs Hd Hn Hc HF HN Hs H.
  destruct (sets_text sd sn fft md (cli_dryrun c) co cl Hd Hn Hc _ HF HN 0%nat outs H) as (blocks & Et & Fb & Lb & Hb).
  exists blocks, (fst (sets_out sd sn fft md (cli_dryrun c) co cl (List.length before) (sp :: after))). split; [|split; [|split; [exact Lb|exact Hb]]].
  - unfold main_out. rewrite pbind_print. cbn [fst]. rewrite Hs, (sets_out_app sd sn fft md (cli_dryrun c) co cl before (sp :: after) 0 outs H), Et.
    cbn [unlines Nat.add]. unfold NL. rewrite !app_assoc_s. reflexivity.
  - rewrite lines_unlines; [reflexivity|]. constructor; [exact header_free|exact Fb].
Qed.
Print Assumptions C81_panic_keeps_rows.

(** [sp'] is [sp] with more iterations. *)
Definition more_iterations (sp sp' : server_params) : Prop :=
  sp_tfhe sp' = sp_tfhe sp /\
  match sp_oram sp, sp_oram sp' with
  | SingleQuery i n, SingleQuery i' n' => i' = i /\ n <= n'
  | MultiQuery i qc n, MultiQuery i' qc' n' => i' = i /\ qc' = qc /\ n <= n'
  | Batched r c n, Batched r' c' n' => r' = r /\ c' = c /\ n <= n'
  | _, _ => False
  end.
Lemma iterate_more {A} (rep : nat -> A -> printing unit) f js' js : (forall j a, exists s, rep j a = print s) -> forall sv out, iterate f js sv = Ok out ->
  exists rest, fst (iterate_out rep f (js ++ js') sv) = fst (iterate_out rep f js sv) +++ rest.
Proof.
  intros Hrep. induction js as [|j js IH]; intros sv out H.
  - exists (fst (iterate_out rep f js' sv)). reflexivity.
  - cbn [app iterate_out iterate] in *. apply bind_ok in H as ([a sv1] & Ha & H). apply bind_ok in H as (out' & Ho & H).
    rewrite !pbind_quiet, Ha. cbn [fst snd]. destruct (Hrep j a) as [s ->]. rewrite !pbind_print. cbn [fst].
    destruct (IH sv1 out' Ho) as (rest & ->). exists rest. rewrite app_assoc_s. reflexivity.
Qed.
Lemma report_prints {A} (show : A -> string) m cl j a : exists s, report show m cl j a = print s.
Proof. destruct j; cbn; [destruct cl as [[? ?] ?]|]; eauto. Qed.
Lemma mapM_app {A B} (f : A -> res B) l l' : mapM f (l ++ l') = (a <- mapM f l ;; b <- mapM f l' ;; Ok (a ++ b)%list).
Proof.
  induction l as [|x l IH]; [cbn; destruct (mapM f l'); reflexivity|]. cbn [app mapM]. rewrite IH. destruct (f x); [|reflexivity]. cbn [bind].
  destruct (mapM f l); [|reflexivity]. cbn [bind]. destruct (mapM f l'); reflexivity.
Qed.
Lemma run_more show_dev show_noise fft md dry sp sp' co cl out : more_iterations sp sp' -> run_params fft md dry sp co = Ok out ->
  exists rest, fst (run_params_out show_dev show_noise fft md dry sp' co cl) = fst (run_params_out show_dev show_noise fft md dry sp co cl) +++ rest.
Proof.
  intros [Et Hm] H. unfold run_params in H. apply bind_ok in H as (l & El & H). assert (divisor sp' = divisor sp) as Ed.
  { unfold divisor. destruct (sp_oram sp), (sp_oram sp'); try contradiction; try reflexivity. destruct Hm as (_ & -> & _). reflexivity. }
  unfold run_params_out, run_params_with. cbv zeta. rewrite Ed, Et, ?pbind_quiet, El, ?pbind_print. cbn [fst].
  assert (forall u v w : string, (exists rest, v = w +++ rest) -> exists rest, u +++ v = (u +++ w) +++ rest) as Glue.
  { intros u v w (rest & ->). exists rest. rewrite app_assoc_s. reflexivity. }
  assert (forall n n', n <= n' -> exists m, seq 0 (Z.to_nat n') = (seq 0 (Z.to_nat n) ++ seq (Z.to_nat n) m)%list) as Hseq.
  { intros n n' Hn. exists (Z.to_nat n' - Z.to_nat n)%nat. rewrite <- seq_app. f_equal. lia. }
  apply Glue. destruct (sp_oram sp) as [i n|i qc n|r c n], (sp_oram sp') as [i' n'|i' qc' n'|r' c' n']; try contradiction.
  - destruct Hm as (-> & Hn). destruct (Hseq _ _ Hn) as (m & Em). apply bind_ok in H as (o & Ho & H). unfold single_query in Ho.
    apply bind_ok in Ho as (u & Eu & Ho). unfold single_query_out. rewrite ?pbind_quiet. unfold rassert in *. destruct (0 <? Z.to_nat n)%nat eqn:Hp; [|discriminate].
    apply Nat.ltb_lt in Hp. assert ((0 <? Z.to_nat n')%nat = true) as -> by (apply Nat.ltb_lt; lia).
    apply bind_ok in Ho as (l2 & El2 & Ho). rewrite ?pbind_quiet, El2, ?pbind_print. cbn [fst]. apply Glue. destruct dry; [exists ""; reflexivity|].
    apply bind_ok in Ho as (nh & En & Ho). rewrite ?pbind_quiet, En. apply bind_ok in Ho as (cx & Ec & Ho). rewrite ?pbind_quiet, Ec.
    apply bind_ok in Ho as ([[k sv] pts] & Es & Ho). rewrite ?pbind_quiet, Es, Em. apply (iterate_more _ _ _ _ (report_prints _ _ _) sv o Ho).
  - destruct Hm as (-> & -> & Hn). destruct (Hseq _ _ Hn) as (m & Em). rename H into Ho. unfold multi_query in Ho.
    apply bind_ok in Ho as (u & Eu & Ho). unfold multi_query_out. rewrite ?pbind_quiet. unfold rassert in *. destruct (0 <? Z.to_nat n)%nat eqn:Hp; [|discriminate].
    apply Nat.ltb_lt in Hp. assert ((0 <? Z.to_nat n')%nat = true) as -> by (apply Nat.ltb_lt; lia).
    apply bind_ok in Ho as (l2 & El2 & Ho). rewrite ?pbind_quiet, El2, ?pbind_print. cbn [fst]. apply Glue. destruct dry; [exists ""; reflexivity|].
    apply bind_ok in Ho as (nh & En & Ho). rewrite ?pbind_quiet, En. apply bind_ok in Ho as (cx & Ec & Ho). rewrite ?pbind_quiet, Ec.
    apply bind_ok in Ho as ([[k sv] pts] & Es & Ho). rewrite ?pbind_quiet, Es. apply bind_ok in Ho as (u' & Eu' & Ho). rewrite ?pbind_quiet, Eu', Em.
    apply (iterate_more _ _ _ _ (report_prints _ _ _) sv out Ho).
  - destruct Hm as (-> & -> & Hn). destruct (Hseq _ _ Hn) as (m & Em). rename H into Ho. unfold batch_query in Ho.
    apply bind_ok in Ho as (u & Eu & Ho). unfold batch_query_out. rewrite ?pbind_quiet. unfold rassert in *. destruct (0 <? Z.to_nat n)%nat eqn:Hp; [|discriminate].
    apply Nat.ltb_lt in Hp. assert ((0 <? Z.to_nat n')%nat = true) as -> by (apply Nat.ltb_lt; lia).
    apply bind_ok in Ho as (l2 & El2 & Ho). cbv zeta. rewrite ?pbind_quiet, El2, ?pbind_print. cbn [fst]. apply Glue. destruct dry; [exists ""; reflexivity|].
    apply bind_ok in Ho as (nh & En & Ho). rewrite ?pbind_quiet, En. apply bind_ok in Ho as (cx & Ec & Ho). rewrite ?pbind_quiet, Ec.
    apply bind_ok in Ho as ([[k sv] pts] & Es & Ho). rewrite ?pbind_quiet, Es, Em. apply (iterate_more _ _ _ _ (report_prints _ _ _) sv out Ho).
Qed.

(** Nor does a panic in a later iteration take back what the set has printed: if the sets before and the first
    iterations of this one end normally, their complete reports are printed, whatever happens next. *)
Theorem C81_panic_keeps_iterations : forall show_dev show_noise fft md f c co cl before sp sp' after outs,
  (forall z, plain (show_dev z)) -> (forall d l, plain (show_noise d l)) -> (forall i, plain (fst (fst (cl i))) /\ plain (snd (fst (cl i))) /\ plain (snd (cl i))) ->
  Forall set_fits (before ++ [sp]) -> (md = Checked \/ Forall nonzero (before ++ [sp])) ->
  more_iterations sp sp' -> select_params f c = (before ++ sp' :: after)%list ->
  mapM (fun isp => run_params (fft (tp_polynomial_size (sp_tfhe (snd isp)))) md (cli_dryrun c) (snd isp) (co (fst isp)))
    (combine (seq 0 (List.length (before ++ [sp]))) (before ++ [sp])) = Ok outs ->
  exists blocks rest, fst (main_out show_dev show_noise fft md f c co cl) = append (unlines (header :: flat_map block_lines blocks)) rest /\
    lines (unlines (header :: flat_map block_lines blocks)) = (header :: flat_map block_lines blocks ++ [""])%list /\
    List.length blocks = S (List.length before) /\
    forall i sp1, nth_error (before ++ [sp]) i = Some sp1 ->
      exists out block, nth_error outs i = Some out /\ nth_error blocks i = Some block /\ reported show_dev show_noise (cli_dryrun c) (cl i) sp1 out block.
Proof.
  intros sd sn fft md f c co cl before sp sp' after outs Hd Hn Hc HF HN Hm Hs H.
  destruct (sets_text sd sn fft md (cli_dryrun c) co cl Hd Hn Hc _ HF HN 0%nat outs H) as (blocks & Et & Fb & Lb & Hb).
  rewrite app_length in H. cbn [List.length] in H. rewrite seq_app in H.
  assert (forall (a a' : list nat) (b b' : list server_params), List.length a = List.length b -> combine (a ++ a') (b ++ b') = (combine a b ++ combine a' b')%list) as Hcomb.
  { induction a as [|x a IH]; intros a' [|y b] b' L; try discriminate; [reflexivity|]. cbn. rewrite IH by (cbn in L; lia). reflexivity. }
  rewrite Hcomb, mapM_app in H by apply seq_length. apply bind_ok in H as (o1 & H1 & H). apply bind_ok in H as (o2 & H2 & H).
  cbn [seq combine mapM fst snd Nat.add] in H2. apply bind_ok in H2 as (out & Ho & _).
  destruct (run_more sd sn _ md (cli_dryrun c) sp sp' (co (List.length before)) (cl (List.length before)) out Hm Ho) as (rest & Er).
  rewrite (sets_out_app sd sn fft md (cli_dryrun c) co cl before [sp] 0 o1 H1) in Et. cbn [sets_out Nat.add] in Et.
  assert (forall x (y : printing unit) (z : unit -> printing unit), (exists r, fst y = x +++ r) -> exists r, fst (pbind y z) = x +++ r) as Hp.
  { intros x y z (r & E). unfold pbind. destruct (snd y) as [a|e]; cbn [fst]; rewrite E; [rewrite app_assoc_s|]; eauto. }
  destruct (Hp (fst (run_params_out sd sn (fft (tp_polynomial_size (sp_tfhe sp))) md (cli_dryrun c) sp (co (List.length before)) (cl (List.length before))))
    (run_params_out sd sn (fft (tp_polynomial_size (sp_tfhe sp'))) md (cli_dryrun c) sp' (co (List.length before)) (cl (List.length before)))
    (fun _ => sets_out sd sn fft md (cli_dryrun c) co cl (S (List.length before)) after)) as (r & Epb).
  { exists rest. destruct Hm as [E _]. rewrite E. exact Er. }
  exists blocks, r. rewrite app_length, Nat.add_1_r in Lb. split; [|split; [|split; [exact Lb|exact Hb]]].
  - unfold main_out. rewrite pbind_print. cbn [fst]. rewrite Hs, (sets_out_app sd sn fft md (cli_dryrun c) co cl before (sp' :: after) 0 o1 H1).
    cbn [Nat.add]. cbn [unlines]. rewrite <- Et.
    cbn [sets_out]. rewrite Epb. unfold pbind. rewrite run_ends, Ho. cbn [ends fst quiet]. unfold NL. rewrite !app_assoc_s.
    cbn [append]. rewrite !app_assoc_s. cbn [append]. reflexivity.
  - rewrite lines_unlines; [reflexivity|]. constructor; [exact header_free|exact Fb].
Qed.
Print Assumptions C81_panic_keeps_iterations.

(** Claimed by the column names: "n" is the number of items and "plaintext_modulus" the modulus, written as powers
    of two.  Refuted: both are rounded down to a power of two; in release builds no items at all are reported
    as 2^18446744073709551615. *)
Definition odd_tfhe : tfhe_params :=
  {| tp_standard_deviation := -55; tp_polynomial_size := 2048; tp_base_log := 5; tp_level_count := 9; tp_ks_base_log := 5; tp_ks_level_count := 11;
     tp_negs_base_log := 5; tp_negs_level_count := 11; tp_plaintext_modulus := 3; tp_secure_seed := true |}.
Definition dry_cli : cli :=
  {| cli_mode := 2; cli_item_count := 4096; cli_query_count := 1; cli_rows := 96; cli_cols := 64; cli_tfhe := default_tfhe; cli_dryrun := true |}.
Theorem C81_power_columns_refuted :
  (forall fft md co cl, exists row, main_out (fun _ => "-55") (fun _ _ => "0") fft md (Opened (Some [([SingleQuery 5 1], [odd_tfhe])])) dry_cli co cl = (header +++ NL +++ row +++ NL, Ok tt) /\
     cell header row "n" = Some "2^2" /\ cell header row "plaintext_modulus" = Some "2^1") /\
  (forall fft co cl, exists row, main_out (fun _ => "-55") (fun _ _ => "0") fft Wrapping (Opened (Some [([SingleQuery 0 1], [default_tfhe])])) dry_cli co cl = (header +++ NL +++ row +++ NL, Ok tt) /\
     cell header row "n" = Some "2^18446744073709551615").
Proof.
  split.
  - intros fft md co cl. exists "-55,2048,5,9,5,11,5,11,2^1,true,0,5,-,-,-,2^2,-,-,-,-". split; [destruct md; vm_compute; reflexivity|split; vm_compute; reflexivity].
  - intros fft co cl. exists "-55,2048,5,9,5,11,5,11,2^8,true,0,0,-,-,-,2^18446744073709551615,-,-,-,-". split; [vm_compute; reflexivity|vm_compute; reflexivity].
Qed.
Print Assumptions C81_power_columns_refuted.

(** A case: the runs of C65 on [demo_file]. *)
Example C81_applies : exists outs blocks,
  lines (fst (main_out (fun _ => "-55") (fun _ _ => "1.5") (fun n => exact_fft (Z.to_nat n)) Checked demo_file default_cli (fun _ => demo_coins (@rev nat)) (fun _ => ("0.1", "0.2", "0.3"))))
    = (header :: flat_map block_lines blocks ++ [""])%list /\ List.length blocks = 2%nat /\
  forall i sp, nth_error (select_params demo_file default_cli) i = Some sp ->
    exists out block, nth_error outs i = Some out /\ nth_error blocks i = Some block /\ reported (fun _ => "-55") (fun _ _ => "1.5") false ("0.1", "0.2", "0.3") sp out block.
Proof.
  destruct C65_applies as (outs & E & L & _). exists outs.
  destruct (C81_table (fun _ => "-55") (fun _ _ => "1.5") (fun n => exact_fft (Z.to_nat n)) Checked demo_file default_cli (fun _ => demo_coins (@rev nat))
    (fun _ => ("0.1", "0.2", "0.3")) outs) as (blocks & H1 & H2 & H3).
  - intros; apply plain_lit; reflexivity.
  - intros; apply plain_lit; reflexivity.
  - intros; split; [|split]; apply plain_lit; reflexivity.
  - repeat constructor; unfold set_fits, word; cbn; lia.
  - left. reflexivity.
  - exact E.
  - exists blocks. split; [exact H1|]. split; [exact H2|exact H3].
Qed.
(** A case: the file asks for a thousand iterations of the second set of [demo_file]; whatever becomes of the
    later ones, the reports of the first set and of three iterations are printed. *)
Lemma main_run_eq fft md f c co : main_run fft md f c co =
  mapM (fun isp => run_params (fft (tp_polynomial_size (sp_tfhe (snd isp)))) md (cli_dryrun c) (snd isp) (co (fst isp)))
    (combine (seq 0 (List.length (select_params f c))) (select_params f c)).
Proof. reflexivity. Qed.
Example C81_panic_applies : forall f, f = Opened (Some [([SingleQuery 4 3; MultiQuery 4 2 1000], [demo_tfhe])]) -> exists blocks rest,
  fst (main_out (fun _ => "-55") (fun _ _ => "1.5") (fun n => exact_fft (Z.to_nat n)) Checked f default_cli (fun _ => demo_coins (@rev nat)) (fun _ => ("0.1", "0.2", "0.3")))
    = append (unlines (header :: flat_map block_lines blocks)) rest /\ List.length blocks = 2%nat.
Proof.
  intros f ->. destruct C65_applies as (outs & E & L & _). rewrite main_run_eq in E.
  assert (select_params demo_file default_cli = ([{| sp_oram := SingleQuery 4 3; sp_tfhe := demo_tfhe |}] ++ [{| sp_oram := MultiQuery 4 2 3; sp_tfhe := demo_tfhe |}])%list) as Es by reflexivity.
  rewrite Es in E. clear Es.
  destruct (C81_panic_keeps_iterations (fun _ => "-55") (fun _ _ => "1.5") (fun n => exact_fft (Z.to_nat n)) Checked (Opened (Some [([SingleQuery 4 3; MultiQuery 4 2 1000], [demo_tfhe])]))
    default_cli (fun _ => demo_coins (@rev nat)) (fun _ => ("0.1", "0.2", "0.3")) [{| sp_oram := SingleQuery 4 3; sp_tfhe := demo_tfhe |}]
    {| sp_oram := MultiQuery 4 2 3; sp_tfhe := demo_tfhe |} {| sp_oram := MultiQuery 4 2 1000; sp_tfhe := demo_tfhe |} [] outs) as (blocks & rest & H1 & _ & H2 & _).
  - intros; apply plain_lit; reflexivity.
  - intros; apply plain_lit; reflexivity.
  - intros; split; [|split]; apply plain_lit; reflexivity.
  - repeat constructor; unfold set_fits, word; cbn; lia.
  - left. reflexivity.
  - split; [reflexivity|]. cbn. lia.
  - reflexivity.
  - exact E.
  - exists blocks, rest. split; [exact H1|exact H2].
Qed.
(** The default file of a dry run, in full. *)
Example C81_dry_run : forall fft md co cl, main_out (fun _ => "-55") (fun _ _ => "0") fft md (Opened None) dry_cli co cl =
  (header +++ NL +++ "-55,2048,5,9,5,11,5,11,2^8,true,2,2048,-,384,16,2^11,-,-,-,-" +++ NL, Ok tt).
Proof. intros fft md co cl. destruct md; vm_compute; reflexivity. Qed.

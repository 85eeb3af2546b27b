(** * Properties C77 and C78: trees and parameter lists as JSON. *)
From Coq Require Import String Ascii Lia.
From Verif Require Import MBase MCsv MTree MParams MJson MSerde MShipped MMain PfJson PCsv SpecJson SpecText PfSerde PfSerde2 PfText PfTree PRun.
Local Open Scope nat_scope.

(** ** C77: trees *)

(** A text is read as a tree exactly if it is a JSON text whose value describes the tree and the tree has depth
    at most 63. *)
Theorem C77_reads : forall s t, tree_from_str s = Some t <-> exists j, json_text s j /\ tree_is j t /\ count_depth t <= 63.
Proof.
  intros s t. unfold tree_from_str. rewrite obind_some. change nesting_limit with (2 * 63 + 1). split.
  - intros (j & Hj & H). exists j. split; [apply read_json_spec, Hj|]. apply dec_node_spec, H.
  - intros (j & Hj & H). exists j. split; [apply read_json_spec, Hj|]. apply dec_node_spec, H.
Qed.
Print Assumptions C77_reads.

(** What is written is a JSON text describing the tree. *)
Theorem C77_writes : forall t, word_tree t -> exists j, json_text (tree_to_string t) j /\ tree_is j t.
Proof.
  intros t Hw. destruct (enc_node_spec t Hw) as [H G]. exists (enc_node t). split; [|exact H]. apply read_json_spec, read_render, G.
Qed.
Print Assumptions C77_writes.

(** Trees of depth at most 63 can be read back. *)
Theorem C77_round_trip : forall t, word_tree t -> count_depth t <= 63 -> tree_from_str (tree_to_string t) = Some t.
Proof.
  intros t Hw Hd. apply C77_reads. destruct (C77_writes t Hw) as (j & H1 & H2). exists j. auto.
Qed.
Print Assumptions C77_round_trip.

(** Claimed: every tree can be read back.  Refuted: no tree deeper than 63 can (serde_json's recursion limit). *)
Theorem C77_deep_refuted : forall t, word_tree t -> 64 <= count_depth t -> tree_from_str (tree_to_string t) = None.
Proof.
  intros t Hw Hd. destruct (tree_from_str (tree_to_string t)) as [u|] eqn:E; [|reflexivity]. exfalso.
  apply C77_reads in E as (j & Hj & Hu & Hdu). destruct (enc_node_spec t Hw) as [H G].
  apply read_json_spec in Hj. unfold tree_to_string in Hj. rewrite (read_render _ G) in Hj. injection Hj as <-.
  assert (dec_node (2 * count_depth t + 1) (enc_node t) = Some t) as E1 by (apply dec_node_spec; auto).
  assert (dec_node (2 * count_depth t + 1) (enc_node t) = Some u) as E2 by (apply dec_node_spec; split; [exact Hu|lia]).
  rewrite E1 in E2. injection E2 as ->. lia.
Qed.
Print Assumptions C77_deep_refuted.

(** Different trees are written differently, at any depth. *)
Theorem C77_distinct : forall t u, word_tree t -> word_tree u -> tree_to_string t = tree_to_string u -> t = u.
Proof.
  intros t u Ht Hu E. destruct (enc_node_spec t Ht) as [H1 G1]. destruct (enc_node_spec u Hu) as [H2 G2]. unfold tree_to_string in E.
  pose proof (read_render _ G1) as R1. rewrite E, (read_render _ G2) in R1. injection R1 as R1. rewrite R1 in H2.
  set (k := count_depth t + count_depth u).
  assert (dec_node (2 * k + 1) (enc_node t) = Some t) as E1 by (apply dec_node_spec; split; [exact H1|lia]).
  assert (dec_node (2 * k + 1) (enc_node t) = Some u) as E2 by (apply dec_node_spec; split; [exact H2|lia]).
  congruence.
Qed.
Print Assumptions C77_distinct.

(** *** Instances: the tree and the text of the test at src/decision_tree.rs:728-748. *)
Definition json_tree : node :=
  Internal 1 2 4 LEQ (Some (Internal 11 22 44 GT (Some (Leaf 1)) (Some (Leaf 2)))) (Some (Leaf 3)).
Example C77_text : tree_to_string json_tree =
  "{""internal"":{""threshold"":1,""feature"":2,""index"":4,""op"":""leq"",""left"":{""internal"":{""threshold"":11,""feature"":22,""index"":44,""op"":""gt"",""left"":{""leaf"":1},""right"":{""leaf"":2}}},""right"":{""leaf"":3}}}"%string.
Proof. vm_compute. reflexivity. Qed.
Example C77_applies : tree_from_str (tree_to_string json_tree) = Some json_tree.
Proof. apply C77_round_trip; [cbn; lia|cbn; lia]. Qed.
(** Fields in another order, one absent, one unknown, white space. *)
Example C77_lenient : tree_from_str " { ""internal"" : { ""op"":{""gt"":null},""index"":0,""feature"":7, ""note"":[1e5,""\u00e9""],
   ""right"":{""leaf"":2},""threshold"":10 } } "%string = Some (Internal 10 7 0 GT None (Some (Leaf 2))).
Proof. vm_compute. reflexivity. Qed.
Fixpoint left_chain (d : nat) : node := match d with O => Leaf 1 | S d' => Internal 0 0 0 LEQ (Some (left_chain d')) None end.
Lemma left_chain_word d : word_tree (left_chain d).
Proof. induction d; cbn -[Z.of_nat Z.pow]; [|repeat split; try exact I; try exact IHd]; cbn; lia. Qed.
Lemma left_chain_depth d : count_depth (left_chain d) = d.
Proof. induction d as [|d IH]; [reflexivity|]. cbn [left_chain count_depth]. rewrite IH. destruct (Nat.ltb_spec 0 d); lia. Qed.
Example C77_deep_applies : tree_from_str (tree_to_string (left_chain 64)) = None /\ tree_from_str (tree_to_string (left_chain 63)) = Some (left_chain 63).
Proof.
  split; [apply C77_deep_refuted|apply C77_round_trip]; try apply left_chain_word; rewrite left_chain_depth; lia.
Qed.

(** ** C78: parameter files.  [dev]: the floats number literals stand for. *)
Definition literal (dev : string -> option Z) (v : json) (z : Z) : Prop := exists t, v = JNum t /\ dev t = Some z.

Theorem C78_reads : forall dev s l, read_params dev s = Some l <-> exists j, json_text s j /\ input_is (literal dev) j l.
Proof.
  intros dev s l. unfold read_params. rewrite obind_some. split; intros (j & Hj & H); exists j; (split; [apply read_json_spec, Hj|apply dec_input_spec, H]).
Qed.
Print Assumptions C78_reads.

(** The program: a file that describes a list of pairs makes it run, for each pair in order, every ORAM setting
    with every ciphertext setting; any other file that opens makes it run the default setting once, without a
    word about the error. *)
Definition every_pair (l : input_list) : list server_params :=
  flat_map (fun e => flat_map (fun o => map (fun t => {| sp_oram := o; sp_tfhe := t |}) (snd e)) (fst e)) l.
Lemma push_tfhe_spec o ts : forall out, push_tfhe o ts out = (out ++ map (fun t => {| sp_oram := o; sp_tfhe := t |}) ts)%list.
Proof. unfold push_tfhe. induction ts as [|t ts IH]; intros out; cbn [fold_left map]; [rewrite app_nil_r; reflexivity|]. rewrite IH, <- app_assoc. reflexivity. Qed.
Lemma push_oram_spec ts os : forall out, push_oram os ts out = (out ++ flat_map (fun o => map (fun t => {| sp_oram := o; sp_tfhe := t |}) ts) os)%list.
Proof. unfold push_oram. induction os as [|o os IH]; intros out; cbn [fold_left flat_map]; [rewrite app_nil_r; reflexivity|]. rewrite IH, push_tfhe_spec, <- app_assoc. reflexivity. Qed.
Lemma expand_spec l : from_input_params_list l = every_pair l.
Proof.
  unfold from_input_params_list, every_pair. enough (forall out, fold_left (fun out x => push_oram (fst x) (snd x) out) l out = (out ++ flat_map (fun e => flat_map (fun o => map (fun t => {| sp_oram := o; sp_tfhe := t |}) (snd e)) (fst e)) l)%list) as H by exact (H []).
  induction l as [|e l IH]; intros out; cbn [fold_left flat_map]; [rewrite app_nil_r; reflexivity|]. rewrite IH, push_oram_spec, <- app_assoc. reflexivity.
Qed.
Theorem C78_selects : forall dev s c,
  (forall j l, json_text s j -> input_is (literal dev) j l -> select_params (open_params dev (Some s)) c = every_pair l) /\
  ((forall j l, json_text s j -> ~ input_is (literal dev) j l) ->
   select_params (open_params dev (Some s)) c = [{| sp_oram := Batched 384 16 1; sp_tfhe := default_tfhe |}]).
Proof.
  intros dev s c. unfold open_params, select_params. split.
  - intros j l Hj Hl. assert (read_params dev s = Some l) as -> by (apply C78_reads; eauto). apply expand_spec.
  - intros H. destruct (read_params dev s) as [l|] eqn:E; [|reflexivity]. apply C78_reads in E as (j & Hj & Hl). destruct (H j l Hj Hl).
Qed.
Print Assumptions C78_selects.

(** A list that was written can be read back, if the floats can. *)
Definition is_word (z : Z) : Prop := (0 <= z < 2 ^ 64)%Z.
Definition writable (dev : string -> option Z) (show : Z -> string) (l : input_list) : Prop :=
  forall os ts, In (os, ts) l ->
    (forall o, In o os -> match o with SingleQuery a b => is_word a /\ is_word b | MultiQuery a b c | Batched a b c => is_word a /\ is_word b /\ is_word c end) /\
    (forall t, In t ts ->
       number_text (show (tp_standard_deviation t)) /\ dev (show (tp_standard_deviation t)) = Some (tp_standard_deviation t) /\
       is_word (tp_polynomial_size t) /\ is_word (tp_base_log t) /\ is_word (tp_level_count t) /\ is_word (tp_ks_base_log t) /\
       is_word (tp_ks_level_count t) /\ is_word (tp_negs_base_log t) /\ is_word (tp_negs_level_count t) /\ is_word (tp_plaintext_modulus t)).
Lemma number_good t : number_text t -> good_num t.
Proof.
  intros H. split.
  - destruct (number_start t H) as (c & t' & -> & Hs). unfold num_start in Hs. apply orb_prop in Hs as [Hs|Hs]; [left; exact Hs|right; apply Ascii.eqb_eq, Hs].
  - intros rest Hr. apply read_number_complete; assumption.
Qed.
Theorem C78_round_trip : forall dev show l, writable dev show l -> read_params dev (params_to_string show l) = Some l.
Proof.
  intros dev show l Hw. destruct (enc_input_spec dev show l) as [H G].
  { apply Forall_forall. intros [os ts] Hin. destruct (Hw os ts Hin) as [Ho Ht]. cbn [fst snd]. split; apply Forall_forall.
    - intros o Hi. exact (Ho o Hi).
    - intros t Hi. destruct (Ht t Hi) as (N & D & R). split; [apply number_good, N|]. split; [exact D|exact R]. }
  apply C78_reads. exists (enc_input show l). split; [apply read_json_spec, read_render, G|exact H].
Qed.
Print Assumptions C78_round_trip.

(** The file shipped with the program describes seven settings, all with the default ciphertext parameters. *)
Definition shipped_oram : list oram_params :=
  [SingleQuery 4096 1; MultiQuery 4096 36 1; Batched 384 32 1; Batched 384 128 1; Batched 384 512 1; Batched 384 2048 1; Batched 384 4096 1].
Theorem C78_shipped : forall dev, dev "-55.0"%string = Some (-55)%Z ->
  read_params dev shipped_params = Some [(shipped_oram, [default_tfhe])] /\
  forall c, select_params (open_params dev (Some shipped_params)) c = map (fun o => {| sp_oram := o; sp_tfhe := default_tfhe |}) shipped_oram.
Proof.
  intros dev Hd. assert (read_params dev shipped_params = Some [(shipped_oram, [default_tfhe])]) as E.
  { unfold read_params. set (o := read_json shipped_params). vm_compute in o. subst o. cbn [obind]. vm_compute. rewrite Hd. reflexivity. }
  split; [exact E|]. intros c. unfold open_params. rewrite E. reflexivity.
Qed.
Print Assumptions C78_shipped.
(** So a dry run with it completes. *)
Theorem C78_shipped_dry_run : forall dev fft md c co, dev "-55.0"%string = Some (-55)%Z -> cli_dryrun c = true ->
  exists outs, main_run fft md (open_params dev (Some shipped_params)) c co = Ok outs /\ length outs = 7 /\ Forall (fun out => out = []) outs.
Proof.
  intros dev fft md c co Hd Hc. destruct (C78_shipped dev Hd) as [_ Hs].
  destruct (C65_dry_run fft md (open_params dev (Some shipped_params)) c co Hc) as (outs & E & HF).
  { rewrite Hs. repeat (apply Forall_cons; [split; [cbn; lia|split; [cbn; lia|cbn; lia]]|]). apply Forall_nil. }
  exists outs. split; [exact E|]. split; [|exact HF]. destruct (proj1 (C65_runs_every_set_once fft md _ c co) outs E) as [L _]. rewrite L, Hs. reflexivity.
Qed.
Print Assumptions C78_shipped_dry_run.

(** *** Instances. *)
Definition demo_dev (t : string) : option Z := if String.eqb t "-55.0" then Some (-55)%Z else None.
Definition demo_show (z : Z) : string := "-55.0"%string.
Example C78_applies : read_params demo_dev (params_to_string demo_show default_input) = Some default_input.
Proof.
  apply C78_round_trip. intros os ts [E|[]]. injection E as <- <-. split.
  - intros o [<-|[]]. cbn. unfold is_word. lia.
  - intros t [<-|[]]. split; [|split; [reflexivity|unfold is_word; cbn; lia]].
    exists "-"%string, "55"%string, ".0"%string, ""%string. split; [right; reflexivity|]. split; [right; split; [split; [discriminate|repeat split; vm_compute; discriminate]|discriminate]|].
    split; [right; exists "0"%string; split; [split; [discriminate|repeat split; vm_compute; discriminate]|reflexivity]|]. split; [left; reflexivity|reflexivity].
Qed.
(** A file with a comma too many, or one with a negative count, silently means the default. *)
Example C78_silent_default : forall c,
  select_params (open_params demo_dev (Some "[[[{""SingleQuery"":{""item_count"":4,""iterations"":1}}],[],]]"%string)) c = [{| sp_oram := Batched 384 16 1; sp_tfhe := default_tfhe |}] /\
  select_params (open_params demo_dev (Some "[[[{""SingleQuery"":{""item_count"":-4,""iterations"":1}}],[]]]"%string)) c = [{| sp_oram := Batched 384 16 1; sp_tfhe := default_tfhe |}].
Proof. intros c. split; vm_compute; reflexivity. Qed.

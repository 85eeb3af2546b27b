(** * The derived deserialisers accept exactly what the specification describes. *)
From Coq Require Import String Ascii Lia.
From Verif Require Import MBase MCsv MTree MParams MJson MSerde PfJson PCsv SpecJson PfTree.
Local Open Scope nat_scope.

Lemma obind_some {A B} (o : option A) (f : A -> option B) b : obind o f = Some b <-> exists a, o = Some a /\ f a = Some b.
Proof. destruct o as [a|]; cbn; split; [intros H; exists a; auto|intros (x & E & H); congruence|discriminate|intros (x & E & H); discriminate]. Qed.

Lemma dec_word_spec v z : dec_word v = Some z <-> word_is v z.
Proof.
  unfold dec_word, word_is. split.
  - destruct v as [|b|t|s|vs|fs]; try discriminate. destruct t as [|c t]; [discriminate|]. intros H.
    destruct (parse_digits_some _ _ _ H) as (ds & Hds & E). rewrite E, parse_digits_numeral in H by (trivial; lia).
    rewrite Z.mul_0_l, Z.add_0_l in H. destruct ds as [|d ds]; [discriminate E|]. destruct (Z.ltb_spec (value (d :: ds)) q) as [Hlt|]; [|discriminate].
    injection H as <-. exists (d :: ds). split; [discriminate|]. split; [exact Hds|]. split; [rewrite E; reflexivity|]. split; [reflexivity|]. exact Hlt.
  - intros (ds & Hne & Hds & -> & -> & Hlt). destruct ds as [|d ds]; [congruence|]. cbn [numeral]. change (String (digit_char d) (numeral ds)) with (numeral (d :: ds)).
    rewrite parse_digits_numeral by (trivial; lia). rewrite Z.mul_0_l, Z.add_0_l. change (2 ^ 64)%Z with q in Hlt. rewrite (proj2 (Z.ltb_lt _ _) Hlt). reflexivity.
Qed.
Lemma word_nonneg v z : word_is v z -> (0 <= z)%Z.
Proof. intros (ds & _ & Hds & _ & -> & _). apply value_nonneg, Hds. Qed.
Lemma dec_usize_spec v n : dec_usize v = Some n <-> usize_is v n.
Proof.
  unfold dec_usize, usize_is. rewrite obind_some. split.
  - intros (z & H & E). injection E as <-. apply dec_word_spec in H. rewrite Z2Nat.id by (exact (word_nonneg _ _ H)). exact H.
  - intros H. exists (Z.of_nat n). split; [apply dec_word_spec, H|]. rewrite Nat2Z.id. reflexivity.
Qed.
Lemma dec_bool_spec v b : dec_bool v = Some b <-> bool_is v b.
Proof. unfold dec_bool, bool_is. destruct v; split; intros H; try discriminate; congruence. Qed.

(** Fields. *)
Lemma filter_none k (fs : list (string * json)) : ~ In k (map fst fs) -> filter (fun e => String.eqb (fst e) k) fs = [].
Proof.
  induction fs as [|[k' v] fs IH]; intros H; [reflexivity|]. cbn [filter fst]. destruct (String.eqb_spec k' k) as [->|Hn].
  - exfalso. apply H. left. reflexivity.
  - apply IH. intros Hi. apply H. right. exact Hi.
Qed.
Lemma filter_nil k (fs : list (string * json)) : filter (fun e => String.eqb (fst e) k) fs = [] -> ~ In k (map fst fs).
Proof.
  intros H Hi. apply in_map_iff in Hi as ([k' v] & E & Hi). cbn in E. subst k'.
  assert (In (k, v) (filter (fun e => String.eqb (fst e) k) fs)) as Hf by (apply filter_In; split; [exact Hi|apply String.eqb_refl]). rewrite H in Hf. destruct Hf.
Qed.
Lemma field_once k fs v : field k fs = Some (Some v) <-> once k fs v.
Proof.
  unfold field, once. split.
  - destruct (filter _ fs) as [|[k0 v0] l] eqn:E; [discriminate|]. destruct l; [|discriminate]. intros H. injection H as ->.
    induction fs as [|[k' v'] fs IH]; [discriminate|]. cbn [filter fst] in E. destruct (String.eqb_spec k' k) as [->|Hn].
    + injection E as <- <- E. exists [], fs. split; [reflexivity|]. split; [intros []|]. apply filter_nil, E.
    + destruct (IH E) as (b & a & -> & Hb & Ha). exists ((k', v') :: b), a. split; [reflexivity|]. split; [|exact Ha]. cbn. intros [H|H]; [congruence|]. apply Hb, H.
  - intros (b & a & -> & Hb & Ha). rewrite filter_app. cbn [filter fst]. rewrite String.eqb_refl, (filter_none _ _ Hb), (filter_none _ _ Ha). reflexivity.
Qed.
Lemma field_absent k fs : field k fs = Some None <-> absent k fs.
Proof.
  unfold field, absent. split.
  - destruct (filter _ fs) as [|[k0 v0] l] eqn:E; [|destruct l; discriminate]. intros _. apply filter_nil, E.
  - intros H. rewrite (filter_none _ _ H). reflexivity.
Qed.
Lemma required_spec {A} (dec : json -> option A) (is : json -> A -> Prop) k fs a :
  (forall v, dec v = Some a <-> is v a) -> required dec k fs = Some a <-> has is k fs a.
Proof.
  intros H. unfold required, has. rewrite obind_some. split.
  - intros ([v|] & E & Hd); [|discriminate]. exists v. split; [apply field_once, E|apply H, Hd].
  - intros (v & E & Hd). exists (Some v). split; [apply field_once, E|apply H, Hd].
Qed.

Lemma op_name_spec k o : op_name k = Some o <-> (k = "leq" /\ o = LEQ \/ k = "gt" /\ o = GT)%string.
Proof.
  unfold op_name. destruct (String.eqb_spec k "leq") as [->|H1].
  - split; [intros H; left; split; [reflexivity|congruence]|intros [[_ ->]|[H _]]; [reflexivity|discriminate]].
  - destruct (String.eqb_spec k "gt") as [->|H2].
    + split; [intros H; right; split; [reflexivity|congruence]|intros [[H _]|[_ ->]]; [discriminate|reflexivity]].
    + split; [discriminate|]. intros [[H _]|[H _]]; contradiction.
Qed.
Lemma dec_op_spec d v o : dec_op (S d) v = Some o <-> op_is v o.
Proof.
  split.
  - destruct v as [|b|t|s|vs|fs]; try discriminate.
    + cbn [dec_op]. intros H. apply op_name_spec in H as [[-> ->]|[-> ->]]; constructor.
    + cbn [dec_op]. destruct fs as [|[k v] fs]; [discriminate|]. destruct v, fs; try discriminate. cbn [enter obind]. intros H.
      apply op_name_spec in H as [[-> ->]|[-> ->]]; constructor.
  - intros H. destruct H; reflexivity.
Qed.

(** A tree of depth at most [k] needs [2 * k + 1] levels of nesting. *)
Definition child_depth (o : option node) : nat := match o with Some t => count_depth t | None => 0 end.
Lemma depth_internal th f ix o l r k : count_depth (Internal th f ix o l r) <= S k <-> child_depth l <= k /\ child_depth r <= k.
Proof.
  cbn [count_depth]. unfold child_depth. destruct l as [l|], r as [r|];
    cbv zeta; match goal with |- context [if ?x then _ else _] => destruct x eqn:E end; first [apply Nat.ltb_lt in E|apply Nat.ltb_ge in E]; lia.
Qed.
Lemma depth_internal_0 th f ix o l r : ~ count_depth (Internal th f ix o l r) <= 0.
Proof. cbn [count_depth]. match goal with |- context [if ?x then _ else _] => destruct x end; lia. Qed.

Lemma dec_option_spec k v o : (forall j t, dec_node (2 * k + 1) j = Some t <-> tree_is j t /\ count_depth t <= k) ->
  dec_option (dec_node (2 * k + 1)) v = Some o <-> child_is v o /\ child_depth o <= k.
Proof.
  intros IH. unfold dec_option. split.
  - destruct v as [|b|t|s|vs|fs]; [intros H; injection H as <-; split; [constructor|cbn; lia]| | | | |];
      intros H; apply obind_some in H as (t' & H & E); injection E as <-; apply IH in H as [H Hd]; (split; [constructor; exact H|exact Hd]).
  - intros [H Hd]. destruct H as [|v t H].
    + reflexivity.
    + assert (dec_node (2 * k + 1) v = Some t) as E by (apply IH; auto). rewrite E. inversion H; reflexivity.
Qed.
Lemma optional_spec k key fs o : (forall j t, dec_node (2 * k + 1) j = Some t <-> tree_is j t /\ count_depth t <= k) ->
  optional (dec_option (dec_node (2 * k + 1))) key fs = Some o <-> child_in key fs o /\ child_depth o <= k.
Proof.
  intros IH. unfold optional. rewrite obind_some. split.
  - intros ([v|] & E & H).
    + apply (dec_option_spec k v o IH) in H as [H Hd]. split; [|exact Hd]. apply child_once with v; [apply field_once, E|exact H].
    + injection H as <-. split; [|cbn; lia]. apply child_absent. apply field_absent, E.
  - intros [H Hd]. destruct H as [key fs Ha|key fs v o Ho Hc].
    + exists None. split; [apply field_absent, Ha|reflexivity].
    + exists (Some v). split; [apply field_once, Ho|]. apply (dec_option_spec k v o IH). auto.
Qed.

Theorem dec_node_spec k : forall j t, dec_node (2 * k + 1) j = Some t <-> tree_is j t /\ count_depth t <= k.
Proof.
  induction k as [|k IH]; intros j t.
  - change (2 * 0 + 1) with 1. cbn [dec_node]. split.
    + destruct j as [|b|tk|s|vs|fs]; try discriminate. destruct fs as [|[key v] fs]; [discriminate|]. destruct fs; [|discriminate].
      destruct (String.eqb_spec key "internal"); [discriminate|]. destruct (String.eqb_spec key "leaf") as [->|]; [|discriminate].
      intros H. apply obind_some in H as (x & H & E). injection E as <-. apply dec_usize_spec in H. split; [constructor; exact H|cbn; lia].
    + intros [H Hd]. destruct H as [v n H|fs th f ix o l r|vth vf vix vo vl vr th f ix o l r].
      * cbn [String.eqb Ascii.eqb Bool.eqb]. cbn iota. rewrite (proj2 (dec_usize_spec v n) H). reflexivity.
      * exfalso. exact (depth_internal_0 _ _ _ _ _ _ Hd).
      * exfalso. exact (depth_internal_0 _ _ _ _ _ _ Hd).
  - replace (2 * S k + 1) with (S (S (2 * k + 1))) by lia. cbn [dec_node].
    assert (exists d, 2 * k + 1 = S d) as [d Ed] by (exists (2 * k); lia).
    split.
    + destruct j as [|b|tk|s|vs|fs]; try discriminate. destruct fs as [|[key v] fs]; [discriminate|]. destruct fs; [|discriminate].
      destruct (String.eqb_spec key "internal") as [->|].
      2:{ destruct (String.eqb_spec key "leaf") as [->|]; [|discriminate].
          intros H. apply obind_some in H as (x & H & E). injection E as <-. apply dec_usize_spec in H. split; [constructor; exact H|cbn; lia]. }
      destruct v as [|b|tk|s|vs|fs]; try discriminate.
      * destruct vs as [|vth [|vf [|vix [|vo [|vl [|vr [|]]]]]]]; try discriminate. intros H.
        apply obind_some in H as (th & H1 & H). apply obind_some in H as (f & H2 & H). apply obind_some in H as (ix & H3 & H). apply obind_some in H as (o & H4 & H).
        apply obind_some in H as (l & H5 & H). apply obind_some in H as (r & H6 & H). injection H as <-.
        apply dec_usize_spec in H1, H2, H3. rewrite Ed in H4. apply dec_op_spec in H4. apply (dec_option_spec k) in H5 as [H5 D5]; [|exact IH]. apply (dec_option_spec k) in H6 as [H6 D6]; [|exact IH].
        split; [constructor; assumption|]. apply depth_internal. auto.
      * intros H.
        apply obind_some in H as (th & H1 & H). apply obind_some in H as (f & H2 & H). apply obind_some in H as (ix & H3 & H). apply obind_some in H as (o & H4 & H).
        apply obind_some in H as (l & H5 & H). apply obind_some in H as (r & H6 & H). injection H as <-.
        apply (required_spec _ usize_is) in H1; [|intros v; apply dec_usize_spec]. apply (required_spec _ usize_is) in H2; [|intros v; apply dec_usize_spec]. apply (required_spec _ usize_is) in H3; [|intros v; apply dec_usize_spec].
        rewrite Ed in H4. apply (required_spec _ op_is) in H4; [|intros v; apply dec_op_spec].
        apply (optional_spec k) in H5 as [H5 D5]; [|exact IH]. apply (optional_spec k) in H6 as [H6 D6]; [|exact IH].
        split; [constructor; assumption|]. apply depth_internal. auto.
    + intros [H Hd]. destruct H as [v n H|fs th f ix o l r H1 H2 H3 H4 H5 H6|vth vf vix vo vl vr th f ix o l r H1 H2 H3 H4 H5 H6].
      * cbn [String.eqb Ascii.eqb Bool.eqb]. cbn iota. rewrite (proj2 (dec_usize_spec v n) H). reflexivity.
      * apply depth_internal in Hd as [D5 D6]. cbn [String.eqb Ascii.eqb Bool.eqb]. cbn iota.
        rewrite (proj2 (required_spec _ usize_is _ _ _ (fun v => dec_usize_spec v th)) H1), (proj2 (required_spec _ usize_is _ _ _ (fun v => dec_usize_spec v f)) H2), (proj2 (required_spec _ usize_is _ _ _ (fun v => dec_usize_spec v ix)) H3).
        assert (required (dec_op (2 * k + 1)) "op" fs = Some o) as -> by (rewrite Ed; apply (required_spec _ op_is); [intros v; apply dec_op_spec|exact H4]).
        rewrite (proj2 (optional_spec k "left" fs l IH) (conj H5 D5)), (proj2 (optional_spec k "right" fs r IH) (conj H6 D6)). reflexivity.
      * apply depth_internal in Hd as [D5 D6]. cbn [String.eqb Ascii.eqb Bool.eqb]. cbn iota.
        rewrite (proj2 (dec_usize_spec _ _) H1), (proj2 (dec_usize_spec _ _) H2), (proj2 (dec_usize_spec _ _) H3).
        assert (dec_op (2 * k + 1) vo = Some o) as -> by (rewrite Ed; apply dec_op_spec, H4).
        rewrite (proj2 (dec_option_spec k vl l IH) (conj H5 D5)), (proj2 (dec_option_spec k vr r IH) (conj H6 D6)). reflexivity.
Qed.

(** What the serialiser writes is a good JSON value describing the tree. *)
Lemma canonical_word z : (0 <= z < q)%Z -> word_is (JNum (itoa z)) z /\ good_num (itoa z).
Proof.
  intros H. destruct (itoa_parse z H) as [Hp Hc]. split; [|apply canonical_good, Hc]. apply dec_word_spec. cbn [dec_word].
  destruct (itoa z) as [|c s] eqn:E; [destruct Hc as [_ []]|]. exact Hp.
Qed.
Lemma usize_word n : (Z.of_nat n < 2 ^ 64)%Z -> usize_is (enc_usize n) n /\ good (enc_usize n).
Proof. intros H. change (2 ^ 64)%Z with q in H. apply canonical_word. lia. Qed.
Lemma op_word o : op_is (enc_op o) o.
Proof. destruct o; constructor. Qed.

Ltac once_tac := match goal with |- once ?k ?fs ?v =>
  let rec go b a := match a with
    | (k, v) :: ?a' => exists (rev b), a'; split; [reflexivity|split; cbn; intuition discriminate]
    | ?e :: ?a' => go (e :: b) a' end in go (@nil (string * json)) fs end.

Theorem enc_node_spec t : word_tree t -> tree_is (enc_node t) t /\ good (enc_node t).
Proof.
  induction t as [x|th f ix o l r IHl IHr] using node_ind'; intros Hw.
  - cbn [word_tree] in Hw. destruct (usize_word x Hw) as [H1 H2]. cbn [enc_node]. split; [constructor; exact H1|]. apply good_obj. constructor; [exact H2|constructor].
  - destruct Hw as (H1 & H2 & H3 & H5 & H6). apply usize_word in H1 as [H1 G1], H2 as [H2 G2], H3 as [H3 G3].
    assert (child_is (match l with Some u => enc_node u | None => JNull end) l /\ good (match l with Some u => enc_node u | None => JNull end)) as [Cl Gl].
    { destruct l as [u|]; [|split; [constructor|exact I]]. destruct (IHl u eq_refl H5) as [A B]. split; [constructor; exact A|exact B]. }
    assert (child_is (match r with Some u => enc_node u | None => JNull end) r /\ good (match r with Some u => enc_node u | None => JNull end)) as [Cr Gr].
    { destruct r as [u|]; [|split; [constructor|exact I]]. destruct (IHr u eq_refl H6) as [A B]. split; [constructor; exact A|exact B]. }
    cbn [enc_node]. set (jl := match l with Some u => enc_node u | None => JNull end) in *. set (jr := match r with Some u => enc_node u | None => JNull end) in *.
    split.
    + apply tree_named.
      * exists (enc_usize th). split; [once_tac|exact H1].
      * exists (enc_usize f). split; [once_tac|exact H2].
      * exists (enc_usize ix). split; [once_tac|exact H3].
      * exists (enc_op o). split; [once_tac|apply op_word].
      * apply child_once with jl; [once_tac|exact Cl].
      * apply child_once with jr; [once_tac|exact Cr].
    + apply good_obj. constructor; [|constructor]. cbn [snd]. apply good_obj. repeat (apply Forall_cons; [first [assumption|exact I]|]). apply Forall_nil.
Qed.

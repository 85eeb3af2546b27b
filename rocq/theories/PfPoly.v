(** * Facts about the polynomial operations of MPoly.v *)
From Coq Require Import Setoid Morphisms Ring.
From Verif Require Import MBase MUtils MPoly PolyRing PfUtils.
Local Open Scope Z_scope.

Lemma map2_length {A B C} (f : A -> B -> C) a b : length a = length b -> length (map2 f a b) = length a.
Proof. revert b; induction a; intros [|y b]; cbn; intros; try lia. rewrite IHa; lia. Qed.
Lemma map2_nth {A B C} (f : A -> B -> C) a b k da db dc :
  length a = length b -> (k < length a)%nat -> nth k (map2 f a b) dc = f (nth k a da) (nth k b db).
Proof.
  revert b k; induction a; intros [|y b] k; cbn; intros H Hk; try lia.
  destruct k; [reflexivity|]. apply IHa; lia.
Qed.
Lemma map2_Forall {A B C} (f : A -> B -> C) (Q : C -> Prop) a b : (forall x y, Q (f x y)) -> Forall Q (map2 f a b).
Proof. intros H. revert b; induction a; intros [|y b]; cbn; constructor; auto. Qed.

Lemma wfp_len n p : wfp n p -> length p = n. Proof. intros [H _]; exact H. Qed.
Lemma wfp_word n p k : wfp n p -> is_word (nth k p 0).
Proof.
  intros [_ H]. destruct (Nat.lt_ge_cases k (length p)).
  - rewrite Forall_forall in H. apply H, nth_In; assumption.
  - rewrite nth_overflow by assumption. split; [lia | reflexivity].
Qed.
Lemma wfp_add n a b : length a = n -> length b = n -> wfp n (poly_add a b).
Proof. intros Ha Hb. split; [unfold poly_add; rewrite map2_length; lia|]. apply map2_Forall. intros; apply wrap_word. Qed.
Lemma wfp_sub n a b : length a = n -> length b = n -> wfp n (poly_sub a b).
Proof. intros Ha Hb. split; [unfold poly_sub; rewrite map2_length; lia|]. apply map2_Forall. intros; apply wrap_word. Qed.
Lemma wfp_neg n a : length a = n -> wfp n (poly_neg a).
Proof. intros H. split; [unfold poly_neg; rewrite map_length; exact H|]. apply Forall_forall. intros x Hx. apply in_map_iff in Hx as (y & <- & _). apply wrap_word. Qed.
Lemma wfp_zero n : wfp n (poly_zero n).
Proof. split; [apply repeat_length|]. apply Forall_forall. intros x Hx. apply repeat_spec in Hx as ->. split; [lia|reflexivity]. Qed.
Lemma wfp_mono n d c : is_word c -> wfp n (poly_mono n d c).
Proof.
  intros Hc. split; [unfold poly_mono; rewrite map_length, seq_length; reflexivity|].
  apply Forall_forall. intros x Hx. apply in_map_iff in Hx as (k & <- & _). destruct (k =? d)%nat; [exact Hc|].
  split; [lia|reflexivity].
Qed.
Lemma wfp_mul n a b : wfp n (poly_mul n a b).
Proof.
  split; [unfold poly_mul; rewrite map_length, seq_length; reflexivity|].
  apply Forall_forall. intros x Hx. apply in_map_iff in Hx as (k & <- & _). apply wrap_word.
Qed.
Lemma wfp_mul_const n p c : length p = n -> wfp n (mul_const p c).
Proof. intros H. split; [unfold mul_const; rewrite map_length; exact H|]. apply Forall_forall. intros x Hx. apply in_map_iff in Hx as (y & <- & _). apply wrap_word. Qed.

Lemma tof_add n a b : length a = n -> length b = n -> peq n (tof (poly_add a b)) (padd (tof a) (tof b)).
Proof.
  intros Ha Hb k Hk. unfold tof, padd, poly_add. rewrite (map2_nth _ _ _ _ 0 0) by lia. apply wrap_eqm.
Qed.
Lemma tof_sub n a b : length a = n -> length b = n -> peq n (tof (poly_sub a b)) (psub (tof a) (tof b)).
Proof.
  intros Ha Hb k Hk. unfold tof, psub, poly_sub. rewrite (map2_nth _ _ _ _ 0 0) by lia. apply wrap_eqm.
Qed.
Lemma nth_map_in {A B} (f : A -> B) l k da db : (k < length l)%nat -> nth k (map f l) db = f (nth k l da).
Proof. intros H. rewrite (nth_indep _ db (f da)) by (rewrite map_length; exact H). apply map_nth. Qed.
Lemma tof_neg n a : length a = n -> peq n (tof (poly_neg a)) (popp (tof a)).
Proof.
  intros Ha k Hk. unfold tof, popp, poly_neg. rewrite (nth_map_in _ _ _ 0) by lia. apply wrap_eqm.
Qed.
Lemma tof_zero n : peq n (tof (poly_zero n)) pzero.
Proof. intros k Hk. unfold tof, pzero, poly_zero. rewrite nth_repeat. reflexivity. Qed.
Lemma tof_mono_nth n d c k : (k < n)%nat -> tof (poly_mono n d c) k = if (k =? d)%nat then c else 0.
Proof. intros Hk. unfold tof, poly_mono. rewrite (nth_map_in _ _ _ 0%nat) by (rewrite seq_length; lia). rewrite seq_nth by lia. reflexivity. Qed.
Lemma tof_pcst n c : peq n (tof (poly_mono n 0 c)) (pcst c).
Proof. intros k Hk. rewrite tof_mono_nth by exact Hk. destruct k; reflexivity. Qed.
Lemma tof_mul_const n p c : (0 < n)%nat -> length p = n -> peq n (tof (mul_const p c)) (pmul n (pcst c) (tof p)).
Proof.
  intros Hn Hp k Hk. rewrite pmul_pcst_exact by assumption. unfold tof, mul_const.
  rewrite (nth_map_in _ _ _ 0) by lia. unfold wmul. rewrite Z.mul_comm. apply wrap_eqm.
Qed.

Lemma sum_list_seq m f a : sum_list (map f (seq a m)) = sumf m (fun i => f (a + i)%nat).
Proof.
  revert a; induction m as [|m IH]; intros a; [reflexivity|].
  rewrite (sumf_split 1 m). cbn [seq map]. unfold sum_list in *. cbn [fold_right sumf]. rewrite IH.
  rewrite Nat.add_0_r. f_equal. apply sumf_ext; intros i _. f_equal. lia.
Qed.

(** The coefficient formula of the schoolbook product. *)
Lemma pmul_coef n f g k : (k < n)%nat -> pmul n f g k =
  sumf n (fun i => if (i <=? k)%nat then f i * g (k - i)%nat else - (f i * g (n + k - i)%nat)).
Proof.
  intros Hk. unfold pmul. apply sumf_ext; intros i Hi.
  destruct (Nat.leb_spec i k) as [L|L].
  - rewrite (sumf_single _ _ (k - i)%nat); [|lia|].
    + replace (i + (k - i))%nat with k by lia. rewrite mono_small, Nat.eqb_refl by lia. ring.
    + intros j Hj Hne. unfold mono. destruct (Nat.eqb_spec ((i + j) mod n) k) as [E|E]; [|ring].
      exfalso. destruct (Nat.lt_ge_cases (i + j) n).
      * rewrite Nat.mod_small in E by lia. lia.
      * replace (i + j)%nat with ((i + j - n) + 1 * n)%nat in E by lia.
        rewrite Nat.mod_add in E by lia. rewrite Nat.mod_small in E by lia. lia.
  - rewrite (sumf_single _ _ (n + k - i)%nat); [|lia|].
    + replace (i + (n + k - i))%nat with (k + 1 * n)%nat by lia.
      rewrite mono_addn, mono_small, Nat.eqb_refl by lia. cbn [sg Nat.even]. change (sg 1) with (-1). ring.
    + intros j Hj Hne. unfold mono. destruct (Nat.eqb_spec ((i + j) mod n) k) as [E|E]; [|ring].
      exfalso. destruct (Nat.lt_ge_cases (i + j) n).
      * rewrite Nat.mod_small in E by lia. lia.
      * replace (i + j)%nat with ((i + j - n) + 1 * n)%nat in E by lia.
        rewrite Nat.mod_add in E by lia. rewrite Nat.mod_small in E by lia. lia.
Qed.
Lemma tof_mul n a b : peq n (tof (poly_mul n a b)) (pmul n (tof a) (tof b)).
Proof.
  intros k Hk. rewrite pmul_coef by exact Hk. unfold tof at 1, poly_mul.
  rewrite (nth_map_in _ _ _ 0%nat) by (rewrite seq_length; lia). rewrite seq_nth by lia.
  rewrite wrap_eqm, sum_list_seq. reflexivity.
Qed.

Lemma tof_inj n a b : wfp n a -> wfp n b -> peq n (tof a) (tof b) -> a = b.
Proof.
  intros Ha Hb H. apply (nth_ext _ _ 0 0); [rewrite (wfp_len _ _ Ha), (wfp_len _ _ Hb); reflexivity|].
  intros k Hk. rewrite (wfp_len _ _ Ha) in Hk. apply eqm_word; [eapply wfp_word; eassumption..|].
  apply (H k Hk).
Qed.

(** ** Division by a monomial *)
Lemma wfp_monomial_div n (p : poly) m : wfp n p -> (0 < n)%nat -> wfp n (monomial_div p m).
Proof.
  intros Hp Hn. unfold monomial_div. cbv zeta. rewrite (wfp_len _ _ Hp).
  set (p1 := if Nat.even (m / n) then p else poly_neg p).
  assert (wfp n p1) as H1 by (unfold p1; destruct (Nat.even _); [exact Hp | apply wfp_neg, (wfp_len _ _ Hp)]).
  pose proof (Nat.mod_upper_bound m n ltac:(lia)). split.
  - pose proof (wfp_len _ _ H1) as L1. clearbody p1. rewrite app_length, skipn_length. unfold poly_neg.
    rewrite map_length, firstn_length. lia.
  - apply Forall_app. split.
    + apply Forall_forall. intros x Hx. destruct H1 as [_ F]. rewrite Forall_forall in F. apply F.
      rewrite <- (firstn_skipn (m mod n) p1). apply in_or_app; right; exact Hx.
    + apply wfp_neg with (n := length (firstn (m mod n) p1)). reflexivity.
Qed.

Lemma monomial_div_nth n (p : poly) m k : wfp n p -> (0 < n)%nat -> (k < n)%nat ->
  eqm (tof (monomial_div p m) k)
      (sg (m / n) * (if (k + m mod n <? n)%nat then tof p (k + m mod n)%nat else - tof p (k + m mod n - n)%nat)).
Proof.
  intros Hp Hn Hk. unfold tof, monomial_div. cbv zeta. rewrite (wfp_len _ _ Hp).
  set (p1 := if Nat.even (m / n) then p else poly_neg p).
  set (r := (m mod n)%nat). assert (r < n)%nat by (apply Nat.mod_upper_bound; lia).
  assert (length p1 = n) as L1.
  { unfold p1. destruct (Nat.even _); [|unfold poly_neg; rewrite map_length]; apply (wfp_len _ _ Hp). }
  assert (forall j, (j < n)%nat -> eqm (nth j p1 0) (sg (m / n) * nth j p 0)) as N1.
  { intros j Hj. unfold p1, sg. destruct (Nat.even (m / n)).
    - apply eq_eqm; ring.
    - unfold poly_neg. rewrite (nth_map_in _ _ _ 0) by (rewrite (wfp_len _ _ Hp); lia).
      unfold wsub. rewrite wrap_eqm. apply eq_eqm; ring. }
  destruct (Nat.ltb_spec (k + r) n).
  - rewrite app_nth1 by (rewrite skipn_length; lia).
    replace (nth k (skipn r p1) 0) with (nth (r + k) p1 0).
    2:{ rewrite <- (firstn_skipn r p1) at 1. rewrite app_nth2 by (rewrite firstn_length; lia).
        f_equal. rewrite firstn_length. lia. }
    rewrite N1 by lia. rewrite (Nat.add_comm k r). reflexivity.
  - rewrite app_nth2 by (rewrite skipn_length; lia). rewrite skipn_length.
    unfold poly_neg. rewrite (nth_map_in _ _ _ 0) by (rewrite firstn_length; lia).
    replace (nth (k - (length p1 - r)) (firstn r p1) 0) with (nth (k + r - n) p1 0).
    2:{ rewrite <- (firstn_skipn r p1) at 1. rewrite app_nth1 by (rewrite firstn_length; lia). f_equal. lia. }
    unfold wsub. rewrite wrap_eqm. rewrite N1 by lia. apply eq_eqm; ring.
Qed.

(** X^m times the quotient is the original polynomial. *)
Lemma pmul_mono_coef n m f k : (0 < n)%nat -> (k < n)%nat ->
  pmul n (mono n m) f k = sumf n (fun j => f j * mono n (m + j) k).
Proof.
  intros Hn Hk. unfold pmul. rewrite sumf_swap. apply sumf_ext; intros j _.
  rewrite <- (mono_mono n Hn m j k), <- sumf_scal. apply sumf_ext; intros i _. ring.
Qed.
Lemma monomial_div_spec n p m : wfp n p -> (0 < n)%nat ->
  peq n (pmul n (mono n m) (tof (monomial_div p m))) (tof p).
Proof.
  intros Hp Hn k Hk. rewrite pmul_mono_coef by assumption.
  set (r := (m mod n)%nat). assert (r < n)%nat by (apply Nat.mod_upper_bound; lia).
  assert (exists j, (j < n)%nat /\ ((j + r = k)%nat \/ (j + r = k + n)%nat)) as (j & Hj & E).
  { destruct (Nat.le_gt_cases r k); [exists (k - r)%nat | exists (k + n - r)%nat]; lia. }
  rewrite (sumf_single _ _ j); [|exact Hj|].
  - rewrite (monomial_div_nth n p m j Hp Hn Hj). fold r.
    replace (m + j)%nat with ((j + r) + (m / n) * n)%nat by (pose proof (Nat.div_mod m n ltac:(lia)); unfold r; lia).
    rewrite mono_addn by exact Hn. destruct E as [E|E]; rewrite E.
    + destruct (Nat.ltb_spec k n); [|lia]. rewrite mono_small, Nat.eqb_refl by lia.
      apply eq_eqm. transitivity (sg (m / n) * sg (m / n) * tof p k); [ring | rewrite sg_sq; ring].
    + destruct (Nat.ltb_spec (k + n) n); [lia|].
      replace (k + n)%nat with (k + 1 * n)%nat by lia. rewrite mono_addn, mono_small, Nat.eqb_refl by lia.
      replace (k + 1 * n - n)%nat with k by lia. change (sg 1) with (-1).
      apply eq_eqm. transitivity (sg (m / n) * sg (m / n) * tof p k); [ring | rewrite sg_sq; ring].
  - intros i Hi Hne. unfold mono.
    destruct (Nat.eqb_spec ((m + i) mod n) k) as [Ek|]; [|ring]. exfalso. apply Hne.
    apply (shift_inj n m); [exact Hi|exact Hj|].
    rewrite Ek. symmetry.
    replace (m + j)%nat with ((j + r) + (m / n) * n)%nat by (pose proof (Nat.div_mod m n ltac:(lia)); unfold r; lia).
    rewrite Nat.mod_add by lia. destruct E as [->| ->].
    + apply Nat.mod_small; lia.
    + replace (k + n)%nat with (k + 1 * n)%nat by lia. rewrite Nat.mod_add by lia. apply Nat.mod_small; lia.
Qed.

(** ** Substitution *)
Lemma foldM_eval_x_k n k poly l out :
  length poly = n -> length out = n -> Forall is_word poly -> (0 < n)%nat -> Forall (fun i => (i < n)%nat) l -> NoDup l ->
  (forall i j, (i < n)%nat -> (j < n)%nat -> ((i * k) mod n = (j * k) mod n)%nat -> i = j) ->
  exists r, foldM (eval_x_k_step n k poly) l out = Ok r /\ length r = n /\
    (Forall is_word out -> Forall is_word r) /\
    (forall i, In i l -> eqm (nth ((i * k) mod n) r 0) (sg (i * k / n) * nth i poly 0)) /\
    (forall j, (j < n)%nat -> (forall i, In i l -> (i * k) mod n <> j)%nat -> nth j r 0 = nth j out 0).
Proof.
  intros Hp Ho Hw Hn Hl Hnd Hinj. revert out Ho. induction l as [|i l IH]; intros out Ho.
  - exists out. cbn. repeat split; auto. intros i [].
  - inversion Hl as [|? ? Hi Hl']; subst. inversion Hnd as [|? ? Hni Hnd']; subst.
    cbn [foldM]. unfold eval_x_k_step at 1. unfold index.
    rewrite (nth_error_nth' poly 0) by exact Hi. cbn [bind].
    set (j := ((i * k) mod length poly)%nat).
    assert (j < length poly)%nat as Hj by (apply Nat.mod_upper_bound; lia).
    unfold set_index. destruct (Nat.ltb_spec j (length out)); [|lia]. cbn [bind].
    set (c := wmul _ _).
    destruct (IH Hl' Hnd' (upd out j c) ltac:(rewrite upd_length; exact Ho)) as (r & -> & Hr & Hwr & H1 & H2).
    exists r. split; [reflexivity|]. split; [exact Hr|]. split; [|split].
    + intros Hout. apply Hwr. apply Forall_forall. intros x Hx. apply In_nth with (d := 0) in Hx as (m & Hm & <-).
      rewrite upd_length in Hm. rewrite nth_upd by lia.
      destruct (j =? m)%nat; [apply wrap_word|]. rewrite Forall_forall in Hout. apply Hout, nth_In; exact Hm.
    + intros i' [<-|Hi'].
      * rewrite H2; [|exact Hj|].
        -- fold j. rewrite nth_upd, Nat.eqb_refl by lia. unfold c.
           unfold wmul. rewrite wrap_eqm. unfold sg.
           destruct (Nat.eqb_spec ((i * k / length poly) mod 2) 0) as [E|E].
           ++ rewrite (proj2 (Nat.even_spec _)); [reflexivity|]. apply Nat.mod_divide in E as (t & ->); [|lia].
              exists t; lia.
           ++ destruct (Nat.even _) eqn:Ev.
              { exfalso. apply E. apply Nat.even_spec in Ev as (t & ->). rewrite Nat.mul_comm. apply Nat.mod_mul. lia. }
              apply eqm_alt. exists (nth i poly 0). unfold MAXW. ring.
        -- intros i' Hi' E. apply Hni. rewrite (Hinj i i'); [exact Hi'|exact Hi| |symmetry; exact E].
           rewrite Forall_forall in Hl'. apply Hl'; exact Hi'.
      * apply H1; exact Hi'.
    + intros j' Hj' Hout. rewrite H2; [|exact Hj'|].
      * rewrite nth_upd by lia. destruct (Nat.eqb_spec j j') as [E|]; [|reflexivity].
        exfalso. apply (Hout i); [left; reflexivity|exact E].
      * intros i' Hi'. apply Hout; right; exact Hi'.
Qed.

Lemma pow2_is_pow2 n : (exists m, n = 2 ^ m)%nat -> is_power_of_two (Z.of_nat n) = true.
Proof.
  intros (m & ->). unfold is_power_of_two. rewrite Nat2Z.inj_pow. change (Z.of_nat 2) with 2.
  rewrite Z.log2_pow2 by lia. rewrite Z.eqb_refl. rewrite (proj2 (Z.ltb_lt _ _)); [reflexivity|].
  apply Z.pow_pos_nonneg; lia.
Qed.
Lemma is_pow2_pow2 n : is_power_of_two (Z.of_nat n) = true -> exists m, n = (2 ^ m)%nat.
Proof.
  unfold is_power_of_two. intros H. apply andb_prop in H as [_ H]. apply Z.eqb_eq in H.
  exists (Z.to_nat (Z.log2 (Z.of_nat n))). apply Nat2Z.inj. rewrite Nat2Z.inj_pow. change (Z.of_nat 2) with 2.
  rewrite Z2Nat.id by apply Z.log2_nonneg. symmetry. exact H.
Qed.
Lemma odd_mod2 k : (k mod 2 =? 1)%nat = Nat.odd k.
Proof.
  rewrite <- Nat.bit0_odd, Nat.bit0_mod at 1 || idtac.
  pose proof (Nat.div_mod k 2 ltac:(lia)) as D. pose proof (Nat.mod_upper_bound k 2 ltac:(lia)).
  destruct (Nat.eqb_spec (k mod 2) 1) as [E|E].
  - symmetry. apply Nat.odd_spec. exists (k / 2)%nat. lia.
  - symmetry. rewrite <- Nat.negb_even. replace (Nat.even k) with true; [reflexivity|].
    symmetry. apply Nat.even_spec. exists (k / 2)%nat. lia.
Qed.

Lemma eval_x_k_ok m n k p : n = (2 ^ m)%nat -> wfp n p -> Nat.odd k = true ->
  exists r, eval_x_k p k = Ok r /\ wfp n r /\ peq n (tof r) (psubst n k (tof p)).
Proof.
  intros Hm Hp Hk. assert (0 < n)%nat as Hn by (subst n; pose proof (Nat.pow_nonzero 2 m); lia).
  pose proof (wfp_len _ _ Hp) as Lp.
  unfold eval_x_k, eval_x_k_in_memory. rewrite Lp. rewrite odd_mod2, Hk. cbn [rassert bind].
  rewrite pow2_is_pow2 by (exists m; exact Hm). cbn [rassert bind]. unfold index.
  rewrite (nth_error_nth' p 0) by lia. cbn [bind]. unfold set_index. rewrite repeat_length.
  destruct (Nat.ltb_spec 0 n); [|lia]. cbn [bind].
  assert (forall i j, (i < n)%nat -> (j < n)%nat -> ((i * k) mod n = (j * k) mod n)%nat -> i = j) as Hinj.
  { subst n. intros i j. apply odd_mul_inj. exact Hk. }
  destruct (foldM_eval_x_k n k p (seq 1 (n - 1)) (upd (repeat 0 n) 0 (nth 0 p 0))) as (r & Hr & Lr & Wr & H1 & H2);
    [exact Lp | rewrite upd_length; apply repeat_length | apply Hp | exact Hn | | apply seq_NoDup | exact Hinj |].
  { apply Forall_forall. intros i Hi. apply in_seq in Hi. lia. }
  exists r. split; [exact Hr|]. split.
  { split; [exact Lr|]. apply Wr. apply Forall_forall. intros x Hx. apply In_nth with (d := 0) in Hx as (a & Ha & <-).
    rewrite upd_length, repeat_length in Ha. rewrite nth_upd by (rewrite repeat_length; lia).
    destruct (0 =? a)%nat; [eapply wfp_word; exact Hp|]. rewrite nth_repeat. split; [lia|reflexivity]. }
  assert (forall i, (i < n)%nat -> eqm (nth ((i * k) mod n) r 0) (sg (i * k / n) * nth i p 0)) as H3.
  { intros [|i] Hi.
    - cbn [Nat.mul]. rewrite Nat.mod_0_l, Nat.div_0_l by lia. rewrite H2; [|exact Hn|].
      + rewrite nth_upd by (rewrite repeat_length; lia). cbn [Nat.eqb]. change (sg 0) with 1. apply eq_eqm; ring.
      + intros i Hi' E. apply in_seq in Hi'. assert (i = 0)%nat; [|lia].
        apply Hinj; [lia|lia|]. rewrite E. cbn [Nat.mul]. rewrite Nat.mod_0_l; lia.
    - apply H1. apply in_seq. lia. }
  intros j Hj. unfold psubst.
  assert (exists i, (i < n)%nat /\ ((i * k) mod n)%nat = j) as (i & Hi & Ei).
  { (* surjectivity from injectivity *)
    pose (l := map (fun i => ((i * k) mod n)%nat) (seq 0 n)).
    assert (NoDup l) as Hnd.
    { unfold l. assert (forall s len, (s + len <= n)%nat -> NoDup (map (fun i => ((i * k) mod n)%nat) (seq s len))) as G.
      { intros s len. revert s. induction len as [|len IHl]; intros s Hs; cbn; constructor.
        - intros Hin. apply in_map_iff in Hin as (a & Ea & Ha). apply in_seq in Ha.
          assert (a = s); [|lia]. apply Hinj; [lia|lia|exact Ea].
        - apply IHl. lia. }
      apply G. lia. }
    assert (incl (seq 0 n) l) as Hincl.
    { apply NoDup_length_incl; [exact Hnd|unfold l; rewrite map_length; lia|].
      intros a Ha. unfold l in Ha. apply in_map_iff in Ha as (b & <- & _). apply in_seq.
      pose proof (Nat.mod_upper_bound (b * k) n ltac:(lia)). lia. }
    specialize (Hincl j ltac:(apply in_seq; lia)). apply in_map_iff in Hincl as (i & Ei & Hi). apply in_seq in Hi.
    exists i. split; [lia|exact Ei]. }
  rewrite (sumf_single _ _ i); [|exact Hi|].
  - unfold tof at 1. rewrite <- Ei. rewrite H3 by exact Hi. rewrite mono_same. unfold tof. apply eq_eqm; ring.
  - intros i' Hi' Hne. unfold mono. destruct (Nat.eqb_spec ((i' * k) mod n) j) as [E|E]; [|ring].
    exfalso. apply Hne, Hinj; [lia|lia|congruence].
Qed.

Lemma eval_x_k_even p k : Nat.odd k = false -> eval_x_k p k = Panic PAssert.
Proof. intros Hk. unfold eval_x_k, eval_x_k_in_memory. rewrite odd_mod2, Hk. reflexivity. Qed.
Lemma eval_x_k_not_pow2 p k : (forall m, length p <> 2 ^ m)%nat -> eval_x_k p k = Panic PAssert.
Proof.
  intros Hp. unfold eval_x_k, eval_x_k_in_memory. destruct (k mod 2 =? 1)%nat; [|reflexivity]. cbn [rassert bind].
  destruct (is_power_of_two _) eqn:E; [|reflexivity]. apply is_pow2_pow2 in E as (m & Hm). exfalso. eapply Hp; exact Hm.
Qed.

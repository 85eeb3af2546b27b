(** * Encrypted tree evaluation and demultiplexing *)
From Coq Require Import Setoid Morphisms Ring.
From Verif Require Import MBase MUtils MCodec MPoly MRlwe MTree MEncTree SpecLwe SpecTree SpecEnc PolyRing PfPoly PfNear PfRlwe PfRlwe3 PfRlwe5 PfTree PfCodec LRlwe.
Local Open Scope Z_scope.

Section Enc.
Variable n : nat.
Hypothesis Hn : (0 < n)%nat.
Add Ring Pring : (P_ring n Hn) (setoid (peq_equiv n) (P_ext n)).
Variable fft : fftT.
Variables (base level : nat) (eps : Z).
Hypothesis Hfft : fft_ok n fft (2 ^ (Z.of_nat base - 1)) (2 * level) eps.
Variable s : poly.
Variable S E : Z.
Hypothesis HS : l1 n (tof s) S.
Notation EP := (ep_bound n base level S 1 E eps).

Lemma pcst_0 : peq n (pcst 0) pzero.
Proof. intros k _. destruct k; reflexivity. Qed.
Lemma pcst_1_mul f : peq n (pmul n (pcst 1) f) f.
Proof. ring. Qed.

(** One step of the tree walk: the two halves of [b]. *)
Lemma split_step g b (x : bool) : const_ct n s base level E (b2z x) g -> wfc n b ->
  let left := external_product fft g (rlwe_allocate n) b in
  let right := rlwe_sub b left in
  wfc n left /\ wfc n right /\
  near n (phase n s left) (if x then phase n s b else pzero) EP /\
  near n (phase n s right) (if x then pzero else phase n s b) EP.
Proof.
  intros (R & Gb & Gl) Wb left right.
  destruct (external_C18 n fft eps g (rlwe_allocate n) b s (pcst (b2z x)) E S 1) as [Wl Nl]; try assumption.
  { rewrite Gb, Gl. exact Hfft. }
  { apply wfc_allocate. }
  { apply l1_bit; [exact Hn|]. destruct x; cbn; auto. }
  rewrite Gb, Gl in Nl. fold left in Wl, Nl.
  assert (near n (phase n s left) (if x then phase n s b else pzero) EP) as N1.
  { eapply near_eq_r; [|exact Nl]. rewrite (phase_allocate n Hn s). destruct x; cbn [b2z].
    - rewrite pcst_1_mul. ring.
    - rewrite pcst_0. ring. }
  split; [exact Wl|]. split; [apply wfc_sub; assumption|]. split; [exact N1|].
  assert (near n (phase n s right) (psub (phase n s b) (if x then phase n s b else pzero)) (0 + EP)) as N2.
  { eapply near_eq_l; [apply phase_sub; assumption|]. apply near_sub; [exact Hn|apply near_refl; reflexivity|exact N1]. }
  rewrite Z.add_0_l in N2. eapply near_eq_r; [|exact N2]. destruct x; ring.
Qed.

Definition nilc : rlwe := {| mask := []; body := [] |}.

Lemma add_where_length bits out b : length (add_where bits out b) = length out.
Proof. revert out; induction bits as [|x bits IH]; intros [|c out]; cbn; auto. Qed.
Lemma add_where_nth bits out b i : (i < length out)%nat ->
  nth i (add_where bits out b) nilc = if nth i bits false then rlwe_add (nth i out nilc) b else nth i out nilc.
Proof.
  revert out i; induction bits as [|x bits IH]; intros [|c out] i Hi; cbn in Hi; try lia.
  - destruct i; reflexivity.
  - destruct i as [|i]; cbn; [reflexivity|]. apply IH. lia.
Qed.
Lemma bits64_nth x i : (i < 64)%nat -> nth i (bits64 x) false = Nat.testbit x i.
Proof.
  intros Hi. unfold bits64. rewrite (nth_indep _ false (Nat.testbit x 0)) by (rewrite map_length, seq_length; exact Hi).
  rewrite map_nth, seq_nth by exact Hi. reflexivity.
Qed.
Lemma add_where_wfc bits out b : Forall (wfc n) out -> wfc n b -> Forall (wfc n) (add_where bits out b).
Proof.
  intros Ho Wb. revert out Ho; induction bits as [|x bits IH]; intros [|c out] Ho; cbn; auto.
  apply Forall_cons_iff in Ho as [Hc Ho]. constructor; [|auto]. destruct x; [apply wfc_add; assumption|assumption].
Qed.

Definition cost (ds : list nat) (D : Z) : Z := Z.of_nat (length ds) * D + Z.of_nat (list_sum ds) * EP.
Lemma cost_app a b D : cost (a ++ b) D = cost a D + cost b D.
Proof. unfold cost. rewrite app_length, list_sum_app, !Nat2Z.inj_add. ring. Qed.
Lemma cost_S ds D : cost (map Datatypes.S ds) D = cost ds (D + EP).
Proof.
  unfold cost. rewrite map_length.
  assert (list_sum (map Datatypes.S ds) = list_sum ds + length ds)%nat as ->.
  { clear. induction ds as [|a ds IH]; [reflexivity|]. cbn [map length]. change (list_sum (Datatypes.S a :: map Datatypes.S ds)) with (Datatypes.S a + list_sum (map Datatypes.S ds))%nat. change (list_sum (a :: ds)) with (a + list_sum ds)%nat. lia. }
  rewrite Nat2Z.inj_add. ring.
Qed.

(** What evaluating a subtree does to the accumulators. *)
Definition adds (delta : Z) (x : nat) (ds : list nat) (f : list rlwe -> rlwe -> list rlwe) : Prop :=
  forall out b (beta : bool) D, (length out <= 64)%nat -> Forall (wfc n) out -> wfc n b ->
    near n (phase n s b) (pcst (b2z beta * delta)) D ->
    length (f out b) = length out /\ Forall (wfc n) (f out b) /\
    forall i, (i < length out)%nat ->
      near n (phase n s (nth i (f out b) nilc))
             (padd (phase n s (nth i out nilc)) (pcst (b2z (beta && Nat.testbit x i) * delta))) (cost ds D).

Lemma nth_wfc out i : Forall (wfc n) out -> (i < length out)%nat -> wfc n (nth i out nilc).
Proof. intros H Hi. rewrite Forall_forall in H. apply H, nth_In, Hi. Qed.

Lemma adds_leaf delta x : adds delta x [0%nat] (fun out b => add_where (bits64 x) out b).
Proof.
  intros out b beta D Hl Ho Wb Nb. split; [apply add_where_length|]. split; [apply add_where_wfc; assumption|].
  intros i Hi. rewrite add_where_nth by exact Hi. rewrite bits64_nth by lia.
  replace (cost [0%nat] D) with D by (unfold cost; cbn [length list_sum fold_right Nat.add]; rewrite ?Nat.add_0_r; change (Z.of_nat 1) with 1; change (Z.of_nat 0) with 0; ring).
  pose proof (near_nonneg n Hn _ _ _ Nb) as HD.
  destruct (Nat.testbit x i).
  - rewrite andb_true_r. eapply near_eq_l; [apply phase_add; [exact Hn|apply nth_wfc; assumption|exact Wb]|].
    replace D with (0 + D) by ring. apply near_add; [exact Hn|apply near_refl; reflexivity|exact Nb].
  - rewrite andb_false_r. apply near_eq; [exact HD|]. cbn [b2z]. rewrite Z.mul_0_l, pcst_0. ring.
Qed.
Lemma adds_nil delta : adds delta 0%nat [] (fun out b => add_where (bits64 0%nat) out b).
Proof.
  intros out b beta D Hl Ho Wb Nb. split; [apply add_where_length|]. split; [apply add_where_wfc; assumption|].
  intros i Hi. rewrite add_where_nth by exact Hi. rewrite bits64_nth by lia. rewrite Nat.bits_0, andb_false_r.
  apply near_eq; [unfold cost; cbn; lia|]. cbn [b2z]. rewrite Z.mul_0_l, pcst_0. ring.
Qed.

Lemma b2z_pcst (x beta : bool) delta : peq n (if x then pcst (b2z beta * delta) else pzero) (pcst (b2z (beta && x) * delta)).
Proof. destruct x; [rewrite andb_true_r; reflexivity|]. rewrite andb_false_r. cbn [b2z]. rewrite Z.mul_0_l, pcst_0. reflexivity. Qed.

Lemma adds_node delta g (x : bool) xl xr dl dr fl fr :
  const_ct n s base level E (b2z x) g -> adds delta xl dl fl -> adds delta xr dr fr ->
  adds delta (if x then xl else xr) (map Datatypes.S (dl ++ dr))
    (fun out b => let left := external_product fft g (rlwe_allocate n) b in
                  fr (fl out left) (rlwe_sub b left)).
Proof.
  intros Hg Al Ar out b beta D Hl Ho Wb Nb. cbv beta zeta. set (left := external_product fft g (rlwe_allocate n) b).
  destruct (split_step g b x Hg Wb) as (Wl & Wr & Nl & Nr). fold left in Wl, Wr, Nl, Nr.
  assert (near n (phase n s left) (pcst (b2z (beta && x) * delta)) (D + EP)) as Nl'.
  { rewrite Z.add_comm. destruct x.
    - rewrite andb_true_r. eapply near_trans; eassumption.
    - eapply near_eq_r; [symmetry; apply (b2z_pcst false)|]. eapply near_weaken; [exact Nl|].
      pose proof (near_nonneg n Hn _ _ _ Nb). lia. }
  assert (near n (phase n s (rlwe_sub b left)) (pcst (b2z (beta && negb x) * delta)) (D + EP)) as Nr'.
  { rewrite Z.add_comm. destruct x; cbn [negb].
    - eapply near_eq_r; [symmetry; apply (b2z_pcst false)|]. eapply near_weaken; [exact Nr|].
      pose proof (near_nonneg n Hn _ _ _ Nb). lia.
    - rewrite andb_true_r. eapply near_trans; eassumption. }
  destruct (Al out left (beta && x)%bool (D + EP) Hl Ho Wl Nl') as (L1 & W1 & N1).
  destruct (Ar (fl out left) (rlwe_sub b left) (beta && negb x)%bool (D + EP)) as (L2 & W2 & N2); [lia|assumption|assumption|assumption|].
  split; [congruence|]. split; [exact W2|]. intros i Hi.
  rewrite cost_S, cost_app, Z.add_comm.
  eapply near_trans; [exact Hn|apply N2; lia|].
  assert (peq n (padd (phase n s (nth i out nilc)) (pcst (b2z (beta && Nat.testbit (if x then xl else xr) i) * delta)))
     (padd (padd (phase n s (nth i out nilc)) (pcst (b2z (beta && x && Nat.testbit xl i) * delta)))
           (pcst (b2z (beta && negb x && Nat.testbit xr i) * delta)))) as Q.
  { destruct x; cbn [negb]; rewrite ?andb_true_r, ?andb_false_r; cbn [b2z andb]; rewrite ?Z.mul_0_l, ?pcst_0; ring. }
  eapply near_eq_r; [exact Q|].
  replace (cost dl (D + EP)) with (cost dl (D + EP) + 0) by ring.
  apply near_add; [exact Hn|apply N1; exact Hi|apply near_refl; reflexivity].
Qed.

Definition opt_predicts (o : option node) (fs : list nat) (x : nat) : Prop :=
  match o with Some t => predicts t fs x | None => x = 0%nat end.
Definition opt_depths (o : option node) : list nat := match o with Some a => leaf_depths a | None => [] end.
Definition opt_eval (o : option (enc_node rgsw)) : list rlwe -> rlwe -> list rlwe :=
  fun out b => match o with Some e => eval_enc_node fft n out e b | None => out end.

Lemma Forall2_app_split {A B} (R : A -> B -> Prop) a1 a2 b1 b2 : length a1 = length b1 ->
  Forall2 R (a1 ++ a2) (b1 ++ b2) -> Forall2 R a1 b1 /\ Forall2 R a2 b2.
Proof.
  clear. revert b1; induction a1 as [|x a1 IH]; intros [|y b1] L H; cbn in L; try lia.
  - split; [constructor|exact H].
  - cbn in H. inversion H; subst. destruct (IH b1) as [H1 H2]; [lia|assumption|]. split; [constructor; assumption|assumption].
Qed.
Lemma enc_matches_length {C} (t : node) : forall (e : enc_node C) cts, enc_matches e t cts -> length cts = length (preorder t).
Proof.
  clear. induction t as [x | th f ix op l r IHl IHr] using node_ind'; intros e cts H; inversion H; subst; [reflexivity|].
  cbn [length preorder]. f_equal. rewrite !app_length. f_equal.
  - match goal with H1 : enc_child el l cl |- _ => inversion H1; subst end; [reflexivity|]. eapply IHl; [reflexivity|eassumption].
  - match goal with H1 : enc_child er r cr |- _ => inversion H1; subst end; [reflexivity|]. eapply IHr; [reflexivity|eassumption].
Qed.

Lemma eval_enc_ok delta fs t : forall e cts, enc_matches e t cts ->
  Forall2 (decision_ct n s base level E fs) cts (preorder t) ->
  exists x, predicts t fs x /\ adds delta x (leaf_depths t) (fun out b => eval_enc_node fft n out e b).
Proof.
  induction t as [x | th f ix op l r IHl IHr] using node_ind'; intros e cts Hm Hd.
  - inversion Hm; subst. exists x. split; [constructor|]. apply adds_leaf.
  - inversion Hm as [|ct ? ? ? ? el er ? ? cl cr Hcl Hcr]; subst.
    cbn [preorder] in Hd. inversion Hd as [|? ? ? ? Hct Hrest]; subst.
    cbn [decision_ct] in Hct. destruct Hct as (-> & v & Hv & Hct).
    assert (length cl = length (match l with Some n0 => preorder n0 | None => [] end)) as Ll.
    { inversion Hcl; subst; [reflexivity|]. eapply enc_matches_length; eassumption. }
    apply Forall2_app_split in Hrest as [Dl Dr]; [|exact Ll].
    assert (forall o eo co, (forall t0, o = Some t0 -> forall e cts, enc_matches e t0 cts ->
              Forall2 (decision_ct n s base level E fs) cts (preorder t0) ->
              exists x, predicts t0 fs x /\ adds delta x (leaf_depths t0) (fun out b => eval_enc_node fft n out e b)) ->
            enc_child eo o co -> Forall2 (decision_ct n s base level E fs) co (match o with Some n0 => preorder n0 | None => [] end) ->
            exists x, opt_predicts o fs x /\ adds delta x (opt_depths o) (opt_eval eo)) as Child.
    { intros o eo co IH Hc Hd'. inversion Hc; subst.
      - exists 0%nat. split; [reflexivity|]. apply adds_nil.
      - destruct (IH _ eq_refl _ _ H Hd') as (y & Py & Ay). exists y. split; [exact Py|exact Ay]. }
    destruct (Child l el cl) as (xl & Pl & Al); [|exact Hcl|exact Dl|].
    { intros t0 E0. subst. intros; eapply IHl; [reflexivity|eassumption|eassumption]. }
    destruct (Child r er cr) as (xr & Pr & Ar); [|exact Hcr|exact Dr|].
    { intros t0 E0. subst. intros; eapply IHr; [reflexivity|eassumption|eassumption]. }
    exists (if (v <=? th)%nat then xl else xr). split.
    + destruct (Nat.leb_spec v th).
      * destruct l; cbn in Pl; [eapply P_left; eauto|subst; eapply P_left_missing; eauto].
      * destruct r; cbn in Pr; [eapply P_right; eauto|subst; eapply P_right_missing; eauto].
    + exact (adds_node delta ct (v <=? th)%nat xl xr _ _ _ _ Hct Al Ar).
Qed.
End Enc.

(** * Error calculus and exactness of the FFT instance *)
From Coq Require Import Setoid Morphisms Ring.
From Verif Require Import MBase MPoly MRlwe SpecLwe PolyRing PfPoly PfDecomp.
Local Open Scope Z_scope.

Section N.
Variable n : nat.
Hypothesis Hn : (0 < n)%nat.
Add Ring Pring : (P_ring n Hn) (setoid (peq_equiv n) (P_ext n)).

Global Instance near_proper : Proper (peq n ==> peq n ==> eq ==> iff) (near n).
Proof. intros f f' Hf g g' Hg B B' <-. unfold near. rewrite Hf, Hg. reflexivity. Qed.
Lemma near_eq_l f' f g B : peq n f f' -> near n f' g B -> near n f g B.
Proof. clear Hn. intros H. rewrite H. auto. Qed.
Lemma near_eq_r g' f g B : peq n g g' -> near n f g' B -> near n f g B.
Proof. clear Hn. intros H. rewrite H. auto. Qed.
Lemma near_refl f g : peq n f g -> near n f g 0.
Proof. clear Hn. intros H. unfold near. rewrite H. intros k Hk. unfold psub. rewrite Z.sub_diag. rewrite nrm_0. lia. Qed.
Lemma near_sym f g B : near n f g B -> near n g f B.
Proof. unfold near. intros H.
  assert (peq n (psub g f) (popp (psub f g))) as -> by ring. apply bd_opp. exact H. Qed.
Lemma near_weaken f g B B' : near n f g B -> B <= B' -> near n f g B'.
Proof. apply bd_weaken. Qed.
Lemma near_trans f g h A B : near n f g A -> near n g h B -> near n f h (A + B).
Proof.
  unfold near. intros H K. assert (peq n (psub f h) (padd (psub f g) (psub g h))) as -> by ring.
  apply bd_add; assumption.
Qed.
Lemma near_trans' f g h A B C : near n f g A -> near n g h B -> A + B <= C -> near n f h C.
Proof. intros H K L. eapply near_weaken; [eapply near_trans; eassumption|exact L]. Qed.
Lemma near_add f f' g g' A B : near n f f' A -> near n g g' B -> near n (padd f g) (padd f' g') (A + B).
Proof.
  unfold near. intros H K. assert (peq n (psub (padd f g) (padd f' g')) (padd (psub f f') (psub g g'))) as -> by ring.
  apply bd_add; assumption.
Qed.
Lemma near_sub f f' g g' A B : near n f f' A -> near n g g' B -> near n (psub f g) (psub f' g') (A + B).
Proof.
  unfold near. intros H K. assert (peq n (psub (psub f g) (psub f' g')) (psub (psub f f') (psub g g'))) as -> by ring.
  apply bd_sub; assumption.
Qed.
Lemma near_opp f f' A : near n f f' A -> near n (popp f) (popp f') A.
Proof. unfold near. intros H. assert (peq n (psub (popp f) (popp f')) (popp (psub f f'))) as -> by ring. apply bd_opp; exact H. Qed.
Lemma near_mul_l1 m f f' A S : l1 n m S -> near n f f' A -> near n (pmul n m f) (pmul n m f') (S * A).
Proof.
  unfold near. intros Hm H. assert (peq n (psub (pmul n m f) (pmul n m f')) (pmul n m (psub f f'))) as -> by ring.
  apply bd_mul_l1; assumption.
Qed.
Lemma near_mul_bd d f f' A D : bd n d D -> near n f f' A -> near n (pmul n f d) (pmul n f' d) (Z.of_nat n * D * A).
Proof.
  unfold near. intros Hd H. assert (peq n (psub (pmul n f d) (pmul n f' d)) (pmul n d (psub f f'))) as -> by ring.
  apply bd_mul; assumption.
Qed.
Lemma near_nonneg f g B : near n f g B -> 0 <= B.
Proof. apply bd_nonneg. exact Hn. Qed.
Lemma near_bd f g A B : near n f g A -> bd n g B -> bd n f (A + B).
Proof. intros H K. assert (peq n f (padd (psub f g) g)) as -> by ring. apply bd_add; assumption. Qed.
Lemma near_0_bd f B : near n f pzero B <-> bd n f B.
Proof. unfold near. assert (peq n (psub f pzero) f) as -> by ring. reflexivity. Qed.
Lemma near_eq f g B : 0 <= B -> peq n f g -> near n f g B.
Proof. clear Hn. intros HB H. eapply near_weaken; [apply near_refl; exact H|exact HB]. Qed.

(** ** Sums *)
Lemma psumf_S m F : peq n (psumf (S m) F) (padd (psumf m F) (F m)).
Proof. clear Hn. intros k Hk. reflexivity. Qed.
Lemma psumf_0 F : peq n (psumf 0 F) pzero.
Proof. clear Hn. intros k Hk. reflexivity. Qed.
Lemma psumf_ext m F G : (forall i, (i < m)%nat -> peq n (F i) (G i)) -> peq n (psumf m F) (psumf m G).
Proof. clear Hn.
  induction m; intros H; [reflexivity|]. rewrite !psumf_S, IHm, (H m) by auto. reflexivity.
Qed.
Lemma psumf_add m F G : peq n (psumf m (fun i => padd (F i) (G i))) (padd (psumf m F) (psumf m G)).
Proof. induction m; [intros k _; reflexivity|]. rewrite !psumf_S, IHm. ring. Qed.
Lemma psumf_sub m F G : peq n (psumf m (fun i => psub (F i) (G i))) (psub (psumf m F) (psumf m G)).
Proof. induction m; [intros k _; reflexivity|]. rewrite !psumf_S, IHm. ring. Qed.
Lemma psumf_mul_l m c F : peq n (psumf m (fun i => pmul n c (F i))) (pmul n c (psumf m F)).
Proof. induction m; [rewrite !psumf_0; ring|]. rewrite !psumf_S, IHm. ring. Qed.
Lemma psumf_mul_r m c F : peq n (psumf m (fun i => pmul n (F i) c)) (pmul n (psumf m F) c).
Proof. induction m; [rewrite !psumf_0; ring|]. rewrite !psumf_S, IHm. ring. Qed.
Lemma near_psumf m F G B : 0 <= B -> (forall i, (i < m)%nat -> near n (F i) (G i) B) ->
  near n (psumf m F) (psumf m G) (Z.of_nat m * B).
Proof.
  intros HB. induction m; intros H.
  - apply near_refl. reflexivity.
  - rewrite !psumf_S. eapply near_weaken; [apply near_add; [apply IHm; auto|apply H; lia]|].
    rewrite Nat2Z.inj_succ. lia.
Qed.
Lemma psumf_rev m F : peq n (psumf m (fun i => F (m - 1 - i)%nat)) (psumf m F).
Proof.
  intros k Hk. unfold psumf. apply eq_eqm. clear Hk Hn.
  induction m as [|m IH]; [reflexivity|].
  change (sumf (1 + m) (fun i => F (S m - 1 - i)%nat k) = sumf (S m) (fun i => F i k)).
  rewrite sumf_split. cbn [sumf]. replace (S m - 1 - 0)%nat with m by lia.
  rewrite (sumf_ext m _ (fun i => F (m - 1 - i)%nat k)) by (intros i Hi; f_equal; lia).
  rewrite IH. ring.
Qed.

(** ** The FFT *)
Lemma fexact_cons a b ts : peq n (fexact n ((a, b) :: ts)) (padd (pmul n (tof a) (tof b)) (fexact n ts)).
Proof. clear Hn. reflexivity. Qed.
Lemma fexact_nil : peq n (fexact n []) pzero.
Proof. clear Hn. reflexivity. Qed.
Lemma fexact_app ts us : peq n (fexact n (ts ++ us)) (padd (fexact n ts) (fexact n us)).
Proof.
  induction ts as [|[a b] ts IH]; cbn [app]; [rewrite fexact_nil; ring|]. rewrite !fexact_cons, IH. ring.
Qed.
Lemma fexact_flat m (F : nat -> fourier) a :
  peq n (fexact n (flat_map F (seq a m))) (psumf m (fun i => fexact n (F (a + i)%nat))).
Proof.
  revert a; induction m as [|m IH]; intros a; [intros k _; reflexivity|].
  cbn [seq flat_map]. rewrite fexact_app, IH. intros k Hk. unfold psumf, padd.
  change (S m) with (1 + m)%nat. rewrite sumf_split. cbn [sumf]. rewrite Nat.add_0_r.
  apply eq_eqm. rewrite Z.add_0_l. f_equal. apply sumf_ext; intros i _.
  replace (S a + i)%nat with (a + (1 + i))%nat by lia. reflexivity.
Qed.

Lemma exact_fft_ok D L : fft_ok n (exact_fft n) D L 0.
Proof.
  intros ts _ H. induction H as [|[a b] ts Hab H IH]; cbn.
  - split; [apply wfp_zero|]. apply near_refl, tof_zero.
  - destruct IH as [Hw IH]. fold (exact_fft n ts).
    split; [apply wfp_add; [apply wfp_mul|apply Hw]|].
    rewrite (tof_add n) by (apply wfp_len; [apply wfp_mul||apply Hw]). fold (fexact n ts).
    rewrite tof_mul. rewrite <- (Z.add_0_l 0). apply near_add; [apply near_refl; reflexivity|exact IH].
Qed.

Lemma fft_wf fft D L eps ts : fft_ok n fft D L eps -> (length ts <= L)%nat ->
  Forall (fun ab => wfp n (fst ab) /\ wfp n (snd ab) /\ sbound D (snd ab)) ts -> wfp n (fft ts).
Proof. clear Hn. intros H HL HF. apply (H ts HL HF). Qed.
Lemma fft_near fft D L eps ts : fft_ok n fft D L eps -> (length ts <= L)%nat ->
  Forall (fun ab => wfp n (fst ab) /\ wfp n (snd ab) /\ sbound D (snd ab)) ts ->
  near n (tof (fft ts)) (fexact n ts) eps.
Proof. clear Hn. intros H HL HF. apply (H ts HL HF). Qed.
Lemma sbound_weaken D D' p : D <= D' -> sbound D p -> sbound D' p.
Proof. clear Hn. intros L H. unfold sbound in *. eapply Forall_impl; [|exact H]. cbn. intros; lia. Qed.
Lemma fft_ok_weaken fft D D' L L' eps : D' <= D -> (L' <= L)%nat -> fft_ok n fft D L eps -> fft_ok n fft D' L' eps.
Proof. clear Hn.
  intros HD HL H ts Ht HF. apply H; [lia|]. eapply Forall_impl; [|exact HF]. cbn.
  intros ab (H1 & H2 & H3). repeat split; auto; try apply H1; try apply H2. eapply sbound_weaken; eassumption.
Qed.
Lemma fft_eps_nonneg fft D L eps : fft_ok n fft D L eps -> 0 <= eps.
Proof. intros H. destruct (H [] ltac:(cbn; lia) ltac:(constructor)) as [_ K]. eapply near_nonneg; exact K. Qed.

(** ** Keys *)
Lemma binary_key_wf s : binary_key n s -> wfp n s.
Proof. clear Hn. intros [L F]. split; [exact L|]. eapply Forall_impl; [|exact F]. cbn. intros x [-> | ->]; split; try lia; reflexivity. Qed.
Lemma binary_key_l1 s : binary_key n s -> l1 n (tof s) (Z.of_nat n).
Proof. clear Hn.
  intros [L F]. unfold l1. rewrite <- (Z.mul_1_r (Z.of_nat n)). apply sumf_le_const. intros k Hk.
  rewrite Forall_forall in F. unfold tof. destruct (F (nth k s 0)) as [-> | ->]; [apply nth_In; lia|..]; vm_compute; discriminate.
Qed.
End N.

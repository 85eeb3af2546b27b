(** * The floating-point comparison of [test_fourier_mul]. *)
From Coq Require Import Reals Lra Lia ZArith List.
From Flocq Require Import Core IEEE754.BinarySingleNaN.
From Verif Require Import MBase MPoly MRlwe MIeee MAvg MTests MTests3 SpecDouble SpecIeee SpecTables PfIeee PfTables PfFloat PfAvg.
Local Open Scope R_scope.

Notation u := (/ 2 ^ 53).
Lemma big_u e : (0 <= e)%Z -> / 2 ^ 1022 <= bp e.
Proof. intros H. apply tau_small. lia. Qed.
Lemma bp64 : bp 64 = 18446744073709551616.
Proof. reflexivity. Qed.
Lemma u_val : u = / 9007199254740992.
Proof. f_equal. rewrite pow_IZR. reflexivity. Qed.
(** A word as a double: within 2048. *)
Lemma word_f x : is_word x -> rep (f_of_int x) (binary64 (IZR x)) 64 /\ Rabs (binary64 (IZR x) - IZR x) <= 2048.
Proof.
  intros [H1 H2]. unfold q in H2. split; [apply f_of_int_rep; lia|].
  assert (Rabs (IZR x) <= bp 64) as B. { rewrite bp64, Rabs_pos_eq; [|apply IZR_le, H1]. apply IZR_le. lia. }
  eapply Rle_trans; [apply rnd_abs; [exact B|apply big_u; lia]|]. rewrite bp64, u_val. lra.
Qed.
Lemma diff_f x y : is_word x -> is_word y -> let d := Babs (f_sub (f_of_int x) (f_of_int y)) in
  is_finite d = true /\ exists t, B2R d = Rabs (binary64 t) /\ Rabs (t - IZR (x - y)) <= 4096.
Proof.
  intros Hx Hy d. destruct (word_f x Hx) as [Rx Dx]. destruct (word_f y Hy) as [Ry Dy].
  pose proof (f_sub_rep _ _ _ _ 64 ltac:(lia) Rx Ry) as [[F E] _]. unfold d. rewrite is_finite_Babs, B2R_Babs. split; [exact F|].
  exists (binary64 (IZR x) - binary64 (IZR y)). split; [rewrite E; reflexivity|]. rewrite minus_IZR.
  apply Rabs_le. apply Rabs_le_inv in Dx. apply Rabs_le_inv in Dy. lra.
Qed.
(** [1e-9] and the bound [1e-9 * Scalar::MAX as f64]. *)
Lemma nano_f : rep f_nano (binary64 (1 / 1000000000)) 0.
Proof.
  destruct (exact_f 1 ltac:(lia)) as [F1 E1]. destruct (exact_f 1000000000 ltac:(lia)) as [F2 E2].
  pose proof (Bdiv_correct 53 1024 _ _ mode_NE (f_of_int 1) (f_of_int 1000000000) ltac:(rewrite E2; lra)) as H. rewrite E1, E2 in H.
  assert (Rabs (1 / 1000000000) <= bp 0) as B by (rewrite Rabs_pos_eq by lra; change (bp 0) with 1; lra).
  rewrite (no_overflow _ 0) in H by (try lia; exact B). destruct H as (H1 & H2 & _).
  split; [split; [unfold f_nano, f_quot; rewrite H2; exact F1|exact H1]|]. apply PfIeee.binary64_le; [lia|exact B].
Qed.
Lemma bound_f : let b := f_mul f_nano (f_of_int MAXW) in is_finite b = true /\ 18446744073 + 7 / 10 < B2R b < 18446744073 + 8 / 10.
Proof.
  assert (is_word MAXW) as W by (unfold is_word, MAXW, q; lia). destruct (word_f MAXW W) as [Rm Dm].
  pose proof (f_mul_rep _ _ _ _ 0 64 ltac:(lia) nano_f Rm) as [[F E] _]. cbv zeta. split; [exact F|]. rewrite E. clear E F Rm W.
  assert (Rabs (binary64 (1 / 1000000000) - 1 / 1000000000) <= u * (1 / 1000000000)) as D1.
  { rewrite <- (Rabs_pos_eq (1 / 1000000000)) at 3 by lra. apply rnd_rel. right. rewrite Rabs_pos_eq by lra. eapply Rle_trans; [apply (tau_small (-30)); lia|]. change (bp (-30)) with (/ 1073741824). lra. }
  rewrite u_val in D1. apply Rabs_le_inv in D1. unfold MAXW, q in Dm. change (IZR (2 ^ 64 - 1)) with 18446744073709551615 in Dm. apply Rabs_le_inv in Dm.
  set (a := binary64 (1 / 1000000000)) in *. set (b := binary64 _) in Dm |- *.
  assert (18446744073 + 705 / 1000 <= a * b <= 18446744073 + 713 / 1000) as P. { nra. }
  assert (Rabs (binary64 (a * b) - a * b) <= u * bp 64) as D2.
  { apply rnd_abs; [rewrite bp64, Rabs_pos_eq; lra|apply big_u; lia]. }
  assert (Rabs (binary64 (a * b) - a * b) <= u * bp 35) as D3.
  { apply rnd_abs; [change (bp 35) with 34359738368; rewrite Rabs_pos_eq; lra|apply big_u; lia]. }
  clear D2. change (bp 35) with 34359738368 in D3. rewrite u_val in D3. apply Rabs_le_inv in D3. lra.
Qed.
Lemma close_near x y : is_word x -> is_word y -> (Z.abs (x - y) <= 18446744073 - 4097)%Z -> close_f64 x y = true.
Proof.
  intros Hx Hy H. unfold close_f64. destruct (diff_f x y Hx Hy) as (Fd & t & Ed & Dt). destruct bound_f as [Fb Bb]. rewrite less_correct by assumption. rewrite Ed. apply Rlt_bool_true.
  assert (Rabs (IZR (x - y)) <= 18446744073 - 4097) as B. { rewrite <- abs_IZR, <- minus_IZR. apply IZR_le, H. }
  apply Rabs_le_inv in B. apply Rabs_le_inv in Dt. assert (Rabs t <= 18446744072) as Bt by (apply Rabs_le; lra).
  assert (Rabs (binary64 t - t) <= u * bp 35) as D by (apply rnd_abs; [change (bp 35) with 34359738368; lra|apply big_u; lia]).
  change (bp 35) with 34359738368 in D. rewrite u_val in D. apply Rabs_le_inv in D. apply Rabs_le_inv in Bt. apply Rle_lt_trans with (18446744073); [apply Rabs_le; lra|lra].
Qed.
Lemma close_far x y : is_word x -> is_word y -> (18446744074 + 4097 <= Z.abs (x - y))%Z -> close_f64 x y = false.
Proof.
  intros Hx Hy H. unfold close_f64. destruct (diff_f x y Hx Hy) as (Fd & t & Ed & Dt). destruct bound_f as [Fb Bb]. rewrite less_correct by assumption. rewrite Ed. apply Rlt_bool_false.
  assert (18446744074 + 4097 <= Rabs (IZR (x - y))) as B. { rewrite <- abs_IZR, <- plus_IZR. apply IZR_le, H. }
  assert (18446744074 + 1 <= Rabs t) as Bt.
  { pose proof (Rabs_triang_inv (IZR (x - y)) (IZR (x - y) - t)) as T. replace (IZR (x - y) - (IZR (x - y) - t)) with t in T by ring. rewrite <- Rabs_Ropp in Dt. replace (- (t - IZR (x - y))) with (IZR (x - y) - t) in Dt by ring. lra. }
  assert (Rabs (binary64 t - t) <= u * Rabs t) as D.
  { apply rnd_rel. right. eapply Rle_trans; [apply (big_u 0); lia|]. change (bp 0) with 1. lra. }
  rewrite u_val in D. pose proof (Rabs_triang_inv t (t - binary64 t)) as T. replace (t - (t - binary64 t)) with (binary64 t) in T by ring. rewrite <- Rabs_Ropp in D. replace (- (binary64 t - t)) with (t - binary64 t) in D by ring. lra.
Qed.

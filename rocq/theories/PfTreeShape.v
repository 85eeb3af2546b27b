(** * The server's part of the tree protocol on two clients' messages of equal dimensions *)
From Verif Require Import MBase MUtils MCodec MPoly MRlwe MTree MEncTree SpecShape SpecRing SpecLwe.
From Verif Require Import PfPoly PfTree PfTrace1 PfTrace2.
Local Open Scope nat_scope.

Definition ptrue {A B} (_ : A) (_ : B) : Prop := True.
Definition plen {A B} (a : list A) (b : list B) : Prop := length a = length b.

Lemma foldM_sim {A S S'} (R : S -> S' -> Prop) (f : S -> A -> res S) (f' : S' -> A -> res S') l : 
  (forall s s' x, In x l -> R s s' -> rres R (f s x) (f' s' x)) -> forall s s', R s s' -> rres R (foldM f l s) (foldM f' l s').
Proof.
  induction l as [|x l IH]; intros HF s s' H; cbn [foldM]; [exact H|].
  eapply rres_bind; [apply HF; [left; reflexivity|exact H]|]. intros a b Hab. apply IH; [|exact Hab]. intros. apply HF; [right; assumption|assumption].
Qed.
Lemma upd_length {A} (l : list A) : forall i x, length (upd l i x) = length l.
Proof. induction l as [|y l IH]; intros [|i] x; cbn; auto. Qed.
Lemma set_index_sim {A B} (l : list A) (l' : list B) i x x' : plen l l' -> rres plen (set_index l i x) (set_index l' i x').
Proof. unfold plen, set_index. intros H. rewrite H. destruct (_ <? _); cbn; [|exact I]. unfold plen. rewrite !upd_length. exact H. Qed.
Lemma eval_x_k_sim p p' k : plen p p' -> rres plen (eval_x_k p k) (eval_x_k p' k).
Proof.
  intros H. unfold plen in H. unfold eval_x_k, eval_x_k_in_memory. rewrite H. unfold rassert. destruct (k mod 2 =? 1); cbn [bind]; [|exact I]. destruct (is_power_of_two _); cbn [bind]; [|exact I].
  eapply rres_bind; [apply index_len, H|]. intros c c' _. eapply rres_bind; [apply set_index_sim; unfold plen; rewrite !repeat_length; reflexivity|].
  intros o o' Ho. apply foldM_sim; [|exact Ho]. intros s s' i _ Hs. unfold eval_x_k_step. eapply rres_bind; [apply index_len, H|]. intros. apply set_index_sim, Hs.
Qed.
Lemma fourier_loop_sim : forall m ksks terms terms' acc acc', length ksks <= m -> plen terms terms' -> rres ptrue (fourier_loop ksks terms acc) (fourier_loop ksks terms' acc').
Proof.
  unfold plen. induction m as [|m IH]; intros ksks terms terms' acc acc' Hm Hl; destruct ksks as [|k1 [|k2 ksks]]; cbn [fourier_loop length] in *; try exact I; try lia.
  - destruct terms, terms'; try discriminate; exact I.
  - destruct terms as [|t1 [|t2 terms]], terms' as [|t1' [|t2' terms']]; try discriminate; try exact I. apply IH; [lia|]. injection Hl. auto.
Qed.
Lemma subs_sim key c c' : V c c' -> rres ptrue (subs_fourier key c) (subs_fourier key c').
Proof.
  intros H. apply V_eq in H as [H1 H2]. unfold subs_fourier. eapply rres_bind; [apply eval_x_k_sim, H1|]. intros m m' Hm. eapply rres_bind; [apply eval_x_k_sim, H2|]. intros b b' Hb.
  unfold keyswitch_fourier. apply (fourier_loop_sim (length (rev (k_ksks key)))); [lia|]. unfold plen. rewrite !map_length. unfold decompose_poly. rewrite !map_length. reflexivity.
Qed.

(** Trees of the same form and labels. *)
Fixpoint esim {C D} (e : enc_node C) (e' : enc_node D) : Prop :=
  match e, e' with
  | ELeaf x, ELeaf y => x = y
  | EInternal _ l r, EInternal _ l' r' =>
      match l, l' with Some a, Some b => esim a b | None, None => True | _, _ => False end /\
      match r, r' with Some a, Some b => esim a b | None, None => True | _, _ => False end
  | _, _ => False
  end.
Definition osim {C D} (l : option (enc_node C)) (l' : option (enc_node D)) : Prop :=
  match l, l' with Some a, Some b => esim a b | None, None => True | _, _ => False end.
Definition csim {C D} (x : (option (enc_node C) * option (enc_node C)) * list C) (y : (option (enc_node D) * option (enc_node D)) * list D) : Prop :=
  osim (fst (fst x)) (fst (fst y)) /\ osim (snd (fst x)) (snd (fst y)) /\ plen (snd x) (snd y).
Lemma children_sim {C D} (t : node) : forall (cts : list C) (cts' : list D), plen cts cts' -> rres csim (new_enc_children t cts) (new_enc_children t cts').
Proof.
  induction t as [x | th f ix op l r IHl IHr] using node_ind'; intros cts cts' H; cbn [new_enc_children].
  { repeat split; cbn; auto. }
  assert (forall (o : option node) (IH : forall t, o = Some t -> forall (cts : list C) (cts' : list D), plen cts cts' -> rres csim (new_enc_children t cts) (new_enc_children t cts'))
     (cts : list C) (cts' : list D), plen cts cts' ->
     rres (fun x y => osim (fst x) (fst y) /\ plen (snd x) (snd y))
       (match o with
        | None => Ok (Some (ELeaf 0), cts)
        | Some (Leaf x) => Ok (Some (ELeaf x), cts)
        | Some (Internal _ _ _ _ _ _ as lt) =>
            match cts with
            | [] => Panic PExplicit
            | ct :: cts' => ' ((a, b), rest) <- new_enc_children lt cts' ;; Ok (Some (EInternal ct a b), rest)
            end
        end)
       (match o with
        | None => Ok (Some (ELeaf 0), cts')
        | Some (Leaf x) => Ok (Some (ELeaf x), cts')
        | Some (Internal _ _ _ _ _ _ as lt) =>
            match cts' with
            | [] => Panic PExplicit
            | ct :: cts' => ' ((a, b), rest) <- new_enc_children lt cts' ;; Ok (Some (EInternal ct a b), rest)
            end
        end)) as Hc.
  { clear. intros o IH cts cts' H. destruct o as [[th f ix op l r|x]|]; [|split; [reflexivity|exact H]|split; [reflexivity|exact H]].
    destruct cts as [|c cts], cts' as [|c' cts']; try discriminate; [exact I|]. eapply rres_bind; [apply (IH _ eq_refl); injection H; auto|].
    intros [[a b] rest] [[a' b'] rest'] (H1 & H2 & H3). cbn [fst snd] in *. split; [split; [exact H1|exact H2]|exact H3]. }
  eapply rres_bind; [apply Hc; [intros t ->; exact (IHl t eq_refl)|exact H]|]. intros [l' c1] [l1' c1'] [H1 H2]. cbn [fst snd] in *.
  eapply rres_bind; [apply Hc; [intros t ->; exact (IHr t eq_refl)|exact H2]|]. intros [r' c2] [r1' c2'] [H3 H4]. cbn [fst snd] in *.
  repeat split; assumption.
Qed.
Lemma enc_new_sim {C D} (t : node) (cts : list C) (cts' : list D) : plen cts cts' ->
  rres (fun x y => esim (fst x) (fst y)) (enc_node_new t cts) (enc_node_new t cts').
Proof.
  intros H. unfold enc_node_new. destruct cts as [|c cts], cts' as [|c' cts']; try discriminate; [exact I|]. destruct t as [th f ix op l r|x]; [|exact I].
  eapply rres_bind; [apply children_sim; injection H; auto|]. intros [[a b] rest] [[a' b'] rest'] (H1 & H2 & _). cbn [fst snd] in *. split; assumption.
Qed.
Lemma esim_max {C D} (e : enc_node C) : forall (e' : enc_node D), esim e e' -> max_leaf e = max_leaf e'.
Proof.
  induction e as [x|ct l r IHl IHr] using @enc_node_ind'; intros [ct' l' r'|y] H; cbn in H; try contradiction; [subst; reflexivity|].
  destruct H as [H1 H2]. cbn. 
  assert (match l with Some n => Some (max_leaf n) | None => None end = match l' with Some n => Some (max_leaf n) | None => None end) as ->
    by (destruct l, l'; try contradiction; [f_equal; apply IHl; auto|reflexivity]).
  assert (match r with Some n => Some (max_leaf n) | None => None end = match r' with Some n => Some (max_leaf n) | None => None end) as ->
    by (destruct r, r'; try contradiction; [f_equal; apply IHr; auto|reflexivity]).
  reflexivity.
Qed.

Section T.
Variables (fft : fftT) (cx : ctx).
Notation n := (c_n cx).
Hypothesis Hfft : forall ts, length (fft ts) = n.

Lemma less_eq_sim c c' d : rres V (less_eq_than n fft c d) (less_eq_than n fft c' d).
Proof. unfold less_eq_than, rassert. destruct (d <? n); cbn; [|exact I]. apply V_mk; cbn; unfold fourier_update_with_mul; rewrite !Hfft; reflexivity. Qed.
Lemma trace_step_sim k m c c' i : V c c' -> rres V (trace1_fourier_step fft k m c i) (trace1_fourier_step fft k m c' i).
Proof.
  intros H. unfold trace1_fourier_step. destruct (kget _ _) as [key|]; [|exact I]. unfold rassert. destruct (k_subs key =? _); cbn [bind]; [|exact I].
  eapply rres_bind; [apply subs_sim, H|]. intros b b' _. apply V_eq in H as [H1 H2]. apply V_mk; cbn; unfold add_backward, poly_add; rewrite !map2_len, !Hfft; congruence.
Qed.
Lemma trace_sim m c c' : V c c' -> rres V (trace1_fourier fft m c) (trace1_fourier fft m c').
Proof. intros H. unfold trace1_fourier. destruct (V_eq _ _ H) as [_ E]. rewrite E. apply foldM_sim; [|exact H]. intros. apply trace_step_sim; assumption. Qed.
Lemma expand_sim m neg cs cs' : Forall2 V cs cs' -> rres ptrue (expand_fourier fft cx m neg cs) (expand_fourier fft cx m neg cs').
Proof.
  intros H. unfold expand_fourier. eapply rres_bind; [apply (index_sim V), H|]. intros _ _ _.
  eapply (rres_bind ptrue); [|intros; exact I]. apply foldM_sim; [|exact I]. intros s s' i _ _. unfold expand_fourier_row. destruct (Nat.even i); [|exact I].
  eapply rres_bind; [apply (index_sim V), H|]. intros c c' Hc. eapply rres_bind; [apply trace_sim, Hc|]. intros; exact I.
Qed.
Lemma compare_sim m neg nodes cs cs' : Forall2 (Forall2 V) cs cs' -> rres (Forall2 ptrue) (compare_expand fft cx nodes cs neg m) (compare_expand fft cx nodes cs' neg m).
Proof.
  intros H. unfold compare_expand. apply (mapM_sim eq); [apply F2_refl; reflexivity|]. intros nd ? <-. unfold compare_node. destruct nd as [th f ix op l r|]; [|exact I].
  eapply rres_bind; [apply (index_sim (Forall2 V)), H|]. intros src src' Hs. eapply rres_bind.
  - apply (mapM_sim V V); [exact Hs|]. intros x y _. destruct op; [apply less_eq_sim|exact I].
  - intros; apply expand_sim; assumption.
Qed.
Lemma add_where_sim bits : forall out out' b b', Forall2 V out out' -> V b b' -> Forall2 V (add_where bits out b) (add_where bits out' b').
Proof.
  induction bits as [|bit bits IH]; intros out out' b b' H Hb; cbn; [exact H|]. destruct H; constructor; auto. destruct bit; [apply V_add|]; assumption.
Qed.
Lemma eval_sim (e : enc_node rgsw) : forall e' out out' b b', esim e e' -> Forall2 V out out' -> V b b' -> Forall2 V (eval_enc_node fft n out e b) (eval_enc_node fft n out' e' b').
Proof.
  induction e as [x|ct l r IHl IHr] using @enc_node_ind'; intros [ct' l' r'|y] out out' b b' H Ho Hb; cbn in H; try contradiction; cbn [eval_enc_node].
  - subst. apply add_where_sim; assumption.
  - destruct H as [H1 H2].
    assert (V (external_product fft ct (rlwe_allocate n) b) (external_product fft ct' (rlwe_allocate n) b')) as HL by (apply (V_ep fft cx Hfft); reflexivity).
    destruct l as [l|], l' as [l'|]; try contradiction; destruct r as [r|], r' as [r'|]; try contradiction;
      repeat first [apply (IHl _ eq_refl)|apply (IHr _ eq_refl)|assumption|apply V_sub].
Qed.
Lemma server_sim model neg m cs cs' : Forall2 (Forall2 V) cs cs' -> rres (Forall2 V) (server_f fft cx model neg m cs) (server_f fft cx model neg m cs').
Proof.
  intros H. unfold server_f. eapply rres_bind; [apply compare_sim, H|]. intros g g' Hg. eapply rres_bind; [apply enc_new_sim; induction Hg; cbn; [reflexivity|unfold plen in *; cbn; congruence]|].
  intros [e re] [e' re'] He. cbn [fst] in He. unfold enc_eval, max_leaf_bits. rewrite (esim_max _ _ He). destruct (trivial_one cx) as [c|]; [|exact I]. cbn [bind].
  apply eval_sim; [exact He|apply F2_refl; reflexivity|reflexivity].
Qed.
End T.

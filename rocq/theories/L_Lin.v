(** Exact real arithmetic: programs are linear maps. *)
From Coq Require Import QArith Qreals Reals Lra.
From Verif Require Import M_Prog M_Solvers S_Solver L_Prog L_Shape L_Indep L_Live.
Open Scope R_scope.

Lemma scatter_R (l : list (Z * (nat -> R))) t f i : @scatter R_arith l t f i = f i + injected l t i.
Proof.
  unfold scatter, injected.
  assert (G : forall x : R, fold_left (fun (acc : R) js => if Z.eqb (fst js) i then acc + snd js t else acc) l x =
    x + Rsum (map (fun js => snd js t) (filter (fun js => Z.eqb (fst js) i) l))).
  { unfold Rsum. induction l as [|a l IH]; intros x; cbn; [lra|].
    destruct (Z.eqb (fst a) i); cbn; rewrite IH; [lra|reflexivity]. }
  apply G.
Qed.

Lemma Q2R_0 : Q2R 0 = 0.
Proof. unfold Q2R; cbn; lra. Qed.

Lemma mv_R (row : list (Z * R)) x : @mv R_arith row x = Rsum (map (fun kc => snd kc * x (fst kc)) row).
Proof.
  unfold mv. cbn. rewrite Q2R_0.
  assert (G : forall a : R, fold_left (fun acc kc => acc + snd kc * x (fst kc)) row a = a + Rsum (map (fun kc => snd kc * x (fst kc)) row)).
  { unfold Rsum. induction row as [|kc row IH]; intros a; cbn; [lra|]. rewrite IH. lra. }
  rewrite G. lra.
Qed.

Definition rstate := state R_arith.

Section lin.
Variables (e : env R_arith) (src1 src2 src3 : acq R_arith) (a b : R) (t : nat).
Hypothesis Hsrc : forall ty i, injected (src3 ty) t i = a * injected (src1 ty) t i + b * injected (src2 ty) t i.
Definition lin_rel (s1 s2 s3 : rstate) : Prop := forall n i, s3 n i = a * s1 n i + b * s2 n i.

Lemma lin_upd s1 s2 s3 r f1 f2 f3 : lin_rel s1 s2 s3 -> (forall i, f3 i = a * f1 i + b * f2 i) ->
  lin_rel (upd s1 r f1) (upd s2 r f2) (upd s3 r f3).
Proof.
  intros H Hf n i. unfold upd. destruct (nm_eqb r n); [apply Hf|apply H].
Qed.

Lemma lin_exec1 ins s1 s2 s3 : lin_rel s1 s2 s3 ->
  lin_rel (exec1 e src1 t ins s1) (exec1 e src2 t ins s2) (exec1 e src3 t ins s3).
Proof.
  intros H. destruct ins; cbn [exec1];
    try (apply lin_upd; [exact H|]; intros i; cbn; rewrite ?H; try ring).
  - rewrite !mv_R. unfold Rsum. induction (e_mat e D i) as [|kc row IH]; cbn; [ring|]. rewrite IH, (H s). ring.
  - intros n i. unfold upd. destruct (nm_eqb s n); [apply H|]. destruct (nm_eqb r n); apply H.
  - rewrite !scatter_R, (H r), Hsrc. ring.
Qed.

Lemma lin_exec p s1 s2 s3 : lin_rel s1 s2 s3 ->
  lin_rel (exec e src1 t p s1) (exec e src2 t p s2) (exec e src3 t p s3).
Proof.
  unfold exec. revert s1 s2 s3. induction p as [|ins p IH]; intros s1 s2 s3 H; cbn; [exact H|].
  apply IH. apply lin_exec1, H.
Qed.
End lin.

(** reading of receivers *)
Lemma readout_lin a b o (s1 s2 s3 : rstate) i : fst o <> [] ->
  (forall n, In n (fst o) -> s3 n i = a * s1 n i + b * s2 n i) ->
  @readout R_arith o s3 i = a * @readout R_arith o s1 i + b * @readout R_arith o s2 i.
Proof.
  destruct o as [rs q]. cbn [fst]. intros Hne H. unfold readout. cbn [fst snd].
  destruct rs as [|r rs]; [congruence|].
  assert (E : forall x1 x2 x3, x3 = a * x1 + b * x2 ->
    fold_left (fun acc r' => acc + s3 r' i) rs x3 =
    a * fold_left (fun acc r' => acc + s1 r' i) rs x1 + b * fold_left (fun acc r' => acc + s2 r' i) rs x2).
  { assert (H' : forall n, In n rs -> s3 n i = a * s1 n i + b * s2 n i) by (intros; apply H; right; auto).
    clear H Hne. induction rs as [|x rs IH]; intros x1 x2 x3 Hx; cbn; [exact Hx|]. apply IH; [intros; apply H'; right; auto|].
    rewrite (H' x) by (left; auto). rewrite Hx. ring. }
  cbn. rewrite (E (s1 r i) (s2 r i) (s3 r i)) by (apply H; left; auto). destruct q; ring.
Qed.

(** columns and seismograms as combinations *)
Definition col_lin (a b : R) (c1 c2 c3 : list (list R)) : Prop :=
  c3 = map (fun tt' => map (fun xy => a * fst xy + b * snd xy) (combine (fst tt') (snd tt'))) (combine c1 c2).

Lemma gather_lin a b s rec (s1 s2 s3 : rstate) : In s all_solvers -> 
  (forall ty o, s_out s ty = Some o -> forall n i, In n (fst o) -> s3 n i = a * s1 n i + b * s2 n i) ->
  col_lin a b (@gather R_arith s rec s1) (@gather R_arith s rec s2) (@gather R_arith s rec s3).
Proof.
  intros Hs H. unfold col_lin, gather. induction (s_types s) as [|ty tys IH]; [reflexivity|]. cbn [map combine]. f_equal; [|exact IH].
  cbn [fst snd]. specialize (H ty). destruct (s_out s ty) as [o|] eqn:E; [|reflexivity].
  destruct (out_live s (Cfg false false 0 false false false false 0) Hs ty o E) as [_ Hne].
  induction (rec ty) as [|i l IHl]; [reflexivity|]. cbn [map combine]. rewrite IHl. f_equal. cbn [fst snd].
  apply readout_lin; auto. intros n Hn. apply (H o eq_refl n i Hn).
Qed.

Definition live_lin (a b : R) (s : solver) (c : cfg) (s1 s2 s3 : rstate) : Prop :=
  forall n, In n (live s c) -> forall i, s3 n i = a * s1 n i + b * s2 n i.

Lemma step_lin a b (e : env R_arith) src1 src2 src3 t s c s1 s2 s3 : In s all_solvers ->
  (forall ty i, injected (src3 ty) t i = a * injected (src1 ty) t i + b * injected (src2 ty) t i) ->
  live_lin a b s c s1 s2 s3 ->
  live_lin a b s c (exec e src1 t (step_prog s c) s1) (exec e src2 t (step_prog s c) s2) (exec e src3 t (step_prog s c) s3).
Proof.
  intros Hs Hsrc H n Hn i.
  pose (s3' := (fun n i => a * s1 n i + b * s2 n i) : rstate).
  rewrite <- (lin_exec e src1 src2 src3 a b t Hsrc (step_prog s c) s1 s2 s3'); [|intros ? ?; reflexivity].
  apply (step_live_eq R_arith e src3 src3 t c s s3 s3' Hs (fun ty => eq_refl)); auto.
Qed.

Lemma steps_lin a b s c (sh1 sh2 sh3 : shot R_arith) : In s all_solvers ->
  sh_env sh1 = sh_env sh3 -> sh_env sh2 = sh_env sh3 -> sh_rec sh1 = sh_rec sh3 -> sh_rec sh2 = sh_rec sh3 ->
  (forall ty t i, injected (sh_src sh3 ty) t i = a * injected (sh_src sh1 ty) t i + b * injected (sh_src sh2 ty) t i) ->
  forall n t0 s1 s2 s3, live_lin a b s c s1 s2 s3 ->
  live_lin a b s c (fst (steps s c sh1 t0 n s1)) (fst (steps s c sh2 t0 n s2)) (fst (steps s c sh3 t0 n s3)) /\
  forall k c1 c2, nth_error (snd (steps s c sh1 t0 n s1)) k = Some c1 -> nth_error (snd (steps s c sh2 t0 n s2)) k = Some c2 ->
    exists c3, nth_error (snd (steps s c sh3 t0 n s3)) k = Some c3 /\ col_lin a b c1 c2 c3.
Proof.
  intros Hs E1 E2 R1 R2 Hsrc. induction n as [|n IH]; intros t0 s1 s2 s3 H; cbn [steps].
  - split; [exact H|]. intros [|k] c1 c2; cbn; discriminate.
  - unfold run_step. rewrite E1, E2, R1, R2.
    assert (H1 := step_lin a b (sh_env sh3) (sh_src sh1) (sh_src sh2) (sh_src sh3) t0 s c s1 s2 s3 Hs (fun ty i => Hsrc ty t0 i) H).
    destruct (IH (S t0) _ _ _ H1) as [I1 I2].
    destruct (steps s c sh1 (S t0) n _) as [a1 b1], (steps s c sh2 (S t0) n _) as [a2 b2], (steps s c sh3 (S t0) n _) as [a3 b3].
    cbn [fst snd] in *. split; [exact I1|]. intros [|k] c1 c2; cbn [nth_error].
    + intros Q1 Q2; injection Q1 as <-; injection Q2 as <-. eexists; split; [reflexivity|].
      apply gather_lin; auto. intros ty o Ho m i Hm. destruct (out_live s c Hs ty o Ho) as [Hi _]. apply (H1 m (Hi m Hm) i).
    + apply I2.
Qed.

Lemma steps_len A s c (sh : shot A) n : forall t0 st, length (snd (steps s c sh t0 n st)) = n.
Proof.
  induction n as [|n IH]; intros t0 st; cbn [steps]; [reflexivity|]. unfold run_step.
  specialize (IH (S t0) (exec (sh_env sh) (sh_src sh) t0 (step_prog s c) st)).
  destruct (steps s c sh (S t0) n _) as [a b]. cbn in *. lia.
Qed.

(** ** The statements of P_Solver.v *)
Lemma col_lin_nth a b c1 c2 c3 k r x1 x2 : col_lin a b c1 c2 c3 ->
  (exists t1, nth_error c1 k = Some t1 /\ nth_error t1 r = Some x1) ->
  (exists t2, nth_error c2 k = Some t2 /\ nth_error t2 r = Some x2) ->
  exists t3, nth_error c3 k = Some t3 /\ nth_error t3 r = Some (a * x1 + b * x2).
Proof.
  intros -> (t1&H1&H1') (t2&H2&H2').
  assert (G : forall (X Y : Type) (l1 : list X) (l2 : list Y) k u v, nth_error l1 k = Some u -> nth_error l2 k = Some v ->
     nth_error (combine l1 l2) k = Some (u, v)).
  { clear. induction l1 as [|x l1 IH]; intros [|y l2] [|k] u v; cbn; try discriminate; [intros E1 E2; congruence|apply IH]. }
  rewrite nth_error_map, (G _ _ _ _ _ _ _ H1 H2). cbn [option_map]. eexists. split; [reflexivity|].
  cbn [fst snd]. rewrite nth_error_map, (G _ _ _ _ _ _ _ H1' H2'). reflexivity.
Qed.

Lemma sample_some {K} (seis : list (list (list K))) t k r x :
  sample seis t k r = Some x <-> exists c, nth_error seis t = Some c /\ exists tr, nth_error c k = Some tr /\ nth_error tr r = Some x.
Proof.
  unfold sample. split.
  - destruct (nth_error seis t) as [c|]; [|discriminate]. destruct (nth_error c k) as [tr|] eqn:E; [|discriminate].
    intros H. exists c. split; [reflexivity|]. exists tr. auto.
  - intros (c&->&tr&->&->). reflexivity.
Qed.

Lemma live_fields s c n : In n (live s c) <-> In n (s_fields s c) \/ (c_pml c = true /\ In n (s_psi s)).
Proof. unfold live. rewrite in_app_iff. destruct (c_pml c); cbn; intuition congruence. Qed.

Lemma same_fields_live A s c (st st' : state A) : same_fields s c st st' <-> live_eq s c st st'.
Proof.
  unfold same_fields, live_eq. split.
  - intros [H1 H2] n Hn. apply live_fields in Hn. destruct Hn as [Hn|[Hp Hn]]; auto.
  - intros H. split; [|intros Hp]; intros n Hn; apply H, live_fields; auto.
Qed.

Lemma zero_lin a b s c (s1 s2 s3 : rstate) : @psi_zero R_arith s c s1 -> @psi_zero R_arith s c s2 -> @psi_zero R_arith s c s3 ->
  live_lin a b s c (@zero_regs R_arith (s_fields s c) s1) (@zero_regs R_arith (s_fields s c) s2) (@zero_regs R_arith (s_fields s c) s3).
Proof.
  intros H1 H2 H3 n Hn i.
  rewrite (zero_live R_arith s c s1 s3 H1 H3 n Hn i), (zero_live R_arith s c s2 s3 H2 H3 n Hn i).
  destruct (in_dec (fun a b => Bool.reflect_dec _ _ (Bool.iff_reflect _ _ (iff_sym (nm_eqb_eq a b)))) n (s_fields s c)) as [F|F].
  - rewrite !zero_regs_in; auto. cbn. rewrite Q2R_0. ring.
  - rewrite !zero_regs_out by auto. apply live_fields in Hn. destruct Hn as [Hn|[Hp Hn]]; [contradiction|].
    rewrite (H3 Hp n Hn i). cbn. rewrite Q2R_0. ring.
Qed.

Lemma C15_lem s c (sh1 sh2 sh3 : shot R_arith) a b st1 st2 st3 : In s all_solvers ->
  sh_env sh1 = sh_env sh3 -> sh_env sh2 = sh_env sh3 -> sh_rec sh1 = sh_rec sh3 -> sh_rec sh2 = sh_rec sh3 ->
  sh_n sh1 = sh_n sh3 -> sh_n sh2 = sh_n sh3 ->
  (forall ty t i, injected (sh_src sh3 ty) t i = a * injected (sh_src sh1 ty) t i + b * injected (sh_src sh2 ty) t i) ->
  pml_memory_zero s c st1 -> pml_memory_zero s c st2 -> pml_memory_zero s c st3 ->
  (forall t k r x1 x2, sample (seismograms s c sh1 st1) t k r = Some x1 -> sample (seismograms s c sh2 st2) t k r = Some x2 ->
     sample (seismograms s c sh3 st3) t k r = Some (a * x1 + b * x2)) /\
  (forall m n, (In n (s_fields s c) \/ c_pml c = true /\ In n (s_psi s)) -> forall i,
     final_fields s c sh3 m st3 n i = a * final_fields s c sh1 m st1 n i + b * final_fields s c sh2 m st2 n i).
Proof.
  intros Hs E1 E2 R1 R2 N1 N2 Hsrc P1 P2 P3.
  assert (G := fun m => steps_lin a b s c sh1 sh2 sh3 Hs E1 E2 R1 R2 Hsrc m 0 _ _ _ (zero_lin a b s c st1 st2 st3 P1 P2 P3)).
  split.
  - intros t k r x1 x2. rewrite !sample_some. unfold seismograms, run_shot. rewrite N1, N2.
    destruct (G (sh_n sh3)) as [_ G2].
    destruct (steps s c sh1 _ _ _) as [a1 b1], (steps s c sh2 _ _ _) as [a2 b2], (steps s c sh3 _ _ _) as [a3 b3]. cbn [snd] in *.
    intros (c1&H1&H1') (c2&H2&H2'). destruct (G2 t c1 c2 H1 H2) as (c3&H3&HL). exists c3. split; [exact H3|].
    eapply col_lin_nth; eauto.
  - intros m n Hn i. apply (proj1 (G m) n). apply live_fields. exact Hn.
Qed.

(** the part of [steps] before and after a time *)
Lemma steps_prefix A s c (sh sh' : shot A) : In s all_solvers -> sh_env sh = sh_env sh' -> sh_rec sh = sh_rec sh' ->
  forall n n' t0 t st st', (t < n)%nat -> (t < n')%nat ->
  (forall u, (t0 <= u <= t0 + t)%nat -> same_at (sh_src sh) (sh_src sh') u) -> live_eq s c st st' ->
  nth_error (snd (steps s c sh t0 n st)) t = nth_error (snd (steps s c sh' t0 n' st')) t.
Proof.
  intros Hs He Hr. induction n as [|n IH]; intros [|n'] t0 t st st' Hn Hn' Hsrc H; try lia. cbn [steps]. unfold run_step.
  assert (H1 : live_eq s c (exec (sh_env sh) (sh_src sh) t0 (step_prog s c) st) (exec (sh_env sh') (sh_src sh') t0 (step_prog s c) st')).
  { rewrite <- He. apply step_live_eq; auto. apply Hsrc. lia. }
  assert (G : forall t', t = S t' -> nth_error (snd (steps s c sh (S t0) n (exec (sh_env sh) (sh_src sh) t0 (step_prog s c) st))) t' =
     nth_error (snd (steps s c sh' (S t0) n' (exec (sh_env sh') (sh_src sh') t0 (step_prog s c) st'))) t').
  { intros t' ->. apply IH; [lia|lia| |exact H1]. intros; apply Hsrc; lia. }
  destruct (steps s c sh (S t0) n _) as [a b], (steps s c sh' (S t0) n' _) as [a' b']. cbn [snd] in *.
  destruct t as [|t]; cbn [nth_error]; [|apply G; reflexivity].
  f_equal. rewrite <- Hr. apply gather_ext with (c := c); auto.
Qed.

Lemma C16_lem A s c (sh sh' : shot A) st st' t : In s all_solvers -> sh_env sh = sh_env sh' -> sh_rec sh = sh_rec sh' ->
  (t < sh_n sh)%nat -> (t < sh_n sh')%nat ->
  (forall u, (u <= t)%nat -> same_sources_at (sh_src sh) (sh_src sh') u) ->
  pml_memory_zero s c st -> pml_memory_zero s c st' ->
  forall k r, sample (seismograms s c sh st) t k r = sample (seismograms s c sh' st') t k r.
Proof.
  intros Hs He Hr Hn Hn' Hsrc P P' k r. unfold sample, seismograms, run_shot.
  assert (G := steps_prefix A s c sh sh' Hs He Hr (sh_n sh) (sh_n sh') 0 t _ _ Hn Hn' (fun u Hu => Hsrc u ltac:(lia)) (zero_live A s c st st' P P')).
  destruct (steps s c sh _ _ _) as [a b], (steps s c sh' _ _ _) as [a' b']. cbn [snd] in *. rewrite G. reflexivity.
Qed.

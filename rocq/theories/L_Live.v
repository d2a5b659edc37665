(** The analysis of L_Indep.v for whole vectors, time loops and shots. *)
From Coq Require Import QArith.
From Verif Require Import M_Prog M_Solvers L_Prog L_Shape L_Indep.
Open Scope Z_scope.

Definition live_eq {A} (s : solver) (c : cfg) (st st' : state A) : Prop :=
  forall n, In n (live s c) -> forall i, st n i = st' n i.

Lemma lk_uD l s v : lk s (uD l) = Some v <-> In s l.
Proof.
  destruct v. unfold uD. induction l as [|a l IH]; cbn; [intuition discriminate|].
  destruct (String.eqb a s) eqn:E.
  - apply String.eqb_eq in E. intuition.
  - rewrite IH. assert (a <> s) by (intros ->; rewrite String.eqb_refl in E; discriminate). intuition.
Qed.

Lemma live_agree A s c (st st' : state A) : In s all_solvers ->
  (live_eq s c st st' <-> agree u_reg (c_L c) (uD (livestr s (c_pml c))) st st').
Proof.
  intros Hs. unfold live_eq, agree. split.
  - intros H x v Hx l Hl i _. apply H. apply live_in; auto. apply lk_uD in Hx. auto.
  - intros H [x l] Hn i. apply live_in in Hn; auto. destruct Hn as [H1 H2].
    apply (H x tt); [apply lk_uD; auto|auto|exact I].
Qed.

(** sources with the same positions and the same samples at time t *)
Definition same_at {A} (src src' : acq A) (t : nat) : Prop :=
  forall ty, map (fun js => (fst js, snd js t)) (src ty) = map (fun js => (fst js, snd js t)) (src' ty).

Lemma scatter_map A (l : list (Z * (nat -> num A))) t f i :
  scatter l t f i = fold_left (fun acc js => if fst js =? i then a_add A acc (snd js) else acc) (map (fun js => (fst js, snd js t)) l) (f i).
Proof. unfold scatter. generalize (f i). induction l as [|a l IH]; intros x; cbn; [reflexivity|apply IH]. Qed.

Lemma step_live_eq A (e : env A) src src' t c s st st' : In s all_solvers -> same_at src src' t ->
  live_eq s c st st' -> live_eq s c (exec e src t (step_prog s c) st) (exec e src' t (step_prog s c) st').
Proof.
  intros Hs Hsrc H. apply live_agree; auto. apply step_live; auto; [|apply live_agree; auto].
  intros ty v i f f' _ E. rewrite !scatter_map, (Hsrc ty), E. reflexivity.
Qed.

(** everything recorded is live *)
Lemma out_live s c : In s all_solvers -> forall ty o, s_out s ty = Some o -> incl (fst o) (live s c) /\ fst o <> [].
Proof.
  intros Hs ty o Ho.
  assert (G : forallb (fun n => existsb (nm_eqb n) (s_fields s (Cfg false false 0 false false false false 0))) (fst o) = true /\ fst o <> []).
  { unfold all_solvers in Hs. cbn [In] in Hs.
    repeat destruct Hs as [<-|Hs]; [..|destruct Hs];
      destruct ty; cbn in Ho; try discriminate; injection Ho as <-; (split; [vm_compute; reflexivity|discriminate]). }
  destruct G as [G G']. split; [|exact G'].
  destruct (solver_shape s Hs) as (Al&Bl&Pl&HF&_). rewrite HF in G.
  intros n Hn. rewrite forallb_forall in G. specialize (G n Hn). apply existsb_exists in G. destruct G as (x&Hx&E).
  apply nm_eqb_eq in E; subst x. unfold live. rewrite HF. cbn [c_L] in Hx.
  apply in_app_iff in Hx. apply in_app_iff; left. apply in_app_iff. left.
  destruct Hx as [Hx|Hx]; [exact Hx|]. destruct n. apply in_relax in Hx. lia.
Qed.

Lemma readout_ext A o (st st' : state A) i : (forall n, In n (fst o) -> st n i = st' n i) -> readout o st i = readout o st' i.
Proof.
  intros H. unfold readout. destruct o as [rs q]; cbn [fst snd] in *.
  assert (E : match rs with [] => a_q A 0 | r :: rs => fold_left (fun acc r' => a_add A acc (st r' i)) rs (st r i) end =
              match rs with [] => a_q A 0 | r :: rs => fold_left (fun acc r' => a_add A acc (st' r' i)) rs (st' r i) end).
  { destruct rs as [|r rs]; [reflexivity|]. rewrite (H r) by (left; auto).
    assert (H' : forall n, In n rs -> st n i = st' n i) by (intros; apply H; right; auto).
    generalize (st' r i). clear H. induction rs as [|a rs IH]; intros x; cbn; [reflexivity|].
    rewrite (H' a) by (left; auto). apply IH. intros; apply H'; right; auto. }
  rewrite E. reflexivity.
Qed.

Lemma gather_ext A s c rec (st st' : state A) : In s all_solvers -> live_eq s c st st' -> gather s rec st = gather s rec st'.
Proof.
  intros Hs H. unfold gather. apply map_ext. intros ty. destruct (s_out s ty) as [o|] eqn:E; [|reflexivity].
  destruct (out_live s c Hs ty o E) as [Hi _].
  apply map_ext. intros i. apply readout_ext. intros n Hn. apply H. auto.
Qed.

Lemma steps_live A s c (sh sh' : shot A) : In s all_solvers -> sh_env sh = sh_env sh' -> sh_rec sh = sh_rec sh' ->
  forall n t0 st st', (forall t, (t0 <= t < t0 + n)%nat -> same_at (sh_src sh) (sh_src sh') t) -> live_eq s c st st' ->
  live_eq s c (fst (steps s c sh t0 n st)) (fst (steps s c sh' t0 n st')) /\
  snd (steps s c sh t0 n st) = snd (steps s c sh' t0 n st').
Proof.
  intros Hs He Hr. induction n as [|n IH]; intros t0 st st' Hsrc H; cbn [steps]; [split; [exact H|reflexivity]|].
  unfold run_step.
  assert (H1 : live_eq s c (exec (sh_env sh) (sh_src sh) t0 (step_prog s c) st) (exec (sh_env sh') (sh_src sh') t0 (step_prog s c) st')).
  { rewrite <- He. apply step_live_eq; auto. apply Hsrc. lia. }
  assert (Hsrc' : forall t, (S t0 <= t < S t0 + n)%nat -> same_at (sh_src sh) (sh_src sh') t) by (intros; apply Hsrc; lia).
  destruct (IH (S t0) _ _ Hsrc' H1) as [I1 I2].
  destruct (steps s c sh (S t0) n _) as [a b], (steps s c sh' (S t0) n _) as [a' b']. cbn in I1, I2 |- *.
  split; [exact I1|]. f_equal; [|exact I2]. rewrite <- Hr. apply gather_ext with (c := c); auto.
Qed.

Lemma zero_regs_in A rs (st : state A) n : In n rs -> zero_regs rs st n = fun _ => a_q A 0.
Proof.
  unfold zero_regs. revert st. induction rs as [|r rs IH]; intros st []; cbn.
  - subst. destruct (in_dec (fun a b => Bool.reflect_dec _ _ (Bool.iff_reflect _ _ (iff_sym (nm_eqb_eq a b)))) n rs) as [i|i]; [apply IH; auto|].
    clear IH. assert (G : forall st, ~ In n rs -> fold_left (fun (st : state A) r => upd st r (fun _ => a_q A 0)) rs st n = st n).
    { clear. induction rs as [|r rs IH]; intros st H; cbn; [reflexivity|]. rewrite IH by (intros ?; apply H; right; auto).
      apply upd_other. intros ->. apply H. left; auto. }
    rewrite G by auto. apply upd_same.
  - apply IH; auto.
Qed.
Lemma zero_regs_out A rs (st : state A) n : ~ In n rs -> zero_regs rs st n = st n.
Proof.
  unfold zero_regs. revert st. induction rs as [|r rs IH]; intros st H; cbn; [reflexivity|].
  rewrite IH by (intros ?; apply H; right; auto). apply upd_other. intros ->. apply H. left; auto.
Qed.
Lemma zero_regs_any A rs (st : state A) n i : zero_regs rs st n i = a_q A 0 \/ zero_regs rs st n i = st n i.
Proof.
  destruct (in_dec (fun a b => Bool.reflect_dec _ _ (Bool.iff_reflect _ _ (iff_sym (nm_eqb_eq a b)))) n rs) as [H|H].
  - left. rewrite zero_regs_in; auto.
  - right. rewrite zero_regs_out; auto.
Qed.

Definition psi_zero {A} (s : solver) (c : cfg) (st : state A) : Prop :=
  c_pml c = true -> forall n, In n (s_psi s) -> forall i, st n i = a_q A 0.

Lemma zero_live A s c (st st' : state A) : psi_zero s c st -> psi_zero s c st' ->
  live_eq s c (zero_regs (s_fields s c) st) (zero_regs (s_fields s c) st').
Proof.
  intros H H' n Hn i. unfold live in Hn. 
  destruct (in_dec (fun a b => Bool.reflect_dec _ _ (Bool.iff_reflect _ _ (iff_sym (nm_eqb_eq a b)))) n (s_fields s c)) as [F|F].
  - rewrite !zero_regs_in; auto.
  - rewrite !zero_regs_out by auto. apply in_app_iff in Hn. destruct Hn as [Hn|Hn]; [contradiction|].
    unfold psi_zero in *. destruct (c_pml c); [|destruct Hn]. rewrite H, H' by auto. reflexivity.
Qed.

Lemma run_shot_psi A s c (sh : shot A) st : psi_zero s c (fst (run_shot s c sh st)).
Proof.
  intros Hp n Hn i. unfold run_shot. destruct (steps _ _ _ _ _ _) as [a b]. rewrite Hp. cbn. rewrite zero_regs_in; auto.
Qed.

Lemma run_shot_indep A s c (sh : shot A) st st' : In s all_solvers -> psi_zero s c st -> psi_zero s c st' ->
  snd (run_shot s c sh st) = snd (run_shot s c sh st') /\
  live_eq s c (fst (run_shot s c sh st)) (fst (run_shot s c sh st')).
Proof.
  intros Hs H H'. unfold run_shot.
  destruct (steps_live A s c sh sh Hs eq_refl eq_refl (sh_n sh) 0 _ _ (fun t _ ty => eq_refl) (zero_live A s c st st' H H')) as [I1 I2].
  destruct (steps s c sh 0 (sh_n sh) (zero_regs (s_fields s c) st)) as [a b],
           (steps s c sh 0 (sh_n sh) (zero_regs (s_fields s c) st')) as [a' b']. cbn in *.
  split; [exact I2|]. destruct (c_pml c); [|exact I1].
  intros n Hn i. destruct (in_dec (fun a b => Bool.reflect_dec _ _ (Bool.iff_reflect _ _ (iff_sym (nm_eqb_eq a b)))) n (s_psi s)) as [F|F].
  - rewrite !zero_regs_in; auto.
  - rewrite !zero_regs_out by auto. apply I1, Hn.
Qed.

Lemma run_shots_indep A s c (shs : list (shot A)) st : In s all_solvers -> psi_zero s c st ->
  forall st0, psi_zero s c st0 ->
  snd (run_shots s c shs st) = map (fun sh => snd (run_shot s c sh st0)) shs.
Proof.
  intros Hs. revert st. induction shs as [|sh shs IH]; intros st H st0 H0; cbn [run_shots map]; [reflexivity|].
  pose proof (run_shot_psi A s c sh st) as Hp. pose proof (run_shot_indep A s c sh st st0 Hs H H0) as [I1 _].
  destruct (run_shot s c sh st) as [a b]. cbn in Hp, I1. specialize (IH a Hp st0 H0).
  destruct (run_shots s c shs a) as [a2 b2]. cbn in IH |- *. rewrite I1, IH. reflexivity.
Qed.

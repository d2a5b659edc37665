(** Convergence of the solvers: growth of the error for any scheme whose energy does not grow, and truncation errors at staggered points. *)
From Coq Require Import QArith Qreals Reals Lra FunctionalExtensionality.
From Verif Require Import M_Grid M_Deriv S_Deriv L_Deriv L_Deriv2 M_Prog M_Solvers M_Env S_Solver S_Step S_Check S_Energy L_Prog L_Lin L_Src L_Surface L_Leap L_Leap2 L_Diff L_Energy
  S_Taylor S_Conv S_Conv2 L_Conv L_Conv2.
From Verif Require L_Fd L_Taylor.
Open Scope R_scope.
Open Scope list_scope.

Section growth.
Notation rst := (state R_arith).
Variables (Q : rst -> R) (nxt : rst -> rst).
Hypothesis Qpos : forall s, 0 <= Q s.
Hypothesis Qlin : forall s s', exists x, forall l, Q (lin s l s') = Q s + l * x + l * l * Q s'.
Hypothesis Qdec : forall s, Q (nxt s) <= Q s.
Lemma g_triangle s s' : sqrt (Q (lin s 1 s')) <= sqrt (Q s) + sqrt (Q s').
Proof.
  destruct (Qlin s s') as (x & Hx).
  assert (H : forall l, 0 <= Q s + l * x + l * l * Q s') by (intros l; rewrite <- Hx; apply Qpos).
  pose proof (quad_root _ _ _ H (Qpos s) (Qpos s')) as A. rewrite Hx.
  replace (Q s + 1 * x + 1 * 1 * Q s') with (Q s + x + Q s') by ring.
  pose proof (sqrt_pos (Q s)). pose proof (sqrt_pos (Q s')).
  rewrite <- (sqrt_square (sqrt (Q s) + sqrt (Q s'))) by lra. apply sqrt_le_1_alt, A.
Qed.
Lemma g_error (E : nat -> rst) m B : Q (E O) = 0 ->
  (forall n, (n < m)%nat -> Q (fun nm i => E (S n) nm i - nxt (E n) nm i) <= B) -> 0 <= B ->
  Q (E m) <= INR m * INR m * B.
Proof.
  intros H0 HF HB.
  assert (G : forall n, (n <= m)%nat -> sqrt (Q (E n)) <= INR n * sqrt B).
  { intros n. induction n as [|n IH]; intros Hn; [rewrite H0, sqrt_0; cbn; lra|].
    replace (E (S n)) with (lin (nxt (E n)) 1 (fun nm i => E (S n) nm i - nxt (E n) nm i)).
    - eapply Rle_trans; [apply g_triangle|]. rewrite S_INR. specialize (IH ltac:(lia)).
      assert (sqrt (Q (fun nm i => E (S n) nm i - nxt (E n) nm i)) <= sqrt B) by (apply sqrt_le_1_alt, HF; lia).
      pose proof (sqrt_le_1_alt _ _ (Qdec (E n))). lra.
    - apply functional_extensionality. intros nm. apply functional_extensionality. intros i. unfold lin. lra. }
  specialize (G m (le_n m)). rewrite <- (sqrt_sqrt (Q (E m))) by apply Qpos. rewrite <- (sqrt_sqrt B) at 1 by exact HB.
  replace (INR m * INR m * (sqrt B * sqrt B)) with (INR m * sqrt B * (INR m * sqrt B)) by ring. apply Rmult_le_compat; try apply sqrt_pos; exact G.
Qed.
End growth.

(** ** time *)
Lemma time_error dt f a b M t d : 0 < dt -> smooth_on 2 M a b f -> a <= t - dt / 2 -> t + dt / 2 <= b -> derivable_pt_lim f t d ->
  Rabs (f (t + dt / 2) - f (t - dt / 2) - dt * d) <= dt * (1 / 24 * M * dt ^ 2).
Proof.
  intros Hdt Hs Ha Hb Hd. rewrite <- (quot2 dt f t Hdt), <- Rmult_minus_distr_l, Rabs_mult, (Rabs_right dt) by lra. apply Rmult_le_compat_l; [lra|].
  pose proof (L_Taylor.quotient_error 2 dt f a b M t d ltac:(left; reflexivity) Hdt Hs ltac:(change (2 - 1)%Z with 1%Z; lra) ltac:(change (2 - 1)%Z with 1%Z; lra) Hd) as A.
  change (Z.to_nat 2) with 2%nat in A. unfold error_const in A. cbn [Z.eqb Pos.eqb] in A. exact A.
Qed.
(** mean of two time levels *)
Lemma mean_error dt f a b M t : 0 < dt -> smooth_on 1 M a b f -> a <= t - dt / 2 -> t + dt / 2 <= b ->
  Rabs ((f (t + dt / 2) + f (t - dt / 2)) / 2 - f t) <= 1 / 8 * M * dt ^ 2.
Proof.
  intros Hdt (F & F0 & F1 & F2) Ha Hb.
  pose proof (L_Taylor.taylor_bound 1 M a b F t (dt / 2) F1 F2 ltac:(lra) ltac:(lra)) as A.
  pose proof (L_Taylor.taylor_bound 1 M a b F t (- (dt / 2)) F1 F2 ltac:(lra) ltac:(lra)) as B.
  rewrite (Rabs_right (dt / 2)) in A by lra. rewrite Rabs_Ropp, (Rabs_right (dt / 2)) in B by lra.
  cbn [seq map] in A, B. unfold Rsum in A, B. cbn [fold_right] in A, B. cbn [pow fact INR Nat.mul Nat.add] in A, B. rewrite !F0 in A, B. change (t + - (dt / 2)) with (t - dt / 2) in B.
  set (u := f (t + dt / 2)) in *. set (w := f (t - dt / 2)) in *. set (d := F 1%nat t) in *. set (m := f t) in *.
  replace ((u + w) / 2 - m) with (/ 2 * (u - (m * 1 / 1 + (d * (dt / 2 * 1) / 1 + 0))) + / 2 * (w - (m * 1 / 1 + (d * (- (dt / 2) * 1) / 1 + 0)))) by field.
  eapply Rle_trans; [apply Rabs_triang|]. rewrite !Rabs_mult, (Rabs_right (/ 2)) by lra.
  replace (1 / 8 * M * dt ^ 2) with (/ 2 * (M * (dt / 2 * (dt / 2 * 1)) / (1 + 1)) + / 2 * (M * (dt / 2 * (dt / 2 * 1)) / (1 + 1))) by field.
  apply Rplus_le_compat; (apply Rmult_le_compat_l; [lra|assumption]).
Qed.

(** ** space *)
Section space.
Variables (e : env R_arith) (c : cfg) (useVar hybrid : bool) (nx ny nz p : Z) (rest : list Z) (DH : Q) (fuel : nat)
  (dt h : R) (cv : Q -> R) (g : grid).
Hypothesis HM : @fd_matrices R_arith e c true useVar hybrid nx ny nz p rest DH fuel (fun q => Q2R q * (dt / h)) cv g.
Notation ri := (reg_index nx nz).
Notation D := (Dmv e "").
Notation ins := (inside nx ny nz).
Hypothesis Hp : L_Fd.exact_order p.
Hypothesis Hh : 0 < h.
Hypothesis Hdt : 0 < dt.
Definition samp (F : R -> position -> R) (s : axis -> bool) (t : R) (i : Z) : R := F t (spot h s (ix nx i) (iy nx nz i) (iz nx nz i)).
Lemma samp_at F s t x y z : ins x y z -> samp F s t (ri x y z) = F t (spot h s x y z).
Proof. intros H. unfold samp. destruct (decode nx ny nz x y z H) as (-> & -> & ->). reflexivity. Qed.
Lemma spot_moved s a d x y z : spot h s (if axis_eqb a AX then x + d else x)%Z (if axis_eqb a AY then y + d else y)%Z (if axis_eqb a AZ then z + d else z)%Z = shift a (IZR d * h) (spot h s x y z).
Proof. apply functional_extensionality. intros b. unfold spot, shift. destruct a, b; cbn [axis_eqb coordinate]; try reflexivity; rewrite plus_IZR; ring. Qed.
Lemma spot_flip s d x y z : spot h (flip d s) x y z = shift d (if s d then - (h / 2) else h / 2) (spot h s x y z).
Proof. apply functional_extensionality. intros b. unfold spot, shift, flip. destruct (axis_eqb d b) eqn:E; [|reflexivity]. assert (d = b) as -> by (destruct d, b; discriminate E || reflexivity). destruct (s b); cbn [negb]; lra. Qed.
Lemma space_any F s d T Mx t x y z dF : fits nx ny nz p h T Mx s d F -> ax_ok nz d -> ins x y z -> 0 <= t <= T ->
  derivable_pt_lim (fun u => F t (shift d u (spot h (flip d s) x y z))) 0 dF ->
  Rabs (D d (s d) (samp F s t) (ri x y z) - dt * dF) <= dt * (error_const p * Mx * h ^ Z.to_nat p).
Proof.
  intros HF Ha Hi Ht Hd. pose proof Hi as (Hx & Hy & Hz). destruct (HF x y z t Hx Hy Hz Ht) as (HS & HO).
  assert (E : D d (s d) (samp F s t) (ri x y z) = dt * quotient p h (fun u => F t (shift d u (spot h (flip d s) x y z))) 0).
  { destruct (s d) eqn:B.
    - apply (D_quot_b e c useVar hybrid nx ny nz p rest DH fuel dt h cv g HM Hp Hh d _ _ x y z Ha Hi).
      intros j Hj. cbv beta. rewrite spot_flip, B, shift_shift. replace (IZR j * h + h / 2 + - (h / 2)) with (IZR j * h) by ring. destruct (on_line _ _) eqn:O.
      + rewrite put_moved, samp_at by (apply moved_inside; assumption). rewrite spot_moved. reflexivity.
      + symmetry. apply HO; [exact Hj|]. unfold on_line in O. destruct d; cbn [pos len coordinate] in *; lia.
    - apply (D_quot_f e c useVar hybrid nx ny nz p rest DH fuel dt h cv g HM Hp Hh d _ _ x y z Ha Hi).
      intros j Hj. cbv beta. rewrite spot_flip, B, shift_shift. replace (IZR j * h - h / 2 + h / 2) with (IZR j * h) by ring. destruct (on_line _ _) eqn:O.
      + rewrite put_moved, samp_at by (apply moved_inside; assumption). rewrite spot_moved. reflexivity.
      + symmetry. apply HO; [exact Hj|]. unfold on_line in O. destruct d; cbn [pos len coordinate] in *; lia. }
  rewrite E, <- Rmult_minus_distr_l, Rabs_mult, (Rabs_right dt) by lra. apply Rmult_le_compat_l; [lra|].
  assert (PB : IZR (p - 1) / 2 * h <= IZR p / 2 * h) by (rewrite minus_IZR; apply Rmult_le_compat_r; lra).
  apply (L_Taylor.quotient_error p h _ (- (IZR p / 2 * h)) (IZR p / 2 * h)); auto; lra.
Qed.
End space.

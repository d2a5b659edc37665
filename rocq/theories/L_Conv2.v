(** Convergence of the acoustic solvers: truncation errors. *)
From Coq Require Import QArith Qreals Reals Lra FunctionalExtensionality.
From Verif Require Import M_Grid M_Deriv S_Deriv L_Deriv L_Deriv2 M_Prog M_Solvers M_Env S_Solver S_Step S_Check S_Energy L_Prog L_Lin L_Src L_Surface L_Leap L_Leap2 L_Diff L_Energy
  S_Taylor S_Conv.
From Verif Require L_Fd L_Taylor.
Open Scope R_scope.
Open Scope list_scope.

Lemma Rs_last n : forall s (F : Z -> R), Rsum (map F (zseq s (S n))) = Rsum (map F (zseq s n)) + F (s + Z.of_nat n)%Z.
Proof.
  induction n as [|n IH]; intros s F.
  - cbn [zseq map]. unfold Rsum. cbn [fold_right]. rewrite Z.add_0_r. ring.
  - change (zseq s (S (S n))) with (s :: zseq (s + 1) (S n)). cbn [map]. change (Rsum (?x :: ?y)) with (x + Rsum y). rewrite IH.
    change (zseq s (S n)) with (s :: zseq (s + 1) n). cbn [map]. change (Rsum (?x :: ?y)) with (x + Rsum y).
    replace (s + 1 + Z.of_nat n)%Z with (s + Z.of_nat (S n))%Z by lia. ring.
Qed.
Lemma Rs_shift n : forall s t (F : Z -> R), Rsum (map (fun k => F (k + t)%Z) (zseq s n)) = Rsum (map F (zseq (s + t) n)).
Proof.
  induction n as [|n IH]; intros s t F; [reflexivity|]. cbn [zseq map]. change (Rsum (?x :: ?y)) with (x + Rsum y). rewrite IH.
  replace (s + 1 + t)%Z with (s + t + 1)%Z by lia. reflexivity.
Qed.
Lemma Rs_rev n : forall s (F : Z -> R), Rsum (map (fun k => F (2 * s + Z.of_nat n - 1 - k)%Z) (zseq s n)) = Rsum (map F (zseq s n)).
Proof.
  induction n as [|n IH]; intros s F; [reflexivity|].
  rewrite (Rs_last n s F). cbn [zseq map]. change (Rsum (?x :: ?y)) with (x + Rsum y). replace (2 * s + Z.of_nat (S n) - 1 - s)%Z with (s + Z.of_nat n)%Z by lia.
  rewrite <- (IH s F). rewrite Rplus_comm. f_equal. rewrite <- (Rs_shift n s 1). f_equal. apply map_ext. intros k. f_equal. lia.
Qed.
Lemma even_order p : supported p -> exists m, (p = 2 * m)%Z /\ Z.quot p 2 = m /\ (1 <= m)%Z.
Proof. intros H. exists (Z.quot p 2). destruct H as [<-|[<-|[<-|[<-|[<-|[<-|[]]]]]]]; cbn; lia. Qed.
Lemma quot2 dt f t : 0 < dt -> dt * quotient 2 dt f t = f (t + dt / 2) - f (t - dt / 2).
Proof.
  intros H. unfold quotient. change (zseq 0 (Z.to_nat 2)) with [0; 1]%Z. cbn [map]. unfold Rsum. cbn [fold_right].
  assert (S0 : (stencil_at 2 0 == -1 # 1)%Q) by (apply Qeq_bool_iff; vm_compute; reflexivity).
  assert (S1 : (stencil_at 2 1 == 1 # 1)%Q) by (apply Qeq_bool_iff; vm_compute; reflexivity).
  rewrite (Qeq_eqR _ _ S0), (Qeq_eqR _ _ S1). unfold Q2R. cbn [Qnum Qden].
  change (2 * 0 - (2 - 1))%Z with (-1)%Z. change (2 * 1 - (2 - 1))%Z with 1%Z.
  replace (t + -1 / 2 * dt) with (t - dt / 2) by field. replace (t + 1 / 2 * dt) with (t + dt / 2) by field. field. lra.
Qed.
Lemma shift_shift a s s' r : shift a s (shift a s' r) = shift a (s + s') r.
Proof. apply functional_extensionality. intros d. unfold shift. destruct (axis_eqb a d); ring. Qed.

Section trunc.
Variables (e : env R_arith) (c : cfg) (useVar hybrid : bool) (nx ny nz p : Z) (rest : list Z) (DH : Q) (fuel : nat)
  (dt h : R) (cv : Q -> R) (g : grid).
Hypothesis HM : @fd_matrices R_arith e c true useVar hybrid nx ny nz p rest DH fuel (fun q => Q2R q * (dt / h)) cv g.
Notation ri := (reg_index nx nz).
Notation D := (Dmv e "").
Notation ins := (inside nx ny nz).
Hypothesis Hp : L_Fd.exact_order p.
Hypothesis Hh : 0 < h.
Hypothesis Hdt : 0 < dt.
Lemma Hps : supported p.
Proof using Hp. apply L_Fd.exact_supported, Hp. Qed.

Lemma D_max a hb f x y z m : ax_ok nz a -> ins x y z -> 0 <= m -> (forall x y z, ins x y z -> Rabs (f (ri x y z)) <= m) -> Rabs (D a hb f (ri x y z)) <= 2 * fd_h p * (dt / h) * m.
Proof.
  intros Ha Hi Hm Hf. rewrite (D_line e c useVar hybrid nx ny nz p rest DH fuel (dt / h) cv g HM) by assumption. rewrite dline_form.
  eapply Rle_trans; [apply L_Taylor.Rsum_abs|].
  apply Rle_trans with (Rsum (map (fun j => (dt / h * m) * Rabs (Q2R (stencil_at p j))) (zseq 0 (Z.to_nat p)))).
  - apply Rsum_map_le. intros j _. rewrite !Rabs_mult. replace (Rabs (Q2R (if hb then (- stencil_at p j)%Q else stencil_at p j))) with (Rabs (Q2R (stencil_at p j))) by (destruct hb; [rewrite Q2R_opp, Rabs_Ropp|]; reflexivity).
    rewrite (Rabs_right (dt / h)) by (apply Rle_ge, Rlt_le, Rdiv_lt_0_compat; assumption). rewrite (Rmult_comm (Rabs _) (dt / h)), Rmult_assoc, Rmult_assoc, (Rmult_comm m).
    apply Rmult_le_compat_l; [apply Rlt_le, Rdiv_lt_0_compat; assumption|]. apply Rmult_le_compat_l; [apply Rabs_pos|]. cbv zeta.
    destruct (on_line _ _) eqn:O; [|rewrite Rabs_R0; exact Hm]. unfold on_line in O. destruct Hi as (Hx & Hy & Hz).
    destruct a; cbn [put pos len] in *; apply Hf; unfold inside; lia.
  - rewrite Rsum_map_mul, sum_abs by apply Hps. apply Req_le. ring.
Qed.

Lemma D_quot_f a f G x y z : ax_ok nz a -> ins x y z ->
  (forall d, (- p < 2 * d <= p)%Z -> (if on_line (len nx ny nz a) (pos a x y z + d) then f (put nx nz a x y z (pos a x y z + d)) else 0) = G (IZR d * h - h / 2)) ->
  D a false f (ri x y z) = dt * quotient p h G 0.
Proof.
  intros Ha Hi HG. rewrite (D_line e c useVar hybrid nx ny nz p rest DH fuel (dt / h) cv g HM) by assumption. rewrite dline_form.
  destruct (even_order p Hps) as (m & Em & Eq & Hm). rewrite Eq. unfold quotient. rewrite <- Rsum_map_mul. apply Rsum_map_ext. intros j Hj. apply zseq_In in Hj. cbv zeta.
  rewrite HG by lia. replace (0 + IZR (2 * j - (p - 1)) / 2 * h) with (IZR (j - (m - 1)) * h - h / 2).
  - field. lra.
  - rewrite Em, !minus_IZR, !mult_IZR. field.
Qed.
Lemma D_quot_b a f G x y z : ax_ok nz a -> ins x y z ->
  (forall d, (- p <= 2 * d < p)%Z -> (if on_line (len nx ny nz a) (pos a x y z + d) then f (put nx nz a x y z (pos a x y z + d)) else 0) = G (IZR d * h + h / 2)) ->
  D a true f (ri x y z) = dt * quotient p h G 0.
Proof.
  intros Ha Hi HG. rewrite (D_line e c useVar hybrid nx ny nz p rest DH fuel (dt / h) cv g HM) by assumption. rewrite dline_form.
  destruct (even_order p Hps) as (m & Em & Eq & Hm). rewrite Eq. unfold quotient. rewrite <- Rsum_map_mul. rewrite <- (Rs_rev (Z.to_nat p) 0 (fun j => dt * _)). apply Rsum_map_ext. intros j Hj. apply zseq_In in Hj. cbv zeta.
  rewrite HG by lia. replace (2 * 0 + Z.of_nat (Z.to_nat p) - 1 - j)%Z with (p - 1 - j)%Z by lia. rewrite (Qeq_eqR _ _ (L_Fd.stencil_antisym p j Hps)).
  replace (0 + IZR (2 * (p - 1 - j) - (p - 1)) / 2 * h) with (IZR (- (j - (m - 1))) * h + h / 2).
  - field. lra.
  - rewrite Em, opp_IZR, !minus_IZR, !mult_IZR, !minus_IZR, mult_IZR. field.
Qed.

(** samples of functions on the grid *)
Definition ix (i : Z) : Z := (i mod nx)%Z.
Definition iz (i : Z) : Z := ((i / nx) mod nz)%Z.
Definition iy (i : Z) : Z := (i / nx / nz)%Z.
Lemma decode x y z : ins x y z -> ix (ri x y z) = x /\ iy (ri x y z) = y /\ iz (ri x y z) = z.
Proof.
  clear. intros (Hx & Hy & Hz). unfold ix, iy, iz, reg_index.
  assert (E1 : ((x + z * nx + y * nx * nz) / nx = z + y * nz)%Z).
  { replace (x + z * nx + y * nx * nz)%Z with (x + (z + y * nz) * nx)%Z by ring. rewrite Z.div_add by lia. rewrite Z.div_small; lia. }
  rewrite E1. replace (x + z * nx + y * nx * nz)%Z with (x + (z + y * nz) * nx)%Z by ring.
  rewrite Z.mod_add by lia. rewrite Z.mod_small by lia. rewrite Z.div_add by lia. rewrite Z.div_small by lia. rewrite Z.mod_add by lia. rewrite Z.mod_small by lia. lia.
Qed.
Variables (axes : list axis) (P : R -> position -> R) (V : axis -> R -> position -> R) (T Mx Mt : R).
Hypothesis HE : exact_solution nx ny nz p h dt T Mx Mt e axes P V.
Hypothesis Hax : forall a, In a axes -> ax_ok nz a.
Definition sampP (t : R) (i : Z) : R := P t (at_point h (ix i) (iy i) (iz i)).
Definition sampV (a : axis) (t : R) (i : Z) : R := V a t (half_point h a (ix i) (iy i) (iz i)).
Lemma sampP_at t x y z : ins x y z -> sampP t (ri x y z) = P t (at_point h x y z).
Proof. clear. intros H. unfold sampP. destruct (decode x y z H) as (-> & -> & ->). reflexivity. Qed.
Lemma sampV_at a t x y z : ins x y z -> sampV a t (ri x y z) = V a t (half_point h a x y z).
Proof. clear. intros H. unfold sampV. destruct (decode x y z H) as (-> & -> & ->). reflexivity. Qed.
Lemma at_moved a d x y z : at_point h (if axis_eqb a AX then x + d else x)%Z (if axis_eqb a AY then y + d else y)%Z (if axis_eqb a AZ then z + d else z)%Z = shift a (IZR d * h) (at_point h x y z).
Proof. clear. apply functional_extensionality. intros b. unfold at_point, shift. destruct a, b; cbn [axis_eqb coordinate]; try reflexivity; rewrite plus_IZR; ring. Qed.
Lemma put_moved a d x y z : put nx nz a x y z (pos a x y z + d)%Z = ri (if axis_eqb a AX then x + d else x)%Z (if axis_eqb a AY then y + d else y)%Z (if axis_eqb a AZ then z + d else z)%Z.
Proof. clear. destruct a; reflexivity. Qed.
Lemma moved_inside a d x y z : ins x y z -> on_line (len nx ny nz a) (pos a x y z + d) = true ->
  ins (if axis_eqb a AX then x + d else x)%Z (if axis_eqb a AY then y + d else y)%Z (if axis_eqb a AZ then z + d else z)%Z.
Proof. clear. intros (Hx & Hy & Hz) O. unfold on_line in O. destruct a; cbn [pos len axis_eqb] in *; unfold inside; lia. Qed.

Lemma space_P a t x y z dP : In a axes -> ins x y z -> 0 <= t <= T -> derivable_pt_lim (fun s => P t (shift a s (half_point h a x y z))) 0 dP ->
  Rabs (D a false (sampP t) (ri x y z) - dt * dP) <= dt * (error_const p * Mx * h ^ Z.to_nat p).
Proof.
  intros Ha Hi Ht Hd. pose proof Hi as (Hx & Hy & Hz).
  rewrite (D_quot_f a (sampP t) (fun s => P t (shift a s (half_point h a x y z))) x y z (Hax a Ha) Hi).
  - rewrite <- Rmult_minus_distr_l, Rabs_mult, (Rabs_right dt) by lra. apply Rmult_le_compat_l; [lra|].
    assert (PB : IZR (p - 1) / 2 * h <= IZR p / 2 * h) by (rewrite minus_IZR; apply Rmult_le_compat_r; lra).
    apply (L_Taylor.quotient_error p h _ (- (IZR p / 2 * h)) (IZR p / 2 * h)); auto; [|lra|lra]. apply (es_Px _ _ _ _ _ _ _ _ _ _ _ _ _ HE); assumption.
  - intros d Hdd. cbv beta. unfold half_point at 1. rewrite shift_shift. replace (IZR d * h - h / 2 + h / 2) with (IZR d * h) by ring.
    destruct (on_line _ _) eqn:O.
    + rewrite put_moved, sampP_at by (apply moved_inside; assumption). rewrite at_moved. reflexivity.
    + symmetry. apply (es_Po _ _ _ _ _ _ _ _ _ _ _ _ _ HE a x y z d t Ha Hx Hy Hz Ht Hdd). unfold on_line in O. destruct a; cbn [pos len coordinate] in *; lia.
Qed.
Lemma space_V a t x y z dV : In a axes -> ins x y z -> 0 <= t <= T -> derivable_pt_lim (fun s => V a t (shift a s (at_point h x y z))) 0 dV ->
  Rabs (D a true (sampV a t) (ri x y z) - dt * dV) <= dt * (error_const p * Mx * h ^ Z.to_nat p).
Proof.
  intros Ha Hi Ht Hd. pose proof Hi as (Hx & Hy & Hz).
  rewrite (D_quot_b a (sampV a t) (fun s => V a t (shift a s (at_point h x y z))) x y z (Hax a Ha) Hi).
  - rewrite <- Rmult_minus_distr_l, Rabs_mult, (Rabs_right dt) by lra. apply Rmult_le_compat_l; [lra|].
    assert (PB : IZR (p - 1) / 2 * h <= IZR p / 2 * h) by (rewrite minus_IZR; apply Rmult_le_compat_r; lra).
    apply (L_Taylor.quotient_error p h _ (- (IZR p / 2 * h)) (IZR p / 2 * h)); auto; [|lra|lra]. apply (es_Vx _ _ _ _ _ _ _ _ _ _ _ _ _ HE); assumption.
  - intros d Hdd. cbv beta.
    destruct (on_line _ _) eqn:O.
    + rewrite put_moved, sampV_at by (apply moved_inside; assumption). unfold half_point. rewrite at_moved, shift_shift. f_equal. f_equal. ring.
    + rewrite <- (es_Vo _ _ _ _ _ _ _ _ _ _ _ _ _ HE a x y z d t Ha Hx Hy Hz Ht Hdd); [|unfold on_line in O; destruct a; cbn [pos len coordinate] in *; lia].
      unfold half_point. rewrite shift_shift. reflexivity.
Qed.

Lemma trunc_v a t x y z bmax : In a axes -> ins x y z -> 0 <= t -> t + dt / 2 <= T -> 0 <= e_coef e (buoyancy axes a) (ri x y z) <= bmax ->
  Rabs (sampV a (t + dt / 2) (ri x y z) - sampV a (t - dt / 2) (ri x y z) - e_coef e (buoyancy axes a) (ri x y z) * D a false (sampP t) (ri x y z)) <=
  dt * (1 / 24 * Mt * dt ^ 2 + bmax * (error_const p * Mx * h ^ Z.to_nat p)).
Proof.
  intros Ha Hi H0 HT Hb. pose proof Hi as (Hx & Hy & Hz). rewrite !sampV_at by exact Hi.
  destruct (es_v _ _ _ _ _ _ _ _ _ _ _ _ _ HE a x y z t Ha Hx Hy Hz ltac:(lra)) as (dP & HdP & HdV). set (B := e_coef e _ _) in *.
  pose proof (space_P a t x y z dP Ha Hi ltac:(lra) HdP) as S1.
  pose proof (L_Taylor.quotient_error 2 dt (fun s => V a s (half_point h a x y z)) (- (dt / 2)) T Mt t (B * dP) ltac:(left; reflexivity) Hdt
    (es_Vt _ _ _ _ _ _ _ _ _ _ _ _ _ HE a x y z Ha Hx Hy Hz) ltac:(change (2 - 1)%Z with 1%Z; lra) ltac:(change (2 - 1)%Z with 1%Z; lra) HdV) as S2.
  change (Z.to_nat 2) with 2%nat in S2. unfold error_const at 1 in S2. cbn [Z.eqb Pos.eqb] in S2.
  pose proof (quot2 dt (fun s => V a s (half_point h a x y z)) t Hdt) as Q2. cbv beta in Q2. rewrite <- Q2. clear Q2.
  set (Q := quotient 2 dt _ t) in *. set (DP := D a false (sampP t) (ri x y z)) in *. set (W := error_const p * Mx * h ^ Z.to_nat p) in *.
  replace (dt * Q - B * DP) with (dt * (Q - B * dP) + - (B * (DP - dt * dP))) by ring. eapply Rle_trans; [apply Rabs_triang|].
  rewrite Rabs_Ropp, !Rabs_mult, (Rabs_right dt), (Rabs_right B) by lra. rewrite Rmult_plus_distr_l. apply Rplus_le_compat.
  - apply Rmult_le_compat_l; [lra|exact S2].
  - apply Rle_trans with (B * (dt * W)); [apply Rmult_le_compat_l; [lra|exact S1]|].
    assert (0 <= dt * W) by (eapply Rle_trans; [apply Rabs_pos|exact S1]). replace (dt * (bmax * W)) with (bmax * (dt * W)) by ring. apply Rmult_le_compat_r; lra.
Qed.
Lemma trunc_p t x y z Kmax : ins x y z -> 0 <= t -> t + dt <= T -> 0 <= pmod e (ri x y z) <= Kmax ->
  Rabs (sampP (t + dt) (ri x y z) - sampP t (ri x y z) - pmod e (ri x y z) * sum_axes axes (fun a => D a true (sampV a (t + dt / 2)) (ri x y z))) <=
  dt * (1 / 24 * Mt * dt ^ 2 + Kmax * (INR (length axes) * (error_const p * Mx * h ^ Z.to_nat p))).
Proof.
  intros Hi H0 HT HK. pose proof Hi as (Hx & Hy & Hz). rewrite !sampP_at by exact Hi.
  destruct (es_p _ _ _ _ _ _ _ _ _ _ _ _ _ HE x y z (t + dt / 2) Hx Hy Hz ltac:(lra)) as (dV & HdV & HdP). set (K := pmod e (ri x y z)) in *.
  pose proof (L_Taylor.quotient_error 2 dt (fun s => P s (at_point h x y z)) 0 T Mt (t + dt / 2) (K * sum_axes axes dV) ltac:(left; reflexivity) Hdt
    (es_Pt _ _ _ _ _ _ _ _ _ _ _ _ _ HE x y z Hx Hy Hz) ltac:(change (2 - 1)%Z with 1%Z; lra) ltac:(change (2 - 1)%Z with 1%Z; lra) HdP) as S2.
  change (Z.to_nat 2) with 2%nat in S2. unfold error_const at 1 in S2. cbn [Z.eqb Pos.eqb] in S2.
  pose proof (quot2 dt (fun s => P s (at_point h x y z)) (t + dt / 2) Hdt) as Q2. cbv beta in Q2.
  replace (t + dt / 2 + dt / 2) with (t + dt) in Q2 by field. replace (t + dt / 2 - dt / 2) with t in Q2 by field. rewrite <- Q2. clear Q2.
  set (Q := quotient 2 dt _ _) in *. set (W := error_const p * Mx * h ^ Z.to_nat p) in *.
  assert (S1 : Rabs (sum_axes axes (fun a => D a true (sampV a (t + dt / 2)) (ri x y z)) - dt * sum_axes axes dV) <= INR (length axes) * (dt * W)).
  { unfold sum_axes. rewrite <- Rsum_map_mul. unfold Rminus. rewrite <- (Rmult_1_l (Rsum (map (fun k => dt * dV k) axes))), <- Ropp_mult_distr_l_reverse, <- Rsum_map_mul, <- Rsum_map_add.
    eapply Rle_trans; [apply L_Taylor.Rsum_abs|]. rewrite <- Rsum_const. apply Rsum_map_le. intros a Ha.
    replace (D a true (sampV a (t + dt / 2)) (ri x y z) + -(1) * (dt * dV a)) with (D a true (sampV a (t + dt / 2)) (ri x y z) - dt * dV a) by ring.
    apply space_V; auto; lra. }
  set (DS := sum_axes axes (fun a => D a true _ _)) in *. set (dS := sum_axes axes dV) in *.
  replace (dt * Q - K * DS) with (dt * (Q - K * dS) + - (K * (DS - dt * dS))) by ring. eapply Rle_trans; [apply Rabs_triang|].
  rewrite Rabs_Ropp, !Rabs_mult, (Rabs_right dt), (Rabs_right K) by lra. rewrite Rmult_plus_distr_l. apply Rplus_le_compat.
  - apply Rmult_le_compat_l; [lra|exact S2].
  - apply Rle_trans with (K * (INR (length axes) * (dt * W))); [apply Rmult_le_compat_l; [lra|exact S1]|].
    assert (0 <= INR (length axes) * (dt * W)) by (eapply Rle_trans; [apply Rabs_pos|exact S1]).
    replace (dt * (Kmax * (INR (length axes) * W))) with (Kmax * (INR (length axes) * (dt * W))) by ring. apply Rmult_le_compat_r; lra.
Qed.
End trunc.

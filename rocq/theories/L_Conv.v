(** Convergence of the acoustic solvers: the energy as a norm of the error, and the truncation error. *)
From Coq Require Import QArith Qreals Reals Lra FunctionalExtensionality.
From Verif Require Import M_Grid M_Deriv S_Deriv L_Deriv L_Deriv2 M_Prog M_Solvers M_Env S_Solver S_Step S_Check S_Energy L_Prog L_Lin L_Src L_Surface L_Leap L_Leap2 L_Diff L_Energy
  S_Taylor L_Taylor S_Conv.
Open Scope R_scope.
Open Scope list_scope.

(** ** a nonnegative quadratic form *)
Lemma quad_root a x c : (forall l, 0 <= a + l * x + l * l * c) -> 0 <= a -> 0 <= c -> a + x + c <= (sqrt a + sqrt c) * (sqrt a + sqrt c).
Proof.
  intros H Ha Hc. assert (X : x <= 2 * (sqrt a * sqrt c)).
  { rewrite <- sqrt_mult by assumption. destruct (Rle_dec x 0) as [L|L]; [pose proof (sqrt_pos (a * c)); lra|].
    assert (D : x * x <= 4 * (a * c)).
    { destruct (Req_dec c 0) as [-> |Nc].
      - exfalso. pose proof (H (- (a + 1) / x)) as Q. replace (a + - (a + 1) / x * x + - (a + 1) / x * (- (a + 1) / x) * 0) with (-1) in Q by (field; lra). lra.
      - pose proof (H (- x / (2 * c))) as Q. replace (a + - x / (2 * c) * x + - x / (2 * c) * (- x / (2 * c)) * c) with (a - x * x / (4 * c)) in Q by (field; lra).
        assert (0 < c) by lra. apply (Rmult_le_compat_l (4 * c)) in Q; [|lra]. replace (4 * c * (a - x * x / (4 * c))) with (4 * (a * c) - x * x) in Q by (field; lra). lra. }
    apply Rsqr_incr_0_var; [|pose proof (sqrt_pos (a * c)); lra]. unfold Rsqr.
    replace (2 * sqrt (a * c) * (2 * sqrt (a * c))) with (4 * (sqrt (a * c) * sqrt (a * c))) by ring. rewrite sqrt_sqrt by (apply Rmult_le_pos; assumption). exact D. }
  replace ((sqrt a + sqrt c) * (sqrt a + sqrt c)) with (sqrt a * sqrt a + 2 * (sqrt a * sqrt c) + sqrt c * sqrt c) by ring.
  rewrite (sqrt_sqrt a Ha), (sqrt_sqrt c Hc). lra.
Qed.
Lemma young q v w D : 0 < q -> 0 < w -> - (q * (v * v / w) + w * (D * D) / (4 * q)) <= v * D <= q * (v * v / w) + w * (D * D) / (4 * q).
Proof.
  intros Hq Hw. assert (I : 0 < / (q * w)) by (apply Rinv_0_lt_compat; nra).
  assert (A1 : 0 <= (q * v - w * D / 2) * (q * v - w * D / 2) * / (q * w)) by (apply Rmult_le_pos; [apply Rle_0_sqr|lra]).
  assert (A2 : 0 <= (q * v + w * D / 2) * (q * v + w * D / 2) * / (q * w)) by (apply Rmult_le_pos; [apply Rle_0_sqr|lra]).
  replace ((q * v - w * D / 2) * (q * v - w * D / 2) * / (q * w)) with (q * (v * v / w) + w * (D * D) / (4 * q) - v * D) in A1 by (field; lra).
  replace ((q * v + w * D / 2) * (q * v + w * D / 2) * / (q * w)) with (q * (v * v / w) + w * (D * D) / (4 * q) + v * D) in A2 by (field; lra). lra.
Qed.

Section norm.
Variables (e : env R_arith) (c : cfg) (useVar hybrid : bool) (nx ny nz p : Z) (rest : list Z) (DH : Q) (fuel : nat)
  (k : R) (cv : Q -> R) (g : grid).
Hypothesis HM : @fd_matrices R_arith e c true useVar hybrid nx ny nz p rest DH fuel (fun q => Q2R q * k) cv g.
Hypothesis Hu : undamped c.
Hypothesis Hfs : c_fs c <> 1%Z.
Notation gs := (grid_sum nx ny nz).
Notation ri := (reg_index nx nz).
Notation D := (Dmv e "").
Notation ins := (inside nx ny nz).
Notation rst := (state R_arith).
Variable axes : list axis.
Hypothesis Hax : forall a, In a axes -> ax_ok nz a.
Notation b a := (e_coef e (buoyancy axes a)).
Notation K := (pmod e).
Hypothesis Hb : forall a x y z, has axes a = true -> ins x y z -> 0 < b a (ri x y z).
Hypothesis HK : forall x y z, ins x y z -> 0 < K (ri x y z).
Variables (bmax Kmax : R).
Hypothesis Hbm : forall a x y z, has axes a = true -> ins x y z -> b a (ri x y z) <= bmax.
Hypothesis HKm : forall x y z, ins x y z -> K (ri x y z) <= Kmax.
Hypothesis Hp : supported p.
Hypothesis Hbm0 : 0 <= bmax.
Hypothesis HKm0 : 0 <= Kmax.
Variable nxt : rst -> rst.
Hypothesis Hnxt : forall st, acoustic_step e c st axes (fun _ => false) (nxt st).
Variable q : R.
Hypothesis Hq : 0 < q < 1.
Hypothesis Hth : ac_th p k axes bmax Kmax <= q * q.
Notation kin st := (kinetic nx ny nz e axes axes st st).
Notation comp st := (compression nx ny nz e st).

Definition QF (st : rst) : R := ac_energy e nx ny nz axes st (nxt st).
Definition lin (st : rst) (l : R) (st' : rst) : rst := fun n i => st n i + l * st' n i.
Lemma nv st a i : has axes a = true -> nxt st (vel a) i = st (vel a) i + b a i * D a false (st pressure) i.
Proof. apply (ac_v e c Hu Hfs axes), Hnxt. Qed.
Lemma np st i : nxt st pressure i = st pressure i + K i * sum_axes axes (fun a => D a true (nxt st (vel a)) i).
Proof. apply (ac_pr e c Hu axes), Hnxt. Qed.
Lemma QF_nxt st : QF (nxt st) = QF st.
Proof. unfold QF. apply (ac_conserved e c useVar hybrid nx ny nz p rest DH fuel k cv g HM Hu Hfs axes Hax Hb HK); apply Hnxt. Qed.

Lemma QF_form st : QF st = kin st + comp st + sum_axes axes (fun a => gs (fun i => st (vel a) i * D a false (st pressure) i)).
Proof.
  unfold QF, ac_energy, kinetic, sum_axes. rewrite Rplus_assoc, (Rplus_comm (comp st)), <- Rplus_assoc. f_equal. rewrite <- Rsum_map_add.
  apply Rsum_map_ext. intros a Ha. rewrite <- gs_add. apply gext. intros x y z Hi. pose proof (in_has _ _ Ha) as Ha'. rewrite (nv st a _ Ha').
  pose proof (Hb a x y z Ha' Hi). field. lra.
Qed.
Lemma QF_grad st : sum_axes axes (fun a => gs (fun i => b a i * (D a false (st pressure) i * D a false (st pressure) i))) <= 4 * (q * q) * comp st.
Proof.
  pose proof (ac_inc e c useVar hybrid nx ny nz p rest DH fuel k cv g HM Hu Hfs axes Hax Hb HK bmax Kmax Hbm HKm Hp Hbm0 st (nxt st) (Hnxt st)) as A.
  unfold kin_inc, sum_axes in *.
  rewrite (Rsum_map_ext axes _ (fun a => gs (fun i => (nxt st (vel a) i - st (vel a) i) * (nxt st (vel a) i - st (vel a) i) / b a i))).
  - eapply Rle_trans; [exact A|]. apply Rmult_le_compat_r; [apply comp_pos, HK|lra].
  - intros a Ha. apply gext. intros x y z Hi. pose proof (in_has _ _ Ha) as Ha'. rewrite (nv st a _ Ha'). pose proof (Hb a x y z Ha' Hi). field. lra.
Qed.
Lemma QF_cross st : - (q * (kin st + comp st)) <= sum_axes axes (fun a => gs (fun i => st (vel a) i * D a false (st pressure) i)) <= q * (kin st + comp st).
Proof.
  pose proof (QF_grad st) as G.
  assert (U : forall s, s = 1 \/ s = -1 -> s * sum_axes axes (fun a => gs (fun i => st (vel a) i * D a false (st pressure) i)) <=
    q * kin st + 1 / (4 * q) * sum_axes axes (fun a => gs (fun i => b a i * (D a false (st pressure) i * D a false (st pressure) i)))).
  { intros s Hs. unfold kinetic, sum_axes. rewrite <- !Rsum_map_mul, <- Rsum_map_add. apply Rsum_map_le. intros a Ha. rewrite <- !gs_mul, <- gs_add. apply gle.
    intros x y z Hi. pose proof (in_has _ _ Ha) as Ha'. pose proof (young q (st (vel a) (ri x y z)) _ (D a false (st pressure) (ri x y z)) (proj1 Hq) (Hb a x y z Ha' Hi)) as Y.
    replace (1 / (4 * q) * (b a (ri x y z) * (D a false (st pressure) (ri x y z) * D a false (st pressure) (ri x y z)))) with
      (b a (ri x y z) * (D a false (st pressure) (ri x y z) * D a false (st pressure) (ri x y z)) / (4 * q)) by (field; lra).
    destruct Hs as [-> | ->]; lra. }
  assert (W : 1 / (4 * q) * sum_axes axes (fun a => gs (fun i => b a i * (D a false (st pressure) i * D a false (st pressure) i))) <= q * comp st).
  { apply Rle_trans with (1 / (4 * q) * (4 * (q * q) * comp st)).
    - apply Rmult_le_compat_l; [|exact G]. apply Rlt_le, Rdiv_lt_0_compat; lra.
    - apply Req_le. field. lra. }
  pose proof (U 1 ltac:(auto)). pose proof (U (-1) ltac:(auto)). lra.
Qed.
Lemma kin_pos st : 0 <= kin st.
Proof. unfold kinetic, sum_axes. apply Rsum_map_pos. intros a Ha. apply gpos. intros x y z Hi. apply sq_div, Hb; [apply in_has, Ha|exact Hi]. Qed.
Lemma QF_low st : (1 - q) * (kin st + comp st) <= QF st.
Proof. rewrite QF_form. pose proof (QF_cross st). lra. Qed.
Lemma QF_up st : QF st <= 2 * (kin st + comp st).
Proof. rewrite QF_form. pose proof (QF_cross st). pose proof (kin_pos st). pose proof (comp_pos e nx ny nz HK st). nra. Qed.
Lemma QF_pos st : 0 <= QF st.
Proof. eapply Rle_trans; [|apply QF_low]. pose proof (kin_pos st). pose proof (comp_pos e nx ny nz HK st). apply Rmult_le_pos; lra. Qed.

Lemma gs_poly l f0 f1 f2 : gs (fun i => f0 i + l * f1 i + l * l * f2 i) = gs f0 + l * gs f1 + l * l * gs f2.
Proof. rewrite gs_add, gs_add, !gs_mul. reflexivity. Qed.
Lemma Rsum_poly {T} (L : list T) l (f0 f1 f2 : T -> R) : Rsum (map (fun i => f0 i + l * f1 i + l * l * f2 i) L) = Rsum (map f0 L) + l * Rsum (map f1 L) + l * l * Rsum (map f2 L).
Proof. rewrite Rsum_map_add, Rsum_map_add, !Rsum_map_mul. reflexivity. Qed.
Lemma QF_lin st st' : exists x, forall l, QF (lin st l st') = QF st + l * x + l * l * QF st'.
Proof.
  exists (sum_axes axes (fun a => gs (fun i => 2 * (st (vel a) i * st' (vel a) i / b a i) + (st (vel a) i * D a false (st' pressure) i + st' (vel a) i * D a false (st pressure) i)))
    + gs (fun i => 2 * (st pressure i * st' pressure i / K i))).
  intros l. rewrite !QF_form. unfold kinetic, compression, sum_axes.
  assert (E1 : Rsum (map (fun a => gs (fun i => lin st l st' (vel a) i * lin st l st' (vel a) i / b a i)) axes) +
      Rsum (map (fun a => gs (fun i => lin st l st' (vel a) i * D a false (lin st l st' pressure) i)) axes) =
    Rsum (map (fun a => gs (fun i => st (vel a) i * st (vel a) i / b a i + st (vel a) i * D a false (st pressure) i)) axes) +
    l * Rsum (map (fun a => gs (fun i => 2 * (st (vel a) i * st' (vel a) i / b a i) + (st (vel a) i * D a false (st' pressure) i + st' (vel a) i * D a false (st pressure) i))) axes) +
    l * l * Rsum (map (fun a => gs (fun i => st' (vel a) i * st' (vel a) i / b a i + st' (vel a) i * D a false (st' pressure) i)) axes)).
  { rewrite <- Rsum_map_add, <- Rsum_poly. apply Rsum_map_ext. intros a Ha. rewrite <- gs_add, <- gs_poly. apply gext. intros x y z Hi.
    pose proof (Hb a x y z (in_has _ _ Ha) Hi). unfold lin. rewrite D_add, D_mul. field. lra. }
  assert (E2 : gs (fun i => lin st l st' pressure i * lin st l st' pressure i / K i) =
     gs (fun i => st pressure i * st pressure i / K i) + l * gs (fun i => 2 * (st pressure i * st' pressure i / K i)) + l * l * gs (fun i => st' pressure i * st' pressure i / K i)).
  { rewrite <- gs_poly. apply gext. intros x y z Hi. pose proof (HK x y z Hi). unfold lin. field. lra. }
  rewrite E2.
  assert (E3 : forall s : rst, Rsum (map (fun a => gs (fun i => s (vel a) i * s (vel a) i / b a i + s (vel a) i * D a false (s pressure) i)) axes) =
    Rsum (map (fun a => gs (fun i => s (vel a) i * s (vel a) i / b a i)) axes) + Rsum (map (fun a => gs (fun i => s (vel a) i * D a false (s pressure) i)) axes)).
  { intros s. rewrite <- Rsum_map_add. apply Rsum_map_ext. intros a _. apply gs_add. }
  rewrite !E3 in E1. lra.
Qed.
Lemma QF_triangle st st' : sqrt (QF (lin st 1 st')) <= sqrt (QF st) + sqrt (QF st').
Proof.
  destruct (QF_lin st st') as (x & Hx).
  assert (H : forall l, 0 <= QF st + l * x + l * l * QF st') by (intros l; rewrite <- Hx; apply QF_pos).
  pose proof (quad_root _ _ _ H (QF_pos st) (QF_pos st')) as Q. rewrite Hx.
  replace (QF st + 1 * x + 1 * 1 * QF st') with (QF st + x + QF st') by ring.
  pose proof (sqrt_pos (QF st)). pose proof (sqrt_pos (QF st')).
  rewrite <- (sqrt_square (sqrt (QF st) + sqrt (QF st'))) by lra. apply sqrt_le_1_alt, Q.
Qed.

(** ** the error grows at most by the size of the truncation errors *)
Lemma error_growth (E : nat -> rst) m B : QF (E O) = 0 ->
  (forall n, (n < m)%nat -> QF (fun nm i => E (S n) nm i - nxt (E n) nm i) <= B * B) -> 0 <= B ->
  forall n, (n <= m)%nat -> sqrt (QF (E n)) <= INR n * B.
Proof.
  intros H0 HF HB n. induction n as [|n IH]; intros Hn; [rewrite H0, sqrt_0; cbn; lra|].
  replace (E (S n)) with (lin (nxt (E n)) 1 (fun nm i => E (S n) nm i - nxt (E n) nm i)).
  - eapply Rle_trans; [apply QF_triangle|]. rewrite QF_nxt, S_INR. specialize (IH ltac:(lia)).
    assert (sqrt (QF (fun nm i => E (S n) nm i - nxt (E n) nm i)) <= B); [|lra].
    rewrite <- (sqrt_square B HB). apply sqrt_le_1_alt, HF. lia.
  - apply functional_extensionality. intros nm. apply functional_extensionality. intros i. unfold lin. lra.
Qed.

Lemma gs_const w : (0 <= nx)%Z -> (0 <= ny)%Z -> (0 <= nz)%Z -> gs (fun _ => w) = IZR (nx * ny * nz) * w.
Proof.
  intros H1 H2 H3. unfold grid_sum, line_sum.
  assert (ZL : forall n s, length (zseq s n) = n) by (induction n; intros; cbn [zseq length]; auto).
  rewrite (Rsum_map_ext _ _ (fun _ => IZR nz * (IZR nx * w))).
  - rewrite Rsum_const, ZL, INR_IZR_INZ, Z2Nat.id, !mult_IZR by lia. ring.
  - intros y _. rewrite (Rsum_map_ext _ _ (fun _ => IZR nx * w)).
    + rewrite Rsum_const, ZL, INR_IZR_INZ, Z2Nat.id by lia. reflexivity.
    + intros z _. rewrite Rsum_const, ZL, INR_IZR_INZ, Z2Nat.id by lia. reflexivity.
Qed.

(** size of a state whose values are bounded *)
Lemma QF_size st bmin Kmin mv mp : 0 < bmin -> 0 < Kmin -> (0 <= nx)%Z -> (0 <= ny)%Z -> (0 <= nz)%Z ->
  (forall a x y z, has axes a = true -> ins x y z -> bmin <= b a (ri x y z)) -> (forall x y z, ins x y z -> Kmin <= K (ri x y z)) ->
  (forall a x y z, In a axes -> ins x y z -> Rabs (st (vel a) (ri x y z)) <= mv) -> (forall x y z, ins x y z -> Rabs (st pressure (ri x y z)) <= mp) ->
  QF st <= 2 * IZR (nx * ny * nz) * (INR (length axes) * (mv * mv / bmin) + mp * mp / Kmin).
Proof.
  intros B0 K0 N1 N2 N3 Hbmin HKmin Hv Hpr. eapply Rle_trans; [apply QF_up|]. rewrite Rmult_assoc. apply Rmult_le_compat_l; [lra|].
  assert (SQ : forall x w w0 m, 0 < w0 -> w0 <= w -> Rabs x <= m -> x * x / w <= m * m / w0).
  { intros x w w0 m W0 W1 Hx. assert (x * x <= m * m) by (rewrite <- (Rabs_pos_eq (x * x)) by nra; rewrite Rabs_mult; apply Rmult_le_compat; try assumption; apply Rabs_pos).
    unfold Rdiv. apply Rmult_le_compat; [nra|apply Rlt_le, Rinv_0_lt_compat; lra|assumption|apply Rinv_le_contravar; assumption]. }
  rewrite Rmult_plus_distr_l. apply Rplus_le_compat.
  - unfold kinetic, sum_axes. eapply Rle_trans; [apply (Rsum_map_le _ _ (fun _ => IZR (nx * ny * nz) * (mv * mv / bmin)))|].
    + intros a Ha. rewrite <- gs_const by assumption. apply gle. intros x y z Hi. apply SQ; auto. apply Hbmin; [apply in_has|]; assumption.
    + rewrite Rsum_const. lra.
  - unfold compression. rewrite <- gs_const by assumption. apply gle. intros x y z Hi. apply SQ; auto.
Qed.
End norm.

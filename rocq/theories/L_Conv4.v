(** Convergence of the elastic and viscoelastic solvers: the energy as a norm of the error. *)
From Coq Require Import QArith Qreals Reals Lra FunctionalExtensionality.
From Verif Require Import M_Grid M_Deriv S_Deriv L_Deriv L_Deriv2 M_Prog M_Solvers M_Env S_Solver S_Step S_Check S_Energy L_Prog L_Lin L_Src L_Surface L_Leap L_Leap2 L_Diff L_Energy L_Energy2 L_Energy3
  S_Taylor S_Conv S_Conv2 L_Conv L_Conv2 L_Conv3.
From Verif Require L_Fd L_Taylor.
Open Scope R_scope.
Open Scope list_scope.

Lemma sq_abs x m : Rabs x <= m -> x * x <= m * m.
Proof. intros H. rewrite <- (Rabs_pos_eq (x * x)) by nra. rewrite Rabs_mult. apply Rmult_le_compat; try assumption; apply Rabs_pos. Qed.
Lemma sq_quot x w w0 m : 0 < w0 -> w0 <= w -> Rabs x <= m -> x * x / w <= m * m / w0.
Proof.
  intros W0 W1 Hx. pose proof (sq_abs x m Hx).
  unfold Rdiv. apply Rmult_le_compat; [nra|apply Rlt_le, Rinv_0_lt_compat; lra|assumption|apply Rinv_le_contravar; assumption].
Qed.
(** the complementary energy density of bounded stresses *)
Lemma compl_size axes comps P M S i kmin m : geometry axes comps -> 0 < kmin ->
  (normals axes comps <> [] -> kmin <= M AX AX i /\ kmin <= INR (length (normals axes comps)) * (P i - 2 * M AX AX i) + 2 * M AX AX i) ->
  (forall ab, In ab (shears axes comps) -> kmin <= M (fst ab) (snd ab) i) ->
  (forall a b, occurs axes comps a b -> Rabs (S a b i) <= m) -> compl axes comps P M S S i <= 8 * (m * m / kmin).
Proof.
  intros Hg K0 H1 H2 HS.
  assert (Q : forall mu la n s2 s1, 0 < n -> kmin <= mu -> kmin <= n * la + 2 * mu -> 0 <= s2 -> (s2 - la / (n * la + 2 * mu) * (s1 * s1)) / (2 * mu) <= s2 / (2 * kmin) + s1 * s1 / (n * kmin)).
  { intros mu la n s2 s1 N0 Hm Hk Hs. set (k := n * la + 2 * mu) in *.
    assert (E : (s2 - la / k * (s1 * s1)) / (2 * mu) = (s2 - s1 * s1 / n) / (2 * mu) + s1 * s1 / (n * k)).
    { assert (L : la = (k - 2 * mu) / n) by (unfold k; field; lra). rewrite L. field. repeat split; lra. }
    rewrite E. apply Rplus_le_compat.
    - apply Rle_trans with (s2 / (2 * mu)).
      + unfold Rdiv. apply Rmult_le_compat_r; [apply Rlt_le, Rinv_0_lt_compat; lra|]. assert (0 <= s1 * s1 * / n) by (apply Rmult_le_pos; [nra|apply Rlt_le, Rinv_0_lt_compat; lra]). lra.
      + unfold Rdiv. apply Rmult_le_compat_l; [exact Hs|]. apply Rinv_le_contravar; lra.
    - unfold Rdiv. apply Rmult_le_compat_l; [nra|]. apply Rinv_le_contravar; [nra|]. apply Rmult_le_compat_l; lra. }
  assert (S2 : forall a b, occurs axes comps a b -> S a b i * S a b i <= m * m) by (intros; apply sq_abs, HS; assumption).
  assert (S3 : forall a b, occurs axes comps a b -> kmin <= M a b i -> S a b i * S a b i / M a b i <= m * m / kmin) by (intros; apply sq_quot; auto).
  assert (MK : forall u w, u <= w * (m * m) -> u / kmin <= w * (m * m / kmin)).
  { intros u w Hu. replace (w * (m * m / kmin)) with (w * (m * m) / kmin) by (unfold Rdiv; ring). unfold Rdiv. apply Rmult_le_compat_r; [apply Rlt_le, Rinv_0_lt_compat; lra|exact Hu]. }
  unfold S_Energy.compl. clear HS.
  geo Hg.
  - destruct (H1 ltac:(discriminate)) as (M0 & M1). pose proof (H2 (AX, AY) (or_introl eq_refl)) as M2.
    pose proof (S2 AX AX eq_refl) as X1. pose proof (S2 AY AY eq_refl) as X2. pose proof (S3 AX AY eq_refl M2) as X3.
    set (nn := INR (length (normals [AX; AY] [AX; AY]))) in *. assert (N2 : nn = 2) by (unfold nn; cbn; ring).
    eapply Rle_trans; [apply Rplus_le_compat_r, Q; [lra|exact M0|exact M1|]|].
    + geo_cbn. nra.
    + rewrite N2. geo_cbn. set (x := S AX AX i) in *. set (y := S AY AY i) in *.
      pose proof (MK ((x * x + (y * y + 0)) / 2) 1 ltac:(lra)) as A1. pose proof (MK ((x + (y + 0)) * (x + (y + 0)) / 2) 2 ltac:(pose proof (Rle_0_sqr (x - y)); unfold Rsqr in *; nra)) as A2.
      replace ((x * x + (y * y + 0)) / (2 * kmin)) with ((x * x + (y * y + 0)) / 2 / kmin) by (field; lra).
      replace ((x + (y + 0)) * (x + (y + 0)) / (2 * kmin)) with ((x + (y + 0)) * (x + (y + 0)) / 2 / kmin) by (field; lra).
      assert (0 <= m * m / kmin) by (apply sq_div; lra). lra.
  - destruct (H1 ltac:(discriminate)) as (M0 & M1). pose proof (H2 (AX, AY) (or_introl eq_refl)) as M2. pose proof (H2 (AX, AZ) (or_intror (or_introl eq_refl))) as M3.
    pose proof (H2 (AY, AZ) (or_intror (or_intror (or_introl eq_refl)))) as M4.
    pose proof (S2 AX AX eq_refl) as X1. pose proof (S2 AY AY eq_refl) as X2. pose proof (S2 AZ AZ eq_refl) as X2'. pose proof (S3 AX AY eq_refl M2) as X3. pose proof (S3 AX AZ eq_refl M3) as X4. pose proof (S3 AY AZ eq_refl M4) as X5.
    set (nn := INR (length (normals [AX; AY; AZ] [AX; AY; AZ]))) in *. assert (N2 : nn = 3) by (unfold nn; cbn; ring).
    eapply Rle_trans; [apply Rplus_le_compat_r, Q; [lra|exact M0|exact M1|]|].
    + geo_cbn. nra.
    + rewrite N2. geo_cbn. set (x := S AX AX i) in *. set (y := S AY AY i) in *. set (z := S AZ AZ i) in *.
      pose proof (MK ((x * x + (y * y + (z * z + 0))) / 2) (3 / 2) ltac:(lra)) as A1.
      pose proof (MK ((x + (y + (z + 0))) * (x + (y + (z + 0))) / 3) 3 ltac:(pose proof (Rle_0_sqr (x - y)); pose proof (Rle_0_sqr (x - z)); pose proof (Rle_0_sqr (y - z)); unfold Rsqr in *; nra)) as A2.
      replace ((x * x + (y * y + (z * z + 0))) / (2 * kmin)) with ((x * x + (y * y + (z * z + 0))) / 2 / kmin) by (field; lra).
      replace ((x + (y + (z + 0))) * (x + (y + (z + 0))) / (3 * kmin)) with ((x + (y + (z + 0))) * (x + (y + (z + 0))) / 3 / kmin) by (field; lra).
      assert (0 <= m * m / kmin) by (apply sq_div; lra). lra.
  - pose proof (H2 (AX, AZ) (or_introl eq_refl)) as M3. pose proof (H2 (AY, AZ) (or_intror (or_introl eq_refl))) as M4.
    pose proof (S3 AX AZ eq_refl M3) as X4. pose proof (S3 AY AZ eq_refl M4) as X5. geo_cbn. assert (0 <= m * m / kmin) by (apply sq_div; lra).
    unfold Rdiv at 1 2. generalize (/ (0 * (P i - 2 * M AX AX i) + 2 * M AX AX i)). intros r. rewrite Rmult_0_l, Rmult_0_r, Rminus_0_r, Rmult_0_l. lra.
Qed.

Lemma has_axis (l : list axis) a : has l a = true -> In a l.
Proof. intros H. apply existsb_exists in H. destruct H as (x & Hx & E). replace a with x; [exact Hx|]. destruct a, x; try reflexivity; discriminate E. Qed.
Lemma gs_cst nx ny nz w : (0 <= nx)%Z -> (0 <= ny)%Z -> (0 <= nz)%Z -> grid_sum nx ny nz (fun _ => w) = IZR (nx * ny * nz) * w.
Proof.
  intros H1 H2 H3. unfold grid_sum, line_sum.
  assert (ZL : forall n s, length (zseq s n) = n) by (induction n; intros; cbn [zseq length]; auto).
  rewrite (Rsum_map_ext _ _ (fun _ => IZR nz * (IZR nx * w))).
  - rewrite Rsum_const, ZL, INR_IZR_INZ, Z2Nat.id, !mult_IZR by lia. ring.
  - intros y _. rewrite (Rsum_map_ext _ _ (fun _ => IZR nx * w)).
    + rewrite Rsum_const, ZL, INR_IZR_INZ, Z2Nat.id by lia. reflexivity.
    + intros z _. rewrite Rsum_const, ZL, INR_IZR_INZ, Z2Nat.id by lia. reflexivity.
Qed.
Section norm.
Variables (e : env R_arith) (c : cfg) (useVar hybrid : bool) (nx ny nz p : Z) (rest : list Z) (DH : Q) (fuel : nat)
  (k : R) (cv : Q -> R) (g : grid).
Hypothesis HM : @fd_matrices R_arith e c true useVar hybrid nx ny nz p rest DH fuel (fun q => Q2R q * k) cv g.
Hypothesis Hu : undamped c.
Hypothesis Hfs : c_fs c <> 1%Z.
Notation gs := (grid_sum nx ny nz).
Notation ri := (reg_index nx nz).
Notation ins := (inside nx ny nz).
Notation rst := (state R_arith).
Variables (axes comps : list axis).
Hypothesis Hg : geometry axes comps.
Hypothesis Hax : forall a, In a axes -> ax_ok nz a.
Notation b a := (e_coef e (buoyancy axes a)).
Variables (P : Z -> R) (M : tensor) (L : nat) (tau : nat -> R) (DT : R) (dP : Z -> R) (dM : tensor).
Notation Pr := (relaxedP P L dP).
Notation Mr := (relaxedM M L dM).
Hypothesis HdM : diag dM.
Hypothesis HMd : diag M.
Variables (kmin la0 mu0 bmin bmax : R).
Hypothesis Hk0 : 0 < kmin.
Hypothesis Hb0 : 0 < bmin.
Hypothesis Hb : forall a i, In a comps -> bmin <= b a i <= bmax.
Hypothesis Hr : definite_by axes comps Pr Mr kmin.
Hypothesis Hd : (0 < L)%nat -> definite_by axes comps dP dM kmin.
Hypothesis Htau : forall l, (l < L)%nat -> 0 < tau l.
Hypothesis Hla0 : 0 <= la0.
Hypothesis Hmu0 : 0 < mu0.
Hypothesis Hbe : moduli_below axes comps P M la0 mu0.
Hypothesis Hp : supported p.
Hypothesis HDT : 0 <= DT.
Variable nxt : rst -> rst.
Hypothesis Hnxt : forall st, elastic_step e c st axes comps (fun _ => false) P M L tau DT dP dM (nxt st).
Variable q : R.
Hypothesis Hq : 0 < q < 1.
Hypothesis Hth : el_th p k axes comps la0 mu0 bmax <= q * q.
Notation kin st := (kinetic nx ny nz e axes comps st st).
Notation po st := (pot nx ny nz axes comps P M L tau dP dM st).
Notation den st := (dens axes comps P M L tau dP dM st).
Notation spr st := (spring L tau st).
Notation el st l := (maxwell_element tau st l).
Notation frc S a i := (force e axes S a i).

Lemma by_definite P' M' : definite_by axes comps P' M' kmin -> definite axes comps P' M'.
Proof. intros H i. destruct (H i) as (H1 & H2). split; [intros N; destruct (H1 N); split; lra|]. intros ab Hab. specialize (H2 ab Hab). lra. Qed.
Lemma g_b a x y z : has comps a = true -> ins x y z -> 0 < b a (ri x y z).
Proof. intros Ha _. destruct (Hb a (ri x y z) (has_axis _ _ Ha)). lra. Qed.
Lemma g_bm a x y z : has comps a = true -> ins x y z -> b a (ri x y z) <= bmax.
Proof. intros Ha _. apply Hb, has_axis, Ha. Qed.
Lemma g_r x y z : ins x y z -> good axes comps Pr Mr (ri x y z).
Proof. intros _. apply by_definite, Hr. Qed.
Lemma g_d l x y z : (l < L)%nat -> ins x y z -> good axes comps dP dM (ri x y z).
Proof. intros Hl _. apply by_definite, Hd. lia. Qed.
Lemma g_la x y z : ins x y z -> P (ri x y z) - 2 * M AX AX (ri x y z) <= la0.
Proof. intros _. apply Hbe. Qed.
Lemma g_mu x y z : ins x y z -> M AX AX (ri x y z) <= mu0.
Proof. intros _. apply Hbe. Qed.
Lemma g_ms ab x y z : In ab (shears axes comps) -> ins x y z -> M (fst ab) (snd ab) (ri x y z) <= mu0.
Proof. intros Ha _. apply Hbe, Ha. Qed.
Lemma diagr : diag Mr.
Proof. intros a i. unfold relaxedM. rewrite (HMd a), (HdM a). reflexivity. Qed.
Lemma bm0 : 0 < bmax.
Proof. assert (H : exists a, In a comps) by (destruct Hg as [(_ & ->)|[(_ & ->)|(_ & ->)]]; eexists; left; reflexivity). destruct H as (a & Ha). destruct (Hb a 0%Z Ha). lra. Qed.
Lemma po_pos st : 0 <= po st.
Proof. apply (pot_pos e nx ny nz axes comps Hg g_b P M L tau dP dM g_r g_d Htau). Qed.
Lemma den_pos st x y z : ins x y z -> 0 <= den st (ri x y z).
Proof. apply (dens_pos e nx ny nz axes comps Hg g_b P M L tau dP dM g_r g_d Htau la0 mu0 bmax g_la g_mu g_ms g_bm). Qed.
Lemma ki_pos st : 0 <= kin st.
Proof. unfold kinetic, sum_axes. apply Rsum_map_pos. intros a Ha. apply gpos. intros x y z Hi. apply sq_div, g_b; [apply in_has, Ha|exact Hi]. Qed.

Definition EF (st : rst) : R := visco_energy nx ny nz e axes comps P M L tau dP dM st (nxt st).
Lemma EF_nxt st : EF (nxt st) <= EF st.
Proof.
  unfold EF. rewrite (el_energy e c useVar hybrid nx ny nz p rest DH fuel k cv g HM Hu Hfs axes comps Hg Hax g_b P M L tau DT dP dM HdM diagr g_r g_d Htau st (nxt st) (nxt (nxt st)) (Hnxt _) (Hnxt _)).
  pose proof (loss_pos e nx ny nz p axes comps Hg g_b P M L tau DT dP dM g_r g_d Htau st (nxt st) HDT). lra.
Qed.
Lemma nx_v st a i : has comps a = true -> nxt st (vel a) i = st (vel a) i + b a i * frc (stress_of st) a i.
Proof. apply (el_v e c Hu Hfs axes comps P M L tau DT dP dM), Hnxt. Qed.
Definition cross (st st' : rst) : R := sum_axes comps (fun a => gs (fun i => st (vel a) i * frc (stress_of st') a i)).
Lemma EF_form st : EF st = kin st + po st + cross st st.
Proof.
  unfold EF, visco_energy. fold (po st). assert (E : kinetic nx ny nz e axes comps st (nxt st) = kin st + cross st st).
  { unfold kinetic, cross, sum_axes. rewrite <- Rsum_map_add. apply Rsum_map_ext. intros a Ha. rewrite <- gs_add. apply gext. intros x y z Hi. pose proof (in_has _ _ Ha) as Ha'.
    rewrite (nx_v st a _ Ha'). pose proof (g_b a x y z Ha' Hi). field. lra. }
  rewrite E. unfold pot. lra.
Qed.
Lemma EF_force st : sum_axes comps (fun a => gs (fun i => b a i * (frc (stress_of st) a i * frc (stress_of st) a i))) <= 4 * (q * q) * po st.
Proof.
  pose proof (el_inc e c useVar hybrid nx ny nz p rest DH fuel k cv g HM Hu Hfs axes comps Hg Hax g_b P M L tau DT dP dM HdM diagr g_r g_d Htau la0 mu0 bmax Hla0 Hmu0 bm0 HMd g_la g_mu g_ms g_bm Hp st (nxt st) (Hnxt st)) as A.
  unfold kin_inc, sum_axes in *.
  rewrite (Rsum_map_ext comps _ (fun a => gs (fun i => (nxt st (vel a) i - st (vel a) i) * (nxt st (vel a) i - st (vel a) i) / b a i))).
  - eapply Rle_trans; [exact A|]. apply Rmult_le_compat_r; [apply po_pos|lra].
  - intros a Ha. apply gext. intros x y z Hi. pose proof (in_has _ _ Ha) as Ha'. rewrite (nx_v st a _ Ha'). pose proof (g_b a x y z Ha' Hi). field. lra.
Qed.
Lemma EF_cross st : - (q * (kin st + po st)) <= cross st st <= q * (kin st + po st).
Proof.
  pose proof (EF_force st) as G.
  assert (U : forall s, s = 1 \/ s = -1 -> s * cross st st <=
    q * kin st + 1 / (4 * q) * sum_axes comps (fun a => gs (fun i => b a i * (frc (stress_of st) a i * frc (stress_of st) a i)))).
  { intros s Hs. unfold kinetic, cross, sum_axes. rewrite <- !Rsum_map_mul, <- Rsum_map_add. apply Rsum_map_le. intros a Ha. rewrite <- !gs_mul, <- gs_add. apply gle.
    intros x y z Hi. pose proof (in_has _ _ Ha) as Ha'. pose proof (young q (st (vel a) (ri x y z)) _ (frc (stress_of st) a (ri x y z)) (proj1 Hq) (g_b a x y z Ha' Hi)) as Y.
    replace (1 / (4 * q) * (b a (ri x y z) * (frc (stress_of st) a (ri x y z) * frc (stress_of st) a (ri x y z)))) with
      (b a (ri x y z) * (frc (stress_of st) a (ri x y z) * frc (stress_of st) a (ri x y z)) / (4 * q)) by (field; lra).
    destruct Hs as [-> | ->]; lra. }
  assert (W : 1 / (4 * q) * sum_axes comps (fun a => gs (fun i => b a i * (frc (stress_of st) a i * frc (stress_of st) a i))) <= q * po st).
  { apply Rle_trans with (1 / (4 * q) * (4 * (q * q) * po st)).
    - apply Rmult_le_compat_l; [|exact G]. apply Rlt_le, Rdiv_lt_0_compat; lra.
    - apply Req_le. field. lra. }
  pose proof (U 1 ltac:(auto)). pose proof (U (-1) ltac:(auto)). lra.
Qed.
Lemma EF_low st : (1 - q) * (kin st + po st) <= EF st.
Proof. rewrite EF_form. pose proof (EF_cross st). lra. Qed.
Lemma EF_up st : EF st <= 2 * (kin st + po st).
Proof. rewrite EF_form. pose proof (EF_cross st). pose proof (ki_pos st). pose proof (po_pos st). nra. Qed.
Lemma EF_pos st : 0 <= EF st.
Proof. eapply Rle_trans; [|apply EF_low]. pose proof (ki_pos st). pose proof (po_pos st). apply Rmult_le_pos; lra. Qed.

Lemma force_comb S T l a i : frc (fun a b0 j => S a b0 j + l * T a b0 j) a i = frc S a i + l * frc T a i.
Proof.
  unfold force, sum_axes. rewrite <- Rsum_map_mul, <- Rsum_map_add. apply Rsum_map_ext. intros d _.
  rewrite (D_add e "" d _ (S a d) (fun j => l * T a d j)), D_mul. reflexivity.
Qed.
Lemma el_lin st l st' n a b0 i : el (lin st l st') n a b0 i = el st n a b0 i + l * el st' n a b0 i.
Proof. unfold maxwell_element, lin. match goal with |- ?x = ?y => change (@eq R x y) end. ring. Qed.
Lemma spr_lin st l st' a b0 i : spr (lin st l st') a b0 i = spr st a b0 i + l * spr st' a b0 i.
Proof.
  unfold spring. rewrite (Rsum_map_ext (seq 0 L) _ (fun n => el st n a b0 i + l * el st' n a b0 i)) by (intros; apply el_lin).
  rewrite Rsum_map_add, Rsum_map_mul. unfold lin. match goal with |- ?x = ?y => change (@eq R x y) end. ring.
Qed.
Lemma den_lin st l st' i : den (lin st l st') i = den st i +
  l * (2 * (compl axes comps Pr Mr (spr st') (spr st) i + Rsum (map (fun n => compl axes comps dP dM (el st' n) (el st n) i) (seq 0 L)))) + l * l * den st' i.
Proof.
  unfold dens.
  rewrite (compl_ext' axes comps Hg Pr Mr (spr (lin st l st')) (fun a b0 j => spr st a b0 j + l * spr st' a b0 j) (spr (lin st l st')) (fun a b0 j => spr st a b0 j + l * spr st' a b0 j))
    by (intros; apply spr_lin). rewrite (compl_comb axes comps Hg).
  rewrite (Rsum_map_ext (seq 0 L) (fun n => compl axes comps dP dM (el (lin st l st') n) (el (lin st l st') n) i)
     (fun n => compl axes comps dP dM (el st n) (el st n) i + 2 * l * compl axes comps dP dM (el st' n) (el st n) i + l * l * compl axes comps dP dM (el st' n) (el st' n) i)).
  - rewrite !Rsum_map_add, !Rsum_map_mul. ring.
  - intros n _. rewrite <- (compl_comb axes comps Hg). apply (compl_ext' axes comps Hg); intros; apply el_lin.
Qed.
Lemma EF_lin st st' : exists x, forall l, EF (lin st l st') = EF st + l * x + l * l * EF st'.
Proof.
  exists (sum_axes comps (fun a => gs (fun i => 2 * (st (vel a) i * st' (vel a) i / b a i))) +
    gs (fun i => 2 * (compl axes comps Pr Mr (spr st') (spr st) i + Rsum (map (fun n => compl axes comps dP dM (el st' n) (el st n) i) (seq 0 L)))) + (cross st st' + cross st' st)).
  intros l. rewrite !EF_form, !pot_dens.
  assert (E1 : kin (lin st l st') = kin st + l * sum_axes comps (fun a => gs (fun i => 2 * (st (vel a) i * st' (vel a) i / b a i))) + l * l * kin st').
  { unfold kinetic, sum_axes. rewrite <- Rsum_poly. apply Rsum_map_ext. intros a Ha. rewrite <- gs_poly. apply gext. intros x y z Hi.
    pose proof (g_b a x y z (in_has _ _ Ha) Hi). unfold lin. field. lra. }
  assert (E2 : gs (den (lin st l st')) = gs (den st) +
    l * gs (fun i => 2 * (compl axes comps Pr Mr (spr st') (spr st) i + Rsum (map (fun n => compl axes comps dP dM (el st' n) (el st n) i) (seq 0 L)))) + l * l * gs (den st')).
  { rewrite <- gs_poly. apply gext. intros x y z Hi. apply den_lin. }
  assert (E3 : cross (lin st l st') (lin st l st') = cross st st + l * (cross st st' + cross st' st) + l * l * cross st' st').
  { unfold cross, sum_axes. rewrite <- Rsum_map_add, <- Rsum_poly. apply Rsum_map_ext. intros a Ha. rewrite <- gs_add, <- gs_poly. apply gext. intros x y z Hi.
    change (stress_of (lin st l st')) with (fun a b0 j => stress_of st a b0 j + l * stress_of st' a b0 j). rewrite force_comb. unfold lin. match goal with |- ?x = ?y => change (@eq R x y) end. ring. }
  rewrite E1, E2, E3. ring.
Qed.

(** size of a state whose values are bounded *)
Lemma EF_size st mv ms me : (0 <= nx)%Z -> (0 <= ny)%Z -> (0 <= nz)%Z ->
  (forall a x y z, In a comps -> ins x y z -> Rabs (st (vel a) (ri x y z)) <= mv) ->
  (forall a b0 x y z, occurs axes comps a b0 -> ins x y z -> Rabs (spr st a b0 (ri x y z)) <= ms) ->
  (forall n a b0 x y z, (n < L)%nat -> occurs axes comps a b0 -> ins x y z -> Rabs (el st n a b0 (ri x y z)) <= me) ->
  EF st <= 2 * IZR (nx * ny * nz) * (INR (length comps) * (mv * mv / bmin) + 8 * (ms * ms / kmin) + INR L * (8 * (me * me / kmin))).
Proof.
  intros N1 N2 N3 Hv Hs He. eapply Rle_trans; [apply EF_up|]. rewrite Rmult_assoc. apply Rmult_le_compat_l; [lra|].
  rewrite Rplus_assoc, Rmult_plus_distr_l. apply Rplus_le_compat.
  - unfold kinetic, sum_axes. eapply Rle_trans; [apply (Rsum_map_le _ _ (fun _ => IZR (nx * ny * nz) * (mv * mv / bmin)))|].
    + intros a Ha. rewrite <- (gs_cst nx ny nz) by assumption. apply gle. intros x y z Hi. apply sq_quot; auto. apply Hb, Ha.
    + rewrite Rsum_const. lra.
  - rewrite pot_dens, <- (gs_cst nx ny nz) by assumption. apply gle. intros x y z Hi. unfold dens. apply Rplus_le_compat.
    + destruct (Hr (ri x y z)) as (H1 & H2). apply compl_size; auto.
    + eapply Rle_trans; [apply (Rsum_map_le _ _ (fun _ => 8 * (me * me / kmin)))|rewrite Rsum_const, seq_length; lra].
      intros n Hn. apply in_seq in Hn. destruct (Hd ltac:(lia) (ri x y z)) as (H1 & H2). apply compl_size; auto. intros. apply He; auto; lia.
Qed.
(** the fields from the energy *)
Lemma EF_fields st : (1 - q) * (sum_axes comps (fun a => gs (fun i => st (vel a) i * st (vel a) i)) +
    Rsum (map (fun ab => gs (fun i => stress_of st (fst ab) (snd ab) i * stress_of st (fst ab) (snd ab) i)) (stresses axes comps))) <=
  (bmax + 6 * stiff comps la0 mu0) * EF st.
Proof.
  pose proof bm0 as B0. pose proof (stiff_pos comps la0 mu0 Hla0 Hmu0) as S0. pose proof (EF_low st) as EL. pose proof (ki_pos st) as K0. pose proof (po_pos st) as P0.
  assert (F1 : sum_axes comps (fun a => gs (fun i => st (vel a) i * st (vel a) i)) <= bmax * kin st).
  { unfold kinetic, sum_axes. rewrite <- Rsum_map_mul. apply Rsum_map_le. intros a Ha. rewrite <- gs_mul. apply gle. intros x y z Hi. apply sq_le_div; [apply g_b|apply g_bm]; auto using in_has. }
  assert (F2 : Rsum (map (fun ab => gs (fun i => stress_of st (fst ab) (snd ab) i * stress_of st (fst ab) (snd ab) i)) (stresses axes comps)) <= 6 * stiff comps la0 mu0 * po st).
  { eapply Rle_trans; [apply (Rsum_map_le _ _ (fun _ => stiff comps la0 mu0 * po st))|].
    - intros (a & b0) Hab. cbn [fst snd]. rewrite pot_dens, <- gs_mul. apply gle. intros x y z Hi.
      apply (dens_point e nx ny nz axes comps Hg Hax g_b P M L tau dP dM HdM diagr g_r g_d Htau la0 mu0 bmax Hla0 Hmu0 HMd g_la g_mu g_ms g_bm st a b0 x y z); [|exact Hi].
      unfold occurs, stresses in *. clear - Hg Hab. geo Hg; cbn in Hab; repeat (destruct Hab as [Hab|Hab]; [injection Hab; intros; subst; reflexivity|]); destruct Hab.
    - rewrite Rsum_const. assert (INR (length (stresses axes comps)) <= 6) by (clear - Hg; geo Hg; cbn; lra). assert (0 <= stiff comps la0 mu0 * po st) by (apply Rmult_le_pos; lra). nra. }
  apply Rle_trans with ((1 - q) * (bmax * kin st + 6 * stiff comps la0 mu0 * po st)); [apply Rmult_le_compat_l; lra|].
  apply Rle_trans with ((bmax + 6 * stiff comps la0 mu0) * ((1 - q) * (kin st + po st))); [|apply Rmult_le_compat_l; lra].
  assert (0 <= (1 - q) * (bmax * po st)) by (apply Rmult_le_pos; [lra|apply Rmult_le_pos; lra]). assert (0 <= (1 - q) * (6 * stiff comps la0 mu0 * kin st)) by (apply Rmult_le_pos; [lra|apply Rmult_le_pos; lra]). lra.
Qed.
End norm.

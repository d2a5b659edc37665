(** Properties C24-C27: absorbing boundaries. *)
From Coq Require Import Reals Lra Permutation String.
From Verif Require Import Base M_Grid S_Grid L_Grid M_Prog M_Solvers S_Solver L_Lin M_Bound S_Bound L_GridP L_Bound.
Open Scope R_scope.
Open Scope list_scope.

(** ** C24 *)
(** Every entry of the tables that calcCoeffCPML fills. *)
Theorem C24_coefficients : forall pp W dh shift i a b, physical pp -> 0 < dh ->
  vget (calcCoeffCPML pp W dh shift) i = Ok (a, b) -> 0 < b <= 1 /\ -1 < a <= 0.
Proof.
  intros pp W dh shift i a b P Hd E. destruct (Z_le_dec 0 i) as [H0|H0];
    [|unfold vget in E; destruct (i <? 0)%Z eqn:X; [discriminate|lia]].
  destruct (Z_lt_dec i W) as [H1|H1].
  - rewrite table_get in E by lia. apply ok_inj in E.
    pose proof (coeff_profile pp W dh shift i P ltac:(lia) Hd) as F. rewrite E in F. cbn [fst snd] in F.
    destruct (profile_range pp W dh (IZR i + (if shift then / 2 else 0)) a b P ltac:(lia) Hd ltac:(assert (0 <= IZR i) by (apply IZR_le; lia); destruct shift; lra) F) as (A&B&_). auto.
  - exfalso. unfold vget in E. destruct (i <? 0)%Z; [discriminate|].
    destruct (nth_error (calcCoeffCPML pp W dh shift) (Z.to_nat i)) eqn:X; [|discriminate].
    assert (Y : nth_error (calcCoeffCPML pp W dh shift) (Z.to_nat i) <> None) by congruence.
    apply nth_error_Some in Y. unfold calcCoeffCPML in Y. rewrite map_length in Y.
    assert (L : forall n s, List.length (zseq s n) = n) by (induction n; intros; cbn; auto). rewrite L in Y. lia.
Qed.
Print Assumptions C24_coefficients.

(** The table entry at position i is the textbook profile at distance i (or i+1/2) cells from the edge. *)
Theorem C24_profile : forall pp W dh shift i a b, physical pp -> 0 < dh -> (0 <= i < W)%Z ->
  vget (calcCoeffCPML pp W dh shift) i = Ok (a, b) ->
  profile pp W dh (IZR i + (if shift then / 2 else 0)) a b.
Proof.
  intros pp W dh shift i a b P Hd Hi E. rewrite table_get in E by lia. apply ok_inj in E.
  pose proof (coeff_profile pp W dh shift i P ltac:(lia) Hd) as F. rewrite E in F. exact F.
Qed.
Print Assumptions C24_profile.

(** More damping, smaller b: a table entry whose decay rate (damping plus frequency shift) is larger has a smaller b; in
    particular b does not increase when the maximum velocity, and with it the damping, is raised. *)
Theorem C24_b_decreasing : forall pp W dh s s', 0 <= p_DT pp ->
  pml_damping pp W dh s + pml_shift pp W s <= pml_damping pp W dh s' + pml_shift pp W s' ->
  pml_b pp W dh s' <= pml_b pp W dh s.
Proof. intros. apply b_decreasing. apply Rmult_le_compat_r; assumption. Qed.
Print Assumptions C24_b_decreasing.
Theorem C24_b_velocity : forall N fc V V' DT W dh shift i a b a' b', 0 < dh -> (0 <= i < W)%Z ->
  physical (mkPP N fc V DT) -> V <= V' ->
  vget (calcCoeffCPML (mkPP N fc V DT) W dh shift) i = Ok (a, b) ->
  vget (calcCoeffCPML (mkPP N fc V' DT) W dh shift) i = Ok (a', b') -> b' <= b.
Proof.
  intros N fc V V' DT W dh shift i a b a' b' Hd Hi P HV E E'.
  assert (P' : physical (mkPP N fc V' DT)) by (destruct P as (A&B&C&D); repeat split; cbn in *; lra).
  destruct (C24_profile _ _ _ _ _ _ _ P Hd Hi E) as (->&_).
  destruct (C24_profile _ _ _ _ _ _ _ P' Hd Hi E') as (->&_).
  apply b_decreasing. destruct P as (A&B&C&D). cbn [p_N p_fc p_V p_DT] in *. apply Rmult_le_compat_r; [exact D|].
  apply Rplus_le_compat; [|apply Rle_refl].
  unfold pml_damping. cbn [p_N p_fc p_V p_DT]. apply Rmult_le_compat_r; [left; apply exp_pos|].
  assert (0 < IZR W) by (apply IZR_lt; lia). pose proof lnR.
  apply Rmult_le_compat_r; [left; apply Rinv_0_lt_compat; apply Rmult_lt_0_compat; [lra|apply Rmult_lt_0_compat; lra]|].
  apply Rmult_le_compat_r; [lra|]. apply Rmult_le_compat_l; lra.
Qed.
Print Assumptions C24_b_velocity.

(** b does not, however, fall monotonically towards the edge: the frequency shift decreases there. *)
Theorem C24_position_monotone_refuted : exists pp W dh i j ai bi aj bj, physical pp /\ 0 < dh /\ (0 <= i < j)%Z /\
  vget (calcCoeffCPML pp W dh false) i = Ok (ai, bi) /\ vget (calcCoeffCPML pp W dh false) j = Ok (aj, bj) /\ bj < bi.
Proof.
  exists (mkPP 2 1 0 1), 10%Z, 1, 0%Z, 1%Z. do 4 eexists.
  split; [repeat split; cbn; lra|]. split; [lra|]. split; [lia|].
  assert (P : physical (mkPP 2 1 0 1)) by (repeat split; cbn; lra).
  rewrite !table_get by lia. rewrite (surjective_pairing (cpml_coeff _ _ _ _ 0)), (surjective_pairing (cpml_coeff _ _ _ _ 1)).
  split; [reflexivity|]. split; [reflexivity|].
  destruct (coeff_profile (mkPP 2 1 0 1) 10 1 false 0 P ltac:(lia) ltac:(lra)) as (E0&_).
  destruct (coeff_profile (mkPP 2 1 0 1) 10 1 false 1 P ltac:(lia) ltac:(lra)) as (E1&_).
  rewrite E0, E1. unfold pml_b. apply exp_increasing. unfold pml_damping, pml_shift. cbn [p_N p_fc p_V p_DT].
  assert (0 < PI) by apply PI_RGT_0. unfold Rdiv. rewrite !Rmult_0_r, !Rmult_0_l. lra.
Qed.
Print Assumptions C24_position_monotone_refuted.

(** The memory: starting from a memory bounded by M, with any history of derivative vectors bounded by M up to step n, the
    memory after step n is bounded by M. *)
Theorem C24_memory_bounded : forall pp W dh shift j (e : env R_arith) src vec psi a b i,
  physical pp -> 0 < dh -> (0 <= j < W)%Z -> distinct3 vec psi ->
  vget (calcCoeffCPML pp W dh shift) j = Ok (e_coef e a i, e_coef e b i) ->
  forall xs (st : rstate) n y M, Rabs (st psi i) <= M ->
    (forall k x, (k <= n)%nat -> nth_error xs k = Some x -> Rabs (x i) <= M) ->
    nth_error (pml_steps e src vec psi a b st xs) n = Some y -> Rabs (snd y i) <= M.
Proof.
  intros pp W dh shift j e src vec psi a b i P Hd Hj D E xs st n y M H0 HM Hn.
  pose proof (C24_profile _ _ _ _ _ _ _ P Hd Hj E) as F.
  destruct (profile_range pp W dh (IZR j + (if shift then / 2 else 0)) _ _ P ltac:(lia) Hd ltac:(assert (0 <= IZR j) by (apply IZR_le; lia); destruct shift; lra) F) as (A&B&C).
  eapply (steps_psi e src vec psi a b i M D); eauto. lra.
Qed.
Print Assumptions C24_memory_bounded.
Example C24_ex : physical (mkPP 4 5 3500 0.001) /\ distinct3 "update" "psi_vxx" /\
  exists ab, vget (calcCoeffCPML (mkPP 4 5 3500 0.001) 10 50 true) 9 = Ok ab.
Proof.
  split; [repeat split; cbn; lra|]. split; [repeat split; discriminate|]. eexists. reflexivity.
Qed.

(** ** C25 *)
(** The initialisation never reads outside a table; in each direction the entries are those of [axis_ok]: 0 outside the
    frame, the profile at the distance of the point inside.  The 2-D classes treat x and y like the 3-D classes. *)
Theorem C25_coefficients : forall g pp DH BW fs i,
  built g -> physical pp -> 0 < DH -> (0 <= BW)%Z -> (0 <= i < nGridpoints g)%Z ->
  exists c k l px py pz, index2coordinate g i = Ok c /\ getLayer g (cy c) = Ok k /\ vget (layers g) k = Ok l /\
    cpml_init3D pp DH BW fs g i = Ok [px; py; pz] /\ cpml_init2D pp DH BW fs g i = Ok [px; py] /\
    axis_ok pp DH BW (ldh l) (gNX g) (cx c) true px /\
    axis_ok pp DH BW (ldh l) (gNY g) (cy c) (fs =? 0)%Z py /\
    axis_ok pp DH BW (ldh l) (gNZ g) (cz c) true pz.
Proof. exact frame3D_lem. Qed.
Print Assumptions C25_coefficients.

(** Outside the frame of a direction the derivative in that direction is left as it is in every time step, whatever the
    history was. *)
Theorem C25_untouched : forall (e : env R_arith) g pp DH BW fs i c k l ax N x low,
  built g -> physical pp -> 0 < DH -> (0 <= BW)%Z -> (0 <= i < nGridpoints g)%Z ->
  pml_vectors e g (cpml_init3D pp DH BW fs) ->
  index2coordinate g i = Ok c -> getLayer g (cy c) = Ok k -> vget (layers g) k = Ok l ->
  (ax = "x"%string /\ N = gNX g /\ x = cx c /\ low = true) \/
  (ax = "y"%string /\ N = gNY g /\ x = cy c /\ low = (fs =? 0)%Z) \/
  (ax = "z"%string /\ N = gNZ g /\ x = cz c /\ low = true) ->
  outside_frame BW (ldh l) N x low ->
  forall a b vec psi src (st : rstate) xs n dv y, pml_pair ax a b -> distinct3 vec psi ->
    nth_error xs n = Some dv -> nth_error (pml_steps e src vec psi a b st xs) n = Some y ->
    fst y i = dv i /\ snd y i = 0.
Proof.
  intros e g pp DH BW fs i c k l ax N x low B P HD HB Hi V Ec Ek El Hax Ho a b vec psi src st xs n dv y Hp Hd Hx Hy.
  destruct (frame3D_lem g pp DH BW fs i B P HD HB Hi) as (c'&k'&l'&px&py&pz&Ec'&Ek'&El'&E3&_&Ax&Ay&Az).
  rewrite Ec in Ec'. injection Ec' as <-. rewrite Ek in Ek'. injection Ek' as <-. rewrite El in El'. injection El' as <-.
  assert (Z : exists m p, nth_error [px; py; pz] m = Some p /\ nth_error ["x"; "y"; "z"]%string m = Some ax /\ p = mkPT 0 0 0 0).
  { destruct Hax as [(->&->&->&->)|[(->&->&->&->)|(->&->&->&->)]].
    - exists 0%nat, px. split; [reflexivity|]. split; [reflexivity|]. destruct Ho as [Ho|(Ho&_)]; [exact (proj1 Ax Ho)|discriminate].
    - exists 1%nat, py. split; [reflexivity|]. split; [reflexivity|].
      destruct (Z_le_dec ((BW + ldh l - 1) / ldh l) (Z.min (cy c) (gNY g - 1 - cy c) / ldh l)) as [H|H]; [exact (proj1 Ay H)|].
      destruct Ho as [Ho|(Ho&Ho')]; [contradiction|]. exact (proj1 (proj2 Ay) ltac:(lia) Ho' Ho).
    - exists 2%nat, pz. split; [reflexivity|]. split; [reflexivity|]. destruct Ho as [Ho|(Ho&_)]; [exact (proj1 Az Ho)|discriminate]. }
  destruct Z as (m&p&Z1&Z2&->). destruct (V i _ _ _ _ Hi E3 Z1 Z2) as (V1&V2&V3&V4). cbn [pt_a pt_b pt_ah pt_bh] in *.
  destruct Hp as [(->&->)|(->&->)]; [exact (steps_zero e src vec psi _ _ i Hd V2 V1 xs st n dv y Hx Hy)|exact (steps_zero e src vec psi _ _ i Hd V4 V3 xs st n dv y Hx Hy)].
Qed.
Print Assumptions C25_untouched.

(** With a free surface on a model thinner than twice the frame, points close to the bottom edge get no coefficients for y. *)
Theorem C25_thin_refuted : exists g BW fs i c, built g /\ (0 <= i < nGridpoints g)%Z /\ index2coordinate g i = Ok c /\
  (gNY g - 1 - cy c < BW < gNY g)%Z /\
  forall pp DH, physical pp -> 0 < DH -> exists px, cpml_init2D pp DH BW fs g i = Ok [px; mkPT 0 0 0 0].
Proof.
  destruct (mk_regular 20 5 1) as [g| | |] eqn:E; try discriminate. exists g, 4%Z, 1%Z.
  assert (B : built g) by (left; eauto).
  rewrite mk_regular_ok in E by lia. injection E as E. exists 70%Z, (mkC 10 3 0).
  split; [exact B|]. split; [rewrite <- E; cbn; lia|]. split; [rewrite <- E; reflexivity|]. split; [rewrite <- E; cbn; lia|].
  intros pp DH P HD.
  destruct (frame3D_lem g pp DH 4 1 70 B P HD ltac:(lia) ltac:(rewrite <- E; cbn; lia)) as (c&k&l&px&py&pz&Ec&Ek&El&_&E2&_&(_&Ay&_)&_).
  rewrite <- E in Ec. apply ok_inj in Ec. vm_compute in Ec. subst c. rewrite <- E in Ek. apply ok_inj in Ek. vm_compute in Ek. subst k.
  rewrite <- E in El. apply ok_inj in El. vm_compute in El. subst l.
  exists px. rewrite E2. rewrite Ay; [reflexivity| | |reflexivity]; try rewrite <- E; reflexivity.
Qed.
Print Assumptions C25_thin_refuted.

(** If the model has at least twice as many rows as the frame is wide, every point closer than BoundaryWidth to an absorbing
    edge gets the coefficient of its distance to that edge (regular grid; distances in grid points from the first point at
    the low end and from half a cell behind the last point at the high end; [s] is the position of the coefficient, the
    point itself or half a cell further). *)
Definition line_dist (N : Z) (x : R) (high : bool) : R := if high then IZR N - / 2 - x else x.
Theorem C25_regular_partial : forall nx ny nz g pp DH BW fs i, mk_regular nx ny nz = Ok g ->
  physical pp -> 0 < DH -> (0 <= BW)%Z -> (2 * BW <= nx /\ 2 * BW <= ny)%Z -> (0 <= i < nGridpoints g)%Z ->
  exists c px py, index2coordinate g i = Ok c /\ cpml_init2D pp DH BW fs g i = Ok [px; py] /\
    (forall high, (cx c < BW /\ high = false \/ nx - 1 - cx c < BW /\ high = true)%Z ->
       profile pp BW DH (line_dist nx (IZR (cx c)) high) (pt_a px) (pt_b px) /\
       profile pp BW DH (line_dist nx (IZR (cx c) + / 2) high) (pt_ah px) (pt_bh px)) /\
    (forall high, (cy c < BW /\ high = false /\ fs = 0 \/ ny - 1 - cy c < BW /\ high = true)%Z ->
       profile pp BW DH (line_dist ny (IZR (cy c)) high) (pt_a py) (pt_b py) /\
       profile pp BW DH (line_dist ny (IZR (cy c) + / 2) high) (pt_ah py) (pt_bh py)) /\
    ((BW <= cx c <= nx - 1 - BW)%Z -> px = mkPT 0 0 0 0) /\
    (((fs <> 0 \/ BW <= cy c) /\ cy c <= ny - 1 - BW)%Z -> py = mkPT 0 0 0 0).
Proof.
  intros nx ny nz g pp DH BW fs i E P HD HB (Hx&Hy) Hi.
  assert (B : built g) by (left; eauto).
  assert (Q : (0 < nx /\ 0 < ny /\ 0 < nz)%Z).
  { unfold mk_regular, init_regular, fresh, assert in E; simpl in E.
    destruct (0 <? nx)%Z eqn:E1; [|discriminate]. destruct (0 <? ny)%Z eqn:E2; [|discriminate].
    destruct (0 <? nz)%Z eqn:E3; [|discriminate]. lia. }
  destruct (frame3D_lem g pp DH BW fs i B P HD HB Hi) as (c&k&l&px&py&pz&Ec&Ek&El&_&E2&Ax&Ay&_).
  destruct (point_ok g i B Hi) as (c'&k'&l'&Ec'&Bc&_). rewrite Ec in Ec'. injection Ec' as <-.
  rewrite mk_regular_ok in E by lia. injection E as <-. cbn [gNX gNY gNZ layers] in *.
  assert (L : ldh l = 1%Z).
  { unfold vget in El. destruct (k <? 0)%Z; [discriminate|]. destruct (Z.to_nat k) as [|[|]]; cbn in El; try discriminate. injection El as <-. reflexivity. }
  rewrite L in Ax, Ay. unfold axis_ok in Ax, Ay. rewrite !Z.div_1_r in Ax, Ay. rewrite Rmult_1_r in Ax, Ay.
  replace (BW + 1 - 1)%Z with BW in Ax, Ay by lia.
  exists c, px, py. split; [exact Ec|]. split; [exact E2|].
  assert (HI : forall N x, IZR (N - 1 - x) + / 2 = IZR N - / 2 - IZR x) by (intros; rewrite !minus_IZR; lra).
  assert (HI' : forall N x, IZR (N - 1 - x) = IZR N - / 2 - (IZR x + / 2)) by (intros; rewrite !minus_IZR; lra).
  split; [|split; [|split]].
  - destruct Ax as (A1&A2&A3&A4). intros high [(H&->)|(H&->)]; unfold line_dist.
    + rewrite Z.min_l in A3 by lia. apply A3; lia || reflexivity.
    + rewrite Z.min_r in A4 by lia. rewrite HI in A4. rewrite HI' in A4. apply A4; lia.
  - destruct Ay as (A1&A2&A3&A4). intros high [(H&->&H')|(H&->)]; unfold line_dist.
    + rewrite Z.min_l in A3 by lia. apply A3; lia.
    + rewrite Z.min_r in A4 by lia. rewrite HI in A4. rewrite HI' in A4. apply A4; lia.
  - intros H. exact (proj1 Ax ltac:(lia)).
  - intros (H&H'). destruct Ay as (A1&A2&_). destruct (Z_lt_dec (cy c) BW); [apply A2; lia|apply A1; lia].
Qed.
Print Assumptions C25_regular_partial.
Example C25_ex : exists g, mk_regular 40 30 1 = Ok g /\ (2 * 10 <= 40 /\ 2 * 10 <= 30)%Z /\ nGridpoints g = 1200%Z /\ built g.
Proof. eexists. split; [reflexivity|]. split; [lia|]. split; [reflexivity|]. left. exists 40%Z, 30%Z, 1%Z. reflexivity. Qed.

(** ** C26 *)
(** The factor of every point, by the smallest distance m to an absorbing edge: (1-D/100)^(((BW-m)/BW)^2) within the frame
    and 1 outside; no table access is out of range. *)
Theorem C26_factor2D : forall g BW D fs i, built g -> (0 < BW)%Z -> 0 < D < 100 -> (0 <= i < nGridpoints g)%Z ->
  exists c f, index2coordinate g i = Ok c /\ (0 <= cx c < gNX g /\ 0 <= cy c < gNY g /\ 0 <= cz c < gNZ g)%Z /\
    abs_init abs_index2D BW D fs g i = Ok f /\
    (fs = 0%Z -> damping_factor BW D (edge_dist2D g c) f) /\
    (fs <> 0%Z -> (cy c < BW)%Z -> damping_factor BW D (Z.min (cx c) (gNX g - 1 - cx c)) f) /\
    (fs <> 0%Z -> (BW <= cy c)%Z -> damping_factor BW D (edge_dist2D_fs g c) f).
Proof. exact abs2D_lem. Qed.
Print Assumptions C26_factor2D.
Theorem C26_factor3D : forall g BW D fs i, built g -> (0 < BW)%Z -> 0 < D < 100 -> (0 <= i < nGridpoints g)%Z ->
  exists c f, index2coordinate g i = Ok c /\ (0 <= cx c < gNX g /\ 0 <= cy c < gNY g /\ 0 <= cz c < gNZ g)%Z /\
    abs_init abs_index3D BW D fs g i = Ok f /\
    (fs = 0%Z -> damping_factor BW D (edge_dist3D g c) f) /\
    (fs <> 0%Z -> (cy c < BW)%Z -> damping_factor BW D (Z.min (Z.min (cx c) (gNX g - 1 - cx c)) (Z.min (cz c) (gNZ g - 1 - cz c))) f) /\
    (fs <> 0%Z -> (BW <= cy c)%Z -> damping_factor BW D (edge_dist3D_fs g c) f).
Proof. exact abs3D_lem. Qed.
Print Assumptions C26_factor3D.

(** Range and monotonicity of these factors. *)
Theorem C26_range : forall BW D m f, (0 < BW)%Z -> 0 < D < 100 -> (0 <= m)%Z -> damping_factor BW D m f ->
  ((m < BW)%Z -> 1 - D / 100 <= f < 1) /\ ((BW <= m)%Z -> f = 1) /\ 0 < f <= 1.
Proof. exact factor_range. Qed.
Print Assumptions C26_range.
Theorem C26_monotone : forall BW D m f m' f', (0 < BW)%Z -> 0 < D < 100 -> (0 <= m)%Z -> (m < m')%Z -> (m < BW)%Z ->
  damping_factor BW D m f -> damping_factor BW D m' f' -> f < f'.
Proof. exact factor_mono. Qed.
Print Assumptions C26_monotone.

(** Applying the frame ([v *= damping] for one vector of the solver) never increases the magnitude of a value. *)
Theorem C26_no_amplification : forall index g BW D fs (e : env R_arith) src t v (st : rstate) i f,
  (index = abs_index2D \/ index = abs_index3D) -> built g -> (0 < BW)%Z -> 0 < D < 100 -> (0 <= i < nGridpoints g)%Z ->
  abs_init index BW D fs g i = Ok f -> e_coef e "damping"%string i = f ->
  Rabs (exec e src t [IMulV v "damping"%string] st v i) <= Rabs (st v i).
Proof.
  intros index g BW D fs e src t v st i f Hidx B HB HD Hi E Ef.
  assert (R : 0 < f <= 1).
  { destruct Hidx as [->| ->].
    - destruct (abs2D_lem g BW D fs i B HB HD Hi) as (c&f'&_&Bc&E'&A1&A2&A3). rewrite E in E'. injection E' as <-.
      destruct (Z.eq_dec fs 0); [eapply factor_range; [| | |apply A1]; eauto; unfold edge_dist2D; lia|].
      destruct (Z_lt_dec (cy c) BW); [eapply factor_range; [| | |apply A2]; eauto; lia|].
      eapply factor_range; [| | |apply A3]; eauto; unfold edge_dist2D_fs; lia.
    - destruct (abs3D_lem g BW D fs i B HB HD Hi) as (c&f'&_&Bc&E'&A1&A2&A3). rewrite E in E'. injection E' as <-.
      destruct (Z.eq_dec fs 0); [eapply factor_range; [| | |apply A1]; eauto; unfold edge_dist3D, edge_dist2D; lia|].
      destruct (Z_lt_dec (cy c) BW); [eapply factor_range; [| | |apply A2]; eauto; lia|].
      eapply factor_range; [| | |apply A3]; eauto; unfold edge_dist3D_fs, edge_dist2D_fs; lia. }
  unfold exec. cbn [fold_left exec1]. unfold upd. rewrite (proj2 (L_Prog.nm_eqb_eq v v) eq_refl). rewrite Ef. cbn.
  rewrite Rabs_mult. rewrite (Rabs_right f) by lra. pose proof (Rabs_pos (st v i)). nra.
Qed.
Print Assumptions C26_no_amplification.
Example C26_ex : exists f, damping_factor 20 8 5 f /\ 0.92 <= f < 1.
Proof.
  eexists. assert (D : damping_factor 20 8 5 (Rpower (1 - 8 / 100) ((IZR 20 - IZR 5) / IZR 20 * ((IZR 20 - IZR 5) / IZR 20)))) by (split; [reflexivity|lia]).
  split; [exact D|]. destruct (C26_range 20 8 5 _ ltac:(lia) ltac:(lra) ltac:(lia) D) as (A&_). specialize (A ltac:(lia)). lra.
Qed.

(** ** C27 *)
(** Without free surface: damped exactly if closer than BoundaryWidth to some edge. *)
Theorem C27_covers_no_surface : forall g BW D i, built g -> (0 < BW)%Z -> 0 < D < 100 -> (0 <= i < nGridpoints g)%Z ->
  exists c f2 f3, index2coordinate g i = Ok c /\
    abs_init abs_index2D BW D 0 g i = Ok f2 /\ abs_init abs_index3D BW D 0 g i = Ok f3 /\
    (f2 < 1 <-> (cx c < BW \/ gNX g - 1 - cx c < BW \/ cy c < BW \/ gNY g - 1 - cy c < BW)%Z) /\
    (f3 < 1 <-> (cx c < BW \/ gNX g - 1 - cx c < BW \/ cy c < BW \/ gNY g - 1 - cy c < BW \/
                 cz c < BW \/ gNZ g - 1 - cz c < BW)%Z).
Proof.
  intros g BW D i B HB HD Hi.
  destruct (abs2D_lem g BW D 0 i B HB HD Hi) as (c&f2&Ec&Bc&E2&A2&_). specialize (A2 eq_refl).
  destruct (abs3D_lem g BW D 0 i B HB HD Hi) as (c'&f3&Ec'&_&E3&A3&_). specialize (A3 eq_refl). rewrite Ec in Ec'. injection Ec' as <-.
  exists c, f2, f3. split; [exact Ec|]. split; [exact E2|]. split; [exact E3|].
  destruct (factor_range BW D (edge_dist2D g c) f2 HB HD ltac:(unfold edge_dist2D; lia) A2) as (X1&X2&_).
  destruct (factor_range BW D (edge_dist3D g c) f3 HB HD ltac:(unfold edge_dist3D, edge_dist2D; lia) A3) as (Y1&Y2&_).
  unfold edge_dist3D, edge_dist2D in *. split; split; intros H.
  - destruct (Z_lt_dec (Z.min (Z.min (cx c) (gNX g - 1 - cx c)) (Z.min (cy c) (gNY g - 1 - cy c))) BW) as [Hm|Hm]; [lia|].
    rewrite X2 in H by lia. lra.
  - apply X1. lia.
  - destruct (Z_lt_dec (Z.min (Z.min (Z.min (cx c) (gNX g - 1 - cx c)) (Z.min (cy c) (gNY g - 1 - cy c))) (Z.min (cz c) (gNZ g - 1 - cz c))) BW) as [Hm|Hm]; [lia|].
    rewrite Y2 in H by lia. lra.
  - apply Y1. lia.
Qed.
Print Assumptions C27_covers_no_surface.

(** With a free surface: exactly the points closer than BoundaryWidth to the left or right edge (or front or back edge in
    3-D) and, below the first BoundaryWidth rows only, the points closer than BoundaryWidth to the bottom. *)
Theorem C27_covers_surface_exact : forall g BW D fs i, fs <> 0%Z -> built g -> (0 < BW)%Z -> 0 < D < 100 -> (0 <= i < nGridpoints g)%Z ->
  exists c f2 f3, index2coordinate g i = Ok c /\
    abs_init abs_index2D BW D fs g i = Ok f2 /\ abs_init abs_index3D BW D fs g i = Ok f3 /\
    (f2 < 1 <-> (cx c < BW \/ gNX g - 1 - cx c < BW \/ (BW <= cy c /\ gNY g - 1 - cy c < BW))%Z) /\
    (f3 < 1 <-> (cx c < BW \/ gNX g - 1 - cx c < BW \/ (BW <= cy c /\ gNY g - 1 - cy c < BW) \/
                 cz c < BW \/ gNZ g - 1 - cz c < BW)%Z).
Proof.
  intros g BW D fs i Hf B HB HD Hi.
  destruct (abs2D_lem g BW D fs i B HB HD Hi) as (c&f2&Ec&Bc&E2&_&A2&A2').
  destruct (abs3D_lem g BW D fs i B HB HD Hi) as (c'&f3&Ec'&_&E3&_&A3&A3'). rewrite Ec in Ec'. injection Ec' as <-.
  specialize (A2 Hf). specialize (A2' Hf). specialize (A3 Hf). specialize (A3' Hf).
  exists c, f2, f3. split; [exact Ec|]. split; [exact E2|]. split; [exact E3|].
  assert (S : forall m f, (0 <= m)%Z -> damping_factor BW D m f -> (f < 1 <-> (m < BW)%Z)).
  { intros m f Hm F. destruct (factor_range BW D m f HB HD Hm F) as (X1&X2&_). split; intros H.
    - destruct (Z_lt_dec m BW); [assumption|]. rewrite X2 in H by lia. lra.
    - apply X1, H. }
  destruct (Z_lt_dec (cy c) BW) as [Hy|Hy].
  - specialize (A2 Hy). specialize (A3 Hy). apply S in A2; [|lia]. apply S in A3; [|lia]. rewrite A2, A3. split; lia.
  - specialize (A2' ltac:(lia)). specialize (A3' ltac:(lia)). unfold edge_dist3D_fs, edge_dist2D_fs in *.
    apply S in A2'; [|lia]. apply S in A3'; [|lia]. rewrite A2', A3'. split; lia.
Qed.
Print Assumptions C27_covers_surface_exact.

(** Hence the rule of the property holds when the model has at least 2*BoundaryWidth rows ... *)
Theorem C27_covers_surface_partial : forall g BW D fs i, fs <> 0%Z -> built g -> (0 < BW)%Z -> 0 < D < 100 ->
  (2 * BW <= gNY g)%Z -> (0 <= i < nGridpoints g)%Z ->
  exists c f2 f3, index2coordinate g i = Ok c /\
    abs_init abs_index2D BW D fs g i = Ok f2 /\ abs_init abs_index3D BW D fs g i = Ok f3 /\
    (f2 < 1 <-> (cx c < BW \/ gNX g - 1 - cx c < BW \/ gNY g - 1 - cy c < BW)%Z) /\
    (f3 < 1 <-> (cx c < BW \/ gNX g - 1 - cx c < BW \/ gNY g - 1 - cy c < BW \/ cz c < BW \/ gNZ g - 1 - cz c < BW)%Z).
Proof.
  intros g BW D fs i Hf B HB HD HN Hi.
  destruct (C27_covers_surface_exact g BW D fs i Hf B HB HD Hi) as (c&f2&f3&Ec&E2&E3&A2&A3).
  exists c, f2, f3. split; [exact Ec|]. split; [exact E2|]. split; [exact E3|]. rewrite A2, A3. split; lia.
Qed.
Print Assumptions C27_covers_surface_partial.

(** ... and fails on thinner models: a point one row above the bottom of a model of 5 rows with a frame of 4. *)
Theorem C27_thin_refuted : exists g BW D fs i c, fs <> 0%Z /\ built g /\ (0 < BW)%Z /\ 0 < D < 100 /\ (0 <= i < nGridpoints g)%Z /\
  index2coordinate g i = Ok c /\ (gNY g - 1 - cy c < BW < gNY g)%Z /\
  abs_init abs_index2D BW D fs g i = Ok 1 /\ abs_init abs_index3D BW D fs g i = Ok 1.
Proof.
  destruct (mk_regular 20 5 20) as [g| | |] eqn:E; try discriminate. exists g, 4%Z, 8, 1%Z, 1410%Z, (mkC 10 3 10).
  assert (B : built g) by (left; eauto).
  rewrite mk_regular_ok in E by lia. injection E as E. split; [lia|]. split; [exact B|]. split; [lia|]. split; [lra|].
  split; [rewrite <- E; cbn; lia|]. split; [rewrite <- E; reflexivity|]. split; [rewrite <- E; cbn; lia|].
  rewrite <- E. split; reflexivity.
Qed.
Print Assumptions C27_thin_refuted.

(** The memory estimate counts exactly the damped points, for every distribution of the grid over processes. *)
Theorem C27_memory_estimate : forall g BW D fs owned, built g -> (0 < BW)%Z -> 0 < D < 100 -> distribution (nGridpoints g) owned ->
  (exists k, abs_count2D BW fs g owned = Ok k /\
    number_of (nGridpoints g) (fun i => exists f, abs_init abs_index2D BW D fs g i = Ok f /\ f < 1) k) /\
  (exists k, abs_count3D BW fs g owned = Ok k /\
    number_of (nGridpoints g) (fun i => exists f, abs_init abs_index3D BW D fs g i = Ok f /\ f < 1) k).
Proof. intros. split; [apply abs_count2D_lem|apply abs_count3D_lem]; assumption. Qed.
Print Assumptions C27_memory_estimate.
Example C27_ex : exists g, mk_regular 6 6 1 = Ok g /\ distribution 36 [zseq 0 20; zseq 20 16] /\
  abs_count2D 2 0 g [zseq 0 20; zseq 20 16] = Ok 32%Z /\ abs_count2D 2 1 g [zseq 0 20; zseq 20 16] = Ok 28%Z.
Proof. eexists. split; [reflexivity|]. split; [apply Permutation_refl|]. split; vm_compute; reflexivity. Qed.

(** Property C156: beyond the CFL limit the acoustic solvers are unstable, and such time steps pass the stability check. *)
From Coq Require Import QArith Qreals Reals Lra FunctionalExtensionality.
From Verif Require Import Base M_Grid L_Grid M_Deriv S_Deriv L_Deriv L_Deriv2 M_Prog M_Solvers M_Env M_Surface M_Conf M_Check S_Solver S_Step S_Check L_Check S_Energy S_Blowup L_Prog L_Lin L_Src L_Env
  L_Surface L_Leap L_Leap2 L_Diff L_Energy L_Blowup P_Solver2 P_Step P_Check P_Energy P_EnergyEx.
Open Scope R_scope.
Open Scope list_scope.

(** An initial state in a homogeneous medium: a checkerboard, and half of the velocity it causes in a time step, backwards. *)
Definition ex_state (e : env R_arith) (nx nz : Z) (b : R) : state R_arith := fun r i =>
  if nm_eqb r pressure then checker nx nz i
  else if nm_eqb r (vel AX) then - (b / 2) * Dmv e "" AX false (checker nx nz) i
  else if nm_eqb r (vel AY) then - (b / 2) * Dmv e "" AY false (checker nx nz) i
  else if nm_eqb r (vel AZ) then - (b / 2) * Dmv e "" AZ false (checker nx nz) i else 0.

(** A sharp condition for a given grid. *)
Theorem C156_unstable : forall (e : env R_arith) (c : cfg) (useVar hybrid : bool) (nx ny nz p : Z) (rest : list Z) (DH : Q)
    (fuel : nat) (cv : Q -> R) (g : grid) (src : acq R_arith) (S : solver) (axes : list axis) (DT K b : R),
  @fd_matrices R_arith e c true useVar hybrid nx ny nz p rest DH fuel (fun q => Q2R q * (DT / Q2R DH)) cv g -> closed_box c ->
  acoustic_setting S axes -> (In AZ axes -> (2 <= nz)%Z) -> supported p -> (1 <= nx)%Z -> (1 <= ny)%Z -> (1 <= nz)%Z ->
  0 < K -> 0 < b -> (forall i, pmod e i = K) -> (forall a i, In a axes -> e_coef e (buoyancy axes a) i = b) ->
  (forall ty t i, injected (src ty) t i = 0) ->
  1 < K * b * ((fd_h p * (DT / Q2R DH)) * (fd_h p * (DT / Q2R DH))) * sum_axes axes (fun a => IZR (extent nx ny nz a - p + 1) / IZR (extent nx ny nz a)) ->
  exists st, pressure_unbounded nx ny nz (fun n => fst (steps S c (Shot R_arith e src (fun _ => []) 0) 0 n st)).
Proof.
  intros e c useVar hybrid nx ny nz p rest DH fuel cv g src S axes DT K b HM Hc HS Hz Hp H1 H2 H3 HK0 Hb0 HK Hb H0 Hbig.
  exists (ex_state e nx nz b). set (after := fun n => fst (steps S c (Shot R_arith e src (fun _ => []) 0) 0 n (ex_state e nx nz b))).
  pose proof (fun n => ac_run e c g src (ex_state e nx nz b) S axes Hc HS H0 n) as HR. change (forall n, acoustic_step e c (after n) axes (fun _ => false) (after (Datatypes.S n))) in HR.
  intros B. destruct Hc as (Hu & Hfs).
  destruct (unbounded e c useVar hybrid nx ny nz p rest DH fuel (DT / Q2R DH) cv g HM Hu Hfs Hp H1 H2 H3 axes (fun a Ha E => Hz (eq_ind a (fun a => In a axes) Ha AZ E)) K b HK Hb ltac:(nra) after HR) with (B := B)
    as (n & x & y & z & (Ix & Iy & Iz) & HB).
  - intros i. reflexivity.
  - intros a i _. destruct a; reflexivity.
  - exact Hbig.
  - exists n, x, y, z. auto.
Qed.
Print Assumptions C156_unstable.

(** Every time step beyond the CFL limit is unstable on all large grids. *)
Theorem C156_sharp : forall (p : Z) (DH : Q) (DT K b v : R) (S : solver) (axes : list axis),
  supported p -> acoustic_setting S axes -> 0 < Q2R DH -> 0 < K -> 0 < b -> 0 < v -> v * v = K * b ->
  cfl_limit p (Z.of_nat (length axes)) (Q2R DH) v < DT ->
  exists N : Z, forall (e : env R_arith) (c : cfg) (useVar hybrid : bool) (nx ny nz : Z) (rest : list Z) (fuel : nat) (cv : Q -> R) (g : grid) (src : acq R_arith),
  @fd_matrices R_arith e c true useVar hybrid nx ny nz p rest DH fuel (fun q => Q2R q * (DT / Q2R DH)) cv g -> closed_box c ->
  (forall a, In a axes -> (N <= extent nx ny nz a)%Z) -> (1 <= nz)%Z ->
  (forall i, pmod e i = K) -> (forall a i, In a axes -> e_coef e (buoyancy axes a) i = b) ->
  (forall ty t i, injected (src ty) t i = 0) ->
  exists st, pressure_unbounded nx ny nz (fun n => fst (steps S c (Shot R_arith e src (fun _ => []) 0) 0 n st)).
Proof.
  intros p DH DT K b v S axes Hp HS HDH HK Hb Hv Hvb Hcfl.
  pose proof (fd_h_pos p Hp) as Hh. set (D := Z.of_nat (length axes)) in *.
  assert (HD : (2 <= D)%Z) by (unfold D; destruct HS as [(_ & ->)|(_ & ->)]; cbn; lia).
  assert (HDR : 2 <= IZR D) by (apply IZR_le; exact HD).
  assert (Hs : 0 < sqrt (IZR D)) by (apply sqrt_lt_R0; lra). pose proof (sqrt_sqrt (IZR D) ltac:(lra)) as Hs2.
  assert (P0 : 0 < fd_h p * sqrt (IZR D) * v) by (apply Rmult_lt_0_compat; [apply Rmult_lt_0_compat|]; assumption).
  set (Q := K * b * ((fd_h p * (DT / Q2R DH)) * (fd_h p * (DT / Q2R DH))) * IZR D).
  assert (HQ : 1 < Q).
  { assert (L : 1 < DT / Q2R DH * (fd_h p * sqrt (IZR D) * v)).
    { unfold cfl_limit in Hcfl. apply (Rmult_lt_compat_r ((fd_h p * sqrt (IZR D) * v) / Q2R DH)) in Hcfl; [|apply Rdiv_lt_0_compat; assumption].
      replace (Q2R DH / (fd_h p * sqrt (IZR D) * v) * (fd_h p * sqrt (IZR D) * v / Q2R DH)) with 1 in Hcfl by (field; repeat split; lra).
      replace (DT * (fd_h p * sqrt (IZR D) * v / Q2R DH)) with (DT / Q2R DH * (fd_h p * sqrt (IZR D) * v)) in Hcfl by (field; lra). exact Hcfl. }
    unfold Q. rewrite <- Hvb, <- Hs2. replace (v * v * (fd_h p * (DT / Q2R DH) * (fd_h p * (DT / Q2R DH))) * (sqrt (IZR D) * sqrt (IZR D)))
      with ((DT / Q2R DH * (fd_h p * sqrt (IZR D) * v)) * (DT / Q2R DH * (fd_h p * sqrt (IZR D) * v))) by ring. nra. }
  assert (Hp1 : 2 <= IZR p) by (apply IZR_le; destruct (supported_even p Hp) as (h & -> & ?); lia).
  exists (Z.max 2 (Rdefinitions.up ((IZR p - 1) * Q / (Q - 1)))). set (N := Z.max _ _).
  assert (HN : (2 <= N)%Z /\ (IZR p - 1) * Q / (Q - 1) < IZR N).
  { split; [unfold N; lia|]. destruct (archimed ((IZR p - 1) * Q / (Q - 1))) as (A & _). eapply Rlt_le_trans; [exact A|]. apply IZR_le. unfold N. lia. }
  intros e c useVar hybrid nx ny nz rest fuel cv g src HM Hc HL Hnz HKe Hbe H0. destruct HN as (HN2 & HN).
  assert (AXY : In AX axes /\ In AY axes) by (destruct HS as [(_ & ->)|(_ & ->)]; cbn; tauto). destruct AXY as (IX & IY).
  pose proof (HL AX IX) as L1. pose proof (HL AY IY) as L2. cbn [extent] in L1, L2.
  refine (C156_unstable e c useVar hybrid nx ny nz p rest DH fuel cv g src S axes DT K b HM Hc HS (fun Ha => Z.le_trans _ _ _ HN2 (HL AZ Ha)) Hp ltac:(lia) ltac:(lia) Hnz HK Hb HKe Hbe H0 _).
  assert (HNR : 2 <= IZR N) by (apply IZR_le; exact HN2).
  assert (SL : IZR D * ((IZR N - IZR p + 1) / IZR N) <= sum_axes axes (fun a => IZR (extent nx ny nz a - p + 1) / IZR (extent nx ny nz a))).
  { unfold D. rewrite <- INR_IZR_INZ, <- Rsum_const. unfold sum_axes. apply Rsum_map_le. intros a Ha. pose proof (HL a Ha) as La. apply IZR_le in La.
    rewrite plus_IZR, minus_IZR. set (X := IZR (extent nx ny nz a)) in *. 
    replace ((IZR N - IZR p + 1) / IZR N) with (1 - (IZR p - 1) / IZR N) by (field; lra). replace ((X - IZR p + 1) / X) with (1 - (IZR p - 1) / X) by (field; lra).
    assert ((IZR p - 1) / X <= (IZR p - 1) / IZR N); [|lra]. unfold Rdiv. apply Rmult_le_compat_l; [lra|]. apply Rinv_le_contravar; lra. }
  assert (G1 : 1 < Q * ((IZR N - IZR p + 1) / IZR N)).
  { apply (Rmult_lt_compat_r (Q - 1)) in HN; [|lra]. unfold Rdiv in HN. rewrite Rmult_assoc, Rinv_l in HN by lra.
    apply (Rmult_lt_reg_r (IZR N)); [lra|]. replace (Q * ((IZR N - IZR p + 1) / IZR N) * IZR N) with (Q * (IZR N - IZR p + 1)) by (field; lra). lra. }
  eapply Rlt_le_trans; [exact G1|]. unfold Q. set (w := K * b * _).
  assert (0 <= w) by (unfold w; apply Rmult_le_pos; [apply Rmult_le_pos; lra|apply Rle_0_sqr]).
  rewrite Rmult_assoc. apply Rmult_le_compat_l; assumption.
Qed.
Print Assumptions C156_sharp.

(** For every order above 2 and both dimensions some shot passes the stability check and grows without bound: density and
    velocity 1, time step equal to the spacing divided by the square root of the dimension. *)
Theorem C156_accepted : forall p dimension D S axes, is_order p -> p <> 2%Z -> has_dim dimension D -> acoustic_setting S axes -> Z.of_nat (length axes) = D ->
  exists DT DH v, 0 < DT /\ 0 < Q2R DH /\ 0 < v /\ checkStabilityCriterion 0 DT (Q2R DH) v dimension p = Ok tt /\
  exists e c nx ny nz fuel g src st, @fd_matrices R_arith e c true false false nx ny nz p [] DH fuel (fun q => Q2R q * (DT / Q2R DH)) Q2R g /\ closed_box c /\
    (forall i, pmod e i = v * v) /\ (forall a i, In a axes -> e_coef e (buoyancy axes a) i = 1) /\
    (forall ty t i, injected (src ty) t i = 0) /\
    pressure_unbounded nx ny nz (fun n => fst (steps S c (Shot R_arith e src (fun _ => []) 0) 0 n st)).
Proof.
  intros p dim D S axes HP Hp2 HD HS HL. pose proof (dim_sqrt dim D HD) as Hs. pose proof (fd_h_gt p HP Hp2) as Hh.
  assert (Q1 : Q2R 1 = 1) by (unfold Q2R; cbn; lra).
  exists (/ sqrt (IZR D)), 1%Q, 1. rewrite !Q1. assert (I0 : 0 < / sqrt (IZR D)) by (apply Rinv_0_lt_compat; exact Hs).
  split; [exact I0|]. split; [lra|]. split; [lra|]. split.
  { apply (proj1 (stability_exact (/ sqrt (IZR D)) 1 1 dim D p HD HP ltac:(lra) ltac:(lra))). right. rewrite Rmult_1_r, Rinv_l by lra. lra. }
  destruct (C156_sharp p 1 (/ sqrt (IZR D)) 1 1 1 S axes HP HS ltac:(lra) ltac:(lra) ltac:(lra) ltac:(lra) ltac:(lra)) as (N & HN).
  { rewrite HL, Q1. unfold cfl_limit. rewrite Rmult_1_r. unfold Rdiv. rewrite Rmult_1_l. apply Rinv_lt_contravar; [apply Rmult_lt_0_compat; [exact Hs|apply Rmult_lt_0_compat; lra]|].
    rewrite <- (Rmult_1_l (sqrt (IZR D))) at 1. apply Rmult_lt_compat_r; assumption. }
  set (M := Z.max N 2).
  assert (EG : exists g, mk_regular M M M = Ok g) by (eexists; apply mk_regular_ok; unfold M; lia). destruct EG as (g & EG).
  set (c := Cfg false false 0 false false false false 0).
  pose proof (matrices_ok R_arith true false false M M M p [] 1 20 (fun q => Q2R q * (/ sqrt (IZR D) / Q2R 1)) Q2R g c (fun _ _ => 1) (fun _ => 1) EG HP ltac:(unfold M; lia) ltac:(unfold M; lia) ltac:(lia)) as HM.
  assert (EC : exists e, @fd_matrices R_arith e c true false false M M M p [] 1 20 (fun q => Q2R q * (/ sqrt (IZR D) / Q2R 1)) Q2R g /\ e_coef e = (fun _ _ => 1)) by (eexists; split; [exact HM|reflexivity]).
  destruct EC as (e & HMe & EC). clear HM.
  assert (Hc : closed_box c) by (repeat split; discriminate).
  destruct (HN e c false false M M M [] 20%nat Q2R g (fun _ => []) HMe Hc) as (st & Hst).
  - intros a _. destruct a; cbn [extent]; unfold M; lia.
  - unfold M; lia.
  - intros i. unfold pmod. rewrite EC. reflexivity.
  - intros a i _. rewrite EC. reflexivity.
  - intros. reflexivity.
  - exists e, c, M, M, M, 20%nat, g, (fun _ => []), st. rewrite Q1 in HMe. split; [exact HMe|]. split; [exact Hc|].
    split; [intros i; unfold pmod; rewrite EC; lra|]. split; [intros a i _; rewrite EC; reflexivity|]. split; [intros; reflexivity|exact Hst].
Qed.
Print Assumptions C156_accepted.

(** A case meeting the hypotheses of C156_sharp: order 4, spacing 1, velocity 1, time step 1 in two dimensions. *)
Example C156_ex : exists p DH DT K b v S axes, supported p /\ acoustic_setting S axes /\ 0 < Q2R DH /\ 0 < K /\ 0 < b /\ 0 < v /\ v * v = K * b /\
  cfl_limit p (Z.of_nat (length axes)) (Q2R DH) v < DT.
Proof.
  exists 4%Z, 1%Q, 1, 1, 1, 1, FD2Dacoustic, [AX; AY]. assert (Q1 : Q2R 1 = 1) by (unfold Q2R; cbn; lra). rewrite Q1.
  split; [right; left; reflexivity|]. split; [left; split; reflexivity|]. repeat (split; [lra|]).
  cbn [length]. change (Z.of_nat 2) with 2%Z. unfold cfl_limit. pose proof (fd_h_gt 4 ltac:(right; left; reflexivity) ltac:(lia)).
  assert (1 < sqrt 2) by (rewrite <- sqrt_1; apply sqrt_lt_1; lra).
  rewrite Rmult_1_r. unfold Rdiv. rewrite Rmult_1_l. rewrite <- Rinv_1. apply Rinv_lt_contravar; nra.
Qed.

(** Property C171: without the condition on the relaxation times the scheme with Debye relaxation is not stable. *)
From Coq Require Import QArith Qreals Reals Lra FunctionalExtensionality.
From Verif Require Import M_Grid M_Deriv S_Deriv L_Deriv L_Deriv2 M_Prog M_Solvers M_Env M_Surface M_Relax S_Solver S_Step S_Check S_Energy S_Energy2 L_Prog L_Lin L_Src L_Env
  L_Surface L_Leap L_Leap2 L_Diff L_Energy L_Energy4 L_Energy5 P_Solver2 P_Check P_Step P_Energy P_EnergyEx P_Energy2.
Open Scope R_scope.
Open Scope list_scope.

(** ** The condition on the relaxation times is needed *)
(** One grid point, time step 1, relaxation time 1/6, optical permittivity 1, inverse permeability 2/7. *)
Definition co_f (l : nat) : R := 3 / PI.
Definition co_coef (n : nm) (_ : Z) : R :=
  let '(N x l) := n in if String.eqb x "CaAverageZ" then getCa (epsOptical (5 / 3) 0 (2 / 5) 0 (1 / 2)) (sigmaOptical 1 co_f (5 / 3) 0 (2 / 5)) 1
  else if String.eqb x "CbAverageZ" then getCb (epsOptical (5 / 3) 0 (2 / 5) 0 (1 / 2)) (sigmaOptical 1 co_f (5 / 3) 0 (2 / 5)) 1
  else if String.eqb x "CdAverageZ" then getCd 1 co_f (5 / 3) (2 / 5) 1 l else 2 / 7.
Definition co_sca (n : nm) : R := let '(N x l) := n in if String.eqb x "Cc" then getCc co_f 1 l else 1.
Definition co_env (g : grid) : env R_arith := Env R_arith (matrices R_arith true false false 1 1 1 2 [] 1 20 (fun q => Q2R q * (1 / Q2R 1)) Q2R g) co_coef co_sca.
Definition co_cfg : cfg := Cfg false false 0 false false false false 1.
Definition co_st : state R_arith := fun n _ => let '(N x l) := n in if String.eqb x "eZ" then 1 else if String.eqb x "hY" then 18 / 7 else 0.
Lemma co_matrices g : mk_regular 1 1 1 = Ok g -> @fd_matrices R_arith (co_env g) co_cfg true false false 1 1 1 2 [] 1 20 (fun q => Q2R q * (1 / Q2R 1)) Q2R g.
Proof.
  intros Hg. constructor; [exact Hg|..]; try (intros; lia); try discriminate.
  - intros x y z Hx Hy Hz i. cbn [co_env e_mat]. unfold nm_s, matrices. subst i. rewrite (regular_i2c _ _ _ _ _ _ _ Hg Hx Hy Hz). reflexivity.
  - intros x y z Hx Hy Hz i. cbn [co_env e_mat]. unfold nm_s, matrices. subst i. rewrite (regular_i2c _ _ _ _ _ _ _ Hg Hx Hy Hz). reflexivity.
  - intros x y z Hx Hy Hz i M HM. cbn [co_env e_mat]. unfold nm_s, matrices. subst i. rewrite (regular_i2c _ _ _ _ _ _ _ Hg Hx Hy Hz). destruct HM as [<-|[<-|[<-|[]]]]; reflexivity.
  - intros x y z Hx Hy Hz i M HM. cbn [co_env e_mat]. unfold nm_s, matrices. subst i. rewrite (regular_i2c _ _ _ _ _ _ _ Hg Hx Hy Hz). destruct HM as [<-|[<-|[<-|[]]]]; reflexivity.
Qed.
(** the derivatives at the only point *)
Lemma co_D (e : env R_arith) g d hb f : @fd_matrices R_arith e co_cfg true false false 1 1 1 2 [] 1 20 (fun q => Q2R q * (1 / Q2R 1)) Q2R g -> d <> AZ ->
  Dmv e "" d hb f 0%Z = if hb then f 0%Z else - f 0%Z.
Proof.
  intros HM Hd. change 0%Z with (reg_index 1 1 0 0 0) at 1.
  rewrite (D_line e co_cfg false false 1 1 1 2 [] 1 20 (1 / Q2R 1) Q2R g HM d hb f 0 0 0) by (unfold ax_ok, inside; try lia; intros; contradiction).
  assert (Q1 : Q2R 1 = 1) by (unfold Q2R; cbn; lra). assert (Q2 : Q2R (-1) = -1) by (unfold Q2R; cbn; lra). rewrite Q1.
  assert (R1 : row_of true 2 1 0 = [(0%Z, 1%Q)]) by reflexivity. assert (R2 : row_of false 2 1 0 = [(0%Z, (-1)%Q)]) by reflexivity.
  destruct d, hb; try contradiction; unfold dline; cbn [len pos]; rewrite ?R1, ?R2; cbn [map fst snd Rsum fold_right]; rewrite ?Q1, ?Q2; unfold Rsum; cbn [fold_right];
    change (put 1 1 _ 0 0 0 0) with 0%Z; lra.
Qed.
(** the run, at the only point *)
Lemma co_step g n : mk_regular 1 1 1 = Ok g ->
  let after n := fst (steps FD2Dviscotmem co_cfg (Shot R_arith (co_env g) (fun _ => []) (fun _ => []) 0) 0 n co_st) in
  let E n := after n (efield AZ) 0%Z in let H n := after n (hfield AY) 0%Z - after n (hfield AX) 0%Z in let r n := after n (rfield AZ 0) 0%Z in
  H (S n) = H n - 4 / 7 * E n /\ 3 * E (S n) = - E n + H (S n) - r (S n) /\ r (S n) = - r n / 2 - 6 * E n.
Proof.
  intros Hg after E H r. pose proof (co_matrices g Hg) as HM. pose proof PI_RGT_0 as HPI.
  assert (HU : uniform (co_env g)) by apply matrices_uniform.
  assert (HB : closed_box co_cfg) by (repeat split; discriminate). assert (Hu : undamped co_cfg) by apply HB.
  assert (HR := debye_run (co_env g) co_cfg (fun _ => []) co_st FD2Dviscotmem [AX; AY] [AZ] [AX; AY] co_f (fun _ _ => 5 / 3) (fun _ _ => 0) (fun _ _ => 2 / 5) (fun _ _ => 0) (1 / 2) 1).
  cbv zeta in HR. specialize (HR ltac:(right; left; repeat split) HB HU ltac:(lra) ltac:(intros; unfold co_f; apply Rdiv_lt_0_compat; lra) ltac:(lra) ltac:(intros; lra) ltac:(intros; lra) ltac:(intros; lra)).
  specialize (HR ltac:(intros a [<-|[]]; (split; [split; intros i; reflexivity|intros; reflexivity|intros; reflexivity|reflexivity]))).
  specialize (HR ltac:(intros; reflexivity) n). fold (after n) (after (S n)) in HR.
  assert (ET : / (2 * PI * co_f 0) = 1 / 6) by (unfold co_f; field; lra).
  assert (EO : Rmax (1 / 2) (5 / 3 * (1 - 2 / 5) + 0 * 0) = 1) by (rewrite Rmax_right; lra).
  assert (EG : 5 / 3 * (2 / 5) / (INR 1 * / (2 * PI * co_f 0)) = 4) by (rewrite ET; cbn; lra).
  pose proof (de_h (co_env g) co_cfg Hu [AX; AY] [AZ] [AX; AY] _ _ _ _ _ _ _ _ HR AX 0%Z eq_refl) as HX.
  pose proof (de_h (co_env g) co_cfg Hu [AX; AY] [AZ] [AX; AY] _ _ _ _ _ _ _ _ HR AY 0%Z eq_refl) as HY.
  pose proof (de_e (co_env g) co_cfg Hu [AX; AY] [AZ] [AX; AY] _ _ _ _ _ _ _ _ HR AZ 0%Z eq_refl) as HE.
  pose proof (de_r (co_env g) co_cfg [AX; AY] [AZ] [AX; AY] _ _ _ _ _ _ _ _ HR AZ 0%nat 0%Z eq_refl ltac:(cbn; lia)) as Hr.
  cbv beta in HX, HY, HE, Hr. unfold E, H, r, after. clear HR after E H r.
  set (s0 := fst (steps FD2Dviscotmem co_cfg _ 0 n co_st)) in *. set (s1 := fst (steps FD2Dviscotmem co_cfg _ 0 (S n) co_st)) in *.
  assert (CX : curl (ge (co_env g) [AX; AY] [AZ] (ef s0)) AX 0%Z = - s0 (efield AZ) 0%Z).
  { unfold curl, ge. cbn [next has existsb axis_eqb orb andb]. rewrite (co_D (co_env g) g AY false (ef s0 AZ) HM ltac:(discriminate)). unfold ef. lra. }
  assert (CY : curl (ge (co_env g) [AX; AY] [AZ] (ef s0)) AY 0%Z = s0 (efield AZ) 0%Z).
  { unfold curl, ge. cbn [next has existsb axis_eqb orb andb]. rewrite (co_D (co_env g) g AX false (ef s0 AZ) HM ltac:(discriminate)). unfold ef. lra. }
  assert (CZ : curl (gh (co_env g) [AX; AY] [AX; AY] (hf s1)) AZ 0%Z = s1 (hfield AY) 0%Z - s1 (hfield AX) 0%Z).
  { unfold curl, gh. cbn [next has existsb axis_eqb orb andb]. rewrite (co_D (co_env g) g AX true (hf s1 AY) HM ltac:(discriminate)), (co_D (co_env g) g AY true (hf s1 AX) HM ltac:(discriminate)). unfold hf. lra. }
  rewrite CX in HX. rewrite CY in HY. rewrite CZ in HE. change (e_coef (co_env g) (inv_mu AX) 0%Z) with (2 / 7) in HX. change (e_coef (co_env g) (inv_mu AY) 0%Z) with (2 / 7) in HY.
  rewrite EO in HE. cbn [c_L co_cfg] in HE, Hr. rewrite EG in Hr. rewrite ET in Hr. cbn [seq map] in HE. unfold Rsum in HE. cbn [fold_right] in HE.
  assert (ES : 0 + 5 / 3 * (2 / 5) * ((2 * PI * co_f 0 + 0) / INR 1) = 4) by (unfold co_f; cbn; field; lra). rewrite ES in HE.
  repeat split; lra.
Qed.
(** the growth *)
Lemma Rabs_def2_le (x a : R) : Rabs x <= a -> - a <= x <= a.
Proof. intros H. unfold Rabs in H. destruct (Rcase_abs x); lra. Qed.
Lemma co_grow (E H r : nat -> R) : 21 * H 0%nat - 54 * E 0%nat - 14 * r 0%nat = 0 ->
  (forall n, H (S n) = H n - 4 / 7 * E n /\ 3 * E (S n) = - E n + H (S n) - r (S n) /\ r (S n) = - r n / 2 - 6 * E n) ->
  forall n, let Q n := E (S n) * E (S n) - 11 / 6 * (E (S n) * E n) + 7 / 6 * (E n * E n) in Q n = (7 / 6) ^ n * Q 0%nat.
Proof.
  intros H0 HS n Q. assert (W : forall n, 21 * H n - 54 * E n - 14 * r n = 0).
  { intros m. induction m as [|m IH]; [exact H0|]. destruct (HS m) as (A & B & C). lra. }
  assert (R2 : forall n, E (S (S n)) = 11 / 6 * E (S n) - 7 / 6 * E n).
  { intros m. destruct (HS m) as (A & B & C). destruct (HS (S m)) as (A' & B' & C'). pose proof (W m). pose proof (W (S m)). lra. }
  induction n as [|n IH]; [cbn; lra|]. cbn [pow]. rewrite Rmult_assoc, <- IH. unfold Q. rewrite (R2 n). field.
Qed.
Lemma co_unbounded (E : nat -> R) : (forall n, let Q n := E (S n) * E (S n) - 11 / 6 * (E (S n) * E n) + 7 / 6 * (E n * E n) in Q n = (7 / 6) ^ n * Q 0%nat) ->
  E 0%nat = 1 -> E 1%nat = 7 / 3 -> forall K, exists n, K < Rabs (E n).
Proof.
  intros HQ E0 E1 K. destruct (Rle_lt_dec K 0) as [HK|HK]; [exists 0%nat; rewrite E0, Rabs_R1; lra|].
  assert (KK : 0 < K * K) by nra.
  assert (U : exists n, 24 * (K * K) < INR n).
  { destruct (archimed (24 * (K * K))) as (A & _). exists (Z.to_nat (Rdefinitions.up (24 * (K * K)))). rewrite INR_IZR_INZ, Z2Nat.id; [exact A|]. apply le_IZR. lra. }
  destruct U as (n & Hn). pose proof (HQ n) as X. cbv beta zeta in X. rewrite E0, E1 in X.
  pose proof (poly n (1 / 6) ltac:(lra)) as B. replace (1 + 1 / 6) with (7 / 6) in B by lra.
  destruct (Rlt_le_dec K (Rabs (E n))) as [Y|Y]; [exists n; exact Y|]. destruct (Rlt_le_dec K (Rabs (E (S n)))) as [Z|Z]; [exists (S n); exact Z|]. exfalso.
  apply Rabs_def2_le in Y. apply Rabs_def2_le in Z. set (u := E n) in *. set (v := E (S n)) in *.
  assert (u * u <= K * K) by nra. assert (v * v <= K * K) by nra. assert (- (v * u) <= K * K) by nra. lra.
Qed.
Theorem C171_coarse_refuted : exists (e : env R_arith) (c : cfg) (gr : grid) (st : state R_arith) (f : nat -> R) (eps sigma tau tauS : axis -> Z -> R) (v : R),
  @fd_matrices R_arith e c true false false 1 1 1 2 [] 1 20 (fun q => Q2R q * (1 / Q2R 1)) Q2R gr /\ closed_box c /\ uniform e /\
  (forall l, 0 < f l) /\ (forall a i, 0 < eps a i) /\ (forall a i, 0 <= sigma a i) /\ (forall a i, 0 < tau a i < 1) /\
  viscoem_prepared e 1 f (c_L c) (up AZ) (eps AZ) (sigma AZ) (tau AZ) (tauS AZ) (1 / 2) /\
  (forall a i, e_coef e (inv_mu a) i = 2 / 7) /\ (forall a i, Rmax (1 / 2) (eps a i * (1 - tau a i) + sigma a i * tauS a i) = 1) /\
  0 < v /\ v * v = 2 / 7 / 1 /\ 1 < cfl_limit 2 2 (Q2R 1) v /\ (forall l, 2 * / (2 * PI * f l) < 1) /\
  let after n := fst (steps FD2Dviscotmem c (Shot R_arith e (fun _ => []) (fun _ => []) 0) 0 n st) in
  forall K, exists n, K < Rabs (after n (efield AZ) (reg_index 1 1 0 0 0)).
Proof.
  destruct (mk_regular 1 1 1) as [g| | |] eqn:EG; try discriminate. pose proof PI_RGT_0 as HPI.
  exists (co_env g), co_cfg, g, co_st, co_f, (fun _ _ => 5 / 3), (fun _ _ => 0), (fun _ _ => 2 / 5), (fun _ _ => 0), (sqrt (2 / 7)).
  split; [apply co_matrices, EG|]. split; [repeat split; discriminate|]. split; [apply matrices_uniform|].
  split; [intros; unfold co_f; apply Rdiv_lt_0_compat; lra|]. split; [intros; lra|]. split; [intros; lra|]. split; [intros; lra|].
  split; [split; [split; intros i; reflexivity|intros; reflexivity|intros; reflexivity|reflexivity]|].
  split; [intros [] i; reflexivity|]. split; [intros; rewrite Rmax_right; lra|].
  assert (V0 : 0 < sqrt (2 / 7)) by (apply sqrt_lt_R0; lra). split; [exact V0|]. split; [rewrite sqrt_sqrt; lra|].
  split. { unfold cfl_limit. rewrite fd_h_2, Rmult_1_l. assert (Q1 : Q2R 1 = 1) by (unfold Q2R; cbn; lra). rewrite Q1, <- sqrt_mult by lra.
    assert (S1 : 0 < sqrt (2 * (2 / 7))) by (apply sqrt_lt_R0; lra). assert (S2 : sqrt (2 * (2 / 7)) < 1) by (rewrite <- sqrt_1; apply sqrt_lt_1; lra).
    apply (Rmult_lt_reg_r (sqrt (2 * (2 / 7)))); [exact S1|]. set (w := sqrt (2 * (2 / 7))) in *. replace (1 / w * w) with 1 by (field; lra). lra. }
  split; [intros l; unfold co_f; replace (2 * / (2 * PI * (3 / PI))) with (1 / 3) by (field; lra); lra|].
  intros after. change (reg_index 1 1 0 0 0) with 0%Z. pose proof (fun n => co_step g n EG) as HS. cbv zeta in HS.
  set (E := fun n => after n (efield AZ) 0%Z). set (H := fun n => after n (hfield AY) 0%Z - after n (hfield AX) 0%Z). set (r := fun n => after n (rfield AZ 0) 0%Z).
  assert (HS' : forall n, H (S n) = H n - 4 / 7 * E n /\ 3 * E (S n) = - E n + H (S n) - r (S n) /\ r (S n) = - r n / 2 - 6 * E n) by exact HS.
  assert (E0 : E 0%nat = 1) by reflexivity. assert (H0 : H 0%nat = 18 / 7) by (change (H 0%nat) with (18 / 7 - 0); lra). assert (r0 : r 0%nat = 0) by reflexivity.
  apply (co_unbounded E); [apply (co_grow E H r); [rewrite E0, H0, r0; lra|exact HS']|exact E0|].
  destruct (HS' 0%nat) as (A & B & C). rewrite E0, ?H0, ?r0 in *. lra.
Qed.
Print Assumptions C171_coarse_refuted.

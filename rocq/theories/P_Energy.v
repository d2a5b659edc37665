(** Properties C153-C155: energy balance of the forward solvers, and stability under the CFL limit. *)
From Coq Require Import QArith Qreals Reals Lra FunctionalExtensionality.
From Verif Require Import M_Grid M_Deriv S_Deriv L_Deriv L_Deriv2 M_Prog M_Solvers M_Env M_Surface M_Relax S_Solver S_Step S_Check S_Energy L_Prog L_Lin L_Src L_Env
  L_Surface L_Leap L_Leap2 L_Diff L_Energy L_Energy2 L_Energy3 L_Energy4 P_Solver2 P_Step.
Open Scope R_scope.
Open Scope list_scope.

(** ** from programs to steps *)
Lemma run_no_source (e : env R_arith) s c src n st r i : In s all_solvers -> (forall ty t i, injected (src ty) t i = 0) ->
  fst (steps s c (Shot R_arith e src (fun _ => []) 0) 0 (S n) st) r i = exec e src n (s_run s c) (fst (steps s c (Shot R_arith e src (fun _ => []) 0) 0 n st)) r i.
Proof.
  intros Hs H0. rewrite !steps_state_at, state_at_step. cbn [sh_env sh_src]. rewrite inject_step by exact Hs.
  rewrite (Rsum_map_0 (s_types s)); [lra|]. intros ty _. destruct (s_inj s ty) as [rs|]; [|reflexivity]. apply Rsum_map_0. intros r' _. destruct (nm_eqb r' r); [apply H0|reflexivity].
Qed.
Lemma elastic_ext e c st axes comps srf P M L tau DT dP dM st' st'' : (forall r i, st'' r i = st' r i) ->
  elastic_step e c st axes comps srf P M L tau DT dP dM st' -> elastic_step e c st axes comps srf P M L tau DT dP dM st''.
Proof.
  intros E (H1 & H2 & H3 & H4). split; [|split; [|split]].
  - intros. rewrite E. auto.
  - intros a b i Hs. rewrite E, (H2 a b i Hs). destruct (normal_at_surface _ a b i); [reflexivity|]. f_equal. f_equal. f_equal. apply Rsum_map_ext. intros. rewrite E. reflexivity.
  - intros a b i l Hs Hl. specialize (H3 a b i l Hs Hl). destruct (normal_at_surface _ a b i); rewrite !E; exact H3.
  - intros Hp a d i Ha Hd. rewrite !E. apply H4; assumption.
Qed.
Lemma surf_ext e c st axes comps P M L tau DT dP dM st' s1 s2 : (forall i, s1 i = s2 i) ->
  elastic_step e c st axes comps s1 P M L tau DT dP dM st' -> elastic_step e c st axes comps s2 P M L tau DT dP dM st'.
Proof.
  intros E (H1 & H2 & H3 & H4).
  assert (HG : forall p m a d i, grad_s e c st axes comps s1 p m a d i = grad_s e c st axes comps s2 p m a d i) by (intros; unfold grad_s; rewrite E; reflexivity).
  assert (HH : forall p m q w a d i, hooke e c st axes comps s1 p m q w a d i = hooke e c st axes comps s2 p m q w a d i).
  { intros. unfold hooke. rewrite !HG. destruct (axis_eqb a d); [|reflexivity]. f_equal. f_equal. apply Rsum_map_ext. intros. apply HG. }
  split; [exact H1|split; [|split; [|exact H4]]].
  - intros a b i Hs. rewrite (H2 a b i Hs). unfold normal_at_surface. rewrite E, HH. reflexivity.
  - intros a b i l Hs Hl. specialize (H3 a b i l Hs Hl). unfold normal_at_surface in *. rewrite <- E, <- HH. exact H3.
Qed.
Lemma acoustic_ext e c st axes s1 s2 st' st'' : (forall i, s1 i = s2 i) -> (forall r i, st'' r i = st' r i) ->
  acoustic_step e c st axes s1 st' -> acoustic_step e c st axes s2 st''.
Proof.
  intros E0 E (H1 & H2 & H3). split; [|split].
  - intros. rewrite E. auto.
  - intros. rewrite E, <- E0. apply H2.
  - intros Hp a i Ha. rewrite !E. apply H3; assumption.
Qed.
Lemma maxwell_ext e c st axes es hs eps sigma L tau g DT st' st'' : (forall r i, st'' r i = st' r i) ->
  maxwell_step e c st axes es hs eps sigma L tau g DT st' -> maxwell_step e c st axes es hs eps sigma L tau g DT st''.
Proof.
  intros E (H1 & H2 & H3 & H4). split; [|split; [|split]].
  - intros. rewrite E. auto.
  - intros. rewrite E. auto.
  - intros a i Ha. destruct (H3 a i Ha) as (x & X1 & X2). exists x. rewrite E, (Rsum_map_ext (seq 0 L) _ (fun l => st' (rfield a l) i)) by (intros; apply E). auto.
  - intros Hp a d i Ha Hd. split; intros; rewrite E; [apply (proj1 (H4 Hp a d i Ha Hd))|apply (proj2 (H4 Hp a d i Ha Hd))]; assumption.
Qed.
Lemma theta n p (DT DH v w : R) : supported p -> 0 < DT -> 0 < DH -> 0 < v -> (0 < n)%nat -> 0 <= w <= v * v -> DT < cfl_limit p (Z.of_nat n) DH v ->
  let q := DT / cfl_limit p (Z.of_nat n) DH v in INR n * ((fd_h p * (DT / DH)) * (fd_h p * (DT / DH))) * w <= q * q /\ q * q < 1.
Proof.
  intros Hp HT HD Hv Hn (Hw0 & Hw) Hc q. pose proof (fd_h_pos p Hp) as Hh.
  assert (Hs : 0 < sqrt (IZR (Z.of_nat n))) by (apply sqrt_lt_R0, IZR_lt; lia).
  assert (Hs2 : sqrt (IZR (Z.of_nat n)) * sqrt (IZR (Z.of_nat n)) = INR n) by (rewrite sqrt_sqrt by (apply IZR_le; lia); symmetry; apply INR_IZR_INZ).
  assert (Hq : q = DT / DH * (fd_h p * sqrt (IZR (Z.of_nat n)) * v)) by (unfold q, cfl_limit; field; repeat split; lra).
  assert (C0 : 0 < cfl_limit p (Z.of_nat n) DH v) by lra.
  assert (Q1 : 0 < q < 1).
  { split; unfold q; [apply Rdiv_lt_0_compat; lra|]. apply (Rmult_lt_reg_r (cfl_limit p (Z.of_nat n) DH v)); [exact C0|]. unfold Rdiv. rewrite Rmult_assoc, Rinv_l by lra. lra. }
  split; [|nra]. rewrite Hq. clear - Hs2 Hw. set (r := DT / DH). set (s := sqrt _) in *.
  replace (r * (fd_h p * s * v) * (r * (fd_h p * s * v))) with (s * s * (fd_h p * r * (fd_h p * r)) * (v * v)) by ring. rewrite Hs2.
  apply Rmult_le_compat_l; [|exact Hw]. apply Rmult_le_pos; [apply pos_INR|apply Rle_0_sqr].
Qed.
Lemma has_in l a : has l a = true -> In a l.
Proof. unfold has. intros H. apply existsb_exists in H. destruct H as (x & Hx & E). destruct a, x; try discriminate E; exact Hx. Qed.
Lemma mono (E : nat -> R) : (forall n, E (S n) <= E n) -> forall n, E n <= E 0%nat.
Proof. intros H n. induction n as [|n IH]; [lra|]. pose proof (H n). lra. Qed.
Lemma const (E : nat -> R) : (forall n, E (S n) = E n) -> forall n, E n = E 0%nat.
Proof. intros H n. induction n as [|n IH]; [reflexivity|]. rewrite H. exact IH. Qed.
Lemma closed_itp c : closed_box c -> no_interpolation c.
Proof. intros ((_ & _ & H) & _). exact H. Qed.
Lemma weaken th q X E : th <= q -> 0 <= X -> (1 - th) * X <= E -> (1 - q) * X <= E.
Proof. intros H1 H2 H3. assert ((1 - q) * X <= (1 - th) * X) by (apply Rmult_le_compat_r; lra). lra. Qed.

(** ** acoustic waves *)
Section acoustic.
Variables (e : env R_arith) (c : cfg) (useVar hybrid : bool) (nx ny nz p : Z) (rest : list Z) (DH : Q)
    (fuel : nat) (k : R) (cv : Q -> R) (g : grid) (src : acq R_arith) (st : state R_arith) (S : solver) (axes : list axis).
Hypothesis HM : @fd_matrices R_arith e c true useVar hybrid nx ny nz p rest DH fuel (fun q => Q2R q * k) cv g.
Hypothesis Hc : closed_box c.
Hypothesis HS : acoustic_setting S axes.
Hypothesis Hz : In AZ axes -> (2 <= nz)%Z.
Hypothesis HK : forall i, 0 < pmod e i.
Hypothesis Hb : forall a i, In a axes -> 0 < e_coef e (buoyancy axes a) i.
Hypothesis H0 : forall ty t i, injected (src ty) t i = 0.
Let after n := fst (steps S c (Shot R_arith e src (fun _ => []) 0) 0 n st).
Lemma ac_run n : acoustic_step e c (after n) axes (fun _ => false) (after (Datatypes.S n)).
Proof.
  pose proof (closed_itp c Hc) as Hi. destruct Hc as (_ & Hfs).
  destruct (C93_acoustic g e c src n (after n) Hi ltac:(intros; contradiction)) as (P2 & P3).
  destruct HS as [(ES & EA)|(ES & EA)]; rewrite EA.
  - eapply acoustic_ext; [intros i; apply (surface_of_0 c g i Hfs)| |exact P2]. intros r i. unfold after. rewrite ES. apply run_no_source; [cbn; tauto|exact H0].
  - eapply acoustic_ext; [intros i; apply (surface_of_0 c g i Hfs)| |exact P3]. intros r i. unfold after. rewrite ES. apply run_no_source; [cbn; tauto|exact H0].
Qed.
Lemma ac_axok a : In a axes -> ax_ok nz a.
Proof. intros Ha ->. apply Hz, Ha. Qed.
Let E n := kinetic nx ny nz e axes axes (after n) (after (Datatypes.S n)) + compression nx ny nz e (after n).
Lemma ac_E n : E n = E 0%nat.
Proof.
  apply const. intros m. destruct Hc as (Hu & Hfs).
  refine (ac_conserved e c useVar hybrid nx ny nz p rest DH fuel k cv g HM Hu Hfs axes ac_axok _ _ (after m) (after (Datatypes.S m)) (after (Datatypes.S (Datatypes.S m))) (ac_run m) (ac_run _)); auto.
  intros a x y z Ha _. apply Hb, has_in, Ha.
Qed.
End acoustic.

(** ** C153: without attenuation the discrete energy does not change *)
Theorem C153_acoustic : forall (e : env R_arith) (c : cfg) (useVar hybrid : bool) (nx ny nz p : Z) (rest : list Z) (DH : Q)
    (fuel : nat) (k : R) (cv : Q -> R) (g : grid) (src : acq R_arith) (st : state R_arith) (S : solver) (axes : list axis),
  @fd_matrices R_arith e c true useVar hybrid nx ny nz p rest DH fuel (fun q => Q2R q * k) cv g -> closed_box c ->
  acoustic_setting S axes -> (In AZ axes -> (2 <= nz)%Z) ->
  (forall i, 0 < pmod e i) -> (forall a i, In a axes -> 0 < e_coef e (buoyancy axes a) i) ->
  (forall ty t i, injected (src ty) t i = 0) ->
  let after n := fst (steps S c (Shot R_arith e src (fun _ => []) 0) 0 n st) in
  let E n := kinetic nx ny nz e axes axes (after n) (after (Datatypes.S n)) + compression nx ny nz e (after n) in
  forall n m, E n = E m.
Proof.
  intros e c useVar hybrid nx ny nz p rest DH fuel k cv g src st S axes HM Hc HS Hz HK Hb H0 after E n m.
  pose proof (ac_E e c useVar hybrid nx ny nz p rest DH fuel k cv g src st S axes HM Hc HS Hz HK Hb H0) as H. unfold E, after. rewrite (H n), (H m). reflexivity.
Qed.
Print Assumptions C153_acoustic.

(** ** elastic and viscoelastic waves *)
Section visco.
Variables (e : env R_arith) (c : cfg) (useVar hybrid : bool) (nx ny nz p : Z) (rest : list Z) (DH : Q)
    (fuel : nat) (k : R) (cv : Q -> R) (g : grid) (axes comps : list axis) (after : nat -> state R_arith).
Hypothesis HM : @fd_matrices R_arith e c true useVar hybrid nx ny nz p rest DH fuel (fun q => Q2R q * k) cv g.
Hypothesis Hc : closed_box c.
Hypothesis Hg : geometry axes comps.
Hypothesis Hz : In AZ axes -> (2 <= nz)%Z.
Variables (P : Z -> R) (M : tensor) (L : nat) (tau : nat -> R) (DT : R) (dP : Z -> R) (dM : tensor).
Hypothesis Hrun : forall n, elastic_step e c (after n) axes comps (fun _ => false) P M L tau DT dP dM (after (S n)).
Hypothesis Hb : forall a i, In a comps -> 0 < e_coef e (buoyancy axes a) i.
Hypothesis HdM : diag dM.
Hypothesis HM0 : diag M.
Hypothesis Hgood : definite axes comps (relaxedP P L dP) (relaxedM M L dM).
Hypothesis Hgoodd : (0 < L)%nat -> definite axes comps dP dM.
Hypothesis Htau : forall l, (l < L)%nat -> 0 < tau l.
Let E n := visco_energy nx ny nz e axes comps P M L tau dP dM (after n) (after (S n)).
Let loss n := visco_loss nx ny nz axes comps L tau dP dM DT (after n) (after (S n)).
Lemma el_axok a : In a axes -> ax_ok nz a.
Proof. intros Ha ->. apply Hz, Ha. Qed.
Lemma el_diagr : diag (relaxedM M L dM).
Proof. intros a i. unfold relaxedM. rewrite (HM0 a), (HdM a). reflexivity. Qed.
Lemma vi_E n : E (S n) = E n - loss n.
Proof.
  destruct Hc as (Hu & Hfs).
  refine (el_energy e c useVar hybrid nx ny nz p rest DH fuel k cv g HM Hu Hfs axes comps Hg el_axok _ P M L tau DT dP dM HdM el_diagr _ _ Htau (after n) (after (S n)) (after (S (S n))) (Hrun n) (Hrun _)).
  - intros a x y z Ha _. apply Hb, has_in, Ha.
  - intros x y z _. apply Hgood.
  - intros l x y z Hl _. apply Hgoodd. lia.
Qed.
Lemma vi_loss n : 0 <= DT -> 0 <= loss n.
Proof.
  intros HD.
  exact (loss_pos e nx ny nz p axes comps Hg (fun a x y z Ha _ => Hb a _ (has_in comps a Ha)) P M L tau DT dP dM (fun x y z _ => Hgood _)
    (fun l x y z Hl _ => Hgoodd ltac:(lia) _) Htau (after n) (after (S n)) HD).
Qed.
Lemma vi_mono : 0 <= DT -> forall n, E n <= E 0%nat.
Proof. intros HD. apply mono. intros n. rewrite vi_E. pose proof (vi_loss n HD). lra. Qed.
Variables (la mu bmax v : R).
Hypothesis Hp : supported p.
Hypothesis HDT : 0 < DT.
Hypothesis HDH : 0 < Q2R DH.
Hypothesis Hk : k = DT / Q2R DH.
Hypothesis Hla : 0 <= la.
Hypothesis Hmu : 0 < mu.
Hypothesis Hbm0 : 0 < bmax.
Hypothesis Hbm : forall a i, In a comps -> e_coef e (buoyancy axes a) i <= bmax.
Hypothesis Hbe : moduli_below axes comps P M la mu.
Hypothesis Hv : 0 < v.
Hypothesis Hvb : stiffness comps la mu * bmax <= v * v.
Hypothesis Hcfl : DT < cfl_limit p (Z.of_nat (length axes)) (Q2R DH) v.
Lemma vi_stable : let q := (DT / cfl_limit p (Z.of_nat (length axes)) (Q2R DH) v) * (DT / cfl_limit p (Z.of_nat (length axes)) (Q2R DH) v) in
  q < 1 /\ forall n x y z, inside nx ny nz x y z -> let i := reg_index nx nz x y z in
    (forall a b, stress axes comps a b -> (1 - q) * (stress_of (after n) a b i * stress_of (after n) a b i) <= stiffness comps la mu * E 0%nat) /\
    (forall a, In a comps -> (1 - q) * (after (S n) (vel a) i * after (S n) (vel a) i) <= 2 * bmax * E 0%nat).
Proof.
  intros q. destruct Hc as (Hu & Hfs).
  assert (Hn : (0 < length axes)%nat) by (destruct Hg as [(-> & _)|[(-> & _)|(-> & _)]]; cbn; lia).
  assert (Hst : 0 < stiffness comps la mu) by (unfold stiffness; destruct (has comps AX); lra).
  destruct (theta (length axes) p DT (Q2R DH) v (bmax * stiffness comps la mu) Hp HDT HDH Hv Hn) as (T1 & T2).
  { split; [apply Rmult_le_pos; lra|]. rewrite Rmult_comm. exact Hvb. }
  { exact Hcfl. }
  fold q in T1, T2. split; [exact T2|]. intros n x y z Hi i. rewrite <- Hk in T1.
  assert (G1 : forall a x y z, has comps a = true -> inside nx ny nz x y z -> 0 < e_coef e (buoyancy axes a) (reg_index nx nz x y z)) by (intros; apply Hb, has_in; assumption).
  assert (G2 : forall x y z, inside nx ny nz x y z -> good axes comps (relaxedP P L dP) (relaxedM M L dM) (reg_index nx nz x y z)) by (intros; apply Hgood).
  assert (G3 : forall l x y z, (l < L)%nat -> inside nx ny nz x y z -> good axes comps dP dM (reg_index nx nz x y z)) by (intros; apply Hgoodd; lia).
  assert (G4 : forall x y z, inside nx ny nz x y z -> P (reg_index nx nz x y z) - 2 * M AX AX (reg_index nx nz x y z) <= la) by (intros; apply Hbe).
  assert (G5 : forall x y z, inside nx ny nz x y z -> M AX AX (reg_index nx nz x y z) <= mu) by (intros; apply Hbe).
  assert (G6 : forall ab x y z, In ab (shears axes comps) -> inside nx ny nz x y z -> M (fst ab) (snd ab) (reg_index nx nz x y z) <= mu) by (intros; apply Hbe; assumption).
  assert (G7 : forall a x y z, has comps a = true -> inside nx ny nz x y z -> e_coef e (buoyancy axes a) (reg_index nx nz x y z) <= bmax) by (intros; apply Hbm, has_in; assumption).
  assert (Hq : el_th p k axes comps la mu bmax <= q) by exact T1.
  destruct (el_bound e c useVar hybrid nx ny nz p rest DH fuel k cv g HM Hu Hfs axes comps Hg el_axok G1 P M L tau DT dP dM HdM el_diagr G2 G3 Htau la mu bmax Hla Hmu Hbm0 HM0 G4 G5 G6 G7 Hp (after n) (after (S n)) (Hrun n) ltac:(lra)) as (B1 & B2).
  pose proof (vi_mono ltac:(lra) n) as Em. unfold E in Em.
  pose proof (pot_pos e nx ny nz axes comps Hg G1 P M L tau dP dM G2 G3 Htau (after n)) as P0.
  assert (K0 : 0 <= kinetic nx ny nz e axes comps (after (S n)) (after (S n))).
  { unfold kinetic, sum_axes. apply Rsum_map_pos. intros a Ha. apply gpos. intros x' y' z' Hi'. apply sq_div, Hb, Ha. }
  assert (W1 : (1 - q) * pot nx ny nz axes comps P M L tau dP dM (after n) <= E 0%nat) by (apply (weaken (el_th p k axes comps la mu bmax)); [exact Hq|exact P0|unfold E; lra]).
  assert (W2 : (1 - q) * kinetic nx ny nz e axes comps (after (S n)) (after (S n)) <= 2 * E 0%nat) by (apply (weaken (el_th p k axes comps la mu bmax)); [exact Hq|exact K0|unfold E; lra]).
  split.
  - intros a b Hab. assert (PP : stress_of (after n) a b i * stress_of (after n) a b i <= stiff comps la mu * pot nx ny nz axes comps P M L tau dP dM (after n))
      by exact (pot_point e nx ny nz axes comps Hg el_axok G1 P M L tau dP dM HdM el_diagr G2 G3 Htau la mu bmax Hla Hmu HM0 G4 G5 G6 G7 (after n) a b x y z Hab Hi).
    apply Rle_trans with ((1 - q) * (stiff comps la mu * pot nx ny nz axes comps P M L tau dP dM (after n))); [apply Rmult_le_compat_l; [lra|exact PP]|].
    change (stiff comps la mu) with (stiffness comps la mu). apply (Rmult_le_compat_l (stiffness comps la mu)) in W1; [|lra]. lra.
  - intros a Ha. pose proof (kin_point e nx ny nz axes comps G1 bmax (after (S n)) a x y z G7 Ha Hi) as KP. fold i in KP.
    apply Rle_trans with ((1 - q) * (bmax * kinetic nx ny nz e axes comps (after (S n)) (after (S n)))); [apply Rmult_le_compat_l; [lra|exact KP]|].
    apply (Rmult_le_compat_l bmax) in W2; [|lra]. lra.
Qed.
End visco.
Lemma relaxedP0 P dP : relaxedP P 0 dP = P.
Proof. apply functional_extensionality. intros i. unfold relaxedP. cbn. lra. Qed.
Lemma relaxedM0 M dM : relaxedM M 0 dM = M.
Proof. unfold tensor in *. apply functional_extensionality. intros a. apply functional_extensionality. intros b. apply functional_extensionality. intros i. unfold relaxedM. cbn. lra. Qed.
Lemma spring0 tau st : spring 0 tau st = stress_of st.
Proof. unfold tensor in *. apply functional_extensionality. intros a. apply functional_extensionality. intros b. apply functional_extensionality. intros i. unfold spring, stress_of. cbn. lra. Qed.
Lemma energy0 nx ny nz e axes comps P M tau dP dM st st' :
  visco_energy nx ny nz e axes comps P M 0 tau dP dM st st' = kinetic nx ny nz e axes comps st st' + strain_energy nx ny nz axes comps P M (stress_of st).
Proof.
  unfold visco_energy. cbn [seq map]. change (Rsum []) with 0. rewrite Rplus_0_r. f_equal.
  rewrite relaxedP0, relaxedM0, spring0. reflexivity.
Qed.
Lemma geo_of S axes comps : elastic_setting S axes comps \/ visco_setting S axes comps -> geometry axes comps.
Proof. intros [[(_ & H)|[(_ & H)|(_ & H)]]|[(_ & H)|[(_ & H)|(_ & H)]]]; unfold geometry; tauto. Qed.
Lemma el_run (e : env R_arith) c (g : grid) src st S axes comps P M tau DT dP dM : elastic_setting S axes comps -> closed_box c -> uniform e -> (forall i, 0 < pmod e i) ->
  (forall ty t i, injected (src ty) t i = 0) -> P = pmod e -> M = smod e ->
  let after n := fst (steps S c (Shot R_arith e src (fun _ => []) 0) 0 n st) in
  forall n, elastic_step e c (after n) axes comps (fun _ => false) P M 0 tau DT dP dM (after (Datatypes.S n)).
Proof.
  intros HS Hc HU HP H0 -> -> after n. pose proof (closed_itp c Hc) as Hi. destruct Hc as (_ & Hfs).
  destruct (C93_elastic g e c src n (after n) DT tau dP dM HU Hi ltac:(intros H; contradiction) HP) as (P2 & P3).
  pose proof (C93_sh e c src n (after n) (fun _ => false) DT tau dP dM HU) as P1.
  destruct HS as [(ES & EA & EC)|[(ES & EA & EC)|(ES & EA & EC)]]; rewrite EA, EC.
  - eapply elastic_ext; [|apply (surf_ext _ _ _ _ _ _ _ _ _ _ _ _ _ _ _ (fun i => surface_of_0 c g i Hfs) P2)]. intros r i. unfold after. rewrite ES. apply run_no_source; [cbn; tauto|exact H0].
  - eapply elastic_ext; [|apply (surf_ext _ _ _ _ _ _ _ _ _ _ _ _ _ _ _ (fun i => surface_of_0 c g i Hfs) P3)]. intros r i. unfold after. rewrite ES. apply run_no_source; [cbn; tauto|exact H0].
  - eapply elastic_ext; [|exact P1]. intros r i. unfold after. rewrite ES. apply run_no_source; [cbn; tauto|exact H0].
Qed.
Lemma smod_diag e : diag (smod e).
Proof. intros [] i; reflexivity. Qed.
Lemma relaxM_diag e : diag (relaxM e).
Proof. intros [] i; reflexivity. Qed.
Lemma unrelaxedM_diag e L : diag (unrelaxedM e L).
Proof. intros [] i; reflexivity. Qed.

Theorem C153_elastic : forall (e : env R_arith) (c : cfg) (useVar hybrid : bool) (nx ny nz p : Z) (rest : list Z) (DH : Q)
    (fuel : nat) (k : R) (cv : Q -> R) (g : grid) (src : acq R_arith) (st : state R_arith) (S : solver) (axes comps : list axis),
  @fd_matrices R_arith e c true useVar hybrid nx ny nz p rest DH fuel (fun q => Q2R q * k) cv g -> closed_box c -> uniform e ->
  elastic_setting S axes comps -> (In AZ axes -> (2 <= nz)%Z) ->
  (forall i, 0 < pmod e i) -> definite axes comps (pmod e) (smod e) -> (forall a i, In a comps -> 0 < e_coef e (buoyancy axes a) i) ->
  (forall ty t i, injected (src ty) t i = 0) ->
  let after n := fst (steps S c (Shot R_arith e src (fun _ => []) 0) 0 n st) in
  let E n := kinetic nx ny nz e axes comps (after n) (after (Datatypes.S n)) + strain_energy nx ny nz axes comps (pmod e) (smod e) (stress_of (after n)) in
  forall n m, E n = E m.
Proof.
  intros e c useVar hybrid nx ny nz p rest DH fuel k cv g src st S axes comps HM Hc HU HS Hz HP HD Hb H0 after E.
  pose proof (el_run e c g src st S axes comps _ _ (fun _ => 1) 1 (pmod e) (smod e) HS Hc HU HP H0 eq_refl eq_refl) as HR.
  assert (HD' : definite axes comps (relaxedP (pmod e) 0 (pmod e)) (relaxedM (smod e) 0 (smod e))).
  { rewrite relaxedP0, relaxedM0. exact HD. }
  assert (G : forall n, E n = E 0%nat).
  { apply const. intros n. unfold E. rewrite <- !(energy0 nx ny nz e axes comps (pmod e) (smod e) (fun _ => 1) (pmod e) (smod e)).
    rewrite (vi_E e c useVar hybrid nx ny nz p rest DH fuel k cv g axes comps after HM Hc (geo_of S axes comps (or_introl HS)) Hz (pmod e) (smod e) 0 (fun _ => 1) 1 (pmod e) (smod e) HR Hb
      (smod_diag e) (smod_diag e) HD' ltac:(lia) ltac:(lia) n). unfold visco_loss. cbn [seq map]. change (Rsum []) with 0. lra. }
  intros n m. rewrite (G n), (G m). reflexivity.
Qed.
Print Assumptions C153_elastic.

(** ** C154: what attenuation and conductivity take out *)
Lemma vi_run (e : env R_arith) c (g : grid) src st S axes comps f DT : visco_setting S axes comps -> closed_box c -> c_fs c = 0%Z -> uniform e -> (forall i, 0 < pmod e i) -> (forall i, 0 <= e_coef e "tauP"%string i) ->
  0 < DT -> (forall l, (l < c_L c)%nat -> 0 < f l) -> visco_prepared e DT f (c_L c) ->
  (forall ty t i, injected (src ty) t i = 0) ->
  let after n := fst (steps S c (Shot R_arith e src (fun _ => []) 0) 0 n st) in
  forall n, elastic_step e c (after n) axes comps (fun _ => false) (unrelaxedP e (c_L c)) (unrelaxedM e (c_L c)) (c_L c) (relaxationTime f) DT (relaxP e) (relaxM e) (after (Datatypes.S n)).
Proof.
  intros HS Hc Hfs0 HU HP HTp HD Hf VP H0 after n. destruct Hc as (_ & Hfs).
  destruct (C94_viscoelastic g e c src n (after n) f DT HU HD Hf VP ltac:(intros H; contradiction) HP HTp) as (P2 & P3). specialize (P2 (or_introl Hfs0)).
  pose proof (C94_viscosh e c src n (after n) (fun _ => false) f DT HU HD Hf VP) as P1.
  destruct HS as [(ES & EA & EC)|[(ES & EA & EC)|(ES & EA & EC)]]; rewrite EA, EC.
  - eapply elastic_ext; [|apply (surf_ext _ _ _ _ _ _ _ _ _ _ _ _ _ _ _ (fun i => surface_of_0 c g i Hfs) P2)]. intros r i. unfold after. rewrite ES. apply run_no_source; [cbn; tauto|exact H0].
  - eapply elastic_ext; [|apply (surf_ext _ _ _ _ _ _ _ _ _ _ _ _ _ _ _ (fun i => surface_of_0 c g i Hfs) P3)]. intros r i. unfold after. rewrite ES. apply run_no_source; [cbn; tauto|exact H0].
  - eapply elastic_ext; [|exact P1]. intros r i. unfold after. rewrite ES. apply run_no_source; [cbn; tauto|exact H0].
Qed.
Lemma tau_pos f l : 0 < f l -> 0 < relaxationTime f l.
Proof. intros H. unfold relaxationTime. pose proof PI_RGT_0. apply Rdiv_lt_0_compat; [lra|]. apply Rmult_lt_0_compat; lra. Qed.

(** The spring has the moduli [relaxedP], [relaxedM], each of the c_L Maxwell elements the moduli [relaxP], [relaxM]. *)
Theorem C154_visco : forall (e : env R_arith) (c : cfg) (useVar hybrid : bool) (nx ny nz p : Z) (rest : list Z) (DH : Q)
    (fuel : nat) (k : R) (cv : Q -> R) (g : grid) (src : acq R_arith) (st : state R_arith) (S : solver) (axes comps : list axis) (f : nat -> R) (DT : R),
  @fd_matrices R_arith e c true useVar hybrid nx ny nz p rest DH fuel (fun q => Q2R q * k) cv g -> closed_box c -> c_fs c = 0%Z -> uniform e ->
  visco_setting S axes comps -> (In AZ axes -> (2 <= nz)%Z) ->
  0 < DT -> (forall l, (l < c_L c)%nat -> 0 < f l) -> visco_prepared e DT f (c_L c) ->
  (forall i, 0 < pmod e i) -> (forall i, 0 <= e_coef e "tauP"%string i) -> (forall a i, In a comps -> 0 < e_coef e (buoyancy axes a) i) ->
  let P := unrelaxedP e (c_L c) in let M := unrelaxedM e (c_L c) in
  definite axes comps (relaxedP P (c_L c) (relaxP e)) (relaxedM M (c_L c) (relaxM e)) -> ((0 < c_L c)%nat -> definite axes comps (relaxP e) (relaxM e)) ->
  (forall ty t i, injected (src ty) t i = 0) ->
  let after n := fst (steps S c (Shot R_arith e src (fun _ => []) 0) 0 n st) in
  let E n := visco_energy nx ny nz e axes comps P M (c_L c) (relaxationTime f) (relaxP e) (relaxM e) (after n) (after (Datatypes.S n)) in
  let loss n := visco_loss nx ny nz axes comps (c_L c) (relaxationTime f) (relaxP e) (relaxM e) DT (after n) (after (Datatypes.S n)) in
  forall n, E (Datatypes.S n) = E n - loss n /\ 0 <= loss n.
Proof.
  intros e c useVar hybrid nx ny nz p rest DH fuel k cv g src st S axes comps f DT HM Hc Hfs HU HS Hz HDT Hf VP HP HTp Hb P M HD1 HD2 H0 after E loss n.
  pose proof (vi_run e c g src st S axes comps f DT HS Hc Hfs HU HP HTp HDT Hf VP H0) as HR.
  pose proof (fun l Hl => tau_pos f l (Hf l Hl)) as Ht. split.
  - exact (vi_E e c useVar hybrid nx ny nz p rest DH fuel k cv g axes comps after HM Hc (geo_of S axes comps (or_intror HS)) Hz P M (c_L c) (relaxationTime f) DT (relaxP e) (relaxM e) HR Hb
      (relaxM_diag e) (unrelaxedM_diag e _) HD1 HD2 Ht n).
  - exact (loss_pos e nx ny nz p axes comps (geo_of S axes comps (or_intror HS)) (fun a x y z Ha _ => Hb a _ (has_in comps a Ha)) P M (c_L c) (relaxationTime f) DT (relaxP e) (relaxM e) (fun x y z _ => HD1 _)
    (fun l x y z Hl _ => HD2 ltac:(lia) _) Ht (after n) (after (Datatypes.S n)) ltac:(lra)).
Qed.
Print Assumptions C154_visco.

(** *** electromagnetic fields *)
Lemma emgeo_of S axes es hs : em_setting S axes es hs -> em_geometry axes es hs.
Proof. intros [(_ & H)|[(_ & H)|(_ & H)]]; unfold em_geometry; tauto. Qed.
Lemma em_run (e : env R_arith) c src st S axes es hs eps sigma DT : em_setting S axes es hs -> closed_box c -> uniform e -> 0 < DT ->
  (forall a i, 0 < eps a i) -> (forall a i, 0 <= sigma a i) -> (forall a, In a es -> em_prepared e DT (up a) (eps a) (sigma a)) ->
  (forall ty t i, injected (src ty) t i = 0) ->
  let after n := fst (steps S c (Shot R_arith e src (fun _ => []) 0) 0 n st) in
  forall n, maxwell_step e c (after n) axes es hs eps sigma 0 (fun _ => 1) (fun _ _ _ => 0) DT (after (Datatypes.S n)).
Proof.
  intros HS Hc HU HD He Hs HP H0 after n. destruct Hc as ((Hpml & _) & _).
  destruct (C95_maxwell e c src n (after n) eps sigma (fun _ => 1) (fun _ _ _ => 0) DT HU HD He Hs) as (P1 & P2 & P3).
  destruct HS as [(ES & EA & EE & EH)|[(ES & EA & EE & EH)|(ES & EA & EE & EH)]]; rewrite EA, EE, EH in *.
  - eapply maxwell_ext; [|apply P1; intros a Ha; apply HP, has_in, Ha]. intros r i. unfold after. rewrite ES. apply run_no_source; [cbn; tauto|exact H0].
  - eapply maxwell_ext; [|apply P2; apply (HP AZ); cbn; tauto]. intros r i. unfold after. rewrite ES. apply run_no_source; [cbn; tauto|exact H0].
  - eapply maxwell_ext; [|apply P3; [intros a; apply HP; destruct a; cbn; tauto|rewrite Hpml; discriminate]]. intros r i. unfold after. rewrite ES. apply run_no_source; [cbn; tauto|exact H0].
Qed.
Theorem C154_maxwell : forall (e : env R_arith) (c : cfg) (useVar hybrid : bool) (nx ny nz p : Z) (rest : list Z) (DH : Q)
    (fuel : nat) (k : R) (cv : Q -> R) (g : grid) (src : acq R_arith) (st : state R_arith) (S : solver) (axes es hs : list axis) (eps sigma : axis -> Z -> R) (DT : R),
  @fd_matrices R_arith e c true useVar hybrid nx ny nz p rest DH fuel (fun q => Q2R q * k) cv g -> closed_box c -> uniform e ->
  em_setting S axes es hs -> (In AZ axes -> (2 <= nz)%Z) -> 0 < DT ->
  (forall a i, 0 < eps a i) -> (forall a i, 0 <= sigma a i) -> (forall a, In a es -> em_prepared e DT (up a) (eps a) (sigma a)) ->
  (forall a i, In a hs -> 0 < e_coef e (inv_mu a) i) ->
  (forall ty t i, injected (src ty) t i = 0) ->
  let after n := fst (steps S c (Shot R_arith e src (fun _ => []) 0) 0 n st) in
  let E n := magnetic nx ny nz e hs (after n) (after (Datatypes.S n)) + electric nx ny nz es eps (after n) in
  let loss n := ohmic_loss nx ny nz es sigma DT (after n) (after (Datatypes.S n)) in
  forall n, E (Datatypes.S n) = E n - loss n /\ 0 <= loss n.
Proof.
  intros e c useVar hybrid nx ny nz p rest DH fuel k cv g src st S axes es hs eps sigma DT HM Hc HU HS Hz HDT He Hs HP Hm H0 after E loss n.
  pose proof (em_run e c src st S axes es hs eps sigma DT HS Hc HU HDT He Hs HP H0) as HR. destruct Hc as (Hu & _).
  assert (Hax : forall a, In a axes -> ax_ok nz a) by (intros a Ha ->; apply Hz, Ha). split.
  - exact (em_energy e c useVar hybrid nx ny nz p rest DH fuel k cv g HM Hu axes es hs (emgeo_of S axes es hs HS) Hax (fun a x y z Ha _ => Hm a _ (has_in hs a Ha)) eps sigma (fun _ => 1) (fun _ _ _ => 0) DT
      (fun a x y z _ _ => He a _) (after n) (after (Datatypes.S n)) (after (Datatypes.S (Datatypes.S n))) (HR n) (HR _)).
  - exact (ohmic_pos nx ny nz es sigma DT (after n) (after (Datatypes.S n)) ltac:(lra) (fun a x y z _ _ => Hs a _)).
Qed.
Print Assumptions C154_maxwell.

(** ** C155: stability *)
(** Bounds for all times.  [q] is the square of the ratio of the time step to the CFL limit for the velocity v. *)
Theorem C155_acoustic : forall (e : env R_arith) (c : cfg) (useVar hybrid : bool) (nx ny nz p : Z) (rest : list Z) (DH : Q)
    (fuel : nat) (cv : Q -> R) (g : grid) (src : acq R_arith) (st : state R_arith) (S : solver) (axes : list axis) (DT Kmax bmax v : R),
  @fd_matrices R_arith e c true useVar hybrid nx ny nz p rest DH fuel (fun q => Q2R q * (DT / Q2R DH)) cv g -> closed_box c ->
  acoustic_setting S axes -> (In AZ axes -> (2 <= nz)%Z) -> supported p ->
  (forall i, 0 < pmod e i <= Kmax) -> (forall a i, In a axes -> 0 < e_coef e (buoyancy axes a) i <= bmax) ->
  (forall ty t i, injected (src ty) t i = 0) ->
  0 < DT -> 0 < Q2R DH -> 0 < v -> Kmax * bmax <= v * v -> DT < cfl_limit p (Z.of_nat (length axes)) (Q2R DH) v ->
  let after n := fst (steps S c (Shot R_arith e src (fun _ => []) 0) 0 n st) in
  let E0 := kinetic nx ny nz e axes axes st (after 1%nat) + compression nx ny nz e st in
  let q := (DT / cfl_limit p (Z.of_nat (length axes)) (Q2R DH) v) * (DT / cfl_limit p (Z.of_nat (length axes)) (Q2R DH) v) in
  q < 1 /\ forall n x y z, (0 <= x < nx)%Z -> (0 <= y < ny)%Z -> (0 <= z < nz)%Z -> let i := reg_index nx nz x y z in
    (1 - q) * (after n pressure i * after n pressure i) <= Kmax * E0 /\
    (forall a, In a axes -> (1 - q) * (after (Datatypes.S n) (vel a) i * after (Datatypes.S n) (vel a) i) <= 2 * bmax * E0).
Proof.
  intros e c useVar hybrid nx ny nz p rest DH fuel cv g src st S axes DT Kmax bmax v HM Hc HS Hz Hp HK Hb H0 HDT HDH Hv Hvb Hcfl after E0 q.
  assert (Hn : (0 < length axes)%nat) by (destruct HS as [(_ & ->)|(_ & ->)]; cbn; lia).
  assert (K0 : 0 < Kmax) by (destruct (HK 0%Z); lra).
  assert (B0 : 0 < bmax) by (destruct HS as [(_ & E)|(_ & E)]; destruct (Hb AX 0%Z); try lra; rewrite E; cbn; tauto).
  destruct (theta (length axes) p DT (Q2R DH) v (bmax * Kmax) Hp HDT HDH Hv Hn) as (T1 & T2).
  { split; [apply Rmult_le_pos; lra|]. rewrite Rmult_comm. exact Hvb. }
  { exact Hcfl. }
  fold q in T1, T2. split; [exact T2|]. intros n x y z Hx Hy Hz' i. assert (Hi : inside nx ny nz x y z) by (unfold inside; auto).
  assert (HK1 : forall i, 0 < pmod e i) by (intros; apply HK). assert (Hb1 : forall a i, In a axes -> 0 < e_coef e (buoyancy axes a) i) by (intros; apply Hb; assumption).
  pose proof (ac_run e c g src st S axes Hc HS H0 n) as HR.
  assert (HE : kinetic nx ny nz e axes axes (after n) (after (Datatypes.S n)) + compression nx ny nz e (after n) = E0)
    by exact (ac_E e c useVar hybrid nx ny nz p rest DH fuel (DT / Q2R DH) cv g src st S axes HM Hc HS Hz HK1 Hb1 H0 n).
  destruct Hc as (Hu & Hfs). assert (Hax : forall a, In a axes -> ax_ok nz a) by (intros a Ha ->; apply Hz, Ha).
  assert (G1 : forall a x y z, has axes a = true -> inside nx ny nz x y z -> 0 < e_coef e (buoyancy axes a) (reg_index nx nz x y z)) by (intros; apply Hb1, has_in; assumption).
  assert (G2 : forall a x y z, has axes a = true -> inside nx ny nz x y z -> e_coef e (buoyancy axes a) (reg_index nx nz x y z) <= bmax) by (intros; apply Hb, has_in; assumption).
  assert (G3 : forall x y z, inside nx ny nz x y z -> 0 < pmod e (reg_index nx nz x y z)) by (intros; apply HK).
  assert (G4 : forall x y z, inside nx ny nz x y z -> pmod e (reg_index nx nz x y z) <= Kmax) by (intros; apply HK).
  assert (Hq : ac_th p (DT / Q2R DH) axes bmax Kmax <= q) by exact T1.
  destruct (ac_bound e c useVar hybrid nx ny nz p rest DH fuel (DT / Q2R DH) cv g HM Hu Hfs axes Hax G1 G3 bmax Kmax G2 G4 Hp ltac:(lra) ltac:(lra) (after n) (after (Datatypes.S n)) HR ltac:(lra)) as (B1 & B2).
  unfold ac_energy in B1, B2. rewrite HE in B1, B2.
  pose proof (comp_pos e nx ny nz G3 (after n)) as P0.
  assert (KK : 0 <= kinetic nx ny nz e axes axes (after (Datatypes.S n)) (after (Datatypes.S n))).
  { unfold kinetic, sum_axes. apply Rsum_map_pos. intros a Ha. apply gpos. intros x' y' z' Hi'. apply sq_div, Hb1, Ha. }
  pose proof (weaken _ _ _ _ Hq P0 B1) as W1. pose proof (weaken _ _ _ _ Hq KK B2) as W2. split.
  - pose proof (ac_point e nx ny nz G3 Kmax G4 ltac:(lra) (after n) x y z Hi) as PP. fold i in PP.
    apply Rle_trans with ((1 - q) * (Kmax * compression nx ny nz e (after n))); [apply Rmult_le_compat_l; [lra|exact PP]|]. apply (Rmult_le_compat_l Kmax) in W1; [|lra]. lra.
  - intros a Ha. pose proof (kin_point e nx ny nz axes axes G1 bmax (after (Datatypes.S n)) a x y z G2 Ha Hi) as KP. fold i in KP.
    apply Rle_trans with ((1 - q) * (bmax * kinetic nx ny nz e axes axes (after (Datatypes.S n)) (after (Datatypes.S n)))); [apply Rmult_le_compat_l; [lra|exact KP]|].
    apply (Rmult_le_compat_l bmax) in W2; [|lra]. lra.
Qed.
Print Assumptions C155_acoustic.

(** P-wave modulus times inverse density is at most v^2 (shear modulus for SH waves), where the moduli are bounded by
    lambda <= la, mu <= mu0. *)
Theorem C155_elastic : forall (e : env R_arith) (c : cfg) (useVar hybrid : bool) (nx ny nz p : Z) (rest : list Z) (DH : Q)
    (fuel : nat) (cv : Q -> R) (g : grid) (src : acq R_arith) (st : state R_arith) (S : solver) (axes comps : list axis) (DT la mu bmax v : R),
  @fd_matrices R_arith e c true useVar hybrid nx ny nz p rest DH fuel (fun q => Q2R q * (DT / Q2R DH)) cv g -> closed_box c -> uniform e ->
  elastic_setting S axes comps -> (In AZ axes -> (2 <= nz)%Z) -> supported p ->
  (forall i, 0 < pmod e i) -> definite axes comps (pmod e) (smod e) -> moduli_below axes comps (pmod e) (smod e) la mu -> 0 <= la -> 0 < mu ->
  (forall a i, In a comps -> 0 < e_coef e (buoyancy axes a) i <= bmax) ->
  (forall ty t i, injected (src ty) t i = 0) ->
  0 < DT -> 0 < Q2R DH -> 0 < v -> stiffness comps la mu * bmax <= v * v -> DT < cfl_limit p (Z.of_nat (length axes)) (Q2R DH) v ->
  let after n := fst (steps S c (Shot R_arith e src (fun _ => []) 0) 0 n st) in
  let E0 := kinetic nx ny nz e axes comps st (after 1%nat) + strain_energy nx ny nz axes comps (pmod e) (smod e) (stress_of st) in
  let q := (DT / cfl_limit p (Z.of_nat (length axes)) (Q2R DH) v) * (DT / cfl_limit p (Z.of_nat (length axes)) (Q2R DH) v) in
  q < 1 /\ forall n x y z, (0 <= x < nx)%Z -> (0 <= y < ny)%Z -> (0 <= z < nz)%Z -> let i := reg_index nx nz x y z in
    (forall a b, stress axes comps a b -> (1 - q) * (stress_of (after n) a b i * stress_of (after n) a b i) <= stiffness comps la mu * E0) /\
    (forall a, In a comps -> (1 - q) * (after (Datatypes.S n) (vel a) i * after (Datatypes.S n) (vel a) i) <= 2 * bmax * E0).
Proof.
  intros e c useVar hybrid nx ny nz p rest DH fuel cv g src st S axes comps DT la mu bmax v HM Hc HU HS Hz Hp HP HD HB Hla Hmu Hb H0 HDT HDH Hv Hvb Hcfl after E0 q.
  pose proof (el_run e c g src st S axes comps _ _ (fun _ => 1) DT (pmod e) (smod e) HS Hc HU HP H0 eq_refl eq_refl) as HR.
  assert (HD' : definite axes comps (relaxedP (pmod e) 0 (pmod e)) (relaxedM (smod e) 0 (smod e))) by (rewrite relaxedP0, relaxedM0; exact HD).
  assert (Hb1 : forall a i, In a comps -> 0 < e_coef e (buoyancy axes a) i) by (intros; apply Hb; assumption).
  assert (Hb2 : forall a i, In a comps -> e_coef e (buoyancy axes a) i <= bmax) by (intros; apply Hb; assumption).
  assert (B0 : 0 < bmax) by (destruct HS as [(_ & _ & E)|[(_ & _ & E)|(_ & _ & E)]]; [destruct (Hb AX 0%Z)|destruct (Hb AX 0%Z)|destruct (Hb AZ 0%Z)]; try lra; rewrite E; cbn; tauto).
  destruct (vi_stable e c useVar hybrid nx ny nz p rest DH fuel (DT / Q2R DH) cv g axes comps after HM Hc (geo_of S axes comps (or_introl HS)) Hz (pmod e) (smod e) 0 (fun _ => 1) DT (pmod e) (smod e) HR Hb1
      (smod_diag e) (smod_diag e) HD' ltac:(lia) ltac:(lia) la mu bmax v Hp HDT HDH eq_refl Hla Hmu B0 Hb2 HB Hv Hvb Hcfl) as (Q1 & Q2).
  split; [exact Q1|]. intros n x y z Hx Hy Hz' i. specialize (Q2 n x y z ltac:(unfold inside; auto)). rewrite energy0 in Q2. exact Q2.
Qed.
Print Assumptions C155_elastic.

(** Viscoelastic waves: the velocity is the unrelaxed one, that is, the one at high frequencies. *)
Theorem C155_visco : forall (e : env R_arith) (c : cfg) (useVar hybrid : bool) (nx ny nz p : Z) (rest : list Z) (DH : Q)
    (fuel : nat) (cv : Q -> R) (g : grid) (src : acq R_arith) (st : state R_arith) (S : solver) (axes comps : list axis) (f : nat -> R) (DT la mu bmax v : R),
  @fd_matrices R_arith e c true useVar hybrid nx ny nz p rest DH fuel (fun q => Q2R q * (DT / Q2R DH)) cv g -> closed_box c -> c_fs c = 0%Z -> uniform e ->
  visco_setting S axes comps -> (In AZ axes -> (2 <= nz)%Z) -> supported p ->
  (forall l, (l < c_L c)%nat -> 0 < f l) -> visco_prepared e DT f (c_L c) ->
  (forall i, 0 < pmod e i) -> (forall i, 0 <= e_coef e "tauP"%string i) ->
  let P := unrelaxedP e (c_L c) in let M := unrelaxedM e (c_L c) in
  definite axes comps (relaxedP P (c_L c) (relaxP e)) (relaxedM M (c_L c) (relaxM e)) -> ((0 < c_L c)%nat -> definite axes comps (relaxP e) (relaxM e)) ->
  moduli_below axes comps P M la mu -> 0 <= la -> 0 < mu ->
  (forall a i, In a comps -> 0 < e_coef e (buoyancy axes a) i <= bmax) ->
  (forall ty t i, injected (src ty) t i = 0) ->
  0 < DT -> 0 < Q2R DH -> 0 < v -> stiffness comps la mu * bmax <= v * v -> DT < cfl_limit p (Z.of_nat (length axes)) (Q2R DH) v ->
  let after n := fst (steps S c (Shot R_arith e src (fun _ => []) 0) 0 n st) in
  let E0 := visco_energy nx ny nz e axes comps P M (c_L c) (relaxationTime f) (relaxP e) (relaxM e) st (after 1%nat) in
  let q := (DT / cfl_limit p (Z.of_nat (length axes)) (Q2R DH) v) * (DT / cfl_limit p (Z.of_nat (length axes)) (Q2R DH) v) in
  q < 1 /\ forall n x y z, (0 <= x < nx)%Z -> (0 <= y < ny)%Z -> (0 <= z < nz)%Z -> let i := reg_index nx nz x y z in
    (forall a b, stress axes comps a b -> (1 - q) * (stress_of (after n) a b i * stress_of (after n) a b i) <= stiffness comps la mu * E0) /\
    (forall a, In a comps -> (1 - q) * (after (Datatypes.S n) (vel a) i * after (Datatypes.S n) (vel a) i) <= 2 * bmax * E0).
Proof.
  intros e c useVar hybrid nx ny nz p rest DH fuel cv g src st S axes comps f DT la mu bmax v HM Hc Hfs HU HS Hz Hp Hf VP HP HTp P M HD1 HD2 HB Hla Hmu Hb H0 HDT HDH Hv Hvb Hcfl after E0 q.
  pose proof (vi_run e c g src st S axes comps f DT HS Hc Hfs HU HP HTp HDT Hf VP H0) as HR.
  pose proof (fun l Hl => tau_pos f l (Hf l Hl)) as Ht.
  assert (Hb1 : forall a i, In a comps -> 0 < e_coef e (buoyancy axes a) i) by (intros; apply Hb; assumption).
  assert (Hb2 : forall a i, In a comps -> e_coef e (buoyancy axes a) i <= bmax) by (intros; apply Hb; assumption).
  assert (B0 : 0 < bmax) by (destruct HS as [(_ & _ & E)|[(_ & _ & E)|(_ & _ & E)]]; [destruct (Hb AX 0%Z)|destruct (Hb AX 0%Z)|destruct (Hb AZ 0%Z)]; try lra; rewrite E; cbn; tauto).
  destruct (vi_stable e c useVar hybrid nx ny nz p rest DH fuel (DT / Q2R DH) cv g axes comps after HM Hc (geo_of S axes comps (or_intror HS)) Hz P M (c_L c) (relaxationTime f) DT (relaxP e) (relaxM e) HR Hb1
      (relaxM_diag e) (unrelaxedM_diag e _) HD1 HD2 Ht la mu bmax v Hp HDT HDH eq_refl Hla Hmu B0 Hb2 HB Hv Hvb Hcfl) as (Q1 & Q2).
  split; [exact Q1|]. intros n x y z Hx Hy Hz' i. exact (Q2 n x y z ltac:(unfold inside; auto)).
Qed.
Print Assumptions C155_visco.

(** Electromagnetic waves: v^2 is at least the largest inverse permeability over the smallest permittivity. *)
Theorem C155_maxwell : forall (e : env R_arith) (c : cfg) (useVar hybrid : bool) (nx ny nz p : Z) (rest : list Z) (DH : Q)
    (fuel : nat) (cv : Q -> R) (g : grid) (src : acq R_arith) (st : state R_arith) (S : solver) (axes es hs : list axis) (eps sigma : axis -> Z -> R) (DT mmax emin v : R),
  @fd_matrices R_arith e c true useVar hybrid nx ny nz p rest DH fuel (fun q => Q2R q * (DT / Q2R DH)) cv g -> closed_box c -> uniform e ->
  em_setting S axes es hs -> (In AZ axes -> (2 <= nz)%Z) -> supported p ->
  0 < emin -> (forall a i, emin <= eps a i) -> (forall a i, 0 <= sigma a i) -> (forall a, In a es -> em_prepared e DT (up a) (eps a) (sigma a)) ->
  (forall a i, In a hs -> 0 < e_coef e (inv_mu a) i <= mmax) ->
  (forall ty t i, injected (src ty) t i = 0) ->
  0 < DT -> 0 < Q2R DH -> 0 < v -> mmax / emin <= v * v -> DT < cfl_limit p (Z.of_nat (length axes)) (Q2R DH) v ->
  let after n := fst (steps S c (Shot R_arith e src (fun _ => []) 0) 0 n st) in
  let E0 := magnetic nx ny nz e hs st (after 1%nat) + electric nx ny nz es eps st in
  let q := (DT / cfl_limit p (Z.of_nat (length axes)) (Q2R DH) v) * (DT / cfl_limit p (Z.of_nat (length axes)) (Q2R DH) v) in
  q < 1 /\ forall n x y z, (0 <= x < nx)%Z -> (0 <= y < ny)%Z -> (0 <= z < nz)%Z -> let i := reg_index nx nz x y z in
    (forall a, In a es -> (1 - q) * (emin * (after n (efield a) i * after n (efield a) i)) <= E0) /\
    (forall a, In a hs -> (1 - q) * (after (Datatypes.S n) (hfield a) i * after (Datatypes.S n) (hfield a) i) <= 2 * mmax * E0).
Proof.
  intros e c useVar hybrid nx ny nz p rest DH fuel cv g src st S axes es hs eps sigma DT mmax emin v HM Hc HU HS Hz Hp Hem0 Hem Hs HP Hm H0 HDT HDH Hv Hvb Hcfl after E0 q.
  assert (He : forall a i, 0 < eps a i) by (intros a i; pose proof (Hem a i); lra).
  assert (Hm1 : forall a i, In a hs -> 0 < e_coef e (inv_mu a) i) by (intros; apply Hm; assumption).
  assert (M0 : 0 < mmax) by (destruct HS as [(_ & _ & _ & E)|[(_ & _ & _ & E)|(_ & _ & _ & E)]]; [destruct (Hm AZ 0%Z)|destruct (Hm AX 0%Z)|destruct (Hm AX 0%Z)]; try lra; rewrite E; cbn; tauto).
  assert (Hn : (0 < length axes)%nat) by (destruct HS as [(_ & -> & _)|[(_ & -> & _)|(_ & -> & _)]]; cbn; lia).
  destruct (theta (length axes) p DT (Q2R DH) v (mmax / emin) Hp HDT HDH Hv Hn) as (T1 & T2).
  { split; [apply Rle_mult_inv_pos; lra|exact Hvb]. }
  { exact Hcfl. }
  fold q in T1, T2. split; [exact T2|]. intros n x y z Hx Hy Hz' i. assert (Hi : inside nx ny nz x y z) by (unfold inside; auto).
  pose proof (em_run e c src st S axes es hs eps sigma DT HS Hc HU HDT He Hs HP H0) as HR.
  set (E := fun n => magnetic nx ny nz e hs (after n) (after (Datatypes.S n)) + electric nx ny nz es eps (after n)).
  assert (HE : E n <= E0).
  { apply (mono E). intros m. destruct (C154_maxwell e c useVar hybrid nx ny nz p rest DH fuel (DT / Q2R DH) cv g src st S axes es hs eps sigma DT HM Hc HU HS Hz HDT He Hs HP Hm1 H0 m) as (X1 & X2).
    unfold E. fold (after m) (after (Datatypes.S m)) (after (Datatypes.S (Datatypes.S m))) in X1, X2. lra. }
  assert (Hax : forall a, In a axes -> ax_ok nz a) by (intros a Ha ->; apply Hz, Ha). destruct Hc as (Hu & _).
  assert (G1 : forall a x y z, has hs a = true -> inside nx ny nz x y z -> 0 < e_coef e (inv_mu a) (reg_index nx nz x y z)) by (intros; apply Hm1, has_in; assumption).
  assert (G2 : forall a x y z, has hs a = true -> inside nx ny nz x y z -> e_coef e (inv_mu a) (reg_index nx nz x y z) <= mmax) by (intros; apply Hm, has_in; assumption).
  assert (G3 : forall a x y z, has es a = true -> inside nx ny nz x y z -> 0 < eps a (reg_index nx nz x y z)) by (intros; apply He).
  assert (G4 : forall a x y z, has es a = true -> inside nx ny nz x y z -> emin <= eps a (reg_index nx nz x y z)) by (intros; apply Hem).
  assert (Hq : em_th p (DT / Q2R DH) axes mmax emin <= q) by exact T1.
  destruct (em_bound e c useVar hybrid nx ny nz p rest DH fuel (DT / Q2R DH) cv g HM Hu axes es hs (emgeo_of S axes es hs HS) Hax G1 eps sigma (fun _ => 1) (fun _ _ _ => 0) DT G3 Hp mmax emin G2 ltac:(lra) Hem0 G4
    (after n) (after (Datatypes.S n)) (HR n) ltac:(lra)) as (B1 & B2).
  pose proof (elec_pos nx ny nz es eps G3 (after n)) as P0.
  assert (KK : 0 <= magnetic nx ny nz e hs (after (Datatypes.S n)) (after (Datatypes.S n))).
  { unfold magnetic, sum_axes. apply Rsum_map_pos. intros a Ha. apply gpos. intros x' y' z' Hi'. apply sq_div, Hm1, Ha. }
  fold (E n) in B1, B2. pose proof (weaken _ _ _ _ Hq P0 B1) as W1. pose proof (weaken _ _ _ _ Hq KK B2) as W2. split.
  - intros a Ha. pose proof (elec_point nx ny nz es eps G3 emin G4 (after n) a x y z Ha Hi) as PP. fold i in PP.
    apply Rle_trans with ((1 - q) * electric nx ny nz es eps (after n)); [apply Rmult_le_compat_l; [lra|exact PP]|lra].
  - intros a Ha. pose proof (mag_point e nx ny nz hs G1 mmax G2 ltac:(lra) (after (Datatypes.S n)) a x y z Ha Hi) as KP. fold i in KP.
    apply Rle_trans with ((1 - q) * (mmax * magnetic nx ny nz e hs (after (Datatypes.S n)) (after (Datatypes.S n)))); [apply Rmult_le_compat_l; [lra|exact KP]|].
    apply (Rmult_le_compat_l mmax) in W2; [|lra]. assert (mmax * (2 * E n) <= 2 * mmax * E0) by (apply (Rmult_le_compat_l mmax) in HE; lra). lra.
Qed.
Print Assumptions C155_maxwell.

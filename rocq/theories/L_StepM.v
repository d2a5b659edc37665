(** One time step of the electromagnetic solvers. *)
From Coq Require Import QArith Qreals Reals Lra Lia FunctionalExtensionality.
From Verif Require Import M_Prog M_Solvers M_Relax S_Solver S_Step L_Prog L_Step L_Loop.
Open Scope R_scope.
Open Scope list_scope.

Definition Cd_name (a : axis) (l : nat) : nm := N ("CdAverage" ++ up a) l.
(** the loops that update the relaxation currents *)
Definition debye (cs : list axis) (l : nat) : list instr :=
  flat_map (fun a => [IScal "update" (SN (N "Cc" l)) (rfield a l); ICoef "update_temp" (Cd_name a l) (efield a);
                      ISum (rfield a l) "update_temp" "update"]) cs.

Ltac namesm := lazy beta iota zeta delta [next efield hfield rfield psi_e psi_h inv_mu grad_e curl new_h grad_h Cd_name low up low2 up2 append axis_eqb has existsb orb andb negb
  nm_s dmat pml_coef Dmv memory deriv].

Section loops.
Variables (e : env R_arith) (src : acq R_arith) (t : nat).
Notation ex p st := (exec e src t (map unstag p) st).
Lemma debye_spec cs st L a k i : In cs [[AX; AY]; [AZ]; [AX; AY; AZ]] -> In a cs ->
  ex (loop L (debye cs)) st (rfield a k) i =
  if (k <? L)%nat then e_sca e (N "Cc" k) * st (rfield a k) i + e_coef e (Cd_name a k) i * st (efield a) i else st (rfield a k) i.
Proof.
  intros Hc Ha. induction L as [|L IH]; [reflexivity|]. rewrite ex_S.
  assert (K : forall b, keeps ("e" ++ up b) (loop L (debye cs)) = true).
  { intros b. apply keeps_loop. intros l. destruct Hc as [<-|[<-|[<-|[]]]], b; reflexivity. }
  assert (Ke : forall b, ex (loop L (debye cs)) st (efield b) = st (efield b)) by (intros b; apply ex_keeps, K).
  set (s' := ex (loop L (debye cs)) st) in *. clearbody s'.
  assert (E : (k <? S L)%nat = if Nat.eq_dec k L then true else (k <? L)%nat).
  { destruct (Nat.eq_dec k L), (Nat.ltb_spec k (S L)), (Nat.ltb_spec k L); try reflexivity; lia. }
  rewrite E. clear E.
  assert (S' : forall b, In b cs -> ex (debye cs L) s' (rfield b k) i =
    if Nat.eq_dec k L then e_sca e (N "Cc" L) * s' (rfield b L) i + e_coef e (Cd_name b L) i * s' (efield b) i else s' (rfield b k) i).
  { intros b Hb. destruct Hc as [<-|[<-|[<-|[]]]]; destruct b; cbn [In] in Hb; try (exfalso; intuition discriminate);
    unfold debye; cbn [flat_map app]; unfold rfield, efield, Cd_name, up; cbn [append];
    (destruct (Nat.eq_dec k L) as [->|Hk]; body; [rewrite ?Nat.eqb_refl; rring|rewrite ?(proj2 (Nat.eqb_neq L k)) by congruence; reflexivity]). }
  rewrite S' by exact Ha. rewrite Ke. destruct (Nat.eq_dec k L) as [->|Hk]; rewrite IH; [|reflexivity].
  rewrite Nat.ltb_irrefl. reflexivity.
Qed.
Lemma debye_keeps cs L s : In cs [[AX; AY]; [AZ]; [AX; AY; AZ]] -> existsb (String.eqb s) ["update"; "update_temp"; "rX"; "rY"; "rZ"]%string = false ->
  keeps s (loop L (debye cs)) = true.
Proof.
  intros Hc H. apply keeps_loop. intros l. unfold keeps. cbn in H. apply orb_false_iff in H. destruct H as [H1 H].
  repeat (apply orb_false_iff in H; destruct H as [? H]).
  destruct Hc as [<-|[<-|[<-|[]]]]; cbn; repeat match goal with E : String.eqb s _ = false |- _ => rewrite E; clear E end; reflexivity.
Qed.
End loops.

Lemma ampere eps sig DT E K x : 0 < eps -> 0 <= sig -> 0 < DT -> x = getCa eps sig DT * E + getCb eps sig DT * K ->
  eps * (x - E) + DT * sig * (x + E) / 2 = K.
Proof.
  intros He Hs HD ->. unfold getCa, getCb, getCinv. assert (0 <= sig * DT) by (apply Rmult_le_pos; lra). field. split; lra.
Qed.
Lemma debye_eq L f eps tau DT E r r' l : 0 < f l -> 0 < DT -> (0 < L)%nat -> r' = getCc f DT l * r + getCd L f eps tau DT l * E ->
  relaxationTime f l * (r' - r) = - DT * (r' + r) / 2 - DT * (eps * tau / (INR L * relaxationTime f l) * E).
Proof.
  intros Hf HD HL ->. unfold getCc, getCd, relaxationTime. pose proof PI_RGT_0 as HPi. apply lt_0_INR in HL.
  assert (0 < 2 * PI * f l) by (apply Rmult_lt_0_compat; [lra|auto]). set (w := 2 * PI * f l) in *. clearbody w.
  assert (0 < DT * w) by (apply Rmult_lt_0_compat; auto). field. repeat split; lra.
Qed.

Section facts.
Variables (e : env R_arith) (c : cfg) (st : state R_arith) (axes es hs : list axis).
Definition new_psi_e (a d : axis) (i : Z) : R :=
  if c_pml c then memory e "" d false (st (psi_e a d)) (st (efield a)) i else st (psi_e a d) i.
Definition new_psi_h (a d : axis) (i : Z) : R :=
  if c_pml c then memory e "" d true (st (psi_h a d)) (new_h e c st axes es a) i else st (psi_h a d) i.
Definition offd (l : list axis) : list (axis * axis) := flat_map (fun a => map (fun d => (a, d)) (filter (fun d => negb (axis_eqb a d)) axes)) l.
Definition f_h := map (fun a => (hfield a, new_h e c st axes es a)) hs.
Definition f_pe := map (fun p => (psi_e (fst p) (snd p), new_psi_e (fst p) (snd p))) (offd es).
Definition f_ph0 := map (fun p => (psi_h (fst p) (snd p), st (psi_h (fst p) (snd p)))) (offd hs).
Definition f_ph := map (fun p => (psi_h (fst p) (snd p), new_psi_h (fst p) (snd p))) (offd hs).
Definition f_e0 := map (fun a => (efield a, st (efield a))) es.
Definition new_e (K : axis -> Z -> R) (a : axis) (i : Z) : R :=
  e_coef e (nm_s ("CaAverage" ++ up a)) i * st (efield a) i + e_coef e (nm_s ("CbAverage" ++ up a)) i * K a i.
Definition f_e (K : axis -> Z -> R) := map (fun a => (efield a, new_e K a)) es.
Definition facts1m := f_h ++ f_e0 ++ f_pe ++ f_ph0.
Definition facts2m := f_h ++ f_e (curl (grad_h e c st axes es hs)) ++ f_pe ++ f_ph.
End facts.

Ltac factsm := unfold facts1m, facts2m, f_h, f_pe, f_ph, f_ph0, f_e0, f_e, offd; cbn [app map flat_map fst snd holds filter negb axis_eqb].
(** the names without the contents *)
Ltac namesm0 := lazy beta iota zeta delta [efield hfield rfield psi_e psi_h low up append nm_s].
Ltac namesm1 := lazy beta iota zeta delta [next efield hfield rfield psi_e psi_h inv_mu grad_e curl grad_h Cd_name low up low2 up2 append axis_eqb has existsb orb andb negb
  nm_s dmat pml_coef Dmv memory deriv].
Ltac kept := lazymatch goal with |- exec _ _ _ (map unstag ?p) ?s (N ?n ?k) = _ => rewrite (ex_keeps _ _ _ p n k s) by reflexivity end.
Ltac evalm s f := apply functional_extensionality; intros i; namesm1; ev; known s; f; namesm1; flags; lazy beta iota zeta; change (num R_arith) with R;
  first [reflexivity | (atoms; rewrite ?Q2R_m1; apply (Rplus_eq_reg_l 0); ring)].
Ltac stagem1 s := match goal with c : cfg |- _ => destruct (c_pml c) eqn:EP end; factsm;
  repeat (split; [abstract (unfold s; evalm s ltac:(unfold new_psi_e, new_h))|]); exact I.
Ltac stagem2 F s1 s2 f := revert F; factsm; namesm0; intros F; open F;
  match goal with c : cfg |- _ => destruct (c_pml c) eqn:EP end;
  repeat (split; [abstract (unfold s2; evalm s1 ltac:(unfold new_psi_h, new_e; f))|]); exact I.
Ltac lastm := match goal with c : cfg |- _ => destruct (c_damp c) eqn:ED end; namesm0; ev; 
   repeat match goal with H : ?s _ = _ |- _ => rewrite H; clear H end.
Ltac fin_h := intros [] i; cbn [has existsb axis_eqb orb]; intros K; try discriminate K; lastm; unfold damped; match goal with H : c_damp _ = _ |- _ => rewrite H end; reflexivity.
Ltac fin_pm := intros HPml [] [] i; cbn [has existsb axis_eqb orb]; intros K1 K2; try discriminate K1; try discriminate K2;
  (split; intros K3; try discriminate K3; lastm; unfold new_psi_e, new_psi_h; match goal with H : c_pml _ = true |- _ => rewrite H end; namesm0; reflexivity).

Section em.
Variables (e : env R_arith) (c : cfg) (src : acq R_arith) (t : nat) (st : state R_arith).
Hypotheses (HU : uniform e).
Variables (eps sigma : axis -> Z -> R) (tau : nat -> R) (g : axis -> nat -> Z -> R) (DT : R).
Hypothesis HD : 0 < DT.
Hypothesis He : forall a i, 0 < eps a i.
Hypothesis Hs : forall a i, 0 <= sigma a i.
Ltac fin_e P ax es hs := let a := fresh "a" in intros a i; cbn [has existsb axis_eqb orb]; intros K; 
   exists (new_e e st (curl (grad_h e c st ax es hs)) a i); split;
   [destruct a; try discriminate K; lastm; unfold damped; match goal with H : c_damp _ = _ |- _ => rewrite H end; reflexivity
   |rewrite Rmult_0_r, Rminus_0_r; apply ampere; try auto; unfold new_e; rewrite (ep_a _ _ _ _ _ (P a K)), (ep_b _ _ _ _ _ (P a K)); reflexivity].

Lemma step_2Demem : (forall a, has [AX; AY] a = true -> em_prepared e DT (up a) (eps a) (sigma a)) ->
  maxwell_step e c st [AX; AY] [AX; AY] [AZ] eps sigma 0 tau g DT (exec e src t (run_2Demem c) st).
Proof.
  intros P. rewrite exec_unstag by exact HU. unfold run_2Demem.
  change [ISub "update" "update_temp"; IMulV "update" "inverseMagneticPermeabilityAverageXY"; ISub "hZ" "update"; IMv "update" "DybStaggeredX" "hZ"]
   with ([ISub "update" "update_temp"; IMulV "update" "inverseMagneticPermeabilityAverageXY"; ISub "hZ" "update"] ++ [IMv "update" "DybStaggeredX" "hZ"]).
  rewrite <- (app_assoc [ISub _ _; _; _]). segs 3. cut st1.
  assert (F : holds st1 (facts1m e c st [AX; AY] [AX; AY] [AZ])) by abstract (stagem1 st1).
  clearbody st1. segs 5. cut st2.
  assert (G : holds st2 (facts2m e c st [AX; AY] [AX; AY] [AZ])).
   { clear He Hs P; stagem2 F st1 st2 idtac. }
  clearbody st2. clear F. revert G; factsm; namesm0; intros G; open G. unfold maxwell_step; repeat apply conj.
  - fin_h.
  - intros a i l K Hl; exfalso; inversion Hl.
  - fin_e P [AX; AY] [AX; AY] [AZ].
  - fin_pm.
Qed.

Lemma step_2Dtmem : (forall a, has [AZ] a = true -> em_prepared e DT (up a) (eps a) (sigma a)) ->
  maxwell_step e c st [AX; AY] [AZ] [AX; AY] eps sigma 0 tau g DT (exec e src t (run_2Dtmem c) st).
Proof.
  intros P. rewrite exec_unstag by exact HU. unfold run_2Dtmem.
  change [IScal "update" (SQ (-1)) "update_temp"; IMulV "update" "inverseMagneticPermeabilityAverageXZ"; ISub "hY" "update"; IMv "update" "Dxb" "hY"; IMv "update_temp" "Dyb" "hX"]
   with ([IScal "update" (SQ (-1)) "update_temp"; IMulV "update" "inverseMagneticPermeabilityAverageXZ"; ISub "hY" "update"] ++ [IMv "update" "Dxb" "hY"; IMv "update_temp" "Dyb" "hX"]).
  rewrite <- (app_assoc [IScal _ _ _; _; _]). segs 5. cut st1.
  assert (F : holds st1 (facts1m e c st [AX; AY] [AZ] [AX; AY])) by abstract (stagem1 st1).
  clearbody st1. segs 3. cut st2.
  assert (G : holds st2 (facts2m e c st [AX; AY] [AZ] [AX; AY])).
   { clear He Hs P; stagem2 F st1 st2 idtac. }
  clearbody st2. clear F. revert G; factsm; namesm0; intros G; open G. unfold maxwell_step; repeat apply conj.
  - fin_h.
  - intros a i l K Hl; exfalso; inversion Hl.
  - fin_e P [AX; AY] [AZ] [AX; AY].
  - fin_pm.
Qed.

(** The PML update of dhY/dx reads the coefficients of the half points (CPMLEM3D.cpp apply_hyx). *)
Hypothesis Hx : c_pml c = true -> forall i, e_coef e "a_x_half"%string i = e_coef e "a_x"%string i /\ e_coef e "b_x_half"%string i = e_coef e "b_x"%string i.
Ltac use_half := try (match goal with H : true = true -> _ |- _ =>
  pose proof (fun i => proj1 (H eq_refl i)) as HxA; pose proof (fun i => proj2 (H eq_refl i)) as HxB; unfold nm_s in HxA, HxB; rewrite ?HxA, ?HxB; clear HxA HxB end).
Lemma step_3Demem : (forall a, has [AX; AY; AZ] a = true -> em_prepared e DT (up a) (eps a) (sigma a)) ->
  maxwell_step e c st [AX; AY; AZ] [AX; AY; AZ] [AX; AY; AZ] eps sigma 0 tau g DT (exec e src t (run_3Demem c) st).
Proof.
  intros P. rewrite exec_unstag by exact HU. unfold run_3Demem.
  change [ISub "update" "update_temp"; IMulV "update" "inverseMagneticPermeabilityAverageXY"; ISub "hZ" "update"; IMv "update" "DybStaggeredX" "hZ"; IMv "update_temp" "Dzb" "hY"]
   with ([ISub "update" "update_temp"; IMulV "update" "inverseMagneticPermeabilityAverageXY"; ISub "hZ" "update"] ++ [IMv "update" "DybStaggeredX" "hZ"; IMv "update_temp" "Dzb" "hY"]).
  rewrite <- (app_assoc [ISub _ _; _; _]). segs 7. cut st1.
  assert (F : holds st1 (facts1m e c st [AX; AY; AZ] [AX; AY; AZ] [AX; AY; AZ])) by abstract (clear Hx; stagem1 st1).
  clearbody st1. segs 7. cut st2.
  assert (G : holds st2 (facts2m e c st [AX; AY; AZ] [AX; AY; AZ] [AX; AY; AZ])).
   { clear He Hs P; stagem2 F st1 st2 use_half. }
  clearbody st2. clear F Hx. revert G; factsm; namesm0; intros G; open G. unfold maxwell_step; repeat apply conj.
  - fin_h.
  - intros a i l K Hl; exfalso; inversion Hl.
  - fin_e P [AX; AY; AZ] [AX; AY; AZ] [AX; AY; AZ].
  - fin_pm.
Qed.
End em.

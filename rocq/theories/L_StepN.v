(** One time step of the electromagnetic solvers with relaxation currents. *)
From Coq Require Import QArith Qreals Reals Lra Lia FunctionalExtensionality.
From Verif Require Import M_Prog M_Solvers M_Relax S_Solver S_Step L_Prog L_Step L_Loop L_StepM.
Open Scope R_scope.
Open Scope list_scope.

Section vfacts.
Variables (e : env R_arith) (c : cfg) (st : state R_arith) (axes es hs : list axis).
Definition new_r (a : axis) (k : nat) (i : Z) : R :=
  if (k <? c_L c)%nat then e_sca e (N "Cc" k) * st (rfield a k) i + e_coef e (Cd_name a k) i * st (efield a) i else st (rfield a k) i.
Definition curl_r (a : axis) (i : Z) : R :=
  curl (grad_h e c st axes es hs) a i - e_sca e "DT_temp"%string * Rsum (map (fun l => new_r a l i) (seq 0 (c_L c))).
Definition pair_in (l : list (axis * axis)) (p : axis * axis) : bool := existsb (fun q => axis_eqb (fst p) (fst q) && axis_eqb (snd p) (snd q)) l.
(** the fields after the update of some components of E and some PML memories *)
Definition factsv (ed : list axis) (pd : list (axis * axis)) :=
  f_h e c st axes es hs ++ map (fun a => (efield a, if has ed a then new_e e st curl_r a else st (efield a))) es ++ f_pe e c st axes es ++
  map (fun p => (psi_h (fst p) (snd p), if pair_in pd p then new_psi_h e c st axes es (fst p) (snd p) else st (psi_h (fst p) (snd p)))) (offd axes hs).
Definition keeps_r (s : state R_arith) := forall a k, has es a = true -> s (rfield a k) = new_r a k.
Definition upd_is (s : state R_arith) (f : Z -> R) := s (nm_s "update") = f.
End vfacts.

Ltac factsv := unfold factsv, f_h, f_pe, offd; cbn [app map flat_map fst snd holds filter negb axis_eqb has existsb orb pair_in andb].
(** straight parts *)
Ltac r_kept H s2 kept1 := let a := fresh "a" in let k := fresh "k" in let K := fresh "K" in
  intros a k K; destruct a; cbn [has existsb axis_eqb orb] in K; try discriminate K; unfold rfield, up, append;
  rewrite <- H by reflexivity; namesm0; unfold s2; match goal with c : cfg |- _ => try destruct (c_pml c) end; repeat kept1; reflexivity.
Ltac stagev F s1 s2 f := revert F; factsv; namesm0; intros F; open F;
  match goal with c : cfg |- _ => destruct (c_pml c) eqn:EP end;
  repeat (split; [abstract (unfold s2; evalm s1 ltac:(unfold new_psi_h, new_e; f))|]); exact I.
Ltac lkept0 := lazymatch goal with |- exec _ _ _ (map unstag ?p) ?s (N ?n ?k) = _ => rewrite (ex_keeps _ _ _ p n k s) by (apply keeps_loop; reflexivity) end.
(** loops over the relaxation mechanisms *)
Ltac lkept := lazymatch goal with |- exec _ _ _ (map unstag ?p) ?s (N ?n ?k) = _ => rewrite (ex_keeps _ _ _ p n k s) by (apply keeps_loop; reflexivity) end.
Ltac stagel F s1 s2 := revert F; factsv; namesm0; intros F; open F;
  repeat (split; [abstract (unfold s2; lkept; match goal with H : s1 ?n = _ |- s1 ?n = _ => rewrite H; clear; namesm0; reflexivity end)|]); exact I.

Ltac debye_stage st ax es hs F FR s1 s2 := 
  match goal with e : env R_arith, c : cfg |- _ => 
  assert (G : holds s2 (factsv e c st ax es hs [] []));
  [revert F; factsm; factsv; namesm0; intros F; open F;
    repeat (split; [unfold s2; rewrite ex_keeps by (apply debye_keeps; [cbn; tauto|reflexivity]); assumption|]); exact I|];
  assert (GR : keeps_r e c st es s2);
  [let a := fresh in let k := fresh in let Ha := fresh in let i := fresh in 
   intros a k Ha; apply functional_extensionality; intros i; unfold s2; rewrite debye_spec; [|cbn; tauto|destruct a; cbn in *; try discriminate Ha; tauto];
    rewrite FR; unfold new_r; replace (s1 (efield a)) with (st (efield a)); [reflexivity|];
    revert F; factsm; intros F; open F; destruct a; cbn in Ha; try discriminate Ha; symmetry; assumption|];
  clearbody s2; clear F FR end.
Ltac straight st ax es hs ed pd a G GR s1 s2 f := 
  match goal with e : env R_arith, c : cfg |- _ => 
  assert (F : holds s2 ((nm_s "update", curl (grad_h e c st ax es hs) a) :: factsv e c st ax es hs ed pd)) by (clear GR; stagev G s1 s2 f);
  let FR := fresh "FR" in assert (FR : keeps_r e c st es s2) by (clear G; r_kept GR s2 ltac:(idtac; kept));
  clearbody s2; clear G GR end.
Ltac subloop st ax es hs ed pd a F FR s1 s2 := 
  match goal with e : env R_arith, c : cfg |- _ => 
  assert (G : holds s2 ((nm_s "update", curl_r e c st ax es hs a) :: factsv e c st ax es hs ed pd));
  [let F1 := fresh in let i := fresh in destruct F as [F1 F]; split;
    [apply functional_extensionality; intros i; unfold s2, nm_s; rewrite loop_sub by reflexivity; unfold nm_s in F1; rewrite F1; unfold curl_r; f_equal; f_equal; apply Rsum_ext;
      let l := fresh in intros l _; exact (f_equal (fun g => g i) (FR a l eq_refl))
    |stagel F s1 s2]|];
  assert (GR : keeps_r e c st es s2) by (r_kept FR s2 ltac:(idtac; lkept0));
  clearbody s2; clear F FR end.

Section visco.
Variables (e : env R_arith) (c : cfg) (src : acq R_arith) (t : nat) (st : state R_arith).
Hypotheses (HU : uniform e).
Variables (f : nat -> R) (eps sigma tau tauS : axis -> Z -> R) (eps0 DT : R).
Hypothesis HD : 0 < DT.
Hypothesis Hf : forall l, (l < c_L c)%nat -> 0 < f l.
Definition epsv a i := epsOptical (eps a i) (sigma a i) (tau a i) (tauS a i) eps0.
Definition sigmav a i := sigmaOptical (c_L c) f (eps a i) (sigma a i) (tau a i).
Definition gv a l i := eps a i * tau a i / (INR (c_L c) * relaxationTime f l).
Hypothesis He : forall a i, 0 < epsv a i.
Hypothesis Hs : forall a i, 0 <= sigmav a i.

Lemma final_e ax es hs (st' : state R_arith) a i : viscoem_prepared e DT f (c_L c) (up a) (eps a) (sigma a) (tau a) (tauS a) eps0 ->
  (forall k, st' (rfield a k) = new_r e c st a k) -> st' (efield a) i = damped e c (new_e e st (curl_r e c st ax es hs) a i) i ->
  exists x, st' (efield a) i = damped e c x i /\
     epsv a i * (x - st (efield a) i) + DT * sigmav a i * (x + st (efield a) i) / 2 =
       curl (grad_h e c st ax es hs) a i - DT * Rsum (map (fun l => st' (rfield a l) i) (seq 0 (c_L c))).
Proof.
  intros [Pab Pc Pd Pt] KR H. eexists. split; [exact H|]. 
  replace (curl (grad_h e c st ax es hs) a i - DT * Rsum (map (fun l => st' (rfield a l) i) (seq 0 (c_L c)))) with (curl_r e c st ax es hs a i).
  - apply ampere; auto. unfold new_e. rewrite (ep_a _ _ _ _ _ Pab), (ep_b _ _ _ _ _ Pab). reflexivity.
  - unfold curl_r. rewrite Pt. f_equal. f_equal. apply Rsum_ext. intros l _. rewrite KR. reflexivity.
Qed.
Lemma final_r (st' : state R_arith) a i l : viscoem_prepared e DT f (c_L c) (up a) (eps a) (sigma a) (tau a) (tauS a) eps0 ->
  (forall k, st' (rfield a k) = new_r e c st a k) -> (l < c_L c)%nat ->
  relaxationTime f l * (st' (rfield a l) i - st (rfield a l) i) = - DT * (st' (rfield a l) i + st (rfield a l) i) / 2 - DT * (gv a l i * st (efield a) i).
Proof.
  intros [Pab Pc Pd Pt] KR Hl. apply debye_eq; auto; [lia|]. rewrite KR. unfold new_r. rewrite (proj2 (Nat.ltb_lt _ _) Hl), Pc by exact Hl.
  unfold Cd_name. rewrite Pd by exact Hl. reflexivity.
Qed.
Ltac finishv P F FR s ax es hs := let KR := fresh "KR" in
  match goal with |- maxwell_step _ _ _ _ _ _ _ _ _ _ _ _ ?s' =>
  assert (KR : keeps_r e c st es s') by 
   (let a := fresh "a" in let k := fresh "k" in let K := fresh "K" in
    intros a k K; destruct a; cbn [has existsb axis_eqb orb] in K; try discriminate K; unfold rfield, up, append;
    rewrite <- FR by reflexivity; namesm0; destruct (c_damp c); repeat kept; reflexivity) end;
  unfold maxwell_step; repeat apply conj;
  [clear KR FR P; revert F; factsv; namesm0; intros F; open F; fin_h
  |let a := fresh "a" in let k := fresh "k" in let K := fresh "K" in intros a i k K Hk; apply final_r; [apply P; exact K|intros; apply KR; exact K|exact Hk]
  |let a := fresh "a" in let K := fresh "K" in intros a i K; apply final_e; [apply P; exact K|intros; apply KR; exact K|];
   clear KR FR P; revert F; factsv; namesm0; intros F; open F; destruct a; try discriminate K; lastm; unfold damped; match goal with H : c_damp _ = _ |- _ => rewrite H end; reflexivity
  |clear KR FR P; revert F; factsv; namesm0; intros F; open F; fin_pm].
Lemma step_2Dviscoemem : (forall a, has [AX; AY] a = true -> viscoem_prepared e DT f (c_L c) (up a) (eps a) (sigma a) (tau a) (tauS a) eps0) ->
  maxwell_step e c st [AX; AY] [AX; AY] [AZ] epsv sigmav (c_L c) (relaxationTime f) gv DT (exec e src t (run_2Dviscoemem c) st).
Proof.
  intros P. rewrite exec_unstag by exact HU. unfold run_2Dviscoemem.
  match goal with |- context [loop (c_L c) ?b] => change (loop (c_L c) b) with (loop (c_L c) (debye [AX; AY])) end.
  segs 3. cut st1.
  assert (F : holds st1 (facts1m e c st [AX; AY] [AX; AY] [AZ])) by abstract (stagem1 st1).
  assert (FR : forall a k, st1 (rfield a k) = st (rfield a k)) by (intros a k; unfold st1; destruct a; namesm0; destruct (c_pml c); repeat kept; reflexivity).
  clearbody st1. segs 1. cut st2.
  debye_stage st [AX; AY] [AX; AY] [AZ] F FR st1 st2. segs 2. cut st3.
  straight st [AX; AY] [AX; AY] [AZ] (@nil axis) [(AZ, AY)] AX G GR st2 st3 idtac. segs 1. cut st4.
  subloop st [AX; AY] [AX; AY] [AZ] (@nil axis) [(AZ, AY)] AX F FR st3 st4. segs 3. cut st5.
  straight st [AX; AY] [AX; AY] [AZ] [AX] [(AZ, AY); (AZ, AX)] AY G GR st4 st5 idtac. segs 1. cut st6.
  subloop st [AX; AY] [AX; AY] [AZ] [AX] [(AZ, AY); (AZ, AX)] AY F FR st5 st6. segs 1. cut st7.
  assert (F : holds st7 (factsv e c st [AX; AY] [AX; AY] [AZ] [AX; AY] [(AZ, AY); (AZ, AX)])) by (clear GR; stagev G st6 st7 idtac).
  assert (FR : keeps_r e c st [AX; AY] st7) by (clear G; r_kept GR st7 ltac:(idtac; kept)).
  clearbody st7; clear G GR. clear st1 st2 st3 st4 st5 st6.
  finishv P F FR st7 [AX; AY] [AX; AY] [AZ].
Qed.

Lemma step_2Dviscotmem : (forall a, has [AZ] a = true -> viscoem_prepared e DT f (c_L c) (up a) (eps a) (sigma a) (tau a) (tauS a) eps0) ->
  maxwell_step e c st [AX; AY] [AZ] [AX; AY] epsv sigmav (c_L c) (relaxationTime f) gv DT (exec e src t (run_2Dviscotmem c) st).
Proof.
  intros P. rewrite exec_unstag by exact HU. unfold run_2Dviscotmem.
  match goal with |- context [loop (c_L c) ?b] => change (loop (c_L c) b) with (loop (c_L c) (debye [AZ])) end.
  segs 5. cut st1.
  assert (F : holds st1 (facts1m e c st [AX; AY] [AZ] [AX; AY])) by abstract (stagem1 st1).
  assert (FR : forall a k, st1 (rfield a k) = st (rfield a k)) by (intros a k; unfold st1; destruct a; namesm0; destruct (c_pml c); repeat kept; reflexivity).
  clearbody st1. segs 1. cut st2.
  debye_stage st [AX; AY] [AZ] [AX; AY] F FR st1 st2. segs 3. cut st3.
  straight st [AX; AY] [AZ] [AX; AY] (@nil axis) [(AY, AX); (AX, AY)] AZ G GR st2 st3 idtac. segs 1. cut st4.
  subloop st [AX; AY] [AZ] [AX; AY] (@nil axis) [(AY, AX); (AX, AY)] AZ F FR st3 st4. segs 1. cut st5.
  assert (F : holds st5 (factsv e c st [AX; AY] [AZ] [AX; AY] [AZ] [(AY, AX); (AX, AY)])) by (clear GR; stagev G st4 st5 idtac).
  assert (FR : keeps_r e c st [AZ] st5) by (clear G; r_kept GR st5 ltac:(idtac; kept)).
  clearbody st5; clear G GR. clear st1 st2 st3 st4.
  finishv P F FR st5 [AX; AY] [AZ] [AX; AY].
Qed.

Hypothesis Hx : c_pml c = true -> forall i, e_coef e "a_x_half"%string i = e_coef e "a_x"%string i /\ e_coef e "b_x_half"%string i = e_coef e "b_x"%string i.
Ltac use_half := try (match goal with H : true = true -> _ |- _ =>
  pose proof (fun i => proj1 (H eq_refl i)) as HxA; pose proof (fun i => proj2 (H eq_refl i)) as HxB; unfold nm_s in HxA, HxB; rewrite ?HxA, ?HxB; clear HxA HxB end).
Lemma step_3Dviscoemem : (forall a, has [AX; AY; AZ] a = true -> viscoem_prepared e DT f (c_L c) (up a) (eps a) (sigma a) (tau a) (tauS a) eps0) ->
  maxwell_step e c st [AX; AY; AZ] [AX; AY; AZ] [AX; AY; AZ] epsv sigmav (c_L c) (relaxationTime f) gv DT (exec e src t (run_3Dviscoemem c) st).
Proof.
  intros P. rewrite exec_unstag by exact HU. unfold run_3Dviscoemem.
  match goal with |- context [loop (c_L c) ?b] => change (loop (c_L c) b) with (loop (c_L c) (debye [AX; AY; AZ])) end.
  segs 7. cut st1.
  assert (F : holds st1 (facts1m e c st [AX; AY; AZ] [AX; AY; AZ] [AX; AY; AZ])) by abstract (clear Hx; stagem1 st1).
  assert (FR : forall a k, st1 (rfield a k) = st (rfield a k)) by (clear Hx; intros a k; unfold st1; destruct a; namesm0; destruct (c_pml c); repeat kept; reflexivity).
  clearbody st1. segs 1. cut st2.
  debye_stage st [AX; AY; AZ] [AX; AY; AZ] [AX; AY; AZ] F FR st1 st2. segs 3. cut st3.
  straight st [AX; AY; AZ] [AX; AY; AZ] [AX; AY; AZ] (@nil axis) [(AZ, AY); (AY, AZ)] AX G GR st2 st3 idtac. segs 1. cut st4.
  subloop st [AX; AY; AZ] [AX; AY; AZ] [AX; AY; AZ] (@nil axis) [(AZ, AY); (AY, AZ)] AX F FR st3 st4. segs 3. cut st5.
  straight st [AX; AY; AZ] [AX; AY; AZ] [AX; AY; AZ] [AX] [(AZ, AY); (AY, AZ); (AX, AZ); (AZ, AX)] AY G GR st4 st5 idtac. segs 1. cut st6.
  subloop st [AX; AY; AZ] [AX; AY; AZ] [AX; AY; AZ] [AX] [(AZ, AY); (AY, AZ); (AX, AZ); (AZ, AX)] AY F FR st5 st6. segs 3. cut st7.
  straight st [AX; AY; AZ] [AX; AY; AZ] [AX; AY; AZ] [AX; AY] [(AZ, AY); (AY, AZ); (AX, AZ); (AZ, AX); (AY, AX); (AX, AY)] AZ G GR st6 st7 use_half. segs 1. cut st8.
  subloop st [AX; AY; AZ] [AX; AY; AZ] [AX; AY; AZ] [AX; AY] [(AZ, AY); (AY, AZ); (AX, AZ); (AZ, AX); (AY, AX); (AX, AY)] AZ F FR st7 st8. segs 1. cut st9.
  assert (F : holds st9 (factsv e c st [AX; AY; AZ] [AX; AY; AZ] [AX; AY; AZ] [AX; AY; AZ] [(AZ, AY); (AY, AZ); (AX, AZ); (AZ, AX); (AY, AX); (AX, AY)])) by (clear GR; stagev G st8 st9 idtac).
  assert (FR : keeps_r e c st [AX; AY; AZ] st9) by (clear G; r_kept GR st9 ltac:(idtac; kept)).
  clearbody st9; clear G GR. clear st1 st2 st3 st4 st5 st6 st7 st8 Hx.
  finishv P F FR st9 [AX; AY; AZ] [AX; AY; AZ] [AX; AY; AZ].
Qed.
End visco.

(** One time step of the acoustic solvers. *)
From Coq Require Import QArith Qreals Reals Lra FunctionalExtensionality.
From Verif Require Import M_Grid M_Prog M_Solvers S_Solver S_Step L_Step.
Open Scope R_scope.
Open Scope list_scope.

Section facts.
Variables (e : env R_arith) (c : cfg) (st : state R_arith) (surface : Z -> bool) (axes : list axis).
Definition new_psi_p (d : axis) (i : Z) : R :=
  if c_pml c then memory e (surf c d) d false (st (psi_p d)) (st pressure) i else st (psi_p d) i.
Definition new_psi_v (a : axis) (i : Z) : R :=
  if c_pml c then memory e "" a true (st (psi_vel a a)) (new_vel_ac e c st a) i else st (psi_vel a a) i.
Definition facts1a := map (fun a => (vel a, new_vel_ac e c st a)) axes ++ map (fun a => (psi_p a, new_psi_p a)) axes ++
  [(pressure, st pressure)] ++ map (fun a => (psi_vel a a, st (psi_vel a a))) axes.
Definition new_p (i : Z) : R :=
  st pressure i + pmod e i * sum_axes axes (fun a => deriv e c "" a true (st (psi_vel a a)) (new_vel_ac e c st a) i).
Definition facts2a := map (fun a => (vel a, new_vel_ac e c st a)) axes ++ map (fun a => (psi_p a, new_psi_p a)) axes ++
  [(pressure, new_p)] ++ map (fun a => (psi_vel a a, new_psi_v a)) axes.
End facts.

Ltac factsa := unfold facts1a, facts2a; cbn [app map flat_map fst snd holds].
Ltac namesa := lazy beta iota zeta delta [pressure psi_p vel vel_half psi_vel low up append axis_eqb has existsb orb andb negb
  nm_s dmat pml_coef Dmv memory deriv sum_axes map Rsum fold_right filter pmod].
Ltac evala f := apply functional_extensionality; intros i; namesa; ev; f; namesa; flags; lazy beta iota zeta; change (num R_arith) with R;
  first [reflexivity | (atoms; ring)].
Ltac stage1a s := match goal with c : cfg |- _ => destruct (c_pml c) eqn:EP, (c_fs c =? 1)%Z eqn:EF end; factsa;
  repeat (split; [abstract (unfold s; evala ltac:(unfold new_psi_p, new_vel_ac, surf))|]); exact I.
Ltac stage2a F s1 s2 := revert F; factsa; namesa; intros F; open F;
  match goal with c : cfg |- _ => destruct (c_pml c) eqn:EP end;
  repeat (split; [abstract (unfold s2; evala ltac:(known s1; unfold new_psi_v, new_p))|]); exact I.
Ltac namesa0 := lazy beta iota zeta delta [pressure psi_p vel psi_vel low up append nm_s].
Ltac lasta := match goal with c : cfg |- _ => destruct (c_damp c) eqn:ED, (c_fs c =? 1)%Z eqn:EF end; namesa0; ev; 
   repeat match goal with H : ?s _ = _ |- _ => rewrite H; clear H end.

Section acoustic.
Variables (e : env R_arith) (c : cfg) (src : acq R_arith) (t : nat) (st : state R_arith) (surface : Z -> bool).
Hypotheses (HI : no_interpolation c).
Hypotheses (Hz : c_fs c = 1%Z -> forall i, e_coef e (N "setZeroFreeSurface" 0) i = if surface i then 0 else 1)
           (Hs : c_fs c <> 1%Z -> forall i, surface i = false).
Ltac fin_ac := unfold acoustic_step; repeat apply conj;
  [ intros [] i; cbn [has existsb axis_eqb orb]; intros K; try discriminate K; lasta; unfold damped; match goal with H : c_damp _ = _ |- _ => rewrite H end; reflexivity
  | intros i; lasta; 
    match goal with EF : (c_fs _ =? 1)%Z = true |- _ => rewrite (Hz (proj1 (Z.eqb_eq _ _) EF)) | EF : (c_fs _ =? 1)%Z = false |- _ => rewrite (Hs (proj1 (Z.eqb_neq _ _) EF)) end;
    unfold damped, new_p; match goal with H : c_damp _ = _ |- _ => rewrite H end; namesa0; change (num R_arith) with R;
    try match goal with |- context [if surface ?i then _ else _] => destruct (surface i) end; try reflexivity; ring
  | intros HPml [] i; cbn [has existsb axis_eqb orb]; intros K1; try discriminate K1;
    (split; lasta; unfold new_psi_p, new_psi_v; match goal with H : c_pml _ = true |- _ => rewrite H end; namesa0; reflexivity)].

Lemma step_2Dacoustic : acoustic_step e c st [AX; AY] surface (exec e src t (run_2Dacoustic c) st).
Proof.
  destruct HI as (i1&i2&i3&i4). unfold run_2Dacoustic. rewrite ?i1, ?i2, ?i3, ?i4. clear i1 i2 i3 i4.
  do 8 rewrite exec_app. cut st1.
  assert (F : holds st1 (facts1a e c st [AX; AY])) by abstract (stage1a st1).
  clearbody st1. do 5 rewrite exec_app. cut st2.
  assert (G : holds st2 (facts2a e c st [AX; AY])) by (clear Hz Hs; abstract (stage2a F st1 st2)).
  clearbody st2. clear F. revert G; factsa; namesa0; intros G; open G. abstract fin_ac.
Qed.

Lemma step_3Dacoustic : acoustic_step e c st [AX; AY; AZ] surface (exec e src t (run_3Dacoustic c) st).
Proof.
  destruct HI as (i1&i2&i3&i4). unfold run_3Dacoustic. rewrite ?i1, ?i2, ?i3, ?i4. clear i1 i2 i3 i4.
  do 12 rewrite exec_app. cut st1.
  assert (F : holds st1 (facts1a e c st [AX; AY; AZ])) by abstract (stage1a st1).
  clearbody st1. do 7 rewrite exec_app. cut st2.
  assert (G : holds st2 (facts2a e c st [AX; AY; AZ])) by (clear Hz Hs; abstract (stage2a F st1 st2)).
  clearbody st2. clear F. revert G; factsa; namesa0; intros G; open G. abstract fin_ac.
Qed.
End acoustic.

(** Symbolic execution of the solver programs. *)
From Coq Require Import QArith Qreals Reals Lra FunctionalExtensionality.
From Verif Require Import M_Grid M_Prog M_Solvers S_Solver M_Surface M_Relax S_Step.
Open Scope R_scope.
Open Scope list_scope.

Lemma uniform_mat e : uniform e ->
  e_mat e (N "DyfStaggeredX" 0) = e_mat e (N "Dyf" 0) /\ e_mat e (N "DyfStaggeredZ" 0) = e_mat e (N "Dyf" 0) /\
  e_mat e (N "DybStaggeredX" 0) = e_mat e (N "Dyb" 0) /\ e_mat e (N "DybStaggeredZ" 0) = e_mat e (N "Dyb" 0) /\
  e_mat e (N "DybStaggeredXFreeSurface" 0) = e_mat e (N "DybFreeSurface" 0) /\
  e_mat e (N "DybStaggeredZFreeSurface" 0) = e_mat e (N "DybFreeSurface" 0).
Proof. intros H. repeat (split; [apply functional_extensionality; intros i; apply H|]). apply functional_extensionality. intros i. apply H. Qed.

(** On uniform grids the matrices for staggered quantities can be renamed. *)
Definition unstag_name (M : nm) : nm :=
  match M with N s l =>
    if String.eqb s "DyfStaggeredX" then N "Dyf" l else if String.eqb s "DyfStaggeredZ" then N "Dyf" l else
    if String.eqb s "DybStaggeredX" then N "Dyb" l else if String.eqb s "DybStaggeredZ" then N "Dyb" l else
    if String.eqb s "DybStaggeredXFreeSurface" then N "DybFreeSurface" l else
    if String.eqb s "DybStaggeredZFreeSurface" then N "DybFreeSurface" l else M end.
Definition unstag (ins : instr) : instr :=
  match ins with IMv r (N M 0) s => IMv r (unstag_name (N M 0)) s | _ => ins end.
Lemma unstag_mat e M : uniform e -> e_mat e (unstag_name (N M 0)) = e_mat e (N M 0).
Proof.
  intros H. destruct (uniform_mat e H) as (u1&u2&u3&u4&u5&u6). unfold unstag_name.
  repeat match goal with |- context [String.eqb M ?x] => destruct (String.eqb_spec M x) as [->|_]; [symmetry; assumption|] end. reflexivity.
Qed.
Lemma exec_unstag e src t p : uniform e -> forall st, exec e src t p st = exec e src t (map unstag p) st.
Proof.
  intros H. unfold exec. induction p as [|ins p IH]; intros st; [reflexivity|]. cbn [map fold_left]. rewrite IH. f_equal.
  destruct ins; try reflexivity. destruct D as [M [|l]]; try reflexivity. cbn [unstag exec1]. rewrite unstag_mat by exact H. reflexivity.
Qed.

(** executes a straight-line program *)
Ltac ev := lazy beta iota zeta delta [exec fold_left app when applyCPML
  apply_p_x apply_p_y apply_p_z apply_sxx_x apply_sxy_x apply_sxz_x apply_sxy_y apply_syy_y apply_syz_y apply_sxz_z apply_syz_z apply_szz_z
  apply_vxx apply_vyx apply_vzx apply_vxy apply_vyy apply_vzy apply_vxz apply_vyz apply_vzz
  apply_eyx apply_ezx apply_exy apply_ezy apply_hyx apply_hyx3D apply_hzx apply_hxy apply_hzy apply_eyz apply_exz apply_hxz apply_hyz
  unstag unstag_name exec1 upd nm_eqb nm_s String.eqb Ascii.eqb Bool.eqb Nat.eqb andb negb abs_apply map setSurfaceZero exchange_2Delastic exchange_3Delastic scal
  run_2Dacoustic run_3Dacoustic run_2Delastic run_3Delastic run_2Dsh run_2Demem run_2Dtmem run_3Demem];
  change (a_add R_arith) with Rplus; change (a_sub R_arith) with Rminus; change (a_mul R_arith) with Rmult; change (a_q R_arith) with Q2R;
  change (num R_arith) with R.
(** reduces the names of the specification *)
Ltac names := lazy beta iota zeta delta [vel sig rel vel_half sig_half psi_sig psi_vel buoyancy low up low2 up2 append axis_eqb has existsb orb andb negb
  nm_s dmat pml_coef Dmv memory deriv sum_axes map Rsum fold_right filter smod pmod].

Lemma Q2R_2 : Q2R 2 = 2. Proof. unfold Q2R. cbn. lra. Qed.
Lemma Q2R_m1 : Q2R (-1) = -1. Proof. unfold Q2R. cbn. lra. Qed.


Lemma exec_app {A} (e : env A) src t p q st : exec e src t (p ++ q) st = exec e src t q (exec e src t p st).
Proof. unfold exec. apply fold_left_app. Qed.


(** the functions of the grid index that registers hold *)
Fixpoint holds (st' : state R_arith) (l : list (nm * (Z -> R))) : Prop :=
  match l with [] => True | (n, f) :: l' => st' n = f /\ holds st' l' end.
Tactic Notation "segs" integer(n) := do n (rewrite map_app, exec_app).

(** The vectors of the elastic free surface: [surface] are its points. *)
Record surf_vec (e : env R_arith) (c : cfg) (surface : Z -> bool) : Prop := {
  sv_z : c_fs c = 1%Z -> forall i, e_coef e (N "setZeroFreeSurface" 0) i = if surface i then 0 else 1;
  sv_v : c_fs c = 1%Z -> forall i, e_coef e (N "scaleVerticalUpdate" 0) i = if surface i then pmod e i - 2 * smod e AX AX i else 0;
  sv_h : c_fs c = 1%Z -> forall i, e_coef e (N "scaleHorizontalUpdate" 0) i =
           if surface i then - ((pmod e i - 2 * smod e AX AX i) * (pmod e i - 2 * smod e AX AX i) / pmod e i) else 0;
  sv_s : c_fs c <> 1%Z -> forall i, surface i = false;
  sv_p : forall i, pmod e i <> 0 }.

Section facts.
Variables (e : env R_arith) (c : cfg) (st : state R_arith) (surface : Z -> bool).
Variables (axes comps : list axis) (pairs : list (axis * axis)).
Definition new_psi_sig (a d : axis) (i : Z) : R :=
  if c_pml c then memory e (surf c d) d (sig_half a d d) (st (psi_sig a d)) (st (sig a d)) i else st (psi_sig a d) i.
Definition new_psi_vel (a d : axis) (i : Z) : R :=
  if c_pml c then memory e "" d (vel_half a d) (st (psi_vel a d)) (new_vel e c st axes a) i else st (psi_vel a d) i.
Definition fv := map (fun a => (vel a, new_vel e c st axes a)) comps.
Definition fps := flat_map (fun a => map (fun d => (psi_sig a d, new_psi_sig a d)) axes) comps.
(** after the update of the velocities *)
Definition facts1 := fv ++ fps ++ map (fun p => (sig (fst p) (snd p), st (sig (fst p) (snd p)))) pairs ++
  flat_map (fun a => map (fun d => (psi_vel a d, st (psi_vel a d))) axes) comps.
(** after the update of the stresses *)
Definition fpv := flat_map (fun a => map (fun d => (psi_vel a d, new_psi_vel a d)) axes) comps.
Definition new_sig0 (a b : axis) (i : Z) : R :=
  if normal_at_surface surface a b i then 0 else st (sig a b) i + hooke e c st axes comps surface (pmod e) (smod e) (pmod e) (smod e) a b i.
Definition facts2 := fv ++ fps ++ fpv ++ map (fun p => (sig (fst p) (snd p), new_sig0 (fst p) (snd p))) pairs.
Lemma hooke_sym p m P M a b i : m a b i = m b a i ->
  hooke e c st axes comps surface P M p m a b i = hooke e c st axes comps surface P M p m b a i.
Proof. intros H. unfold hooke. rewrite H. destruct a, b; cbn [axis_eqb]; ring. Qed.
End facts.

Ltac flags := repeat match goal with H : c_pml _ = _ |- _ => rewrite H end; repeat match goal with H : c_damp _ = _ |- _ => rewrite H end;
  repeat match goal with H : (c_fs _ =? 1)%Z = _ |- _ => rewrite H end.
(** names the state reached before the last part of the program *)
Ltac cut n := lazymatch goal with |- context [exec ?e ?src ?t _ (exec ?e ?src ?t ?p ?s)] => set (n := exec e src t p s) end.
Ltac facts := unfold facts1, facts2, fv, fps, fpv; cbn [app map flat_map fst snd holds].
Ltac open F := repeat match type of F with _ /\ _ => let F1 := fresh "F" in destruct F as [F1 F] end; clear F.
Ltac known s := repeat match goal with H : s _ = _ |- _ => rewrite H; clear H end.
Ltac eval_one s := apply functional_extensionality; intros i; names; ev; known s;
  unfold new_psi_vel, new_sig0, hooke, grad_s, grad, normal_at_surface; names; flags; lazy beta iota zeta; change (num R_arith) with R.
Ltac eval_vel := apply functional_extensionality; intros i; names; ev;
  unfold new_psi_sig, new_vel, surf; names; flags; lazy beta iota zeta; change (num R_arith) with R.
Ltac atoms := repeat match goal with |- context [mv ?m ?v ?i] => generalize (mv m v i); intros ? end.
Ltac done i := first [reflexivity | match goal with SV : surf_vec _ ?c ?surface |- _ =>
  atoms; first [match goal with EF : (c_fs c =? 1)%Z = true |- _ => 
            let H := fresh in pose proof (proj1 (Z.eqb_eq _ _) EF) as H; rewrite ?(sv_z _ _ _ SV H), ?(sv_v _ _ _ SV H), ?(sv_h _ _ _ SV H) end
         |match goal with EF : (c_fs c =? 1)%Z = false |- _ => rewrite ?(sv_s _ _ _ SV (proj1 (Z.eqb_neq _ _) EF)) end
         |idtac];
   let H := fresh in pose proof (sv_p _ _ _ SV i) as H; revert H; names; 
   try destruct (surface i); intros H; rewrite ?Q2R_2, ?Q2R_m1; first [ring | (field; exact H)] end].
(** without free surface vectors *)
Ltac done0 i := first [reflexivity | (atoms; try (match goal with |- context [if ?surface i then _ else _] => destruct (surface i) end); ring)].

(** the damping frame, applied last, and the four groups of equations *)
Ltac names0 := lazy beta iota zeta delta [vel sig psi_sig psi_vel low up low2 up2 append nm_s].
Ltac fin G := revert G; facts; names0; intros G; open G.
Ltac last := match goal with c : cfg |- _ => destruct (c_damp c) eqn:ED end; names0; ev; 
   repeat match goal with H : ?s _ = _ |- _ => rewrite H; clear H end.
Ltac fin_stress K := cbn [stress has existsb axis_eqb orb andb] in K; try discriminate K; last;
   unfold damped, new_sig0; match goal with H : c_damp _ = _ |- _ => rewrite H end; unfold normal_at_surface; cbn [axis_eqb andb]; rewrite ?andb_false_r; cbn [seq map Rsum fold_right];
   try (match goal with |- context [?surface ?i && _ && _] => rewrite !andb_true_r; destruct (surface i) end); rewrite ?Rmult_0_r, ?Rplus_0_r; cbn [andb]; names0; change (num R_arith) with R;
   repeat match goal with
          | |- context [hooke ?e ?c ?st ?ax ?cm ?sf ?P ?M ?p ?m AY AX ?i] => rewrite (hooke_sym e c st sf ax cm p m P M AY AX i eq_refl)
          | |- context [hooke ?e ?c ?st ?ax ?cm ?sf ?P ?M ?p ?m AZ AX ?i] => rewrite (hooke_sym e c st sf ax cm p m P M AZ AX i eq_refl)
          | |- context [hooke ?e ?c ?st ?ax ?cm ?sf ?P ?M ?p ?m AZ AY ?i] => rewrite (hooke_sym e c st sf ax cm p m P M AZ AY i eq_refl) end;
   repeat match goal with |- context [hooke ?x1 ?x2 ?x3 ?x4 ?x5 ?x6 ?x7 ?x8 ?x9 ?y1 ?y2 ?y3 ?y4] => generalize (hooke x1 x2 x3 x4 x5 x6 x7 x8 x9 y1 y2 y3 y4); intros ? end;
   ring.
Ltac fin_vel := intros [] i; cbn [has existsb axis_eqb orb]; intros K; try discriminate K; last; unfold damped; match goal with H : c_damp _ = _ |- _ => rewrite H end; reflexivity.
Ltac fin_psi := intros HPml [] [] i; cbn [has existsb axis_eqb orb]; intros K1 K2; try discriminate K1; try discriminate K2;
    (split; last; unfold new_psi_sig, new_psi_vel; match goal with H : c_pml _ = true |- _ => rewrite H end; names0; reflexivity).
Ltac fin_all := unfold elastic_step; repeat apply conj;
  [ fin_vel | intros [] [] i K; fin_stress K | intros a b i l K Hl; exfalso; inversion Hl | fin_psi].

Ltac stage1 s := match goal with c : cfg |- _ => destruct (c_pml c) eqn:EP, (c_fs c =? 1)%Z eqn:EF end; facts;
  repeat (split; [abstract (unfold s; eval_vel; reflexivity || (atoms; ring))|]); exact I.
Ltac stage2 F s1 s2 fin := revert F; facts; names; intros F; open F;
  match goal with c : cfg |- _ => destruct (c_pml c) eqn:EP, (c_fs c =? 1)%Z eqn:EF end;
  repeat (split; [abstract (unfold s2; eval_one s1; match goal with i : Z |- _ => fin i end)|]); exact I.

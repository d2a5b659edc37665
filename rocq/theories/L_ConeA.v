(** One time step of every solver enlarges the region of influence by at most two derivative lengths. *)
From Coq Require Import QArith.
From Verif Require Import M_Grid S_Deriv M_Prog M_Solvers L_Prog L_Shape L_Cone.
Open Scope Z_scope.

Section I2.
Variables (A : arith) (e : env A) (src src' : acq A) (t : nat).
Variables (nx ny nz x0 y0 z0 W base : Z).
Hypothesis HW : 0 <= W.
Notation preg := (preg nx ny nz x0 y0 z0 W base).
Hypothesis Hsrc : forall ty v i f f', preg v i -> f i = f' i -> scatter (src ty) t f i = scatter (src' ty) t f' i.

Ltac solve_cone fs d3 :=
  lazymatch goal with |- hoare _ _ _ _ _ _ (nD 0 (livestr ?s ?b)) (step_prog ?s ?c) _ =>
    let D := eval vm_compute in (nD 0 (livestr s b)) in change (nD 0 (livestr s b)) with D;
    let q := eval vm_compute in (src_prog s) in
    let r := eval cbv delta [s] in s in
    change (step_prog s c) with (s_run r c ++ q)
  end; cbn [s_run];
  lazymatch goal with |- hoare _ _ _ _ _ _ _ (?r ?c ++ _) _ => unfold r end; 
  cbn [when c_pml c_damp c_fs c_itF c_itX c_itZ c_itXZ c_L];
  lazymatch goal with E : (?z =? 1) = _ |- _ => rewrite ?E end; cbn [when];
  unfold exchange_2Dviscoelastic, exchange_3Dviscoelastic;
  eapply h_end with (geb := pge); [eassumption|h_go pmeet (pmvt fs d3)|h_triv].

Lemma step_cone s d3 pml dmp fs L : In s all_solvers -> d3 = is3D s ->
  reaches A e nx ny nz W (fs =? 1) d3 ->
  hoare preg e src src' t L (nD 0 (livestr s pml)) (step_prog s (Cfg pml dmp fs false false false false L)) (nD 2 (livestr s pml)).
Proof.
  intros Hs Hd HR. pose proof (p_Hmeet nx ny nz x0 y0 z0 W base HW) as Hmeet. pose proof (p_Hge nx ny nz x0 y0 z0 W base HW) as Hge.
  pose proof (p_Hmv A e nx ny nz x0 y0 z0 W base HW (fs =? 1) d3 HR) as Hmv.
  unfold all_solvers in Hs. cbn [In] in Hs.
  do 14 (destruct Hs as [<-|Hs]; [vm_compute in Hd; subst d3; destruct (fs =? 1) eqn:E, pml;
    lazymatch type of Hmv with context [pmvt ?f ?d] => solve_cone f d end|]).
  destruct Hs.
Qed.
End I2.

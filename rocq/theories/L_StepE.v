(** One time step of the elastic solvers. *)
From Coq Require Import QArith Qreals Reals Lra FunctionalExtensionality.
From Verif Require Import M_Grid M_Prog M_Solvers S_Solver S_Step L_Step.
Open Scope R_scope.
Open Scope list_scope.

Section elastic.
Variables (e : env R_arith) (c : cfg) (src : acq R_arith) (t : nat) (st : state R_arith) (surface : Z -> bool).
Hypotheses (HU : uniform e) (HI : no_interpolation c) (SV : surf_vec e c surface).

Lemma step_2Delastic DT tau dP dM :
  elastic_step e c st [AX; AY] [AX; AY] surface (pmod e) (smod e) 0 tau DT dP dM (exec e src t (run_2Delastic c) st).
Proof.
  destruct HI as (i1&i2&i3&i4). rewrite exec_unstag by exact HU. unfold run_2Delastic. rewrite ?i1, ?i2, ?i3, ?i4. clear i1 i2 i3 i4.
  segs 12. cut st1.
  assert (F : holds st1 (facts1 e c st [AX; AY] [AX; AY] [(AX, AX); (AY, AY); (AX, AY)])) by abstract (stage1 st1).
  clearbody st1. segs 11. cut st2.
  assert (G : holds st2 (facts2 e c st surface [AX; AY] [AX; AY] [(AX, AX); (AY, AY); (AX, AY)])) by abstract (stage2 F st1 st2 done).
  clearbody st2. clear F. abstract (fin G; fin_all).
Qed.

Lemma step_2Dsh DT tau dP dM :
  elastic_step e c st [AX; AY] [AZ] surface (pmod e) (smod e) 0 tau DT dP dM (exec e src t (run_2Dsh c) st).
Proof.
  rewrite exec_unstag by exact HU. unfold run_2Dsh.
  change [IAdd "update" "update_temp"; IMulV "update" "inverseDensity"; IAdd "vZ" "update"; IMv "update" "Dxf" "vZ"]
    with ([IAdd "update" "update_temp"; IMulV "update" "inverseDensity"; IAdd "vZ" "update"] ++ [IMv "update" "Dxf" "vZ"]).
  rewrite <- (app_assoc [IAdd "update" "update_temp"; IMulV "update" "inverseDensity"; IAdd "vZ" "update"]).
  segs 4. cut st1.
  assert (F : holds st1 (facts1 e c st [AX; AY] [AZ] [(AX, AZ); (AY, AZ)])) by abstract (stage1 st1).
  clearbody st1. segs 5. cut st2.
  assert (G : holds st2 (facts2 e c st surface [AX; AY] [AZ] [(AX, AZ); (AY, AZ)])) by (clear HI SV; abstract (stage2 F st1 st2 done0)).
  clearbody st2. clear F. abstract (fin G; fin_all).
Qed.

Lemma step_3Delastic DT tau dP dM :
  elastic_step e c st [AX; AY; AZ] [AX; AY; AZ] surface (pmod e) (smod e) 0 tau DT dP dM (exec e src t (run_3Delastic c) st).
Proof.
  destruct HI as (i1&i2&i3&i4). rewrite exec_unstag by exact HU. unfold run_3Delastic. rewrite ?i1, ?i2, ?i3, ?i4. clear i1 i2 i3 i4.
  segs 24. cut st1.
  assert (F : holds st1 (facts1 e c st [AX; AY; AZ] [AX; AY; AZ] [(AX, AX); (AY, AY); (AZ, AZ); (AX, AY); (AX, AZ); (AY, AZ)])) by abstract (stage1 st1).
  clearbody st1. segs 24. cut st2.
  assert (G : holds st2 (facts2 e c st surface [AX; AY; AZ] [AX; AY; AZ] [(AX, AX); (AY, AY); (AZ, AZ); (AX, AY); (AX, AZ); (AY, AZ)]))
    by abstract (stage2 F st1 st2 done).
  clearbody st2. clear F. abstract (fin G; fin_all).
Qed.
End elastic.

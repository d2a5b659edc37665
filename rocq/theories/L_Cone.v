(** Instance 2 of the analysis: staggered positions and finite propagation speed. *)
From Coq Require Import QArith.
From Verif Require Import M_Grid S_Deriv M_Prog M_Solvers L_Prog L_Shape.
Open Scope Z_scope.

Record pos : Type := Pos { ox : bool; oy : bool; oz : bool; dep : nat }.
Definition pmeet (v w : pos) : option pos :=
  if Bool.eqb (ox v) (ox w) && Bool.eqb (oy v) (oy w) && Bool.eqb (oz v) (oz w)
  then Some (Pos (ox v) (oy v) (oz v) (Nat.max (dep v) (dep w))) else None.
Definition pge (v w : pos) : bool :=
  Bool.eqb (ox v) (ox w) && Bool.eqb (oy v) (oy w) && Bool.eqb (oz v) (oz w) && Nat.leb (dep v) (dep w).

Definition smem (s : string) (l : list string) : bool := existsb (String.eqb s) l.
Definition pmvt (fs d3 : bool) (s : string) (v : pos) : option pos :=
  let d := S (dep v) in
  if smem s ["Dxf"]%string then if ox v then None else Some (Pos true (oy v) (oz v) d)
  else if smem s ["Dxb"]%string then if ox v then Some (Pos false (oy v) (oz v) d) else None
  else if smem s ["Dyf"; "DyfStaggeredX"; "DyfStaggeredZ"]%string || (fs && smem s ["DyfFreeSurface"]%string)
    then if oy v then None else Some (Pos (ox v) true (oz v) d)
  else if smem s ["Dyb"; "DybStaggeredX"; "DybStaggeredZ"]%string ||
          (fs && smem s ["DybFreeSurface"; "DybStaggeredXFreeSurface"; "DybStaggeredZFreeSurface"]%string)
    then if oy v then Some (Pos (ox v) false (oz v) d) else None
  else if d3 && smem s ["Dzf"]%string then if oz v then None else Some (Pos (ox v) (oy v) true d)
  else if d3 && smem s ["Dzb"]%string then if oz v then Some (Pos (ox v) (oy v) false d) else None
  else None.

(** natural positions *)
Definition natural (s : string) : pos :=
  let P a b c := Pos a b c 0 in
  if smem s ["vX"; "eX"; "rX"; "psi_p_x"; "psi_sxx_x"; "psi_sxy_y"; "psi_sxz_z"; "psi_hzy"; "psi_hyz"]%string then P true false false
  else if smem s ["vY"; "eY"; "rY"; "psi_p_y"; "psi_sxy_x"; "psi_syy_y"; "psi_syz_z"; "psi_hzx"; "psi_hxz"]%string then P false true false
  else if smem s ["vZ"; "eZ"; "rZ"; "psi_p_z"; "psi_sxz_x"; "psi_syz_y"; "psi_szz_z"; "psi_hyx"; "psi_hxy"]%string then P false false true
  else if smem s ["Sxy"; "Rxy"; "hZ"; "psi_vyx"; "psi_vxy"; "psi_eyx"; "psi_exy"]%string then P true true false
  else if smem s ["Sxz"; "Rxz"; "hY"; "psi_vzx"; "psi_vxz"; "psi_ezx"; "psi_exz"]%string then P true false true
  else if smem s ["Syz"; "Ryz"; "hX"; "psi_vzy"; "psi_vyz"; "psi_ezy"; "psi_eyz"]%string then P false true true
  else P false false false.

Definition deeper (d : nat) (v : pos) : pos := Pos (ox v) (oy v) (oz v) d.
Definition nD (d : nat) (l : list string) : list (string * pos) := map (fun s => (s, deeper d (natural s))) l.

Definition is3D (s : solver) : bool := existsb (fun n => smem (nstr n) ["psi_p_z"; "psi_sxz_z"; "psi_hxz"]%string) (s_psi s).

Section I2.
Variables (A : arith) (e : env A) (src src' : acq A) (t : nat).
Variables (nx ny nz x0 y0 z0 W base : Z).
Definition b2 (b : bool) : Z := if b then 1 else 0.
Definition out (o : bool) (x x0 r : Z) : Prop := 2 * x + b2 o < 2 * x0 - r \/ 2 * x + b2 o > 2 * x0 + 1 + r.
Definition preg (v : pos) (i : Z) : Prop :=
  exists x y z, 0 <= x < nx /\ 0 <= y < ny /\ 0 <= z < nz /\ i = reg_index nx nz x y z /\
  let r := base + W * Z.of_nat (dep v) in out (ox v) x x0 r \/ out (oy v) y y0 r \/ out (oz v) z z0 r.
Definition reach_x (o : Z) (M : string) : Prop := forall x y z, 0 <= x < nx -> 0 <= y < ny -> 0 <= z < nz ->
  forall kc, In kc (e_mat e (N M 0) (reg_index nx nz x y z)) -> exists X, 0 <= X < nx /\ fst kc = reg_index nx nz X y z /\ Z.abs (2 * X - 2 * x - o) <= W.
Definition reach_y (o : Z) (M : string) : Prop := forall x y z, 0 <= x < nx -> 0 <= y < ny -> 0 <= z < nz ->
  forall kc, In kc (e_mat e (N M 0) (reg_index nx nz x y z)) -> exists Y, 0 <= Y < ny /\ fst kc = reg_index nx nz x Y z /\ Z.abs (2 * Y - 2 * y - o) <= W.
Definition reach_z (o : Z) (M : string) : Prop := forall x y z, 0 <= x < nx -> 0 <= y < ny -> 0 <= z < nz ->
  forall kc, In kc (e_mat e (N M 0) (reg_index nx nz x y z)) -> exists Z, 0 <= Z < nz /\ fst kc = reg_index nx nz x y Z /\ Z.abs (2 * Z - 2 * z - o) <= W.

Record reaches (fs d3 : bool) : Prop := {
  r_xf : reach_x 1 "Dxf"; r_xb : reach_x (-1) "Dxb";
  r_yf : forall M, In M ["Dyf"; "DyfStaggeredX"; "DyfStaggeredZ"]%string -> reach_y 1 M;
  r_yb : forall M, In M ["Dyb"; "DybStaggeredX"; "DybStaggeredZ"]%string -> reach_y (-1) M;
  r_fsf : fs = true -> forall M, In M ["DyfFreeSurface"]%string -> reach_y 1 M;
  r_fsb : fs = true -> forall M, In M ["DybFreeSurface"; "DybStaggeredXFreeSurface"; "DybStaggeredZFreeSurface"]%string -> reach_y (-1) M;
  r_zf : d3 = true -> reach_z 1 "Dzf"; r_zb : d3 = true -> reach_z (-1) "Dzb" }.

Hypothesis HW : 0 <= W.
Variables (fs d3 : bool).
Hypothesis HR : reaches fs d3.

Lemma smem_In s l : smem s l = true <-> In s l.
Proof.
  unfold smem. rewrite existsb_exists. split.
  - intros (x&H&E). apply String.eqb_eq in E. congruence.
  - intros H. exists s. split; [auto|apply String.eqb_refl].
Qed.

Lemma p_Hmeet : forall v w m i, pmeet v w = Some m -> preg m i -> preg v i /\ preg w i.
Proof.
  intros [a b c d] [a' b' c' d'] m i. unfold pmeet. cbn [ox oy oz dep].
  destruct (Bool.eqb a a' && Bool.eqb b b' && Bool.eqb c c')%bool eqn:E; [|discriminate].
  apply andb_true_iff in E. destruct E as [E E3]. apply andb_true_iff in E. destruct E as [E1 E2].
  apply Bool.eqb_prop in E1, E2, E3. subst. intros Hm; injection Hm as <-.
  intros (x&y&z&Hx&Hy&Hz&Hi&H). cbv zeta in H. cbn [ox oy oz dep] in H.
  assert (Q1 : W * Z.of_nat d <= W * Z.of_nat (Nat.max d d')) by (apply Z.mul_le_mono_nonneg_l; [exact HW|lia]).
  assert (Q2 : W * Z.of_nat d' <= W * Z.of_nat (Nat.max d d')) by (apply Z.mul_le_mono_nonneg_l; [exact HW|lia]).
  assert (G : forall o u c d0, W * Z.of_nat d0 <= W * Z.of_nat (Nat.max d d') -> out o u c (base + W * Z.of_nat (Nat.max d d')) -> out o u c (base + W * Z.of_nat d0)).
  { clear. unfold out. intros; lia. }
  split; exists x, y, z; cbn [ox oy oz dep]; repeat (split; [assumption|]);
    destruct H as [H|[H|H]]; [left|right;left|right;right|left|right;left|right;right]; eapply G; eassumption.
Qed.

Lemma p_Hge : forall v w i, pge v w = true -> preg w i -> preg v i.
Proof.
  intros v w i H Hw. assert (E : pmeet v w = Some w).
  { destruct v as [a b c d], w as [a' b' c' d']. unfold pge, pmeet in *. cbn [ox oy oz dep] in *.
    apply andb_true_iff in H. destruct H as [H H4]. rewrite H. apply Nat.leb_le in H4. rewrite Nat.max_r by lia.
    apply andb_true_iff in H. destruct H as [H H3]. apply andb_true_iff in H. destruct H as [H1 H2].
    apply Bool.eqb_prop in H1, H2, H3. subst. reflexivity. }
  apply (p_Hmeet v w w i E Hw).
Qed.

Lemma out_f X x c0 d : Z.abs (2 * X - 2 * x - 1) <= W -> out true x c0 (base + W * Z.of_nat (S d)) -> out false X c0 (base + W * Z.of_nat d).
Proof. clear - HW. unfold out, b2. rewrite Nat2Z.inj_succ, Z.mul_succ_r. generalize (W * Z.of_nat d). intros; lia. Qed.
Lemma out_b X x c0 d : Z.abs (2 * X - 2 * x - -1) <= W -> out false x c0 (base + W * Z.of_nat (S d)) -> out true X c0 (base + W * Z.of_nat d).
Proof. clear - HW. unfold out, b2. rewrite Nat2Z.inj_succ, Z.mul_succ_r. generalize (W * Z.of_nat d). intros; lia. Qed.
Lemma out_m o x c0 d : out o x c0 (base + W * Z.of_nat (S d)) -> out o x c0 (base + W * Z.of_nat d).
Proof. clear - HW. unfold out. generalize (b2 o). rewrite Nat2Z.inj_succ, Z.mul_succ_r. generalize (W * Z.of_nat d). intros; lia. Qed.
Lemma p_Hmv : forall s v v' i, pmvt fs d3 s v = Some v' -> preg v' i -> forall kc, In kc (e_mat e (N s 0) i) -> preg v (fst kc).
Proof.
  intros s [a b c d] v' i H. unfold pmvt in H. cbn [ox oy oz dep] in H. destruct HR.
  intros (x&y&z&Hx&Hy&Hz&->&Hr) kc Hk.
  destruct (smem s ["Dxf"]%string) eqn:E1; [|destruct (smem s ["Dxb"]%string) eqn:E2;
   [|destruct (smem s ["Dyf"; "DyfStaggeredX"; "DyfStaggeredZ"]%string || (fs && smem s ["DyfFreeSurface"]%string))%bool eqn:E3;
    [|destruct (smem s ["Dyb"; "DybStaggeredX"; "DybStaggeredZ"]%string ||
          (fs && smem s ["DybFreeSurface"; "DybStaggeredXFreeSurface"; "DybStaggeredZFreeSurface"]%string))%bool eqn:E4;
     [|destruct (d3 && smem s ["Dzf"]%string)%bool eqn:E5; [|destruct (d3 && smem s ["Dzb"]%string)%bool eqn:E6; [|discriminate]]]]]].
  - apply smem_In in E1. destruct E1 as [<-|[]]. destruct a; [discriminate|]. injection H as <-.
    destruct (r_xf0 x y z Hx Hy Hz kc Hk) as (X&HX&->&HA). exists X, y, z. cbv zeta in *. cbn [ox oy oz dep] in *.
    repeat (split; [assumption || reflexivity|]). destruct Hr as [Hr|[Hr|Hr]]; [left|right;left|right;right]; first [eapply out_m; exact Hr|eapply out_f; eassumption|eapply out_b; eassumption].
  - apply smem_In in E2. destruct E2 as [<-|[]]. destruct a; [|discriminate]. injection H as <-.
    destruct (r_xb0 x y z Hx Hy Hz kc Hk) as (X&HX&->&HA). exists X, y, z. cbv zeta in *. cbn [ox oy oz dep] in *.
    repeat (split; [assumption || reflexivity|]). destruct Hr as [Hr|[Hr|Hr]]; [left|right;left|right;right]; first [eapply out_m; exact Hr|eapply out_f; eassumption|eapply out_b; eassumption].
  - assert (Q : reach_y 1 s). { apply orb_true_iff in E3. destruct E3 as [E|E]; [apply smem_In in E; auto|].
      apply andb_true_iff in E. destruct E as [Ef E]. apply smem_In in E. auto. }
    destruct b; [discriminate|]. injection H as <-.
    destruct (Q x y z Hx Hy Hz kc Hk) as (Y&HY&->&HA). exists x, Y, z. cbv zeta in *. cbn [ox oy oz dep] in *.
    repeat (split; [assumption || reflexivity|]). destruct Hr as [Hr|[Hr|Hr]]; [left|right;left|right;right]; first [eapply out_m; exact Hr|eapply out_f; eassumption|eapply out_b; eassumption].
  - assert (Q : reach_y (-1) s). { apply orb_true_iff in E4. destruct E4 as [E|E]; [apply smem_In in E; auto|].
      apply andb_true_iff in E. destruct E as [Ef E]. apply smem_In in E. auto. }
    destruct b; [|discriminate]. injection H as <-.
    destruct (Q x y z Hx Hy Hz kc Hk) as (Y&HY&->&HA). exists x, Y, z. cbv zeta in *. cbn [ox oy oz dep] in *.
    repeat (split; [assumption || reflexivity|]). destruct Hr as [Hr|[Hr|Hr]]; [left|right;left|right;right]; first [eapply out_m; exact Hr|eapply out_f; eassumption|eapply out_b; eassumption].
  - apply andb_true_iff in E5. destruct E5 as [Ed E5]. apply smem_In in E5. destruct E5 as [<-|[]]. destruct c; [discriminate|]. injection H as <-.
    destruct (r_zf0 Ed x y z Hx Hy Hz kc Hk) as (Z&HZ&->&HA). exists x, y, Z. cbv zeta in *. cbn [ox oy oz dep] in *.
    repeat (split; [assumption || reflexivity|]). destruct Hr as [Hr|[Hr|Hr]]; [left|right;left|right;right]; first [eapply out_m; exact Hr|eapply out_f; eassumption|eapply out_b; eassumption].
  - apply andb_true_iff in E6. destruct E6 as [Ed E6]. apply smem_In in E6. destruct E6 as [<-|[]]. destruct c; [|discriminate]. injection H as <-.
    destruct (r_zb0 Ed x y z Hx Hy Hz kc Hk) as (Z&HZ&->&HA). exists x, y, Z. cbv zeta in *. cbn [ox oy oz dep] in *.
    repeat (split; [assumption || reflexivity|]). destruct Hr as [Hr|[Hr|Hr]]; [left|right;left|right;right]; first [eapply out_m; exact Hr|eapply out_f; eassumption|eapply out_b; eassumption].
Qed.
End I2.

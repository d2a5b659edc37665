(** Finite sums, the adjoint of the stencil matrices, and the 2-D acoustic step in closed form. *)
From Coq Require Import QArith Qreals Reals Lra.
From Verif Require Import M_Grid M_Deriv S_Deriv L_Deriv L_Deriv2 M_Prog M_Solvers M_Env S_Solver L_Prog L_Lin L_Src L_Surface.
Open Scope R_scope.

(** ** finite sums *)
Lemma ls_ext n f g : (forall k, (0 <= k < n)%Z -> f k = g k) -> line_sum n f = line_sum n g.
Proof.
  intros H. unfold line_sum. f_equal. apply map_ext_in. intros k Hk. apply H.
  assert (G : forall m s, In k (zseq s m) -> (s <= k < s + Z.of_nat m)%Z).
  { induction m as [|m IH]; intros s Hs; [destruct Hs|]. cbn [zseq] in Hs. destruct Hs as [->|Hs]; [lia|]. apply IH in Hs. lia. }
  apply G in Hk. lia.
Qed.
Lemma Rsum_map_add {T} (l : list T) f g : Rsum (map (fun k => f k + g k) l) = Rsum (map f l) + Rsum (map g l).
Proof. unfold Rsum. induction l as [|a l IH]; cbn [map fold_right]; [lra|]. rewrite IH. lra. Qed.
Lemma Rsum_map_mul {T} (l : list T) c f : Rsum (map (fun k => c * f k) l) = c * Rsum (map f l).
Proof. unfold Rsum. induction l as [|a l IH]; cbn [map fold_right]; [lra|]. rewrite IH. lra. Qed.
Lemma Rsum_map_0 {T} (l : list T) f : (forall k, In k l -> f k = 0) -> Rsum (map f l) = 0.
Proof.
  unfold Rsum. induction l as [|a l IH]; intros H; cbn [map fold_right]; [reflexivity|].
  rewrite H by (left; reflexivity). rewrite IH; [lra|]. intros; apply H; right; auto.
Qed.
Lemma Rsum_swap {T U} (l : list T) (m : list U) f :
  Rsum (map (fun a => Rsum (map (fun b => f a b) m)) l) = Rsum (map (fun b => Rsum (map (fun a => f a b) l)) m).
Proof.
  induction l as [|a l IH].
  - cbn [map]. change (Rsum []) with 0. symmetry. apply Rsum_map_0. reflexivity.
  - cbn [map]. change (Rsum (?x :: ?y)) with (x + Rsum y). rewrite IH, <- Rsum_map_add. reflexivity.
Qed.
Lemma ls_add n f g : line_sum n (fun k => f k + g k) = line_sum n f + line_sum n g.
Proof. apply Rsum_map_add. Qed.
Lemma ls_mul n c f : line_sum n (fun k => c * f k) = c * line_sum n f.
Proof. apply Rsum_map_mul. Qed.
Lemma ls_swap n m f : line_sum n (fun a => line_sum m (fun b => f a b)) = line_sum m (fun b => line_sum n (fun a => f a b)).
Proof. apply Rsum_swap. Qed.

Lemma Rsum_ind_zseq (F : Z -> R) k : forall m s,
  Rsum (map (fun i => if (i =? k)%Z then F i else 0) (zseq s m)) = if ((s <=? k) && (k <? s + Z.of_nat m))%Z%bool then F k else 0.
Proof.
  induction m as [|m IH]; intros s.
  - cbn [zseq map]. change (Rsum []) with 0. replace ((s <=? k) && (k <? s + Z.of_nat 0))%Z%bool with false by lia. reflexivity.
  - cbn [zseq map]. change (Rsum (?x :: ?y)) with (x + Rsum y). rewrite IH. destruct (Z.eqb_spec s k) as [->|E].
    + replace ((k + 1 <=? k) && (k <? k + 1 + Z.of_nat m))%Z%bool with false by lia.
      replace ((k <=? k) && (k <? k + Z.of_nat (S m)))%Z%bool with true by lia. lra.
    + replace ((s <=? k) && (k <? s + Z.of_nat (S m)))%Z%bool with ((s + 1 <=? k) && (k <? s + 1 + Z.of_nat m))%Z%bool by lia. lra.
Qed.
Lemma ls_ind n F k : line_sum n (fun i => if (i =? k)%Z then F i else 0) = if on_line n k then F k else 0.
Proof.
  unfold line_sum. rewrite Rsum_ind_zseq. unfold on_line.
  replace ((0 <=? k) && (k <? 0 + Z.of_nat (Z.to_nat n)))%Z%bool with ((0 <=? k) && (k <? n))%Z%bool by lia. reflexivity.
Qed.

(** shift of a truncated sum *)
Lemma ls_shift n d F : line_sum n (fun i => if on_line n (i + d) then F i else 0) = line_sum n (fun k => if on_line n (k - d) then F (k - d)%Z else 0).
Proof.
  transitivity (line_sum n (fun i => line_sum n (fun k => if (k =? i + d)%Z then F i else 0))).
  - apply ls_ext. intros i Hi. rewrite (ls_ind n (fun _ => F i)). reflexivity.
  - rewrite ls_swap. apply ls_ext. intros k Hk.
    rewrite (ls_ext n _ (fun i => if (i =? k - d)%Z then F i else 0)).
    + apply ls_ind.
    + intros i _. replace (i =? k - d)%Z with (k =? i + d)%Z by lia. reflexivity.
Qed.

(** grid sums *)
Lemma gs_ext nx ny nz f g : (forall x y z, (0 <= x < nx)%Z -> (0 <= y < ny)%Z -> (0 <= z < nz)%Z -> f (reg_index nx nz x y z) = g (reg_index nx nz x y z)) ->
  grid_sum nx ny nz f = grid_sum nx ny nz g.
Proof. intros H. unfold grid_sum. do 3 (apply ls_ext; intros). apply H; auto. Qed.
Lemma gs_add nx ny nz f g : grid_sum nx ny nz (fun k => f k + g k) = grid_sum nx ny nz f + grid_sum nx ny nz g.
Proof.
  unfold grid_sum. rewrite <- ls_add. apply ls_ext; intros. rewrite <- ls_add. apply ls_ext; intros. apply ls_add.
Qed.
Lemma gs_mul nx ny nz c f : grid_sum nx ny nz (fun k => c * f k) = c * grid_sum nx ny nz f.
Proof.
  unfold grid_sum. rewrite <- ls_mul. apply ls_ext; intros. rewrite <- ls_mul. apply ls_ext; intros. apply ls_mul.
Qed.

(** ** the stencil matrices on a line *)
Lemma mv_stencil cvs col l x : @mv R_arith (stencil_entries (A := R_arith) cvs col l) x = Rsum (map (fun kc => cvs (snd kc) * x (col (fst kc))) l).
Proof. rewrite mv_R. unfold stencil_entries. rewrite map_map. reflexivity. Qed.

Lemma Rsum_flat {T U} (l : list T) (h : T -> list U) (f : U -> R) : Rsum (map f (flat_map h l)) = Rsum (map (fun a => Rsum (map f (h a))) l).
Proof. induction l as [|a l IH]; [reflexivity|]. cbn [flat_map map]. rewrite map_app, Rsum_app, IH. reflexivity. Qed.

Lemma row_f p N i cvs P : Rsum (map (fun kc => cvs (snd kc) * P (fst kc)) (stencil_row p N i)) =
  Rsum (map (fun j => if on_line N (i + (j - (Z.quot p 2 - 1))) then cvs (stencil_at p j) * P (i + (j - (Z.quot p 2 - 1)))%Z else 0) (zseq 0 (Z.to_nat p))).
Proof.
  unfold stencil_row. rewrite Rsum_flat. f_equal. apply map_ext. intros j. cbv zeta.
  replace (i + (j - (Z.quot p 2 - 1)))%Z with (i + j - (Z.quot p 2 - 1))%Z by lia. destruct (on_line N _); [|reflexivity]. cbn. lra.
Qed.
Lemma row_b p N i cvs P : Rsum (map (fun kc => cvs (snd kc) * P (fst kc)) (stencil_row_b p N i)) =
  Rsum (map (fun j => if on_line N (i - (j - (Z.quot p 2 - 1))) then cvs (- stencil_at p j)%Q * P (i - (j - (Z.quot p 2 - 1)))%Z else 0) (zseq 0 (Z.to_nat p))).
Proof.
  unfold stencil_row_b. rewrite Rsum_flat. f_equal. apply map_ext. intros j. cbv zeta.
  replace (i - (j - (Z.quot p 2 - 1)))%Z with (i - j + (Z.quot p 2 - 1))%Z by lia. destruct (on_line N _); [|reflexivity]. cbn. lra.
Qed.

Lemma line_adjoint p N (cvs : Q -> R) P V : (forall q, cvs (- q)%Q = - cvs q) ->
  line_sum N (fun i => Rsum (map (fun kc => cvs (snd kc) * P (fst kc)) (stencil_row p N i)) * V i) =
  - line_sum N (fun i => P i * Rsum (map (fun kc => cvs (snd kc) * V (fst kc)) (stencil_row_b p N i))).
Proof.
  intros Hc.
  rewrite (ls_ext N _ (fun i => Rsum (map (fun j => if on_line N (i + (j - (Z.quot p 2 - 1))) then cvs (stencil_at p j) * P (i + (j - (Z.quot p 2 - 1)))%Z * V i else 0) (zseq 0 (Z.to_nat p))))).
  2:{ intros i _. rewrite row_f, Rmult_comm, <- Rsum_map_mul. f_equal. apply map_ext. intros j. destruct (on_line _ _); lra. }
  rewrite (ls_ext N (fun i => P i * _) (fun i => -1 * Rsum (map (fun j => if on_line N (i - (j - (Z.quot p 2 - 1))) then cvs (stencil_at p j) * P i * V (i - (j - (Z.quot p 2 - 1)))%Z else 0) (zseq 0 (Z.to_nat p))))).
  2:{ intros i _. rewrite row_b, <- !Rsum_map_mul. f_equal. apply map_ext. intros j. rewrite Hc. destruct (on_line _ _); lra. }
  rewrite ls_mul. unfold line_sum. rewrite Rsum_swap. rewrite (Rsum_swap (zseq 0 (Z.to_nat N))).
  match goal with |- _ = - (-1 * ?x) => replace (- (-1 * x)) with x by lra end. f_equal. apply map_ext. intros j.
  set (d := (j - (Z.quot p 2 - 1))%Z).
  pose proof (ls_shift N d (fun i => cvs (stencil_at p j) * P (i + d)%Z * V i)) as G. unfold line_sum in G. rewrite G.
  f_equal. apply map_ext. intros k. destruct (on_line N (k - d)); [|reflexivity]. replace (k - d + d)%Z with k by lia. reflexivity.
Qed.

(** ** the 2-D acoustic step in closed form *)
Definition ac_vx (e : env R_arith) (st : rstate) (i : Z) : R :=
  st "vX"%string i + mv (e_mat e "Dxf"%string i) (st "p"%string) * e_coef e "inverseDensityAverageX"%string i.
Definition ac_vy (e : env R_arith) (c : cfg) (st : rstate) (i : Z) : R :=
  st "vY"%string i + mv (e_mat e (if (c_fs c =? 1)%Z then "DyfFreeSurface" else "Dyf")%string i) (st "p"%string) * e_coef e "inverseDensityAverageY"%string i.
Definition ac_p (e : env R_arith) (c : cfg) (st : rstate) (i : Z) : R :=
  (st "p"%string i + (mv (e_mat e "Dxb"%string i) (ac_vx e st) + mv (e_mat e "Dyb"%string i) (ac_vy e c st)) * e_coef e "pWaveModulus"%string i) *
  (if (c_fs c =? 1)%Z then e_coef e "setZeroFreeSurface"%string i else 1).

Lemma ac_step (e : env R_arith) c src t st : undamped c ->
  let st' := exec e src t (step_prog FD2Dacoustic c) st in
  (forall i, st' "vX"%string i = ac_vx e st i + injected (src TVX) t i) /\
  (forall i, st' "vY"%string i = ac_vy e c st i + injected (src TVY) t i) /\
  (forall i, st' "p"%string i = ac_p e c st i + injected (src TP) t i).
Proof.
  intros (H1&H2&H3&H4&H5&H6) st'. subst st'.
  assert (G : forall n i, exec e src t (step_prog FD2Dacoustic c) st n i = _) by (intros; apply inject_step; left; reflexivity).
  destruct c as [pml dmp fs itF itX itZ itXZ L]. cbn [c_pml c_damp c_fs c_itF c_itX c_itZ c_itXZ] in *. subst.
  cbn [s_inj s_run FD2Dacoustic] in G.
  repeat split; intros i; rewrite G; cbn [s_types FD2Dacoustic seismic_types map inj_2Dacoustic];
  unfold run_2Dacoustic, ac_p, ac_vx, ac_vy; cbn [c_pml c_damp c_fs c_itF c_itX c_itZ c_itXZ when]; destruct (fs =? 1)%Z; cbn; lra.
Qed.

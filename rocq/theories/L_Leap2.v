(** Energy, reciprocity and reversibility of the 2-D acoustic scheme. *)
From Coq Require Import QArith Qreals Reals Lra.
From Verif Require Import M_Grid M_Deriv S_Deriv L_Deriv L_Deriv2 M_Prog M_Solvers M_Env S_Solver L_Prog L_Lin L_Src L_Surface L_Leap.
Open Scope R_scope.

Notation mvR := (@mv R_arith).
Lemma opp1 x : - x = -1 * x.
Proof. lra. Qed.
Lemma mv_ext row x y : (forall kc, In kc row -> x (fst kc) = y (fst kc)) -> mvR row x = mvR row y.
Proof.
  rewrite !mv_R. intros H. f_equal. apply map_ext_in. intros kc Hk. pose proof (H kc Hk) as E. cbn in *. rewrite E. reflexivity.
Qed.
Lemma mv_add row x y : mvR row (fun i => x i + y i) = mvR row x + mvR row y.
Proof. rewrite !mv_R, <- Rsum_map_add. f_equal. apply map_ext. intros kc. cbn. lra. Qed.
Lemma mv_mul row a x : mvR row (fun i => a * x i) = a * mvR row x.
Proof. rewrite !mv_R, <- Rsum_map_mul. f_equal. apply map_ext. intros kc. cbn. lra. Qed.

(** ** adjointness on the grid *)
Section adj.
Variables (e : env R_arith) (c : cfg) (useVar hybrid : bool) (nx ny nz p : Z) (rest : list Z) (DH : Q) (fuel : nat)
  (cvs cv : Q -> R) (g : grid).
Hypothesis HM : @fd_matrices R_arith e c true useVar hybrid nx ny nz p rest DH fuel cvs cv g.
Hypothesis Hodd : forall q, cvs (- q)%Q = - cvs q.
Notation gs := (grid_sum nx ny nz).

Lemma adj_x P V : gs (fun i => mvR (e_mat e "Dxf"%string i) P * V i) = - gs (fun i => P i * mvR (e_mat e "Dxb"%string i) V).
Proof.
  unfold grid_sum. rewrite opp1, <- ls_mul.
  apply ls_ext. intros y Hy. rewrite <- ls_mul. apply ls_ext. intros z Hz.
  transitivity (line_sum nx (fun x => Rsum (map (fun kc => cvs (snd kc) * P (reg_index nx nz (fst kc) y z)) (stencil_row p nx x)) * V (reg_index nx nz x y z))).
  - apply ls_ext. intros x Hx. pose proof (fm_xf _ _ _ _ _ _ _ _ _ _ _ _ _ _ _ _ HM x y z Hx Hy Hz) as E. cbv zeta in E. unfold code_row, nm_s in E.
    unfold nm_s. rewrite E, mv_stencil. reflexivity.
  - rewrite (line_adjoint p nx cvs (fun X => P (reg_index nx nz X y z)) (fun X => V (reg_index nx nz X y z)) Hodd).
    rewrite opp1. f_equal. apply ls_ext. intros x Hx.
    pose proof (fm_xb _ _ _ _ _ _ _ _ _ _ _ _ _ _ _ _ HM x y z Hx Hy Hz) as E. cbv zeta in E. unfold code_row, nm_s in E.
    unfold nm_s. rewrite E, mv_stencil. reflexivity.
Qed.

Lemma adj_y P V : gs (fun i => mvR (e_mat e "Dyf"%string i) P * V i) = - gs (fun i => P i * mvR (e_mat e "Dyb"%string i) V).
Proof.
  unfold grid_sum. rewrite !(ls_swap ny nz).
  rewrite opp1, <- ls_mul.
  apply ls_ext. intros z Hz. rewrite !(ls_swap ny nx). rewrite <- ls_mul. apply ls_ext. intros x Hx.
  transitivity (line_sum ny (fun y => Rsum (map (fun kc => cvs (snd kc) * P (reg_index nx nz x (fst kc) z)) (stencil_row p ny y)) * V (reg_index nx nz x y z))).
  - apply ls_ext. intros y Hy. pose proof (fm_yf _ _ _ _ _ _ _ _ _ _ _ _ _ _ _ _ HM x y z Hx Hy Hz "Dyf"%string (or_introl eq_refl)) as E.
    unfold code_row, nm_s in E. unfold nm_s. rewrite E, mv_stencil. reflexivity.
  - rewrite (line_adjoint p ny cvs (fun X => P (reg_index nx nz x X z)) (fun X => V (reg_index nx nz x X z)) Hodd).
    rewrite opp1. f_equal. apply ls_ext. intros y Hy.
    pose proof (fm_yb _ _ _ _ _ _ _ _ _ _ _ _ _ _ _ _ HM x y z Hx Hy Hz "Dyb"%string (or_introl eq_refl)) as E.
    unfold code_row, nm_s in E. unfold nm_s. rewrite E, mv_stencil. reflexivity.
Qed.
End adj.

Lemma state_at_step s c (sh : shot R_arith) n st : state_at s c sh 0 (S n) st = exec (sh_env sh) (sh_src sh) n (step_prog s c) (state_at s c sh 0 n st).
Proof. apply state_at_S. Qed.

(** ** energy *)
Section energy.
Variables (e : env R_arith) (c : cfg) (useVar hybrid : bool) (nx ny nz p : Z) (rest : list Z) (DH : Q) (fuel : nat)
  (cvs cv : Q -> R) (g : grid).
Hypothesis HM : @fd_matrices R_arith e c true useVar hybrid nx ny nz p rest DH fuel cvs cv g.
Hypothesis Hodd : forall q, cvs (- q)%Q = - cvs q.
Hypothesis Hu : undamped c.
Hypothesis Hfs : (c_fs c =? 1)%Z = false.
Notation gs := (grid_sum nx ny nz).
Notation rx := (e_coef e "inverseDensityAverageX"%string).
Notation ry := (e_coef e "inverseDensityAverageY"%string).
Notation K := (e_coef e "pWaveModulus"%string).
Hypothesis Hpos : forall x y z, (0 <= x < nx)%Z -> (0 <= y < ny)%Z -> (0 <= z < nz)%Z ->
  rx (reg_index nx nz x y z) <> 0 /\ ry (reg_index nx nz x y z) <> 0 /\ K (reg_index nx nz x y z) <> 0.

(** energy with the velocities of this and of the next time step *)
Definition energy (st nxt : rstate) : R :=
  gs (fun i => st "p"%string i * st "p"%string i / K i) +
  gs (fun i => st "vX"%string i * nxt "vX"%string i / rx i) + gs (fun i => st "vY"%string i * nxt "vY"%string i / ry i).

Variable src : acq R_arith.
Hypothesis Hsrc : forall ty t i, injected (src ty) t i = 0.
Notation sh := (Shot R_arith e src (fun _ => []) 0).

Lemma energy_step n st :
  energy (state_at FD2Dacoustic c sh 0 n st) (state_at FD2Dacoustic c sh 0 (S n) st) =
  energy (state_at FD2Dacoustic c sh 0 (S n) st) (state_at FD2Dacoustic c sh 0 (S (S n)) st).
Proof.
  set (s0 := state_at FD2Dacoustic c sh 0 n st). set (s1 := state_at FD2Dacoustic c sh 0 (S n) st). set (s2 := state_at FD2Dacoustic c sh 0 (S (S n)) st).
  assert (E1 : s1 = exec e src n (step_prog FD2Dacoustic c) s0) by apply state_at_step.
  assert (E2 : s2 = exec e src (S n) (step_prog FD2Dacoustic c) s1) by apply state_at_step.
  destruct (ac_step e c src n s0 Hu) as (X1&Y1&P1). rewrite <- E1 in X1, Y1, P1.
  destruct (ac_step e c src (S n) s1 Hu) as (X2&Y2&P2). rewrite <- E2 in X2, Y2, P2.
  clearbody s0 s1 s2. clear E1 E2.
  unfold ac_p, ac_vx, ac_vy in *. rewrite Hfs in *. fold (ac_vx e s0) in P1.
  assert (P1' : forall i, s1 "p"%string i = s0 "p"%string i + (mvR (e_mat e "Dxb"%string i) (s1 "vX"%string) + mvR (e_mat e "Dyb"%string i) (s1 "vY"%string)) * K i).
  { intros i. rewrite P1, Hsrc.
    rewrite (mv_ext (e_mat e "Dxb"%string i) (s1 "vX"%string) (ac_vx e s0)).
    2:{ intros kc _. rewrite X1, Hsrc. unfold ac_vx. lra. }
    rewrite (mv_ext (e_mat e "Dyb"%string i) (s1 "vY"%string) (fun j => s0 "vY"%string j + mvR (e_mat e "Dyf"%string j) (s0 "p"%string) * ry j)).
    2:{ intros kc _. rewrite Y1, Hsrc. lra. }
    lra. }
  assert (X2' : forall i, s2 "vX"%string i = s0 "vX"%string i + (mvR (e_mat e "Dxf"%string i) (fun j => s0 "p"%string j + s1 "p"%string j)) * rx i).
  { intros i. rewrite X2, X1, !Hsrc, mv_add. lra. }
  assert (Y2' : forall i, s2 "vY"%string i = s0 "vY"%string i + (mvR (e_mat e "Dyf"%string i) (fun j => s0 "p"%string j + s1 "p"%string j)) * ry i).
  { intros i. rewrite Y2, Y1, !Hsrc, mv_add. lra. }
  pose proof (adj_x e c useVar hybrid nx ny nz p rest DH fuel cvs cv g HM Hodd (fun j => s0 "p"%string j + s1 "p"%string j) (s1 "vX"%string)) as AX.
  pose proof (adj_y e c useVar hybrid nx ny nz p rest DH fuel cvs cv g HM Hodd (fun j => s0 "p"%string j + s1 "p"%string j) (s1 "vY"%string)) as AY.
  unfold energy.
  assert (KX : gs (fun i => s1 "vX"%string i * s2 "vX"%string i / rx i) =
    gs (fun i => s0 "vX"%string i * s1 "vX"%string i / rx i) + gs (fun i => mvR (e_mat e "Dxf"%string i) (fun j => s0 "p"%string j + s1 "p"%string j) * s1 "vX"%string i)).
  { rewrite <- gs_add. apply gs_ext. intros x y z Hx Hy Hz. destruct (Hpos x y z Hx Hy Hz) as (N1&N2&N3). rewrite X2'. field. exact N1. }
  assert (KY : gs (fun i => s1 "vY"%string i * s2 "vY"%string i / ry i) =
    gs (fun i => s0 "vY"%string i * s1 "vY"%string i / ry i) + gs (fun i => mvR (e_mat e "Dyf"%string i) (fun j => s0 "p"%string j + s1 "p"%string j) * s1 "vY"%string i)).
  { rewrite <- gs_add. apply gs_ext. intros x y z Hx Hy Hz. destruct (Hpos x y z Hx Hy Hz) as (N1&N2&N3). rewrite Y2'. field. exact N2. }
  assert (KP : gs (fun i => s1 "p"%string i * s1 "p"%string i / K i) = gs (fun i => s0 "p"%string i * s0 "p"%string i / K i) +
    (gs (fun i => (s0 "p"%string i + s1 "p"%string i) * mvR (e_mat e "Dxb"%string i) (s1 "vX"%string)) +
     gs (fun i => (s0 "p"%string i + s1 "p"%string i) * mvR (e_mat e "Dyb"%string i) (s1 "vY"%string)))).
  { rewrite <- !gs_add. apply gs_ext. intros x y z Hx Hy Hz. destruct (Hpos x y z Hx Hy Hz) as (N1&N2&N3).
    specialize (P1' (reg_index nx nz x y z)). revert P1'. generalize (s1 "p"%string (reg_index nx nz x y z)).
    intros r ->. field. exact N3. }
  rewrite KX, KY, KP, AX, AY. lra.
Qed.

Lemma energy_const n st : energy (state_at FD2Dacoustic c sh 0 n st) (state_at FD2Dacoustic c sh 0 (S n) st) = energy st (state_at FD2Dacoustic c sh 0 1 st).
Proof. induction n as [|n IH]; [reflexivity|]. rewrite <- energy_step. exact IH. Qed.
End energy.

(** ** reciprocity *)
Section recip.
Variables (e : env R_arith) (c : cfg) (useVar hybrid : bool) (nx ny nz p : Z) (rest : list Z) (DH : Q) (fuel : nat)
  (cvs cv : Q -> R) (g : grid).
Hypothesis HM : @fd_matrices R_arith e c true useVar hybrid nx ny nz p rest DH fuel cvs cv g.
Hypothesis Hodd : forall q, cvs (- q)%Q = - cvs q.
Hypothesis Hu : undamped c.
Hypothesis Hfs : (c_fs c =? 1)%Z = false.
Notation gs := (grid_sum nx ny nz).
Notation rx := (e_coef e "inverseDensityAverageX"%string).
Notation ry := (e_coef e "inverseDensityAverageY"%string).
Notation K := (e_coef e "pWaveModulus"%string).
Hypothesis HK : forall x y z, (0 <= x < nx)%Z -> (0 <= y < ny)%Z -> (0 <= z < nz)%Z -> K (reg_index nx nz x y z) <> 0.

Definition Lop (f : Z -> R) (i : Z) : R :=
  K i * (mvR (e_mat e "Dxb"%string i) (fun j => rx j * mvR (e_mat e "Dxf"%string j) f) +
         mvR (e_mat e "Dyb"%string i) (fun j => ry j * mvR (e_mat e "Dyf"%string j) f)).

Lemma Lop_ext f h : (forall i, f i = h i) -> forall i, Lop f i = Lop h i.
Proof.
  intros H i. unfold Lop. f_equal. f_equal; apply mv_ext; intros kc _; f_equal; apply mv_ext; intros kc' _; apply H.
Qed.
Lemma Lop_add f h i : Lop (fun j => f j + h j) i = Lop f i + Lop h i.
Proof.
  unfold Lop. rewrite <- Rmult_plus_distr_l. f_equal.
  rewrite (mv_ext _ (fun j => rx j * mvR (e_mat e "Dxf"%string j) (fun k => f k + h k)) (fun j => rx j * mvR (e_mat e "Dxf"%string j) f + rx j * mvR (e_mat e "Dxf"%string j) h)).
  2:{ intros. rewrite mv_add. lra. }
  rewrite (mv_ext _ (fun j => ry j * mvR (e_mat e "Dyf"%string j) (fun k => f k + h k)) (fun j => ry j * mvR (e_mat e "Dyf"%string j) f + ry j * mvR (e_mat e "Dyf"%string j) h)).
  2:{ intros. rewrite mv_add. lra. }
  rewrite !mv_add. lra.
Qed.
Lemma Lop_mul a f i : Lop (fun j => a * f j) i = a * Lop f i.
Proof.
  unfold Lop.
  rewrite (mv_ext _ (fun j => rx j * mvR (e_mat e "Dxf"%string j) (fun k => a * f k)) (fun j => a * (rx j * mvR (e_mat e "Dxf"%string j) f))).
  2:{ intros. rewrite mv_mul. lra. }
  rewrite (mv_ext _ (fun j => ry j * mvR (e_mat e "Dyf"%string j) (fun k => a * f k)) (fun j => a * (ry j * mvR (e_mat e "Dyf"%string j) f))).
  2:{ intros. rewrite mv_mul. lra. }
  rewrite !mv_mul. lra.
Qed.

Definition ip (f h : Z -> R) : R := gs (fun i => f i * h i / K i).
Lemma ip_ext f f' h h' : (forall i, f i = f' i) -> (forall i, h i = h' i) -> ip f h = ip f' h'.
Proof. intros H H'. apply gs_ext. intros. rewrite H, H'. reflexivity. Qed.
Lemma ip_sym f h : ip f h = ip h f.
Proof. apply gs_ext. intros. unfold Rdiv. lra. Qed.
Lemma ip_add f f' h : ip (fun i => f i + f' i) h = ip f h + ip f' h.
Proof. unfold ip. rewrite <- gs_add. apply gs_ext. intros. unfold Rdiv. lra. Qed.
Lemma ip_mul a f h : ip (fun i => a * f i) h = a * ip f h.
Proof. unfold ip. rewrite <- gs_mul. apply gs_ext. intros. unfold Rdiv. lra. Qed.

Lemma ip_comb a b d f x h : ip (fun i => 2 * a i + -1 * b i + d i + x * f i) h = 2 * ip a h + -1 * ip b h + ip d h + x * ip f h.
Proof.
  rewrite (ip_add (fun i => 2 * a i + -1 * b i + d i) (fun i => x * f i)), (ip_add (fun i => 2 * a i + -1 * b i) d),
    (ip_add (fun i => 2 * a i) (fun i => -1 * b i)), !ip_mul. reflexivity.
Qed.

Lemma L_quad f h : ip (Lop f) h =
  - (gs (fun i => rx i * (mvR (e_mat e "Dxf"%string i) f * mvR (e_mat e "Dxf"%string i) h)) +
     gs (fun i => ry i * (mvR (e_mat e "Dyf"%string i) f * mvR (e_mat e "Dyf"%string i) h))).
Proof.
  unfold ip.
  transitivity (gs (fun i => h i * mvR (e_mat e "Dxb"%string i) (fun j => rx j * mvR (e_mat e "Dxf"%string j) f)) +
                gs (fun i => h i * mvR (e_mat e "Dyb"%string i) (fun j => ry j * mvR (e_mat e "Dyf"%string j) f))).
  - rewrite <- gs_add. apply gs_ext. intros x y z Hx Hy Hz. unfold Lop. field. apply HK; auto.
  - pose proof (adj_x e c useVar hybrid nx ny nz p rest DH fuel cvs cv g HM Hodd h (fun j => rx j * mvR (e_mat e "Dxf"%string j) f)) as AX.
    pose proof (adj_y e c useVar hybrid nx ny nz p rest DH fuel cvs cv g HM Hodd h (fun j => ry j * mvR (e_mat e "Dyf"%string j) f)) as AY.
    rewrite (gs_ext nx ny nz (fun i => rx i * (mvR (e_mat e "Dxf"%string i) f * mvR (e_mat e "Dxf"%string i) h)) (fun i => mvR (e_mat e "Dxf"%string i) h * (rx i * mvR (e_mat e "Dxf"%string i) f))) by (intros; lra).
    rewrite (gs_ext nx ny nz (fun i => ry i * (mvR (e_mat e "Dyf"%string i) f * mvR (e_mat e "Dyf"%string i) h)) (fun i => mvR (e_mat e "Dyf"%string i) h * (ry i * mvR (e_mat e "Dyf"%string i) f))) by (intros; lra).
    rewrite AX, AY. lra.
Qed.
Lemma L_self f h : ip (Lop f) h = ip f (Lop h).
Proof.
  rewrite (ip_sym f). rewrite !L_quad. f_equal. f_equal; apply gs_ext; intros; lra.
Qed.

(** p after n steps from rest for the source distribution f with signal w, and p one step earlier *)
Fixpoint Qn (w : nat -> R) (n : nat) (f : Z -> R) : (Z -> R) * (Z -> R) :=
  match n with
  | O => (fun _ => 0, fun _ => 0)
  | S m => let (a, b) := Qn w m f in
           (fun i => 2 * a i + -1 * b i + Lop a i + (w m - match m with O => 0 | S k => w k end) * f i, a)
  end.
Lemma Qn_snd w n f : snd (Qn w (S n) f) = fst (Qn w n f).
Proof. cbn [Qn]. destruct (Qn w n f). reflexivity. Qed.

Lemma Lop_0 i : Lop (fun _ => 0) i = 0.
Proof.
  rewrite (Lop_ext (fun _ => 0) (fun j => 0 * 0) ltac:(intros; lra)). rewrite (Lop_mul 0 (fun _ => 0)). lra.
Qed.
Lemma Lop_4 a b d f x w i : Lop (fun j => 2 * a j + -1 * b j + d j + x * f j) i = 2 * Lop a i + -1 * Lop b i + Lop d i + x * Lop f i + 0 * w.
Proof.
  rewrite (Lop_add (fun j => 2 * a j + -1 * b j + d j) (fun j => x * f j)).
  rewrite (Lop_add (fun j => 2 * a j + -1 * b j) d). rewrite (Lop_add (fun j => 2 * a j) (fun j => -1 * b j)). rewrite !Lop_mul. lra.
Qed.
Lemma Q_comm w f : forall n, (forall i, fst (Qn w n (Lop f)) i = Lop (fst (Qn w n f)) i) /\ (forall i, snd (Qn w n (Lop f)) i = Lop (snd (Qn w n f)) i).
Proof.
  induction n as [|n [IH1 IH2]]; [split; intros; symmetry; apply Lop_0|].
  cbn [Qn]. destruct (Qn w n (Lop f)) as [a b], (Qn w n f) as [a' b']. cbn [fst snd] in *. split; [|exact IH1].
  intros i. rewrite (Lop_4 a' b' (Lop a') f _ 0). rewrite IH1, IH2. rewrite (Lop_ext a (Lop a') IH1). lra.
Qed.
Lemma Q_self w f h : forall n, ip (fst (Qn w n f)) h = ip f (fst (Qn w n h)) /\ ip (snd (Qn w n f)) h = ip f (snd (Qn w n h)).
Proof.
  revert f h.
  assert (Z0 : forall f, ip (fun _ => 0) f = 0).
  { intros f. rewrite (ip_ext (fun _ => 0) (fun _ => 0 * 0) f f) by (intros; lra). rewrite (ip_mul 0 (fun _ => 0)). lra. }
  assert (G : forall n f h, ip (fst (Qn w n f)) h = ip f (fst (Qn w n h)) /\ ip (snd (Qn w n f)) h = ip f (snd (Qn w n h))).
  { induction n as [|n IH]; intros f h.
    - cbn [Qn fst snd]. rewrite (ip_sym f). rewrite !Z0. auto.
    - rewrite !Qn_snd. split; [|exact (proj1 (IH f h))].
      destruct (IH f h) as [I1 I2]. pose proof (proj1 (IH f (Lop h))) as I3. pose proof (proj1 (Q_comm w h n)) as C.
      cbn [Qn]. destruct (Qn w n f) as [a b], (Qn w n h) as [a' b']. cbn [fst snd] in *.
      set (x := w n - _). clearbody x.
      transitivity (2 * ip a h + -1 * ip b h + ip (Lop a) h + x * ip f h); [apply ip_comb|].
      transitivity (2 * ip a' f + -1 * ip b' f + ip (Lop a') f + x * ip h f); [|rewrite <- ip_comb; apply ip_sym].
      rewrite I1, I2, L_self, I3, (ip_ext f f _ (Lop a') (fun _ => eq_refl) C).
      rewrite (ip_sym a' f), (ip_sym b' f), (ip_sym (Lop a') f), (ip_sym h f). reflexivity. }
  intros f h n. apply G.
Qed.

(** the solver computes Qn *)
Variables (src : acq R_arith) (w : nat -> R) (f : Z -> R).
Hypothesis Hv : forall ty t i, ty <> TP -> injected (src ty) t i = 0.
Hypothesis Hp : forall t i, injected (src TP) t i = w t * f i.
Notation sh := (Shot R_arith e src (fun _ => []) 0).
Variable st : rstate.
Hypothesis H0 : forall i, st "p"%string i = 0 /\ st "vX"%string i = 0 /\ st "vY"%string i = 0.

Lemma Q_run n : (forall i, state_at FD2Dacoustic c sh 0 n st "p"%string i = fst (Qn w n f) i) /\
  (forall i, K i * (mvR (e_mat e "Dxb"%string i) (state_at FD2Dacoustic c sh 0 n st "vX"%string) + mvR (e_mat e "Dyb"%string i) (state_at FD2Dacoustic c sh 0 n st "vY"%string)) =
     fst (Qn w n f) i - snd (Qn w n f) i - match n with O => 0 | S k => w k end * f i).
Proof.
  induction n as [|n [IH1 IH2]].
  - cbn [state_at Qn fst snd]. split; [intros i; apply H0|]. intros i.
    rewrite (mv_ext _ (st "vX"%string) (fun j => 0 * 0)), (mv_ext _ (st "vY"%string) (fun j => 0 * 0)).
    2,3: intros; destruct (H0 (fst kc)) as (_&A1&A2); rewrite ?A1, ?A2; lra.
    rewrite !(mv_mul _ 0 (fun _ => 0)). lra.
  - rewrite state_at_step. set (s0 := state_at FD2Dacoustic c sh 0 n st) in *. cbn [sh_env sh_src].
    destruct (ac_step e c src n s0 Hu) as (X1&Y1&P1). set (s1 := exec e src n (step_prog FD2Dacoustic c) s0) in *. clearbody s0 s1.
    unfold ac_p, ac_vy in *. rewrite Hfs in *.
    assert (EX : forall i, s1 "vX"%string i = s0 "vX"%string i + rx i * mvR (e_mat e "Dxf"%string i) (fst (Qn w n f))).
    { intros i. rewrite X1, Hv by discriminate. unfold ac_vx. rewrite (mv_ext _ (s0 "p"%string) (fst (Qn w n f))) by (intros; apply IH1). lra. }
    assert (EY : forall i, s1 "vY"%string i = s0 "vY"%string i + ry i * mvR (e_mat e "Dyf"%string i) (fst (Qn w n f))).
    { intros i. rewrite Y1, Hv by discriminate. rewrite (mv_ext _ (s0 "p"%string) (fst (Qn w n f))) by (intros; apply IH1). lra. }
    assert (EV : forall i, K i * (mvR (e_mat e "Dxb"%string i) (s1 "vX"%string) + mvR (e_mat e "Dyb"%string i) (s1 "vY"%string)) =
       fst (Qn w n f) i - snd (Qn w n f) i - match n with O => 0 | S k => w k end * f i + Lop (fst (Qn w n f)) i).
    { intros i. 
      rewrite (mv_ext (e_mat e "Dxb"%string i) (s1 "vX"%string) (fun j => s0 "vX"%string j + rx j * mvR (e_mat e "Dxf"%string j) (fst (Qn w n f))) (fun kc _ => EX (fst kc))).
      rewrite (mv_ext (e_mat e "Dyb"%string i) (s1 "vY"%string) (fun j => s0 "vY"%string j + ry j * mvR (e_mat e "Dyf"%string j) (fst (Qn w n f))) (fun kc _ => EY (fst kc))).
      rewrite !mv_add.
      rewrite <- IH2. unfold Lop. lra. }
    assert (EP : forall i, s1 "p"%string i = fst (Qn w (S n) f) i).
    { intros i. rewrite P1, Hp.
      rewrite (mv_ext (e_mat e "Dxb"%string i) (ac_vx e s0) (s1 "vX"%string)) by (intros; rewrite X1, Hv by discriminate; lra).
      rewrite (mv_ext (e_mat e "Dyb"%string i) _ (s1 "vY"%string)) by (intros; rewrite Y1, Hv by discriminate; lra).
      rewrite (Rmult_comm (mvR _ _ + _)), EV, IH1. cbn [Qn]. destruct (Qn w n f) as [a b]. cbn [fst snd]. lra. }
    split; [exact EP|]. intros i. rewrite EV, Qn_snd. cbn [Qn]. destruct (Qn w n f) as [a b]. cbn [fst snd]. lra.
Qed.
End recip.

(** sum over the grid of a function supported at one point *)
Lemma gs_delta nx ny nz x0 y0 z0 F : (0 < nx)%Z -> (0 < ny)%Z -> (0 < nz)%Z -> (0 <= x0 < nx)%Z -> (0 <= y0 < ny)%Z -> (0 <= z0 < nz)%Z ->
  (forall x y z, (0 <= x < nx)%Z -> (0 <= y < ny)%Z -> (0 <= z < nz)%Z -> reg_index nx nz x y z = reg_index nx nz x0 y0 z0 -> x = x0 /\ y = y0 /\ z = z0) ->
  grid_sum nx ny nz (fun i => if (i =? reg_index nx nz x0 y0 z0)%Z then F i else 0) = F (reg_index nx nz x0 y0 z0).
Proof.
  intros Nx Ny Nz Hx Hy Hz Hinj. unfold grid_sum.
  transitivity (line_sum ny (fun y => if (y =? y0)%Z then F (reg_index nx nz x0 y0 z0) else 0)).
  - apply ls_ext. intros y Hy'. transitivity (line_sum nz (fun z => if (z =? z0)%Z then (if (y =? y0)%Z then F (reg_index nx nz x0 y0 z0) else 0) else 0)).
    + apply ls_ext. intros z Hz'. transitivity (line_sum nx (fun x => if (x =? x0)%Z then (if (z =? z0)%Z then (if (y =? y0)%Z then F (reg_index nx nz x0 y0 z0) else 0) else 0) else 0)).
      * apply ls_ext. intros x Hx'. destruct (Z.eqb_spec (reg_index nx nz x y z) (reg_index nx nz x0 y0 z0)) as [E|E].
        -- destruct (Hinj x y z Hx' Hy' Hz' E) as (->&->&->). rewrite !Z.eqb_refl. reflexivity.
        -- destruct (Z.eqb_spec x x0) as [->|]; [|reflexivity]. destruct (Z.eqb_spec z z0) as [->|]; [|reflexivity].
           destruct (Z.eqb_spec y y0) as [->|]; [|reflexivity]. destruct E; reflexivity.
      * rewrite (ls_ind nx (fun _ => _)). unfold on_line. replace ((0 <=? x0) && (x0 <? nx))%Z%bool with true by lia. reflexivity.
    + rewrite (ls_ind nz (fun _ => _)). unfold on_line. replace ((0 <=? z0) && (z0 <? nz))%Z%bool with true by lia. reflexivity.
  - rewrite (ls_ind ny (fun _ => _)). unfold on_line. replace ((0 <=? y0) && (y0 <? ny))%Z%bool with true by lia. reflexivity.
Qed.

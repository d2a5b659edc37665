(** Growth of the acoustic scheme beyond the CFL limit. *)
From Coq Require Import QArith Qreals Qabs Reals Lra.
From Verif Require Import M_Grid M_Deriv S_Deriv L_Deriv L_Deriv2 M_Prog M_Solvers M_Env S_Solver S_Step S_Check S_Energy L_Prog L_Lin L_Src L_Surface L_Leap L_Leap2 L_Diff L_Energy.
Open Scope R_scope.
Open Scope list_scope.

(** ** a sequence whose second differences stay away from 0 is unbounded *)
Lemma second_diff (F : nat -> R) g : 0 < g -> (forall n, g <= F (S (S n)) - 2 * F (S n) + F n) -> forall B, exists n, B < F n.
Proof.
  intros Hg H B.
  assert (D : forall n, F 1%nat - F 0%nat + INR n * g <= F (S n) - F n).
  { induction n as [|n IH]; [cbn; lra|]. rewrite S_INR. specialize (H n). lra. }
  assert (A : forall x, exists n, x < INR n * g).
  { intros x. destruct (archimed (x / g)) as (A & _). exists (Z.to_nat (Rdefinitions.up (x / g))). 
    destruct (Rle_dec 0 x) as [P|P].
    - assert (0 <= x / g) by (apply Rle_mult_inv_pos; assumption). assert (0 <= Rdefinitions.up (x / g))%Z by (apply le_IZR; lra).
      rewrite INR_IZR_INZ, Z2Nat.id by assumption. apply (Rmult_gt_compat_r g) in A; [|exact Hg]. unfold Rdiv in A. rewrite Rmult_assoc, Rinv_l in A by lra. unfold Rdiv. lra.
    - apply Rlt_le_trans with 0; [lra|]. apply Rmult_le_pos; [apply pos_INR|lra]. }
  destruct (A (g - (F 1%nat - F 0%nat))) as (N & HN).
  assert (G : forall m, F N + INR m * g <= F (m + N)%nat).
  { induction m as [|m IH]; [cbn [INR Nat.add]; lra|]. rewrite S_INR. cbn [Nat.add]. pose proof (D (m + N)%nat) as Q. rewrite plus_INR in Q.
    pose proof (pos_INR m) as Hm. assert (0 <= INR m * g) by (apply Rmult_le_pos; lra). nra. }
  destruct (A (B - F N)) as (m & Hm). exists (m + N)%nat. specialize (G m). lra.
Qed.

(** ** the checkerboard *)
Definition sgn (n : Z) : R := if Z.even n then 1 else -1.
Lemma sgn_sq n : sgn n * sgn n = 1.
Proof. unfold sgn. destruct (Z.even n); lra. Qed.
Lemma sgn_add m n : sgn (m + n) = sgn m * sgn n.
Proof. unfold sgn. rewrite Z.even_add. destruct (Z.even m), (Z.even n); cbn; lra. Qed.
Definition checker (nx nz i : Z) : R := sgn (i mod nx + (i / nx) mod nz + i / (nx * nz)).
Lemma checker_at nx ny nz x y z : inside nx ny nz x y z -> checker nx nz (reg_index nx nz x y z) = sgn x * sgn y * sgn z.
Proof.
  intros (Hx & Hy & Hz). unfold checker, reg_index.
  replace (x + z * nx + y * nx * nz)%Z with (x + (z + y * nz) * nx)%Z by ring.
  rewrite Z.mod_add, Z.div_add by lia. rewrite (Z.mod_small x nx), (Z.div_small x nx), Z.add_0_l by lia.
  rewrite Z.mod_add, (Z.mod_small z nz) by lia. rewrite <- Z.div_div by lia. rewrite Z.div_add, (Z.div_small x nx), Z.add_0_l by lia.
  rewrite Z.div_add, (Z.div_small z nz), Z.add_0_l by lia. rewrite !sgn_add. ring.
Qed.
(** the coefficients alternate as the checkerboard does *)
Lemma alternating p : supported p -> forall j, In j (zseq 0 (Z.to_nat p)) -> Q2R (stencil_at p j) * sgn (j - (Z.quot p 2 - 1)) = - Rabs (Q2R (stencil_at p j)).
Proof.
  intros Hp.
  assert (G : forallb (fun j => if Z.even (j - (Z.quot p 2 - 1)) then Qle_bool (stencil_at p j) 0 else Qle_bool 0 (stencil_at p j)) (zseq 0 (Z.to_nat p)) = true).
  { destruct Hp as [<-|[<-|[<-|[<-|[<-|[<-|[]]]]]]]; vm_compute; reflexivity. }
  intros j Hj. apply (proj1 (forallb_forall _ _) G) in Hj. unfold sgn. destruct (Z.even _); apply Qle_bool_iff, Qle_Rle in Hj.
  - unfold Q2R at 2 in Hj. cbn in Hj. rewrite Rabs_left1 by lra. lra.
  - unfold Q2R at 1 in Hj. cbn in Hj. rewrite Rabs_pos_eq by lra. lra.
Qed.
Lemma dline_checker p N k F s X : supported p -> (forall Y, (0 <= Y < N)%Z -> F Y = s * sgn Y) -> s * s = 1 -> (Z.quot p 2 - 1 <= X < N - Z.quot p 2)%Z ->
  dline false p N k F X * dline false p N k F X = (2 * fd_h p * k) * (2 * fd_h p * k).
Proof.
  intros Hp HF Hs HX.
  assert (E : dline false p N k F X = - (s * sgn X * k) * (2 * fd_h p)).
  { rewrite dline_form, <- sum_abs by exact Hp. rewrite <- Rsum_map_mul. apply Rsum_map_ext. intros j Hj. cbv zeta beta iota.
    pose proof (alternating p Hp j Hj) as A. apply zseq_In in Hj. destruct (supported_even p Hp) as (h & Eh & Hh).
    assert (Eq : Z.quot p 2 = h) by (rewrite Eh, Z.mul_comm; apply Z.quot_mul; lia). rewrite Eq in *.
    unfold on_line. replace (((0 <=? X + (j - (h - 1))) && (X + (j - (h - 1)) <? N))%Z) with true by lia.
    rewrite HF by lia. rewrite sgn_add. transitivity (s * sgn X * k * (Q2R (stencil_at p j) * sgn (j - (h - 1)))); [ring|]. rewrite A. ring. }
  rewrite E. transitivity ((s * s) * (sgn X * sgn X) * ((2 * fd_h p * k) * (2 * fd_h p * k))); [ring|]. rewrite Hs, sgn_sq. ring.
Qed.
Lemma ls_part N F a m : (forall X, (0 <= X < N)%Z -> 0 <= F X) -> (0 <= a)%Z -> forall b, (b <= N)%Z -> (forall X, (a <= X < b)%Z -> m <= F X) -> 0 <= m ->
  IZR (b - a) * m <= line_sum N F.
Proof.
  intros H0 Ha b Hb H Hm.
  assert (G : forall n s, (forall X, (s <= X < s + Z.of_nat n)%Z -> 0 <= F X) ->
     IZR (Z.max 0 (Z.min b (s + Z.of_nat n) - Z.max a s)) * m <= Rsum (map F (zseq s n))).
  { induction n as [|n IH]; intros s Hs.
    - cbn [zseq map]. change (Rsum []) with 0. replace (Z.max 0 (Z.min b (s + Z.of_nat 0) - Z.max a s)) with 0%Z by lia. lra.
    - cbn [zseq map]. change (Rsum (?x :: ?y)) with (x + Rsum y). specialize (IH (s + 1)%Z ltac:(intros; apply Hs; lia)).
      destruct (Z_le_dec a s) as [L|L]; [destruct (Z_lt_dec s b) as [L2|L2]|].
      + replace (Z.max 0 (Z.min b (s + Z.of_nat (S n)) - Z.max a s)) with (1 + Z.max 0 (Z.min b (s + 1 + Z.of_nat n) - Z.max a (s + 1)))%Z by lia.
        rewrite plus_IZR. pose proof (H s ltac:(lia)). lra.
      + replace (Z.max 0 (Z.min b (s + Z.of_nat (S n)) - Z.max a s)) with (Z.max 0 (Z.min b (s + 1 + Z.of_nat n) - Z.max a (s + 1)))%Z by lia. pose proof (Hs s ltac:(lia)). lra.
      + replace (Z.max 0 (Z.min b (s + Z.of_nat (S n)) - Z.max a s)) with (Z.max 0 (Z.min b (s + 1 + Z.of_nat n) - Z.max a (s + 1)))%Z by lia. pose proof (Hs s ltac:(lia)). lra. }
  unfold line_sum. eapply Rle_trans; [|apply G; intros; apply H0; lia].
  apply Rmult_le_compat_r; [exact Hm|]. apply IZR_le. lia.
Qed.

Section grid.
Variables (e : env R_arith) (c : cfg) (useVar hybrid : bool) (nx ny nz p : Z) (rest : list Z) (DH : Q) (fuel : nat)
  (k : R) (cv : Q -> R) (g : grid).
Hypothesis HM : @fd_matrices R_arith e c true useVar hybrid nx ny nz p rest DH fuel (fun q => Q2R q * k) cv g.
Hypothesis Hu : undamped c.
Hypothesis Hfs : c_fs c <> 1%Z.
Hypothesis Hp : supported p.
Hypothesis Hnx : (1 <= nx)%Z.
Hypothesis Hny : (1 <= ny)%Z.
Hypothesis Hnz : (1 <= nz)%Z.
Notation gs := (grid_sum nx ny nz).
Notation ri := (reg_index nx nz).
Notation D := (Dmv e "").
Notation ins := (inside nx ny nz).
Notation rst := (state R_arith).
Notation ck := (checker nx nz).
Notation ln := (len nx ny nz).

Lemma len_pos a : (1 <= ln a)%Z.
Proof. destruct a; cbn [len]; assumption. Qed.
Lemma lines_const d w : lines nx ny nz d (fun _ => IZR (ln d) * w) = w * gs (fun _ => 1).
Proof.
  rewrite (gs_lines nx ny nz d). rewrite <- lines_mul. apply lines_ext. intros q _.
  assert (E : forall n, line_sum n (fun _ => 1) = INR (Z.to_nat n)).
  { intros n. unfold line_sum. rewrite Rsum_const, zseq_length. lra. }
  rewrite E, INR_IZR_INZ, Z2Nat.id by (pose proof (len_pos d); lia). ring.
Qed.
Lemma D_checker d : ax_ok nz d -> (IZR (ln d - p + 1) / IZR (ln d)) * ((2 * fd_h p * k) * (2 * fd_h p * k)) * gs (fun _ => 1) <= gs (fun i => D d false ck i * D d false ck i).
Proof.
  intros Hd. assert (L0 : IZR (ln d) <> 0) by (apply not_0_IZR; pose proof (len_pos d); lia).
  rewrite <- (lines_const d). rewrite (gs_lines nx ny nz d (fun i => D d false ck i * D d false ck i)). apply lines_le. intros q Hq.
  rewrite (ls_ext (ln d) (fun X => D d false ck (q X) * D d false ck (q X)) (fun X => dline false p (ln d) k (fun Y => ck (q Y)) X * dline false p (ln d) k (fun Y => ck (q Y)) X)).
  2:{ intros X HX. rewrite (D_on_line e c useVar hybrid nx ny nz p rest DH fuel k cv g HM d false ck q X Hd Hq HX). reflexivity. }
  assert (ES : exists s, s * s = 1 /\ forall Y, (0 <= Y < ln d)%Z -> ck (q Y) = s * sgn Y).
  { destruct Hq as (x & y & z & H & ->). destruct (H 0%Z) as (x1 & y1 & z1 & I1 & E1 & P1 & Q1); [pose proof (len_pos d); lia|].
    exists (match d with AX => sgn y1 * sgn z1 | AY => sgn x1 * sgn z1 | AZ => sgn x1 * sgn y1 end). split.
    - pose proof (sgn_sq x1). pose proof (sgn_sq y1). pose proof (sgn_sq z1). destruct d.
      + transitivity ((sgn y1 * sgn y1) * (sgn z1 * sgn z1)); [ring|]. rewrite H1, H2. ring.
      + transitivity ((sgn x1 * sgn x1) * (sgn z1 * sgn z1)); [ring|]. rewrite H0, H2. ring.
      + transitivity ((sgn x1 * sgn x1) * (sgn y1 * sgn y1)); [ring|]. rewrite H0, H1. ring.
    - intros Y HY. rewrite <- Q1. destruct I1 as (A & B & C). destruct d; cbn [put len] in *; rewrite checker_at with (ny := ny) by (unfold inside; auto); ring. }
  destruct ES as (s & Hs & HF). destruct (supported_even p Hp) as (h & Eh & Hh).
  assert (Eq : Z.quot p 2 = h) by (rewrite Eh, Z.mul_comm; apply Z.quot_mul; lia).
  replace (IZR (ln d) * (IZR (ln d - p + 1) / IZR (ln d) * (2 * fd_h p * k * (2 * fd_h p * k)))) with (IZR ((ln d - h) - (h - 1)) * (2 * fd_h p * k * (2 * fd_h p * k))).
  2:{ replace (ln d - h - (h - 1))%Z with (ln d - p + 1)%Z by lia. field. exact L0. }
  apply ls_part; [intros; apply Rle_0_sqr|lia|lia| |apply Rle_0_sqr].
  intros X HX. apply Req_le. symmetry. apply (dline_checker p (ln d) k _ s); try assumption. lia.
Qed.

(** ** the acoustic scheme in a homogeneous medium *)
Section ac.
Variable axes : list axis.
Hypothesis Hax : forall a, In a axes -> ax_ok nz a.
Notation b a := (e_coef e (buoyancy axes a)).
Notation K := (pmod e).
Variables K0 b0 : R.
Hypothesis HK : forall i, K i = K0.
Hypothesis Hb : forall a i, In a axes -> b a i = b0.
Hypothesis HKb : 0 < K0 * b0.
Variable P : nat -> rst.
Hypothesis HP : forall n, acoustic_step e c (P n) axes (fun _ => false) (P (S n)).

(** the Laplacian and its symmetry *)
Definition lap (f : Z -> R) (i : Z) : R := K0 * b0 * Rsum (map (fun a => D a true (D a false f) i) axes).
Lemma lap_form f h : gs (fun i => lap f i * h i) = - (K0 * b0) * Rsum (map (fun a => gs (fun i => D a false f i * D a false h i)) axes).
Proof.
  unfold lap. transitivity (K0 * b0 * gs (fun i => Rsum (map (fun a => D a true (D a false f) i * h i) axes))).
  - rewrite <- gs_mul. apply gs_ext. intros x y z _ _ _. rewrite (Rsum_map_ext axes (fun a => D a true (D a false f) (ri x y z) * h (ri x y z)) (fun a => h (ri x y z) * D a true (D a false f) (ri x y z))) by (intros; ring).
    rewrite Rsum_map_mul. ring.
  - rewrite gs_Rsum. rewrite (Rsum_map_ext axes _ (fun a => -1 * gs (fun i => D a false f i * D a false h i))).
    + rewrite Rsum_map_mul. ring.
    + intros a Ha. rewrite (adj' e c useVar hybrid nx ny nz p rest DH fuel k cv g HM a (D a false f) h (Hax a Ha)). ring.
Qed.
Lemma lap_sym f h : gs (fun i => lap f i * h i) = gs (fun i => f i * lap h i).
Proof.
  rewrite lap_form. rewrite (gs_ext nx ny nz (fun i => f i * lap h i) (fun i => lap h i * f i)) by (intros; ring). rewrite lap_form. f_equal. f_equal.
  apply map_ext. intros a. apply gs_ext. intros; ring.
Qed.
Lemma lap_mul a f i : lap (fun j => a * f j) i = a * lap f i.
Proof.
  unfold lap. rewrite (Rsum_map_ext axes _ (fun d => a * D d true (D d false f) i)); [rewrite Rsum_map_mul; ring|]. intros d _.
  rewrite <- D_mul. apply D_eq. intros j. apply D_mul.
Qed.
Lemma wave n i : P (S (S n)) pressure i = 2 * P (S n) pressure i - P n pressure i + lap (P (S n) pressure) i.
Proof.
  rewrite (ac_pr e c Hu axes _ _ (HP (S n)) i). pose proof (ac_pr e c Hu axes _ _ (HP n) i) as E1. rewrite HK in *.
  unfold sum_axes in *. rewrite (Rsum_map_ext axes (fun a => D a true (P (S (S n)) (vel a)) i) (fun a => D a true (P (S n) (vel a)) i + b0 * D a true (D a false (P (S n) pressure)) i)).
  - rewrite Rsum_map_add, Rsum_map_mul. unfold lap. lra.
  - intros a Ha. rewrite <- D_mul, <- D_add. apply D_eq. intros j. rewrite (ac_v e c Hu Hfs axes _ _ (HP (S n)) a j (in_has _ _ Ha)), Hb by exact Ha. reflexivity.
Qed.

(** the alternating sequence and its quadratic form *)
Definition alt (n : nat) : R := if Nat.even n then 1 else -1.
Lemma alt_S n : alt (S n) = - alt n.
Proof. unfold alt. rewrite Nat.even_succ, <- Nat.negb_even. destruct (Nat.even n); cbn; lra. Qed.
Lemma alt_sq n : alt n * alt n = 1.
Proof. unfold alt. destruct (Nat.even n); lra. Qed.
Definition W (n : nat) (i : Z) : R := alt n * P n pressure i.
Definition Bo (f : Z -> R) (i : Z) : R := - lap f i - 4 * f i.
Lemma W_step n i : W (S (S n)) i = 2 * W (S n) i - W n i + Bo (W (S n)) i.
Proof. unfold W, Bo. rewrite lap_mul, wave, !alt_S. ring. Qed.
Lemma Bo_sym f h : gs (fun i => Bo f i * h i) = gs (fun i => f i * Bo h i).
Proof.
  unfold Bo. rewrite (gs_ext nx ny nz (fun i => (- lap f i - 4 * f i) * h i) (fun i => -1 * (lap f i * h i) + -4 * (f i * h i))) by (intros; ring).
  rewrite (gs_ext nx ny nz (fun i => f i * (- lap h i - 4 * h i)) (fun i => -1 * (f i * lap h i) + -4 * (f i * h i))) by (intros; ring).
  rewrite !gs_add, !gs_mul, lap_sym. reflexivity.
Qed.
Definition G (n : nat) : R := gs (fun i => (W (S n) i - W n i) * (W (S n) i - W n i) - Bo (W (S n)) i * W n i).
Lemma G_const n : G n = G 0%nat.
Proof.
  induction n as [|n IH]; [reflexivity|]. rewrite <- IH. unfold G.
  rewrite gs_sub, Bo_sym, <- gs_sub. apply gs_ext. intros x y z _ _ _. rewrite W_step. ring.
Qed.
Lemma growth n : - 2 * G 0%nat <= gs (fun i => W (S (S n)) i * W (S (S n)) i) - 2 * gs (fun i => W (S n) i * W (S n) i) + gs (fun i => W n i * W n i).
Proof.
  rewrite <- (G_const n). unfold G.
  assert (H : 0 <= gs (fun i => (2 * (W (S n) i - W n i) + Bo (W (S n)) i) * (2 * (W (S n) i - W n i) + Bo (W (S n)) i))) by (apply gs_pos; intros; apply Rle_0_sqr).
  assert (E : gs (fun i => W (S (S n)) i * W (S (S n)) i) + -2 * gs (fun i => W (S n) i * W (S n) i) + gs (fun i => W n i * W n i) =
    gs (fun i => (2 * (W (S n) i - W n i) + Bo (W (S n)) i) * (2 * (W (S n) i - W n i) + Bo (W (S n)) i)) +
    -2 * gs (fun i => (W (S n) i - W n i) * (W (S n) i - W n i) - Bo (W (S n)) i * W n i)).
  { rewrite <- !gs_mul, <- !gs_add. apply gs_ext. intros x y z _ _ _. rewrite W_step. ring. }
  lra.
Qed.
Lemma W_norm n : gs (fun i => W n i * W n i) = gs (fun i => P n pressure i * P n pressure i).
Proof. apply gs_ext. intros x y z _ _ _. unfold W. transitivity ((alt n * alt n) * (P n pressure (ri x y z) * P n pressure (ri x y z))); [ring|]. rewrite alt_sq. ring. Qed.

(** the initial state *)
Hypothesis HI : forall i, P 0%nat pressure i = ck i.
Hypothesis HV : forall a i, In a axes -> P 0%nat (vel a) i = - (b0 / 2) * D a false ck i.
Lemma first i : W 1 i = W 0 i + Bo (W 0) i / 2.
Proof.
  assert (EL : lap (W 0) i = lap (P 0%nat pressure) i) by (unfold W; rewrite lap_mul; change (alt 0) with 1; ring).
  unfold Bo. rewrite EL. unfold W. change (alt 1) with (-1). change (alt 0) with 1.
  rewrite (ac_pr e c Hu axes _ _ (HP 0%nat) i), HK. unfold sum_axes, lap.
  rewrite (Rsum_map_ext axes (fun a => D a true (P 1%nat (vel a)) i) (fun a => (b0 / 2) * D a true (D a false (P 0%nat pressure)) i)).
  - rewrite Rsum_map_mul. field.
  - intros a Ha. rewrite <- D_mul. apply D_eq. intros j. rewrite (ac_v e c Hu Hfs axes _ _ (HP 0%nat) a j (in_has _ _ Ha)), Hb, HV by exact Ha.
    rewrite (D_eq e "" a false (P 0%nat pressure) ck j) by exact HI. field.
Qed.
Lemma G_start : G 0 = - (1 / 4) * gs (fun i => Bo (W 0) i * Bo (W 0) i) - gs (fun i => Bo (W 0) i * W 0 i).
Proof.
  unfold G. rewrite gs_sub, Bo_sym, <- gs_sub.
  transitivity (gs (fun i => - (1 / 4) * (Bo (W 0) i * Bo (W 0) i) + -1 * (Bo (W 0) i * W 0 i))).
  - apply gs_ext. intros x y z _ _ _. rewrite first. field.
  - rewrite gs_add, !gs_mul. ring.
Qed.
Hypothesis Hbig : 1 < K0 * b0 * ((fd_h p * k) * (fd_h p * k)) * Rsum (map (fun a => IZR (ln a - p + 1) / IZR (ln a)) axes).
Lemma one_pos : 0 < gs (fun _ => 1).
Proof.
  apply Rlt_le_trans with 1; [lra|]. apply (gpoint nx ny nz (fun _ => 1) 0 0 0); [intros; lra|]. unfold inside. lia.
Qed.
Lemma ck_norm : gs (fun i => ck i * ck i) = gs (fun _ => 1).
Proof. apply gs_ext. intros x y z _ _ _. apply sgn_sq. Qed.
Lemma start_neg : G 0 < 0.
Proof.
  rewrite G_start. assert (A : 0 <= gs (fun i => Bo (W 0) i * Bo (W 0) i)) by (apply gs_pos; intros; apply Rle_0_sqr).
  assert (W0 : forall i, W 0 i = ck i) by (intros; unfold W; change (alt 0) with 1; rewrite HI; ring).
  assert (LE : forall i, lap (W 0) i = lap ck i).
  { intros i. unfold lap. f_equal. apply Rsum_map_ext. intros a _. apply D_eq. intros j. apply D_eq. exact W0. }
  assert (B : 0 < gs (fun i => Bo (W 0) i * W 0 i)); [|lra].
  rewrite (gs_ext nx ny nz (fun i => Bo (W 0) i * W 0 i) (fun i => -1 * (lap ck i * ck i) + -4 * (ck i * ck i))) by (intros; unfold Bo; rewrite LE, W0; ring).
  rewrite gs_add, !gs_mul, ck_norm, lap_form.
  assert (C : Rsum (map (fun a => ((2 * fd_h p * k) * (2 * fd_h p * k) * gs (fun _ => 1)) * (IZR (ln a - p + 1) / IZR (ln a))) axes) <= Rsum (map (fun a => gs (fun i => D a false ck i * D a false ck i)) axes)).
  { apply Rsum_map_le. intros a Ha. eapply Rle_trans; [|apply (D_checker a (Hax a Ha))]. apply Req_le. ring. }
  rewrite Rsum_map_mul in C. apply (Rmult_le_compat_l (K0 * b0)) in C; [|lra]. pose proof one_pos as O.
  apply (Rmult_lt_compat_r (gs (fun _ => 1))) in Hbig; [|exact O]. 
  apply Rlt_le_trans with (4 * (K0 * b0 * (fd_h p * k * (fd_h p * k)) * Rsum (map (fun a => IZR (ln a - p + 1) / IZR (ln a)) axes) * gs (fun _ => 1) - 1 * gs (fun _ => 1))); [lra|].
  apply Rle_trans with (K0 * b0 * (2 * fd_h p * k * (2 * fd_h p * k) * gs (fun _ => 1) * Rsum (map (fun a => IZR (ln a - p + 1) / IZR (ln a)) axes)) - 4 * gs (fun _ => 1)); [apply Req_le; ring|]. lra.
Qed.
Lemma unbounded B : exists n x y z, ins x y z /\ B < Rabs (P n pressure (ri x y z)).
Proof.
  destruct (second_diff (fun n => gs (fun i => W n i * W n i)) (- 2 * G 0) ltac:(pose proof start_neg; lra) growth (B * B * gs (fun _ => 1))) as (n & Hn). cbv beta in Hn. rewrite W_norm in Hn.
  destruct (Rle_dec 0 B) as [B0|B0].
  2:{ exists 0%nat, 0%Z, 0%Z, 0%Z. split; [unfold inside; lia|]. pose proof (Rabs_pos (P 0%nat pressure (ri 0 0 0))). lra. }
  assert (Q : forall n0 (f : Z -> R) m, m * line_sum n0 (fun _ => 1) < line_sum n0 f -> exists X, (0 <= X < n0)%Z /\ m < f X).
  { intros n0 f m H. unfold line_sum in H. rewrite <- Rsum_map_mul in H.
    assert (I : forall X, In X (zseq 0 (Z.to_nat n0)) -> (0 <= X < n0)%Z) by (intros X HX; apply zseq_In in HX; lia).
    revert I H. generalize (zseq 0 (Z.to_nat n0)). induction l as [|a l IH]; cbn [map]; intros I H; [change (Rsum []) with 0 in H; lra|].
    change (Rsum (?x :: ?y)) with (x + Rsum y) in H. destruct (Rlt_dec m (f a)) as [L|L]; [exists a; split; [apply I; left; reflexivity|exact L]|].
    apply IH; [intros; apply I; right; assumption|lra]. }
  unfold grid_sum in Hn.
  assert (C : forall n0, line_sum n0 (fun _ => 1) = INR (Z.to_nat n0)) by (intros n0; unfold line_sum; rewrite Rsum_const, zseq_length; lra).
  assert (C2 : forall n0 w, line_sum n0 (fun _ => w) = w * line_sum n0 (fun _ => 1)).
  { intros n0 w. rewrite <- ls_mul. apply ls_ext. intros; lra. }
  rewrite (C2 ny), (C2 nz) in Hn. rewrite <- Rmult_assoc in Hn. apply Q in Hn. destruct Hn as (y & Hy & Hn). rewrite <- Rmult_assoc in Hn.
  apply Q in Hn. destruct Hn as (z & Hz & Hn). apply Q in Hn. destruct Hn as (x & Hx & Hn).
  exists n, x, y, z. split; [unfold inside; auto|].
  apply Rnot_le_lt. intros L. pose proof (Rabs_pos (P n pressure (ri x y z))) as A0.
  assert (M : Rabs (P n pressure (ri x y z)) * Rabs (P n pressure (ri x y z)) <= B * B) by (apply Rmult_le_compat; assumption).
  rewrite <- Rabs_mult, Rabs_pos_eq in M by apply Rle_0_sqr. lra.
Qed.
End ac.
End grid.

(** Convergence of the elastic and viscoelastic schemes: truncation errors and growth of the error. *)
From Coq Require Import QArith Qreals Reals Lra FunctionalExtensionality.
From Verif Require Import M_Grid M_Deriv S_Deriv L_Deriv L_Deriv2 M_Prog M_Solvers M_Env S_Solver S_Step S_Check S_Energy L_Prog L_Lin L_Src L_Surface L_Leap L_Leap2 L_Diff L_Energy L_Energy2 L_Energy3
  S_Taylor S_Conv S_Conv2 L_Conv L_Conv2 L_Conv3 L_Conv4.
From Verif Require L_Fd L_Taylor.
Open Scope R_scope.
Open Scope list_scope.

Lemma ec_pos p : 0 <= error_const p.
Proof. unfold error_const. repeat match goal with |- context [if ?x then _ else _] => destruct x end; lra. Qed.
Lemma abs_sum2 x y m n : Rabs x <= m -> Rabs y <= n -> Rabs (x + y) <= m + n.
Proof. intros. eapply Rle_trans; [apply Rabs_triang|lra]. Qed.
Lemma abs_mul x y m n : Rabs x <= m -> Rabs y <= n -> Rabs (x * y) <= m * n.
Proof. intros. rewrite Rabs_mult. apply Rmult_le_compat; auto using Rabs_pos. Qed.
Lemma abs_in x m : - m <= x <= m -> Rabs x <= m.
Proof. intros. apply Rabs_le. lra. Qed.
Lemma sig_half_sym a b : sig_half a b = sig_half b a.
Proof. apply functional_extensionality. intros d. destruct a, b, d; reflexivity. Qed.
Lemma flip_vel d : flip d (vel_half d) = fun _ => false.
Proof. apply functional_extensionality. intros x. destruct d, x; reflexivity. Qed.
Lemma flip_vel_sig a b : flip b (vel_half a) = sig_half a b.
Proof. apply functional_extensionality. intros x. destruct a, b, x; reflexivity. Qed.
Lemma flip_sig a d : flip d (sig_half a d) = vel_half a.
Proof. apply functional_extensionality. intros x. destruct a, d, x; reflexivity. Qed.
Lemma occurs_stress axes comps a b : geometry axes comps -> occurs axes comps a b -> In (a, b) (stresses axes comps) \/ In (b, a) (stresses axes comps).
Proof. intros Hg Ho. unfold occurs, stresses in *. geo Hg; destruct a, b; try discriminate Ho; cbn; auto 12. Qed.

Section laws.
Variables (axes comps : list axis).
Hypothesis Hg : geometry axes comps.
Variables (P : Z -> R) (M : tensor) (L : nat) (dP : Z -> R) (dM : tensor) (kmin la0 mu0 : R).
Notation Pr := (relaxedP P L dP).
Notation Mr := (relaxedM M L dM).
Hypothesis HdM : diag dM.
Hypothesis HMd : diag M.
Hypothesis Hk0 : 0 < kmin.
Hypothesis Hr : definite_by axes comps Pr Mr kmin.
Hypothesis Hd : (0 < L)%nat -> definite_by axes comps dP dM kmin.
Hypothesis Hla0 : 0 <= la0.
Hypothesis Hmu0 : 0 < mu0.
Hypothesis Hbe : moduli_below axes comps P M la0 mu0.
Definition lawc : R := 3 * (la0 + 2 * mu0) + 2 * mu0.
Lemma lawc_pos : 0 < lawc.
Proof. unfold lawc. lra. Qed.
Lemma law_comb p0 m0 G H t a b i : law axes p0 m0 (fun a b j => G a b j + t * H a b j) a b i = law axes p0 m0 G a b i + t * law axes p0 m0 H a b i.
Proof.
  unfold law, sum_axes. rewrite Rsum_map_add, Rsum_map_mul. destruct (axis_eqb a b); ring.
Qed.
Lemma law_ext p0 m0 G H a b i : (forall a b, G a b i = H a b i) -> law axes p0 m0 G a b i = law axes p0 m0 H a b i.
Proof. intros E. unfold law, sum_axes. rewrite !E. rewrite (Rsum_map_ext axes (fun d => G d d i) (fun d => H d d i)) by (intros; apply E). reflexivity. Qed.
Lemma law_any p0 m0 G a b i g la mu : 0 <= g -> 0 <= la -> 0 <= mu -> (a = b -> Rabs (p0 i - 2 * m0 a b i) <= la) -> Rabs (m0 a b i) <= mu ->
  (a = b -> forall d, In d axes -> Rabs (G d d i) <= g) -> Rabs (G a b i) <= g -> Rabs (G b a i) <= g ->
  Rabs (law axes p0 m0 G a b i) <= (3 * la + 2 * mu) * g.
Proof.
  intros G0 La0 M0 Hla Hmu HG1 HG2 HG3. unfold law. replace ((3 * la + 2 * mu) * g) with (la * (3 * g) + mu * (g + g)) by ring. apply abs_sum2.
  - destruct (axis_eqb a b) eqn:E; [|rewrite Rabs_R0; apply Rmult_le_pos; lra]. assert (Eab : a = b) by (destruct a, b; discriminate E || reflexivity).
    apply abs_mul; [apply Hla, Eab|]. unfold sum_axes. eapply Rle_trans; [apply L_Taylor.Rsum_abs|].
    eapply Rle_trans; [apply (Rsum_map_le _ _ (fun _ => g)); intros d Hdd; apply HG1; assumption|]. rewrite Rsum_const. apply Rmult_le_compat_r; [exact G0|].
    clear - Hg. geo Hg; cbn; lra.
  - apply abs_mul; [exact Hmu|]. apply abs_sum2; assumption.
Qed.
Lemma n_pos : normals axes comps <> [] -> 1 <= INR (length (normals axes comps)).
Proof. intros H. destruct (normals axes comps); [contradiction|]. cbn [length]. apply (le_INR 1). lia. Qed.
Lemma shear_in a b : In (a, b) (stresses axes comps) -> a <> b -> In (a, b) (shears axes comps).
Proof. intros H N. unfold stresses in H. apply in_app_or in H. destruct H as [H|H]; [|exact H]. apply in_map_iff in H. destruct H as (x & E & _). injection E. intros. subst. contradiction. Qed.
Lemma normal_in a : In (a, a) (stresses axes comps) -> normals axes comps <> [].
Proof. intros H. clear - Hg H. geo Hg; cbn in *; try discriminate. destruct H as [H|[H|[]]]; injection H; intros E1 E2; rewrite <- E1 in E2; discriminate E2. Qed.
(** the relaxed and the relaxation moduli are bounded like the unrelaxed ones *)
Lemma law_relaxed_bound G a b i g : In (a, b) (stresses axes comps) -> 0 <= g ->
  (a = b -> forall d, In d axes -> Rabs (G d d i) <= g) -> Rabs (G a b i) <= g -> Rabs (G b a i) <= g ->
  Rabs (law axes Pr Mr G a b i) <= lawc * g /\ ((0 < L)%nat -> Rabs (law axes dP dM G a b i) <= lawc * g).
Proof.
  intros Ho G0 H1 H2 H3. destruct (Hbe i) as (B1 & B2 & B3). destruct (Hr i) as (R1 & R2).
  assert (IL : forall l : nat, (0 < l)%nat -> 1 <= INR l) by (intros l Hl; apply (le_INR 1); lia).
  destruct (axis_eqb a b) eqn:E.
  - assert (Eab : a = b) by (destruct a, b; discriminate E || reflexivity). subst b. pose proof (normal_in a Ho) as Hn. pose proof (n_pos Hn) as N1. destruct (R1 Hn) as (R3 & R4).
    assert (EM : M a a i = M AX AX i) by apply HMd. assert (ED : dM a a i = dM AX AX i) by apply HdM.
    set (n := INR (length (normals axes comps))) in *. unfold relaxedP, relaxedM in R3, R4.
    assert (Lam : forall la mu, 0 <= mu -> kmin <= n * la + 2 * mu -> - (2 * mu) <= la).
    { intros la mu Q0 Q1. destruct (Rle_dec 0 la); [lra|]. assert (n * la <= la) by nra. lra. }
    pose proof (Lam (P i - INR L * dP i - 2 * (M AX AX i - INR L * dM AX AX i)) (M AX AX i - INR L * dM AX AX i) ltac:(lra) R4) as L1.
    destruct (Nat.eq_dec L 0) as [Z|Z].
    + split; [|intros; lia]. apply law_any; auto; try lra; unfold relaxedP, relaxedM; rewrite Z in *; cbn [INR] in *; intros; apply abs_in; rewrite ?EM, ?ED; lra.
    + destruct (Hd ltac:(lia) i) as (D1 & _). destruct (D1 Hn) as (D3 & D4). pose proof (IL L ltac:(lia)) as L2.
      pose proof (Lam (dP i - 2 * dM AX AX i) (dM AX AX i) ltac:(lra) D4) as L3. set (l := INR L) in *.
      assert (X1 : l * dM AX AX i <= mu0) by lra.
      assert (X2 : dM AX AX i <= l * dM AX AX i) by nra.
      assert (X3 : - (2 * (l * dM AX AX i)) <= l * (dP i - 2 * dM AX AX i)) by nra.
      assert (X4 : dP i - 2 * dM AX AX i <= la0 + 2 * mu0).
      { destruct (Rle_dec (dP i - 2 * dM AX AX i) 0); [lra|]. assert (dP i - 2 * dM AX AX i <= l * (dP i - 2 * dM AX AX i)) by nra. lra. }
      split; [|intros _]; apply law_any; auto; try lra; unfold relaxedP, relaxedM; fold l; intros; apply abs_in; rewrite ?EM, ?ED; lra.
  - assert (Nab : a <> b) by (intros ->; destruct b; discriminate E). pose proof (shear_in a b Ho Nab) as Hs. specialize (R2 _ Hs). specialize (B3 _ Hs). cbn [fst snd] in *. unfold relaxedM in R2.
    destruct (Nat.eq_dec L 0) as [Z|Z].
    + split; [|intros; lia]. apply law_any; auto; try lra; unfold relaxedP, relaxedM; rewrite Z in *; cbn [INR] in *; intros; [contradiction|apply abs_in; lra].
    + destruct (Hd ltac:(lia) i) as (_ & D2). specialize (D2 _ Hs). cbn [fst snd] in D2. pose proof (IL L ltac:(lia)) as L2. set (l := INR L) in *.
      assert (X2 : dM a b i <= l * dM a b i) by nra.
      split; [|intros _]; apply law_any; auto; try lra; unfold relaxedP, relaxedM; fold l; intros; try contradiction; apply abs_in; lra.
Qed.
End laws.

Section faults.
Variables (e : env R_arith) (c : cfg) (useVar hybrid : bool) (nx ny nz p : Z) (rest : list Z) (DH : Q) (fuel : nat)
  (dt h : R) (cv : Q -> R) (g : grid).
Hypothesis HM : @fd_matrices R_arith e c true useVar hybrid nx ny nz p rest DH fuel (fun q => Q2R q * (dt / h)) cv g.
Hypothesis Hu : undamped c.
Hypothesis Hfs : c_fs c <> 1%Z.
Notation gs := (grid_sum nx ny nz).
Notation ri := (reg_index nx nz).
Notation ins := (inside nx ny nz).
Notation rst := (state R_arith).
Notation D := (Dmv e "").
Hypothesis Hp : L_Fd.exact_order p.
Hypothesis Hh : 0 < h.
Hypothesis Hdt : 0 < dt.
Hypothesis HN : (0 <= nx)%Z /\ (0 <= ny)%Z /\ (0 <= nz)%Z.
Variables (axes comps : list axis).
Hypothesis Hg : geometry axes comps.
Hypothesis Hax : forall a, In a axes -> ax_ok nz a.
Notation b a := (e_coef e (buoyancy axes a)).
Variables (P : Z -> R) (M : tensor) (L : nat) (tau : nat -> R) (dP : Z -> R) (dM : tensor).
Notation Pr := (relaxedP P L dP).
Notation Mr := (relaxedM M L dM).
Hypothesis HdM : diag dM.
Hypothesis HMd : diag M.
Variables (kmin la0 mu0 bmin bmax taumax : R).
Hypothesis Hk0 : 0 < kmin.
Hypothesis Hb0 : 0 < bmin.
Hypothesis Hb : forall a i, In a comps -> bmin <= b a i <= bmax.
Hypothesis Hr : definite_by axes comps Pr Mr kmin.
Hypothesis Hd : (0 < L)%nat -> definite_by axes comps dP dM kmin.
Hypothesis Htau : forall l, (l < L)%nat -> 0 < tau l <= taumax.
Hypothesis Htm : 0 <= taumax.
Hypothesis Hla0 : 0 <= la0.
Hypothesis Hmu0 : 0 < mu0.
Hypothesis Hbe : moduli_below axes comps P M la0 mu0.
Variable nxt : rst -> rst.
Notation step st st' := (elastic_step e c st axes comps (fun _ => false) P M L tau dt dP dM st').
Hypothesis Hnxt : forall st, step st (nxt st).
Variable q : R.
Hypothesis Hq : 0 < q < 1.
Hypothesis Hth : el_th p (dt / h) axes comps la0 mu0 bmax <= q * q.
Variable after : nat -> rst.
Hypothesis Haf : forall n, step (after n) (after (S n)).
Variables (V : axis -> R -> position -> R) (Sg : axis -> axis -> R -> position -> R) (Rv : axis -> axis -> nat -> R -> position -> R) (T Mx Mt : R).
Hypothesis HE : elastic_solution nx ny nz p h dt T Mx Mt e axes comps P M L tau dP dM V Sg Rv.
Hypothesis HMx : 0 <= Mx.
Hypothesis HMt : 0 <= Mt.
Notation spr st := (spring L tau st).
Notation el st l := (maxwell_element tau st l).
Notation frc S a i := (force e axes S a i).
Notation gv st := (Gv e axes comps st).
Notation lw p0 m0 := (law axes p0 m0).
Lemma Htau' l : (l < L)%nat -> 0 < tau l.
Proof. apply Htau. Qed.
Lemma gb a x y z : has comps a = true -> ins x y z -> 0 < b a (ri x y z).
Proof. clear - Hb Hb0. intros Ha _. destruct (Hb a (ri x y z) (has_axis _ _ Ha)). lra. Qed.
Lemma gr x y z : ins x y z -> good axes comps Pr Mr (ri x y z).
Proof. clear - Hr Hk0. intros _. destruct (Hr (ri x y z)) as (H1 & H2). split; [intros N; destruct (H1 N); split; lra|]. intros ab Hab. specialize (H2 ab Hab). lra. Qed.
Lemma gd l x y z : (l < L)%nat -> ins x y z -> good axes comps dP dM (ri x y z).
Proof. clear - Hd Hk0. intros Hl _. destruct (Hd ltac:(lia) (ri x y z)) as (H1 & H2). split; [intros N; destruct (H1 N); split; lra|]. intros ab Hab. specialize (H2 ab Hab). lra. Qed.

Definition exst (n : nat) : rst := fun m i =>
  match m with M_Prog.N s l =>
    let t := INR n * dt in
    let sg a b := samp nx nz h (Sg a b) (sig_half a b) t i in
    let rl a b := samp nx nz h (Rv a b l) (sig_half a b) t i in
    let vl a := samp nx nz h (V a) (vel_half a) (t - dt / 2) i in
    if String.eqb s "vX" then vl AX else if String.eqb s "vY" then vl AY else if String.eqb s "vZ" then vl AZ else
    if String.eqb s "Sxx" then sg AX AX else if String.eqb s "Syy" then sg AY AY else if String.eqb s "Szz" then sg AZ AZ else
    if String.eqb s "Sxy" then sg AX AY else if String.eqb s "Sxz" then sg AX AZ else if String.eqb s "Syz" then sg AY AZ else
    if String.eqb s "Rxx" then rl AX AX else if String.eqb s "Ryy" then rl AY AY else if String.eqb s "Rzz" then rl AZ AZ else
    if String.eqb s "Rxy" then rl AX AY else if String.eqb s "Rxz" then rl AX AZ else rl AY AZ end.
Lemma exst_v n a i : exst n (vel a) i = samp nx nz h (V a) (vel_half a) (INR n * dt - dt / 2) i.
Proof. destruct a; reflexivity. Qed.
Lemma exst_s n a b0 i : exst n (sig a b0) i = samp nx nz h (Sg a b0) (sig_half a b0) (INR n * dt) i.
Proof.
  destruct a, b0; try reflexivity; unfold exst; cbn; unfold samp.
  - rewrite (sig_half_sym AY AX). apply (vs_sym _ _ _ _ _ _ _ _ _ _ _ _ _ _ _ _ _ _ _ _ _ HE).
  - rewrite (sig_half_sym AZ AX). apply (vs_sym _ _ _ _ _ _ _ _ _ _ _ _ _ _ _ _ _ _ _ _ _ HE).
  - rewrite (sig_half_sym AZ AY). apply (vs_sym _ _ _ _ _ _ _ _ _ _ _ _ _ _ _ _ _ _ _ _ _ HE).
Qed.
Lemma exst_r n a b0 l i : exst n (rel a b0 l) i = samp nx nz h (Rv a b0 l) (sig_half a b0) (INR n * dt) i.
Proof.
  destruct a, b0; try reflexivity; unfold exst; cbn; unfold samp.
  - rewrite (sig_half_sym AY AX). apply (vs_symr _ _ _ _ _ _ _ _ _ _ _ _ _ _ _ _ _ _ _ _ _ HE).
  - rewrite (sig_half_sym AZ AX). apply (vs_symr _ _ _ _ _ _ _ _ _ _ _ _ _ _ _ _ _ _ _ _ _ HE).
  - rewrite (sig_half_sym AZ AY). apply (vs_symr _ _ _ _ _ _ _ _ _ _ _ _ _ _ _ _ _ _ _ _ _ HE).
Qed.

Definition err (n : nat) : rst := fun m i => after n m i - exst n m i.
Definition fault (n : nat) : rst := fun m i => err (S n) m i - nxt (err n) m i.

(** ** the faults from the defects of the exact solution *)
Lemma force_ext S S' a i : (forall a b0 j, S a b0 j = S' a b0 j) -> frc S a i = frc S' a i.
Proof. intros E. unfold force, sum_axes. apply Rsum_map_ext. intros d _. apply D_eq. intros j. apply E. Qed.
Lemma fault_v n a i : has comps a = true -> fault n (vel a) i =
  - (exst (S n) (vel a) i - exst n (vel a) i - b a i * frc (stress_of (exst n)) a i).
Proof.
  intros Ha. unfold fault. rewrite (el_v e c Hu Hfs axes comps P M L tau dt dP dM _ _ (Hnxt (err n)) a i Ha). unfold err at 1.
  rewrite (el_v e c Hu Hfs axes comps P M L tau dt dP dM _ _ (Haf n) a i Ha). unfold err at 1.
  rewrite (force_ext (stress_of (err n)) (fun a0 b0 j => stress_of (after n) a0 b0 j + -1 * stress_of (exst n) a0 b0 j) a i).
  - rewrite force_comb. set (x := frc _ _ _). set (y := frc _ _ _). match goal with |- ?x = ?y => change (@eq R x y) end. ring.
  - intros a0 b0 j. unfold stress_of, err. match goal with |- ?x = ?y => change (@eq R x y) end. ring.
Qed.
Lemma algebra2 (A X E : R) : A = X + 1 * (A - E - X + 1 * E).
Proof. ring. Qed.
Lemma gv_split n a d i : gv (after (S n)) a d i = gv (nxt (err n)) a d i + 1 * (gv (fault n) a d i + 1 * gv (exst (S n)) a d i).
Proof.
  unfold Gv, vgrad. destruct (has axes d && has comps a); [|ring].
  transitivity (D d (vel_half a d) (fun j => nxt (err n) (vel a) j + 1 * (fault n (vel a) j + 1 * exst (S n) (vel a) j)) i).
  - apply D_eq. intros j. unfold fault, err. apply algebra2.
  - rewrite (D_add e "" d _ (nxt (err n) (vel a)) (fun j => 1 * (fault n (vel a) j + 1 * exst (S n) (vel a) j))), D_mul.
    rewrite (D_add e "" d _ (fault n (vel a)) (fun j => 1 * exst (S n) (vel a) j)), D_mul. reflexivity.
Qed.
Lemma law_split n p0 m0 a d i : lw p0 m0 (gv (after (S n))) a d i = lw p0 m0 (gv (nxt (err n))) a d i + (lw p0 m0 (gv (fault n)) a d i + lw p0 m0 (gv (exst (S n))) a d i).
Proof.
  rewrite (law_ext axes p0 m0 (gv (after (S n))) (fun a b0 j => gv (nxt (err n)) a b0 j + 1 * (gv (fault n) a b0 j + 1 * gv (exst (S n)) a b0 j))) by (intros; apply gv_split).
  rewrite (law_comb axes p0 m0 (gv (nxt (err n))) (fun a b0 j => gv (fault n) a b0 j + 1 * gv (exst (S n)) a b0 j)), (law_comb axes p0 m0 (gv (fault n)) (gv (exst (S n)))). match goal with |- ?x = ?y => change (@eq R x y) end. ring.
Qed.
Lemma el_sub s s' l a b0 i : el (fun m j => s m j - s' m j) l a b0 i = el s l a b0 i - el s' l a b0 i.
Proof. unfold maxwell_element. match goal with |- ?x = ?y => change (@eq R x y) end. ring. Qed.
Lemma spr_sub s s' a b0 i : spr (fun m j => s m j - s' m j) a b0 i = spr s a b0 i - spr s' a b0 i.
Proof.
  unfold spring. rewrite (Rsum_map_ext (seq 0 L) _ (fun l => el s l a b0 i + -1 * el s' l a b0 i)) by (intros; rewrite el_sub; lra).
  rewrite Rsum_map_add, Rsum_map_mul. match goal with |- ?x = ?y => change (@eq R x y) end. ring.
Qed.
Lemma fault_el n l a b0 i : (l < L)%nat -> occurs axes comps a b0 -> (1 + dt / (2 * tau l)) * el (fault n) l a b0 i =
  lw dP dM (gv (fault n)) a b0 i -
  (el (exst (S n)) l a b0 i - el (exst n) l a b0 i + dt / (2 * tau l) * (el (exst n) l a b0 i + el (exst (S n)) l a b0 i) - lw dP dM (gv (exst (S n))) a b0 i).
Proof.
  intros Hl Ho.
  pose proof (el_element e c Hu axes comps P M L tau dt dP dM Htau' _ _ l (Haf n) Hl a b0 i Ho) as A.
  pose proof (el_element e c Hu axes comps P M L tau dt dP dM Htau' _ _ l (Hnxt (err n)) Hl a b0 i Ho) as B.
  unfold fault at 1. rewrite el_sub. unfold err at 1. rewrite el_sub. unfold err in B at 2 4. rewrite el_sub in B.
  rewrite (law_split n) in A. unfold err in A, B |- *. lra.
Qed.
Lemma fault_spr n a b0 i : occurs axes comps a b0 -> spr (fault n) a b0 i =
  lw Pr Mr (gv (fault n)) a b0 i - (spr (exst (S n)) a b0 i - spr (exst n) a b0 i - lw Pr Mr (gv (exst (S n))) a b0 i).
Proof.
  intros Ho.
  pose proof (el_spring e c nx ny nz Hu axes comps Hax gb P M L tau dt dP dM gr gd Htau' _ _ (Haf n) a b0 i Ho) as A.
  pose proof (el_spring e c nx ny nz Hu axes comps Hax gb P M L tau dt dP dM gr gd Htau' _ _ (Hnxt (err n)) a b0 i Ho) as B.
  unfold fault at 1. rewrite spr_sub. unfold err at 1. rewrite spr_sub. unfold err in B at 2. rewrite spr_sub in B.
  rewrite (law_split n) in A. unfold err in A, B |- *. lra.
Qed.

(** ** truncation errors *)
Definition W : R := error_const p * Mx * h ^ Z.to_nat p.
Definition tv : R := 1 / 24 * Mt * dt ^ 2 + bmax * (3 * W).
Definition lc : R := lawc la0 mu0.
Definition tt : R := lc * (2 * fd_h p * (dt / h) * tv) + lc * W + (1 + (1 + INR L) * taumax) * (Mt * dt ^ 2).
Lemma W0 : 0 <= W.
Proof. clear - HMx Hh. unfold W. apply Rmult_le_pos; [apply Rmult_le_pos; [apply ec_pos|exact HMx]|apply Rlt_le, pow_lt, Hh]. Qed.
Lemma bmax0 : 0 < bmax.
Proof. clear - Hg Hb Hb0. assert (H : exists a, In a comps) by (geo Hg; eexists; left; reflexivity). destruct H as (a & Ha). destruct (Hb a 0%Z Ha). lra. Qed.
Lemma tv0 : 0 <= tv.
Proof. unfold tv. pose proof W0. pose proof bmax0. assert (0 <= dt ^ 2) by apply pow2_ge_0. apply Rplus_le_le_0_compat; [|apply Rmult_le_pos; lra]. apply Rmult_le_pos; [lra|assumption]. Qed.
Lemma mid n : INR n * dt + dt / 2 = INR (S n) * dt - dt / 2.
Proof. rewrite S_INR. field. Qed.
Lemma mid2 n : INR (S n) * dt - dt / 2 - dt / 2 = INR n * dt /\ INR (S n) * dt - dt / 2 + dt / 2 = INR (S n) * dt.
Proof. rewrite S_INR. split; field. Qed.
Lemma t_ok n : INR (S n) * dt <= T -> 0 <= INR n * dt /\ INR n * dt + dt / 2 <= T /\ 0 <= INR (S n) * dt - dt / 2 <= T.
Proof. intros H. rewrite S_INR in *. pose proof (Rmult_le_pos _ _ (pos_INR n) (Rlt_le _ _ Hdt)). lra. Qed.
Lemma pt : 0 <= Mt * dt ^ 2.
Proof. clear - HMt. apply Rmult_le_pos; [exact HMt|apply pow2_ge_0]. Qed.

Lemma trunc_v n a x y z : In a comps -> ins x y z -> INR (S n) * dt <= T -> Rabs (fault n (vel a) (ri x y z)) <= dt * tv.
Proof.
  intros Ha Hi HT. pose proof Hi as (Hx & Hy & Hz). rewrite fault_v by apply in_has, Ha. rewrite Rabs_Ropp, !exst_v, <- mid.
  destruct (t_ok n HT) as (T1 & T2 & _). rewrite !(samp_at nx ny nz h) by exact Hi. set (t := INR n * dt) in *.
  destruct (vs_momentum _ _ _ _ _ _ _ _ _ _ _ _ _ _ _ _ _ _ _ _ _ HE a x y z t Ha Hx Hy Hz ltac:(lra)) as (dS & HS & HV). cbv zeta in HS, HV.
  pose proof (time_error dt _ _ _ _ t _ Hdt (vs_Vt _ _ _ _ _ _ _ _ _ _ _ _ _ _ _ _ _ _ _ _ _ HE a x y z Ha Hx Hy Hz) ltac:(lra) ltac:(lra) HV) as A. cbv beta in A.
  set (v1 := V a (t + dt / 2) _) in *. set (v0 := V a (t - dt / 2) _) in *. set (ba := b a (ri x y z)) in *.
  assert (BA : 0 <= ba <= bmax) by (destruct (Hb a (ri x y z) Ha); unfold ba; lra).
  replace (v1 - v0 - ba * frc (stress_of (exst n)) a (ri x y z)) with ((v1 - v0 - dt * (ba * sum_axes axes dS)) + - (ba * (frc (stress_of (exst n)) a (ri x y z) - dt * sum_axes axes dS))) by ring.
  unfold tv. rewrite Rmult_plus_distr_l. apply abs_sum2; [exact A|]. rewrite Rabs_Ropp. replace (dt * (bmax * (3 * W))) with (bmax * (3 * (dt * W))) by ring.
  apply abs_mul; [apply Rabs_le; lra|].
  unfold force, sum_axes. rewrite <- Rsum_map_mul. unfold Rminus. rewrite (opp1 (Rsum (map (fun x0 => dt * dS x0) axes))), <- Rsum_map_mul, <- Rsum_map_add.
  eapply Rle_trans; [apply L_Taylor.Rsum_abs|]. assert (DW : 0 <= dt * W) by (apply Rmult_le_pos; [lra|apply W0]).
  eapply Rle_trans; [apply (Rsum_map_le _ _ (fun _ => dt * W))|].
  - intros d Hdd. replace (D d (sig_half a d d) (stress_of (exst n) a d) (ri x y z)) with (D d (sig_half a d d) (samp nx nz h (Sg a d) (sig_half a d) t) (ri x y z)) by (apply D_eq; intros j; symmetry; apply exst_s).
    replace (D d (sig_half a d d) (samp nx nz h (Sg a d) (sig_half a d) t) (ri x y z) + -1 * (dt * dS d)) with (D d (sig_half a d d) (samp nx nz h (Sg a d) (sig_half a d) t) (ri x y z) - dt * dS d) by ring.
    unfold W. apply (space_any e c useVar hybrid nx ny nz p rest DH fuel dt h cv g HM Hp Hh Hdt (Sg a d) (sig_half a d) d T Mx t x y z (dS d)
      (vs_Sx _ _ _ _ _ _ _ _ _ _ _ _ _ _ _ _ _ _ _ _ _ HE a d Ha Hdd) (Hax d Hdd) Hi ltac:(lra)). rewrite flip_sig. apply HS, Hdd.
  - rewrite Rsum_const. apply Rmult_le_compat_r; [exact DW|]. clear - Hg. geo Hg; cbn; lra.
Qed.
Lemma gv_fault n v d x y z : ins x y z -> INR (S n) * dt <= T -> Rabs (gv (fault n) v d (ri x y z)) <= 2 * fd_h p * (dt / h) * (dt * tv).
Proof.
  intros Hi HT. assert (Z0 : 0 <= dt * tv) by (apply Rmult_le_pos; [lra|apply tv0]). assert (F0 : 0 < fd_h p) by (apply fd_h_pos, (L_Fd.exact_supported p Hp)).
  assert (K0 : 0 < dt / h) by (apply Rdiv_lt_0_compat; assumption).
  unfold Gv, vgrad. destruct (has axes d && has comps v) eqn:E.
  - apply Bool.andb_true_iff in E. destruct E as (E1 & E2). apply (D_max e c useVar hybrid nx ny nz p rest DH fuel dt h cv g HM Hp Hh Hdt d); [apply Hax, has_axis, E1|exact Hi|exact Z0|].
    intros. apply trunc_v; auto. apply has_axis, E2.
  - rewrite Rabs_R0. apply Rmult_le_pos; [|exact Z0]. apply Rmult_le_pos; lra.
Qed.
(** gradients of the exact velocities where the stress a b lies *)
Lemma gv_exact n v d x y z G s : ins x y z -> INR (S n) * dt <= T ->
  (forall v d, has comps v && has axes d = true -> derivable_pt_lim (fun u => V v (INR (S n) * dt - dt / 2) (shift d u (spot h s x y z))) 0 (G v d)) ->
  (forall v d, has comps v && has axes d = false -> G v d = 0) -> flip d (vel_half v) = s ->
  Rabs (gv (exst (S n)) v d (ri x y z) - dt * G v d) <= dt * W.
Proof.
  intros Hi HT HG HG0 Hs. destruct (t_ok n HT) as (_ & _ & T3). assert (DW : 0 <= dt * W) by (apply Rmult_le_pos; [lra|apply W0]).
  unfold Gv, vgrad. rewrite Bool.andb_comm. destruct (has comps v && has axes d) eqn:E.
  - replace (D d (vel_half v d) (exst (S n) (vel v)) (ri x y z)) with (D d (vel_half v d) (samp nx nz h (V v) (vel_half v) (INR (S n) * dt - dt / 2)) (ri x y z)) by (apply D_eq; intros j; symmetry; apply exst_v).
    pose proof E as E'. apply Bool.andb_true_iff in E'. destruct E' as (E1 & E2).
    apply (space_any e c useVar hybrid nx ny nz p rest DH fuel dt h cv g HM Hp Hh Hdt (V v) (vel_half v) d T Mx (INR (S n) * dt - dt / 2) x y z (G v d)
      (vs_Vx _ _ _ _ _ _ _ _ _ _ _ _ _ _ _ _ _ _ _ _ _ HE v d (has_axis _ _ E1) (has_axis _ _ E2)) (Hax d (has_axis _ _ E2)) Hi T3). rewrite Hs. apply HG, E.
  - rewrite HG0 by exact E. rewrite Rmult_0_r, Rminus_0_r, Rabs_R0. exact DW.
Qed.
Notation lb := (law_relaxed_bound axes comps Hg P M L dP dM kmin la0 mu0 HdM HMd Hk0 Hr Hd Hla0 Hmu0 Hbe).
Lemma law_fault n a b0 x y z : In (a, b0) (stresses axes comps) -> ins x y z -> INR (S n) * dt <= T ->
  Rabs (lw Pr Mr (gv (fault n)) a b0 (ri x y z)) <= dt * (lc * (2 * fd_h p * (dt / h) * tv)) /\
  ((0 < L)%nat -> Rabs (lw dP dM (gv (fault n)) a b0 (ri x y z)) <= dt * (lc * (2 * fd_h p * (dt / h) * tv))).
Proof.
  intros Ho Hi HT. assert (Z0 : 0 <= 2 * fd_h p * (dt / h) * (dt * tv)) by (eapply Rle_trans; [apply Rabs_pos|apply (gv_fault n a b0 x y z Hi HT)]).
  replace (dt * (lc * (2 * fd_h p * (dt / h) * tv))) with (lc * (2 * fd_h p * (dt / h) * (dt * tv))) by ring.
  apply lb; auto; intros; apply gv_fault; assumption.
Qed.
Lemma law_exact n a b0 x y z G : In (a, b0) (stresses axes comps) -> ins x y z -> INR (S n) * dt <= T ->
  (forall v d, has comps v && has axes d = true -> derivable_pt_lim (fun u => V v (INR (S n) * dt - dt / 2) (shift d u (spot h (sig_half a b0) x y z))) 0 (G v d)) ->
  (forall v d, has comps v && has axes d = false -> G v d = 0) ->
  Rabs (lw Pr Mr (gv (exst (S n))) a b0 (ri x y z) - dt * rate axes Pr Mr G a b0 (ri x y z)) <= dt * (lc * W) /\
  ((0 < L)%nat -> Rabs (lw dP dM (gv (exst (S n))) a b0 (ri x y z) - dt * rate axes dP dM G a b0 (ri x y z)) <= dt * (lc * W)).
Proof.
  intros Ho Hi HT HG HG0. assert (DW : 0 <= dt * W) by (apply Rmult_le_pos; [lra|apply W0]).
  assert (E : forall p0 m0, lw p0 m0 (gv (exst (S n))) a b0 (ri x y z) - dt * rate axes p0 m0 G a b0 (ri x y z) =
    lw p0 m0 (fun v d j => gv (exst (S n)) v d j + - dt * (fun v d (_ : Z) => G v d) v d j) a b0 (ri x y z)).
  { intros p0 m0. rewrite law_comb. change (rate axes p0 m0 G a b0 (ri x y z)) with (lw p0 m0 (fun v d (_ : Z) => G v d) a b0 (ri x y z)). ring. }
  rewrite !E. replace (dt * (lc * W)) with (lc * (dt * W)) by ring.
  assert (GX : forall v d, flip d (vel_half v) = sig_half a b0 -> Rabs (gv (exst (S n)) v d (ri x y z) + - dt * G v d) <= dt * W).
  { intros v d Hf. replace (gv (exst (S n)) v d (ri x y z) + - dt * G v d) with (gv (exst (S n)) v d (ri x y z) - dt * G v d) by ring. apply (gv_exact n v d x y z G (sig_half a b0)); assumption. }
  apply lb; auto.
  - intros -> d _. apply GX. rewrite flip_vel_sig. apply functional_extensionality. intros u. destruct d, b0, u; reflexivity.
  - apply GX, flip_vel_sig.
  - apply GX. rewrite flip_vel_sig. apply sig_half_sym.
Qed.
Lemma stress_ab a b0 : In (a, b0) (stresses axes comps) -> stress axes comps a b0.
Proof. clear - Hg. intros H. unfold stress, stresses in *. geo Hg; cbn in H; repeat (destruct H as [H|H]; [injection H; intros; subst; reflexivity|]); destruct H. Qed.
Lemma trunc_e n l a b0 x y z : In (a, b0) (stresses axes comps) -> (l < L)%nat -> ins x y z -> INR (S n) * dt <= T -> Rabs (el (fault n) l a b0 (ri x y z)) <= dt * tt.
Proof.
  intros Ho Hl Hi HT. pose proof Hi as (Hx & Hy & Hz). pose proof (stress_ab a b0 Ho) as Hs. destruct (Htau l Hl) as (TA & TB).
  destruct (t_ok n HT) as (T1 & T2 & T3). destruct (mid2 n) as (M1 & M2).
  destruct (vs_law _ _ _ _ _ _ _ _ _ _ _ _ _ _ _ _ _ _ _ _ _ HE a b0 x y z _ Hs Hx Hy Hz T3) as (G & HG & HG0 & _ & HR). cbv zeta in HG, HR. specialize (HR l Hl).
  destruct (vs_Rt _ _ _ _ _ _ _ _ _ _ _ _ _ _ _ _ _ _ _ _ _ HE a b0 l x y z Hs Hl Hx Hy Hz) as (S2 & S1).
  pose proof (time_error dt _ _ _ _ _ _ Hdt S2 ltac:(rewrite M1; lra) ltac:(rewrite M2; lra) HR) as A.
  pose proof (mean_error dt _ _ _ _ (INR (S n) * dt - dt / 2) Hdt S1 ltac:(rewrite M1; lra) ltac:(rewrite M2; lra)) as B.
  rewrite M1, M2 in A, B. destruct (law_exact n a b0 x y z G Ho Hi HT HG HG0) as (_ & C). specialize (C ltac:(lia)).
  destruct (law_fault n a b0 x y z Ho Hi HT) as (_ & F). specialize (F ltac:(lia)).
  pose proof (fault_el n l a b0 (ri x y z) Hl Hs) as E. unfold maxwell_element in E at 2 3 4 5. rewrite !exst_r, !(samp_at nx ny nz h) in E by exact Hi.
  set (t := INR (S n) * dt - dt / 2) in *. set (r := spot h (sig_half a b0) x y z) in *.
  set (R0 := Rv a b0 l (INR n * dt) r) in *. set (R1 := Rv a b0 l (INR (S n) * dt) r) in *. set (Rm := Rv a b0 l t r) in *.
  set (le := lw dP dM (gv (exst (S n))) a b0 (ri x y z)) in *. set (lf := lw dP dM (gv (fault n)) a b0 (ri x y z)) in *. set (rt := rate axes dP dM G a b0 (ri x y z)) in *. set (X := el (fault n) l a b0 (ri x y z)) in *.
  assert (K0 : 0 < dt / (2 * tau l)) by (apply Rdiv_lt_0_compat; lra).
  assert (E2 : (1 + dt / (2 * tau l)) * X = lf + ((le - dt * rt) + (tau l * (R1 - R0 - dt * (- (Rm + rt) / tau l)) + dt * ((R1 + R0) / 2 - Rm)))) by (rewrite E; field; lra).
  apply Rle_trans with (Rabs ((1 + dt / (2 * tau l)) * X)).
  - rewrite Rabs_mult, (Rabs_right (1 + dt / (2 * tau l))) by lra. pose proof (Rabs_pos X). nra.
  - rewrite E2.
    eapply Rle_trans; [apply abs_sum2; [exact F|apply abs_sum2; [exact C|apply abs_sum2; [apply abs_mul; [rewrite Rabs_right by lra; exact TB|exact A]|apply abs_mul; [rewrite Rabs_right by lra; apply Rle_refl|exact B]]]]|].
    pose proof (Rmult_le_pos _ _ (Rlt_le _ _ Hdt) pt) as Q1. pose proof (Rmult_le_pos _ _ Htm Q1) as Q2. pose proof (Rmult_le_pos _ _ (pos_INR L) Q2) as Q3. unfold tt. lra.
Qed.
Lemma trunc_s n a b0 x y z : In (a, b0) (stresses axes comps) -> ins x y z -> INR (S n) * dt <= T -> Rabs (spr (fault n) a b0 (ri x y z)) <= dt * tt.
Proof.
  intros Ho Hi HT. pose proof Hi as (Hx & Hy & Hz). pose proof (stress_ab a b0 Ho) as Hs.
  destruct (t_ok n HT) as (T1 & T2 & T3). destruct (mid2 n) as (M1 & M2).
  destruct (vs_law _ _ _ _ _ _ _ _ _ _ _ _ _ _ _ _ _ _ _ _ _ HE a b0 x y z _ Hs Hx Hy Hz T3) as (G & HG & HG0 & HS & HR). cbv zeta in HG, HS, HR.
  pose proof (time_error dt _ _ _ _ _ _ Hdt (vs_St _ _ _ _ _ _ _ _ _ _ _ _ _ _ _ _ _ _ _ _ _ HE a b0 x y z Hs Hx Hy Hz) ltac:(rewrite M1; lra) ltac:(rewrite M2; lra) HS) as A. rewrite M1, M2 in A.
  destruct (law_exact n a b0 x y z G Ho Hi HT HG HG0) as (C & _). destruct (law_fault n a b0 x y z Ho Hi HT) as (F & _).
  rewrite (fault_spr n a b0 (ri x y z) Hs). unfold spring. unfold maxwell_element. rewrite !exst_s, !(samp_at nx ny nz h) by exact Hi.
  set (t := INR (S n) * dt - dt / 2) in *. set (r := spot h (sig_half a b0) x y z) in *.
  set (S0 := Sg a b0 (INR n * dt) r) in *. set (S1 := Sg a b0 (INR (S n) * dt) r) in *.
  rewrite (Rsum_map_ext (seq 0 L) (fun l => - tau l * exst (S n) (rel a b0 l) (ri x y z)) (fun l => -1 * (tau l * Rv a b0 l (INR (S n) * dt) r))) by (intros l _; rewrite exst_r, (samp_at nx ny nz h) by exact Hi; fold r; ring).
  rewrite (Rsum_map_ext (seq 0 L) (fun l => - tau l * exst n (rel a b0 l) (ri x y z)) (fun l => -1 * (tau l * Rv a b0 l (INR n * dt) r))) by (intros l _; rewrite exst_r, (samp_at nx ny nz h) by exact Hi; fold r; ring).
  rewrite !Rsum_map_mul. set (s1 := Rsum (map (fun l => tau l * Rv a b0 l (INR (S n) * dt) r) (seq 0 L))). set (s0 := Rsum (map (fun l => tau l * Rv a b0 l (INR n * dt) r) (seq 0 L))).
  set (le := lw Pr Mr (gv (exst (S n))) a b0 (ri x y z)) in *. set (lf := lw Pr Mr (gv (fault n)) a b0 (ri x y z)) in *.
  set (rm := Rsum (map (fun l => Rv a b0 l t r) (seq 0 L))) in *. set (rp := rate axes P M G a b0 (ri x y z)) in *.
  set (rd := rate axes dP dM G a b0 (ri x y z)) in *.
  assert (RR : rate axes Pr Mr G a b0 (ri x y z) = rp - INR L * rd) by (symmetry; apply (law_relaxed axes P M L dP dM (fun v d _ => G v d) a b0 (ri x y z))).
  rewrite RR in C.
  assert (B : Rabs (s1 - s0 + dt * (rm + INR L * rd)) <= INR L * (dt * (taumax * (Mt * dt ^ 2)))).
  { assert (Q0 : s1 - s0 + dt * (rm + INR L * rd) = Rsum (map (fun l => tau l * Rv a b0 l (INR (S n) * dt) r + (-1 * (tau l * Rv a b0 l (INR n * dt) r) + dt * (Rv a b0 l t r + rd))) (seq 0 L))).
    { rewrite Rsum_map_add, Rsum_map_add, !Rsum_map_mul, Rsum_map_add, Rsum_const, seq_length. fold s1 s0 rm. ring. }
    rewrite Q0. eapply Rle_trans; [apply L_Taylor.Rsum_abs|]. eapply Rle_trans; [apply (Rsum_map_le _ _ (fun _ => dt * (taumax * (Mt * dt ^ 2))))|rewrite Rsum_const, seq_length; lra].
    intros l Hl. apply in_seq in Hl. assert (Hl' : (l < L)%nat) by lia. destruct (Htau l Hl') as (TA & TB). specialize (HR l Hl').
    destruct (vs_Rt _ _ _ _ _ _ _ _ _ _ _ _ _ _ _ _ _ _ _ _ _ HE a b0 l x y z Hs Hl' Hx Hy Hz) as (S2 & _).
    pose proof (time_error dt _ _ _ _ _ _ Hdt S2 ltac:(rewrite M1; lra) ltac:(rewrite M2; lra) HR) as A'. rewrite M1, M2 in A'. fold r t rd in A'.
    replace (tau l * Rv a b0 l (INR (S n) * dt) r + (-1 * (tau l * Rv a b0 l (INR n * dt) r) + dt * (Rv a b0 l t r + rd))) with
      (tau l * (Rv a b0 l (INR (S n) * dt) r - Rv a b0 l (INR n * dt) r - dt * (- (Rv a b0 l t r + rd) / tau l))) by (field; lra).
    eapply Rle_trans; [apply abs_mul; [rewrite Rabs_right by lra; exact TB|exact A']|].
    pose proof (Rmult_le_pos _ _ Htm (Rmult_le_pos _ _ (Rlt_le _ _ Hdt) pt)) as Q2. lra. }
  replace (lf - (S1 - -1 * s1 - (S0 - -1 * s0) - le)) with (lf + ((le - dt * (rp - INR L * rd)) + (- (S1 - S0 - dt * (rp + rm)) + - (s1 - s0 + dt * (rm + INR L * rd))))) by ring.
  eapply Rle_trans; [apply abs_sum2; [exact F|apply abs_sum2; [exact C|apply abs_sum2; rewrite Rabs_Ropp; [exact A|exact B]]]|].
  pose proof (Rmult_le_pos _ _ (Rlt_le _ _ Hdt) pt) as Q1. pose proof (Rmult_le_pos _ _ Htm Q1) as Q2. pose proof (Rmult_le_pos _ _ (pos_INR L) Q2) as Q3. unfold tt. lra.
Qed.

(** ** growth of the error *)
Definition err_sum (n : nat) : R := sum_axes comps (fun a => gs (fun i => err n (vel a) i * err n (vel a) i)) +
    Rsum (map (fun ab => gs (fun i => stress_of (err n) (fst ab) (snd ab) i * stress_of (err n) (fst ab) (snd ab) i)) (stresses axes comps)).
Hypothesis HV0 : forall a x y z, In a comps -> ins x y z -> after 0 (vel a) (ri x y z) = V a (- (dt / 2)) (spot h (vel_half a) x y z).
Hypothesis HS0 : forall a b0 x y z, In (a, b0) (stresses axes comps) -> ins x y z -> after 0 (sig a b0) (ri x y z) = Sg a b0 0 (spot h (sig_half a b0) x y z).
Hypothesis HR0 : forall a b0 l x y z, In (a, b0) (stresses axes comps) -> (l < L)%nat -> ins x y z -> after 0 (rel a b0 l) (ri x y z) = Rv a b0 l 0 (spot h (sig_half a b0) x y z).
Lemma el_symm st l a b0 i : el st l a b0 i = el st l b0 a i.
Proof. unfold maxwell_element. destruct a, b0; reflexivity. Qed.
Lemma spr_symm st a b0 i : spr st a b0 i = spr st b0 a i.
Proof. unfold spring. rewrite (Rsum_map_ext (seq 0 L) (fun l => el st l a b0 i) (fun l => el st l b0 a i)) by (intros; apply el_symm). destruct a, b0; reflexivity. Qed.
Lemma err_bound n : INR n * dt <= T ->
  (1 - q) * err_sum n <= (bmax + 6 * stiff comps la0 mu0) * (INR n * INR n * (2 * IZR (nx * ny * nz) *
    (INR (length comps) * (dt * tv * (dt * tv) / bmin) + 8 * (dt * tt * (dt * tt) / kmin) + INR L * (8 * (dt * tt * (dt * tt) / kmin))))).
Proof.
  intros HT. destruct HN as (N1 & N2 & N3). pose proof (L_Fd.exact_supported p Hp) as Hps. assert (D0 : 0 <= dt) by lra. pose proof bmax0 as B0.
  set (Q := EF e nx ny nz axes comps P M L tau dP dM nxt).
  assert (SZ : forall s mv ms, (forall a x y z, In a comps -> ins x y z -> Rabs (s (vel a) (ri x y z)) <= mv) ->
    (forall a b0 x y z, In (a, b0) (stresses axes comps) -> ins x y z -> Rabs (spr s a b0 (ri x y z)) <= ms) ->
    (forall l a b0 x y z, (l < L)%nat -> In (a, b0) (stresses axes comps) -> ins x y z -> Rabs (el s l a b0 (ri x y z)) <= ms) ->
    Q s <= 2 * IZR (nx * ny * nz) * (INR (length comps) * (mv * mv / bmin) + 8 * (ms * ms / kmin) + INR L * (8 * (ms * ms / kmin)))).
  { intros s mv ms Hv Hsp He.
    apply (EF_size e c useVar hybrid nx ny nz p rest DH fuel (dt / h) cv g HM Hu Hfs axes comps Hg Hax P M L tau dt dP dM HdM HMd kmin la0 mu0 bmin bmax Hk0 Hb0 Hb Hr Hd Htau' Hla0 Hmu0 Hbe Hps nxt Hnxt q Hq Hth s mv ms ms N1 N2 N3); auto.
    - intros a b0 x y z Ho Hi. destruct (occurs_stress axes comps a b0 Hg Ho); [|rewrite spr_symm]; auto.
    - intros l a b0 x y z Hl Ho Hi. destruct (occurs_stress axes comps a b0 Hg Ho); [|rewrite el_symm]; auto. }
  assert (QP : forall s, 0 <= Q s) by exact (EF_pos e c useVar hybrid nx ny nz p rest DH fuel (dt / h) cv g HM Hu Hfs axes comps Hg Hax P M L tau dt dP dM HdM HMd kmin la0 mu0 bmin bmax Hk0 Hb0 Hb Hr Hd Htau' Hla0 Hmu0 Hbe Hps nxt Hnxt q Hq Hth).
  assert (QL : forall s s', exists x, forall l, Q (lin s l s') = Q s + l * x + l * l * Q s').
  { intros s s'. unfold Q. eapply EF_lin with (bmin := bmin) (bmax := bmax); try eassumption. }
  assert (QD : forall s, Q (nxt s) <= Q s).
  { intros s. unfold Q. eapply EF_nxt with (bmin := bmin) (bmax := bmax) (kmin := kmin); try eassumption. exact Htau'. }
  set (B2 := 2 * IZR (nx * ny * nz) * (INR (length comps) * (dt * tv * (dt * tv) / bmin) + 8 * (dt * tt * (dt * tt) / kmin) + INR L * (8 * (dt * tt * (dt * tt) / kmin)))).
  assert (B20 : 0 <= B2).
  { unfold B2. assert (0 <= IZR (nx * ny * nz)) by (apply (IZR_le 0); apply Z.mul_nonneg_nonneg; [apply Z.mul_nonneg_nonneg|]; assumption).
    pose proof (sq_div (dt * tt) kmin Hk0). pose proof (sq_div (dt * tv) bmin Hb0). pose proof (pos_INR L). pose proof (pos_INR (length comps)).
    pose proof (sq_div (dt * tt) kmin Hk0) as X1. pose proof (sq_div (dt * tv) bmin Hb0) as X2.
    pose proof (Rmult_le_pos _ _ (pos_INR (length comps)) X2) as X3. pose proof (Rmult_le_pos _ _ (pos_INR L) X1) as X4. apply Rmult_le_pos; lra. }
  assert (Q0 : Q (err 0) = 0).
  { apply Rle_antisym; [|apply QP]. eapply Rle_trans; [apply (SZ (err 0) 0 0)|].
    - intros a x y z Ha Hi. unfold err. rewrite exst_v, (samp_at nx ny nz h) by exact Hi. rewrite (HV0 a x y z Ha Hi). cbn [INR].
      replace (0 * dt - dt / 2) with (- (dt / 2)) by ring. rewrite Rminus_diag_eq by reflexivity. rewrite Rabs_R0. lra.
    - intros a b0 x y z Ho Hi. unfold err. rewrite spr_sub. unfold spring. unfold maxwell_element. rewrite exst_s, (samp_at nx ny nz h) by exact Hi. rewrite (HS0 a b0 x y z Ho Hi). cbn [INR]. rewrite Rmult_0_l.
      rewrite (Rsum_map_ext (seq 0 L) (fun l => - tau l * after 0 (rel a b0 l) (ri x y z)) (fun l => - tau l * exst 0 (rel a b0 l) (ri x y z))).
      + rewrite Rminus_diag_eq by reflexivity. rewrite Rabs_R0. lra.
      + intros l Hl. apply in_seq in Hl. rewrite (HR0 a b0 l x y z Ho ltac:(lia) Hi), exst_r, (samp_at nx ny nz h) by exact Hi. cbn [INR]. rewrite Rmult_0_l. reflexivity.
    - intros l a b0 x y z Hl Ho Hi. unfold err. rewrite el_sub. unfold maxwell_element. rewrite (HR0 a b0 l x y z Ho Hl Hi), exst_r, (samp_at nx ny nz h) by exact Hi. cbn [INR]. rewrite Rmult_0_l.
      rewrite Rminus_diag_eq by reflexivity. rewrite Rabs_R0. lra.
    - apply Req_le. unfold Rdiv. ring. }
  assert (QN : Q (err n) <= INR n * INR n * B2).
  { apply (g_error Q nxt QP QL QD err n B2 Q0); [|exact B20]. intros j Hj. apply (SZ (fault j)).
    - intros a x y z Ha Hi. apply trunc_v; auto. eapply Rle_trans; [|exact HT]. apply Rmult_le_compat_r; [lra|]. apply le_INR. lia.
    - intros a b0 x y z Ho Hi. apply trunc_s; auto. eapply Rle_trans; [|exact HT]. apply Rmult_le_compat_r; [lra|]. apply le_INR. lia.
    - intros l a b0 x y z Hl Ho Hi. apply trunc_e; auto. eapply Rle_trans; [|exact HT]. apply Rmult_le_compat_r; [lra|]. apply le_INR. lia. }
  eapply Rle_trans.
  - unfold err_sum. exact (EF_fields e c useVar hybrid nx ny nz p rest DH fuel (dt / h) cv g HM Hu Hfs axes comps Hg Hax P M L tau dt dP dM HdM HMd kmin la0 mu0 bmin bmax Hk0 Hb0 Hb Hr Hd Htau' Hla0 Hmu0 Hbe Hps nxt Hnxt q Hq Hth (err n)).
  - fold Q. apply Rmult_le_compat_l; [|exact QN]. pose proof (stiff_pos comps la0 mu0 Hla0 Hmu0). lra.
Qed.
End faults.

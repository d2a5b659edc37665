(** Energy balance and energy norm of the elastic and viscoelastic schemes: time steps. *)
From Coq Require Import QArith Qreals Reals Lra.
From Verif Require Import M_Grid M_Deriv S_Deriv L_Deriv L_Deriv2 M_Prog M_Solvers M_Env S_Solver S_Step S_Check S_Energy L_Prog L_Lin L_Src L_Surface L_Leap L_Leap2 L_Diff L_Energy L_Energy2.
Open Scope R_scope.
Open Scope list_scope.

Section elastic.
Variables (e : env R_arith) (c : cfg) (useVar hybrid : bool) (nx ny nz p : Z) (rest : list Z) (DH : Q) (fuel : nat)
  (k : R) (cv : Q -> R) (g : grid).
Hypothesis HM : @fd_matrices R_arith e c true useVar hybrid nx ny nz p rest DH fuel (fun q => Q2R q * k) cv g.
Hypothesis Hu : undamped c.
Hypothesis Hfs : c_fs c <> 1%Z.
Notation gs := (grid_sum nx ny nz).
Notation ri := (reg_index nx nz).
Notation D := (Dmv e "").
Notation ins := (inside nx ny nz).
Notation rst := (state R_arith).
Variables (axes comps : list axis).
Hypothesis Hg : geometry axes comps.
Hypothesis Hax : forall a, In a axes -> ax_ok nz a.
Notation b a := (e_coef e (buoyancy axes a)).
Hypothesis Hb : forall a x y z, has comps a = true -> ins x y z -> 0 < b a (ri x y z).
Variables (P : Z -> R) (M : tensor) (L : nat) (tau : nat -> R) (DT : R) (dP : Z -> R) (dM : tensor).
Notation Pr := (relaxedP P L dP).
Notation Mr := (relaxedM M L dM).
Hypothesis HdM : diag dM.
Hypothesis HdMr : diag Mr.
Hypothesis Hgood : forall x y z, ins x y z -> good axes comps Pr Mr (ri x y z).
Hypothesis Hgoodd : forall l x y z, (l < L)%nat -> ins x y z -> good axes comps dP dM (ri x y z).
Hypothesis Htau : forall l, (l < L)%nat -> 0 < tau l.
Notation step st st' := (elastic_step e c st axes comps (fun _ => false) P M L tau DT dP dM st').
Notation compl := (compl axes comps).
Notation power := (power axes comps).
Notation law := (law axes).
Notation el st l := (maxwell_element tau st l).
Notation spr st := (spring L tau st).

(** velocity gradient and force *)
Definition vgrad (u : axis -> Z -> R) : tensor := fun a d i => if has axes d && has comps a then D d (vel_half a d) (u a) i else 0.
Definition force (S : tensor) (a : axis) (i : Z) : R := sum_axes axes (fun d => D d (sig_half a d d) (S a d) i).
Definition Gv (st : rst) : tensor := vgrad (fun a => st (vel a)).

Lemma el_v st st' : step st st' -> forall a i, has comps a = true -> st' (vel a) i = st (vel a) i + b a i * force (stress_of st) a i.
Proof.
  intros (H & _) a i Ha. rewrite (H a i Ha), undamp by exact Hu. unfold new_vel, force, sum_axes. f_equal. f_equal.
  apply Rsum_map_ext. intros d _. apply plain; assumption.
Qed.
Lemma el_grad st st' : step st st' -> forall a d i, grad e c st axes comps a d i = Gv st' a d i.
Proof.
  intros (H & _) a d i. unfold grad, Gv, vgrad. destruct (has axes d && has comps a) eqn:E; [|reflexivity]. rewrite plain0 by exact Hu.
  apply D_eq. intros j. apply Bool.andb_true_iff in E. destruct E as (_ & E). rewrite (H a j E), undamp by exact Hu. reflexivity.
Qed.
Lemma el_hooke st st' p0 m0 : step st st' -> forall a b i, hooke e c st axes comps (fun _ => false) P M p0 m0 a b i = law p0 m0 (Gv st') a b i.
Proof.
  intros H a b0 i. unfold hooke, law, grad_s. cbn [andb]. rewrite !(el_grad st st' H). destruct (axis_eqb a b0); [|reflexivity].
  f_equal. f_equal. unfold sum_axes. apply Rsum_map_ext. intros d _. apply el_grad, H.
Qed.
Lemma el_element st st' l : step st st' -> (l < L)%nat -> forall a b0 i, occurs axes comps a b0 ->
  el st' l a b0 i - el st l a b0 i = law dP dM (Gv st') a b0 i - DT / (2 * tau l) * (el st l a b0 i + el st' l a b0 i).
Proof.
  intros H Hl a b0 i Ho. pose proof H as (_ & _ & HR & _). specialize (HR a b0 i l Ho Hl). cbn [normal_at_surface andb] in HR.
  unfold normal_at_surface in HR. cbn [andb] in HR. rewrite (el_hooke st st' _ _ H) in HR. pose proof (Htau l Hl).
  unfold maxwell_element. assert (E : law dP dM (Gv st') a b0 i = - tau l * (st' (rel a b0 l) i - st (rel a b0 l) i) - DT * (st' (rel a b0 l) i + st (rel a b0 l) i) / 2) by lra.
  rewrite E. field. lra.
Qed.
Lemma law_relaxed G a b0 i : law P M G a b0 i - INR L * law dP dM G a b0 i = law Pr Mr G a b0 i.
Proof. unfold law, relaxedP, relaxedM. destruct (axis_eqb a b0); ring. Qed.
Lemma el_spring st st' : step st st' -> forall a b0 i, occurs axes comps a b0 -> spr st' a b0 i - spr st a b0 i = law Pr Mr (Gv st') a b0 i.
Proof.
  intros H a b0 i Ho. pose proof H as (_ & HS & _). specialize (HS a b0 i Ho). unfold normal_at_surface in HS. cbn [andb] in HS.
  rewrite undamp in HS by exact Hu. rewrite (el_hooke st st' _ _ H) in HS. unfold spring. rewrite HS.
  rewrite <- law_relaxed.
  assert (E : Rsum (map (fun l => el st' l a b0 i) (seq 0 L)) = Rsum (map (fun l => el st l a b0 i) (seq 0 L)) + INR L * law dP dM (Gv st') a b0 i +
     DT / 2 * Rsum (map (fun l => st (rel a b0 l) i + st' (rel a b0 l) i) (seq 0 L))).
  { rewrite <- (seq_length L 0) at 3. rewrite <- Rsum_const, <- Rsum_map_mul, <- !Rsum_map_add. apply Rsum_map_ext. intros l Hl. apply in_seq in Hl.
    pose proof (el_element st st' l H ltac:(lia) a b0 i Ho) as E. pose proof (Htau l ltac:(lia)).
    assert (E2 : DT / (2 * tau l) * (el st l a b0 i + el st' l a b0 i) = - (DT / 2 * (st (rel a b0 l) i + st' (rel a b0 l) i))) by (unfold maxwell_element; field; lra). lra. }
  rewrite E. lra.
Qed.
Lemma el_total st a b0 i : stress_of st a b0 i = spr st a b0 i + Rsum (map (fun l => el st l a b0 i) (seq 0 L)).
Proof. unfold spring, stress_of. lra. Qed.

(** work of the stresses *)
Definition symm (S : tensor) : Prop := forall a b0 i, S a b0 i = S b0 a i.
Lemma stress_symm st : symm (stress_of st).
Proof. intros a b0 i. unfold stress_of. destruct a, b0; reflexivity. Qed.
Lemma work S u : symm S -> sum_axes comps (fun a => gs (fun i => u a i * force S a i)) = - gs (fun i => power S (vgrad u) i).
Proof.
  intros HS.
  transitivity (sum_axes comps (fun a => sum_axes axes (fun d => - gs (fun i => S a d i * vgrad u a d i)))).
  - unfold sum_axes. apply Rsum_map_ext. intros a Ha. pose proof (in_has _ _ Ha) as Ha'. unfold force, sum_axes.
    rewrite (gext nx ny nz _ (fun i => Rsum (map (fun d => u a i * D d (sig_half a d d) (S a d) i) axes))).
    2:{ intros x y z _. rewrite Rsum_map_mul. reflexivity. }
    rewrite gs_Rsum. apply Rsum_map_ext. intros d Hd. pose proof (in_has _ _ Hd) as Hd'. unfold vgrad. rewrite Ha', Hd'. cbn [andb].
    rewrite (gext nx ny nz _ (fun i => D d (sig_half a d d) (S a d) i * u a i)) by (intros; apply Rmult_comm).
    assert (E : sig_half a d d = negb (vel_half a d)) by (destruct a, d; reflexivity). rewrite E. destruct (vel_half a d); cbn [negb].
    + apply (adj e c useVar hybrid nx ny nz p rest DH fuel k cv g HM d _ _ (Hax d Hd)).
    + apply (adj' e c useVar hybrid nx ny nz p rest DH fuel k cv g HM d _ _ (Hax d Hd)).
  - transitivity (- gs (fun i => sum_axes comps (fun a => sum_axes axes (fun d => S a d i * vgrad u a d i)))).
    + unfold sum_axes. rewrite gs_Rsum. rewrite opp1, <- Rsum_map_mul. apply Rsum_map_ext. intros a _. rewrite gs_Rsum, <- Rsum_map_mul. apply Rsum_map_ext. intros d _. lra.
    + f_equal. apply gext. intros x y z _. set (i := ri x y z). unfold L_Energy2.power. pose proof (HS AX AY i) as S1. pose proof (HS AX AZ i) as S2. pose proof (HS AY AZ i) as S3.
      unfold vgrad; geo Hg; geo_cbn; rewrite ?S1, ?S2, ?S3; ring.
Qed.
Lemma force_add S T a i : force (fun a b0 j => S a b0 j + T a b0 j) a i = force S a i + force T a i.
Proof. unfold force, sum_axes. rewrite <- Rsum_map_add. apply Rsum_map_ext. intros d _. apply D_add. Qed.

(** the power splits between spring and Maxwell elements *)
Lemma power_total st G i : power (stress_of st) G i = power (spr st) G i + Rsum (map (fun l => power (el st l) G i) (seq 0 L)).
Proof.
  rewrite <- power_sum, <- power_add by exact Hg. apply power_ext; [exact Hg|]. intros a b0 _. apply el_total.
Qed.

Notation energy := (visco_energy nx ny nz e axes comps P M L tau dP dM).
Notation loss := (visco_loss nx ny nz axes comps L tau dP dM DT).
Notation se := (strain_energy nx ny nz axes comps).

Lemma el_energy st st1 st2 : step st st1 -> step st1 st2 -> energy st1 st2 = energy st st1 - loss st st1.
Proof.
  intros S1 S2. unfold visco_energy, visco_loss.
  set (W := gs (fun i => power (fun a b0 j => stress_of st a b0 j + stress_of st1 a b0 j) (Gv st1) i)).
  assert (KV : kinetic nx ny nz e axes comps st1 st2 = kinetic nx ny nz e axes comps st st1 - W).
  { unfold W. pose proof (work (fun a b0 j => stress_of st a b0 j + stress_of st1 a b0 j) (fun a => st1 (vel a))) as HW.
    assert (HS : symm (fun a b0 j => stress_of st a b0 j + stress_of st1 a b0 j)) by (intros a b0 i; rewrite (stress_symm st a), (stress_symm st1 a); reflexivity).
    specialize (HW HS). fold (Gv st1) in HW. unfold Rminus. rewrite <- HW. unfold kinetic, sum_axes. rewrite <- Rsum_map_add. apply Rsum_map_ext. intros a Ha. pose proof (in_has _ _ Ha) as Ha'.
    rewrite <- gs_add. apply gext. intros x y z Hi. pose proof (Hb a x y z Ha' Hi). rewrite force_add.
    rewrite (el_v st1 st2 S2 a _ Ha'). set (f1 := force (stress_of st1) a _).
    pose proof (el_v st st1 S1 a (ri x y z) Ha') as E. set (f0 := force (stress_of st) a _) in *. assert (E' : st (vel a) (ri x y z) = st1 (vel a) (ri x y z) - b a (ri x y z) * f0) by lra.
    rewrite E'. field. lra. }
  assert (KS : se Pr Mr (spr st1) = se Pr Mr (spr st) + gs (fun i => power (fun a b0 j => spr st a b0 j + spr st1 a b0 j) (Gv st1) i)).
  { unfold strain_energy. rewrite <- gs_add. apply gext. intros x y z Hi. 
    rewrite <- (compl_law axes comps Hg Pr Mr (Gv st1) (fun a b0 j => spr st a b0 j + spr st1 a b0 j) _ HdMr (Hgood x y z Hi)).
    rewrite (compl_ext' axes comps Hg Pr Mr (law Pr Mr (Gv st1)) (fun a b0 j => spr st1 a b0 j - spr st a b0 j) (fun a b0 j => spr st a b0 j + spr st1 a b0 j) (fun a b0 j => spr st a b0 j + spr st1 a b0 j)).
    - rewrite <- compl_diff by exact Hg. lra.
    - intros a b0 Ho. symmetry. apply el_spring; assumption.
    - reflexivity. }
  assert (KE : Rsum (map (fun l => se dP dM (el st1 l)) (seq 0 L)) = Rsum (map (fun l => se dP dM (el st l)) (seq 0 L)) +
     Rsum (map (fun l => gs (fun i => power (fun a b0 j => el st l a b0 j + el st1 l a b0 j) (Gv st1) i)) (seq 0 L)) -
     Rsum (map (fun l => DT / (2 * tau l) * se dP dM (fun a b0 i => el st l a b0 i + el st1 l a b0 i)) (seq 0 L))).
  { unfold Rminus. rewrite opp1, <- Rsum_map_mul, <- !Rsum_map_add. apply Rsum_map_ext. intros l Hl. apply in_seq in Hl. assert (Hl' : (l < L)%nat) by lia.
    unfold strain_energy. rewrite <- !gs_mul, <- !gs_add. apply gext. intros x y z Hi.
    rewrite <- (compl_law axes comps Hg dP dM (Gv st1) (fun a b0 j => el st l a b0 j + el st1 l a b0 j) _ HdM (Hgoodd l x y z Hl' Hi)).
    pose proof (compl_diff axes comps Hg dP dM (el st l) (el st1 l) (ri x y z)) as CD.
    rewrite (compl_ext' axes comps Hg dP dM (fun a b0 j => el st1 l a b0 j - el st l a b0 j)
      (fun a b0 j => law dP dM (Gv st1) a b0 j - DT / (2 * tau l) * (el st l a b0 j + el st1 l a b0 j))
      (fun a b0 j => el st l a b0 j + el st1 l a b0 j) (fun a b0 j => el st l a b0 j + el st1 l a b0 j)) in CD.
    - rewrite (compl_sub axes comps Hg dP dM (law dP dM (Gv st1)) (fun a b0 j => el st l a b0 j + el st1 l a b0 j)) in CD. lra.
    - intros a b0 Ho. apply el_element; assumption.
    - reflexivity. }
  assert (KW : W = gs (fun i => power (fun a b0 j => spr st a b0 j + spr st1 a b0 j) (Gv st1) i) +
     Rsum (map (fun l => gs (fun i => power (fun a b0 j => el st l a b0 j + el st1 l a b0 j) (Gv st1) i)) (seq 0 L))).
  { unfold W. rewrite <- gs_Rsum, <- gs_add. apply gext. intros x y z _. rewrite !power_add, !power_total by exact Hg.
    rewrite (Rsum_map_ext (seq 0 L) (fun l => power (fun a b0 j => el st l a b0 j + el st1 l a b0 j) (Gv st1) (ri x y z))
      (fun l => power (el st l) (Gv st1) (ri x y z) + power (el st1 l) (Gv st1) (ri x y z))) by (intros; apply power_add, Hg).
    rewrite Rsum_map_add. lra. }
  rewrite KV, KS, KE, KW. lra.
Qed.

Lemma se_pos p0 m0 S : (forall x y z, ins x y z -> good axes comps p0 m0 (ri x y z)) -> 0 <= se p0 m0 S.
Proof. intros H. apply gpos. intros x y z Hi. apply compl_pos; [exact Hg|apply H, Hi]. Qed.
Lemma loss_pos st st' : 0 <= DT -> 0 <= loss st st'.
Proof.
  intros HD. apply Rsum_map_pos. intros l Hl. apply in_seq in Hl. assert (Hl' : (l < L)%nat) by lia. pose proof (Htau l Hl').
  apply Rmult_le_pos; [apply Rle_mult_inv_pos; lra|]. apply se_pos. intros. apply (Hgoodd l); assumption.
Qed.

(** ** the energy norm *)
Definition pot (st : rst) : R := se Pr Mr (spr st) + Rsum (map (fun l => se dP dM (el st l)) (seq 0 L)).
Lemma pot_pos st : 0 <= pot st.
Proof.
  apply Rplus_le_le_0_compat; [apply se_pos, Hgood|]. apply Rsum_map_pos. intros l Hl. apply in_seq in Hl. apply se_pos. intros. apply (Hgoodd l); [lia|assumption].
Qed.
Variables (la0 mu0 bmax : R).
Hypothesis Hla0 : 0 <= la0.
Hypothesis Hmu0 : 0 < mu0.
Hypothesis Hbm0 : 0 < bmax.
Hypothesis HMd : diag M.
Hypothesis Hla : forall x y z, ins x y z -> P (ri x y z) - 2 * M AX AX (ri x y z) <= la0.
Hypothesis Hmu : forall x y z, ins x y z -> M AX AX (ri x y z) <= mu0.
Hypothesis Hms : forall ab x y z, In ab (shears axes comps) -> ins x y z -> M (fst ab) (snd ab) (ri x y z) <= mu0.
Hypothesis Hbm : forall a x y z, has comps a = true -> ins x y z -> b a (ri x y z) <= bmax.
Hypothesis Hp : supported p.
(** largest stiffness: P-wave modulus, or shear modulus for SH waves *)
Definition stiff : R := if has comps AX then la0 + 2 * mu0 else mu0.
Definition el_th : R := INR (length axes) * ((fd_h p * k) * (fd_h p * k)) * (bmax * stiff).
Lemma el_th_pos : 0 <= el_th.
Proof.
  unfold el_th. apply Rmult_le_pos; [apply Rmult_le_pos; [apply pos_INR|nra]|]. apply Rmult_le_pos; [lra|]. unfold stiff. destruct (has comps AX); lra.
Qed.
Lemma law_norm u : gs (fun i => power (law P M (vgrad u)) (vgrad u) i) <=
  (2 * fd_h p * k) * (2 * fd_h p * k) * (INR (length axes) * stiff) * sum_axes comps (fun a => gs (fun i => u a i * u a i)).
Proof.
  set (w a d := if axis_eqb a d then INR (length (normals axes comps)) * la0 + 2 * mu0 else if has axes a then 2 * mu0 else mu0).
  apply Rle_trans with (sum_axes comps (fun a => sum_axes axes (fun d => w a d * ((2 * fd_h p * k) * (2 * fd_h p * k) * gs (fun i => u a i * u a i))))).
  - apply Rle_trans with (gs (fun i => sum_axes comps (fun a => sum_axes axes (fun d => w a d * (vgrad u a d i * vgrad u a d i))))).
    + apply gle. intros x y z Hi. apply power_law; auto; try lra.
      intros a d E. unfold vgrad. rewrite E. reflexivity.
    + unfold sum_axes. rewrite gs_Rsum. apply Rsum_map_le. intros a Ha. pose proof (in_has _ _ Ha) as Ha'. rewrite gs_Rsum. apply Rsum_map_le. intros d Hd. pose proof (in_has _ _ Hd) as Hd'.
      rewrite gs_mul. apply Rmult_le_compat_l.
      * unfold w. destruct (axis_eqb a d); [|destruct (has axes a); lra]. pose proof (pos_INR (length (normals axes comps))). nra.
      * unfold vgrad. rewrite Ha', Hd'. cbn [andb]. apply (bound e c useVar hybrid nx ny nz p rest DH fuel k cv g HM d _ _ Hp (Hax d Hd)).
  - set (H2 := 2 * fd_h p * k * (2 * fd_h p * k)). apply Req_le. unfold w, stiff. clear - Hg. geo Hg; geo_cbn; ring.
Qed.
Lemma el_inc st st' : step st st' -> kin_inc e nx ny nz axes comps st st' <= 4 * el_th * pot st.
Proof.
  intros S1. pose proof el_th_pos as T0. pose proof (pot_pos st) as P0.
  set (u := fun a i => st' (vel a) i - st (vel a) i). set (Kd := kin_inc e nx ny nz axes comps st st').
  assert (EK : Kd = - gs (fun i => power (stress_of st) (vgrad u) i)).
  { rewrite <- (work (stress_of st) u (stress_symm st)). unfold Kd, kin_inc, sum_axes. apply Rsum_map_ext. intros a Ha. pose proof (in_has _ _ Ha) as Ha'.
    apply gext. intros x y z Hi. pose proof (Hb a x y z Ha' Hi). unfold u. rewrite (el_v st st' S1 a _ Ha'). field. lra. }
  set (Q := gs (fun i => power (law P M (vgrad u)) (vgrad u) i)).
  assert (HQ : Q <= 4 * el_th * Kd).
  { unfold Q. eapply Rle_trans; [apply law_norm|]. apply Rle_trans with ((2 * fd_h p * k) * (2 * fd_h p * k) * (INR (length axes) * stiff) * (bmax * Kd)).
    - apply Rmult_le_compat_l.
      + apply Rmult_le_pos; [nra|]. apply Rmult_le_pos; [apply pos_INR|]. unfold stiff. destruct (has comps AX); lra.
      + unfold Kd, kin_inc, sum_axes. rewrite <- Rsum_map_mul. apply Rsum_map_le. intros a Ha. pose proof (in_has _ _ Ha) as Ha'. rewrite <- gs_mul.
        apply gle. intros x y z Hi. pose proof (Hb a x y z Ha' Hi) as B0. pose proof (Hbm a x y z Ha' Hi). fold (u a (ri x y z)). set (q := u a _).
        replace (bmax * (q * q / b a (ri x y z))) with (q * q * (bmax * / b a (ri x y z))) by (unfold Rdiv; ring).
        rewrite <- (Rmult_1_r (q * q)) at 1. apply Rmult_le_compat_l; [nra|]. apply (Rmult_le_reg_r (b a (ri x y z))); [exact B0|]. rewrite Rmult_assoc, Rinv_l by lra. lra.
    - apply Req_le. unfold el_th. ring. }
  assert (HT : forall t, 0 <= pot st + 2 * t * - Kd + t * t * Q).
  { intros t.
    assert (E : pot st + 2 * t * - Kd + t * t * Q =
       se Pr Mr (fun a b0 j => spr st a b0 j + t * law Pr Mr (vgrad u) a b0 j) + Rsum (map (fun l => se dP dM (fun a b0 j => el st l a b0 j + t * law dP dM (vgrad u) a b0 j)) (seq 0 L))).
    { transitivity (se Pr Mr (spr st) + 2 * t * gs (fun i => power (spr st) (vgrad u) i) + t * t * gs (fun i => power (law Pr Mr (vgrad u)) (vgrad u) i) +
        Rsum (map (fun l => se dP dM (el st l) + 2 * t * gs (fun i => power (el st l) (vgrad u) i) + t * t * gs (fun i => power (law dP dM (vgrad u)) (vgrad u) i)) (seq 0 L))).
      - rewrite !Rsum_map_add, !Rsum_map_mul. unfold pot.
        assert (E1 : - Kd = gs (fun i => power (spr st) (vgrad u) i) + Rsum (map (fun l => gs (fun i => power (el st l) (vgrad u) i)) (seq 0 L))).
        { rewrite EK, Ropp_involutive, <- gs_Rsum, <- gs_add. apply gext. intros. apply power_total. }
        assert (E2 : Q = gs (fun i => power (law Pr Mr (vgrad u)) (vgrad u) i) + Rsum (map (fun _ => gs (fun i => power (law dP dM (vgrad u)) (vgrad u) i)) (seq 0 L))).
        { unfold Q. rewrite <- (gs_Rsum nx ny nz (seq 0 L) (fun _ i => power (law dP dM (vgrad u)) (vgrad u) i)), <- gs_add. apply gext. intros x y z _.
          rewrite Rsum_const, seq_length, <- power_mul, <- power_add by exact Hg. apply power_ext; [exact Hg|]. intros a b0 _. rewrite <- law_relaxed. lra. }
        rewrite E1, E2. ring.
      - f_equal.
        + unfold strain_energy. rewrite <- !gs_mul, <- !gs_add. apply gext. intros x y z Hi. rewrite compl_comb by exact Hg.
          rewrite !(compl_law axes comps Hg Pr Mr) by auto. reflexivity.
        + apply Rsum_map_ext. intros l Hl. apply in_seq in Hl. unfold strain_energy. rewrite <- !gs_mul, <- !gs_add. apply gext. intros x y z Hi. rewrite compl_comb by exact Hg.
          rewrite !(compl_law axes comps Hg dP dM) by (first [exact HdM|apply (Hgoodd l); [lia|assumption]]). reflexivity. }
    rewrite E. apply Rplus_le_le_0_compat; [apply se_pos, Hgood|]. apply Rsum_map_pos. intros l Hl. apply in_seq in Hl. apply se_pos. intros. apply (Hgoodd l); [lia|assumption]. }
  assert (K0 : 0 <= Kd) by (apply kin_inc_pos, Hb). clearbody Kd Q. clear - HQ HT K0 T0 P0.
  destruct (Req_dec el_th 0) as [Z0|Z0].
  - rewrite Z0 in *. destruct (Req_dec Kd 0) as [->|NK]; [nra|]. exfalso. assert (0 < Kd) by lra.
    specialize (HT ((pot st + 1) / (2 * Kd))). assert (0 <= (pot st + 1) / (2 * Kd) * ((pot st + 1) / (2 * Kd))) by nra.
    assert (2 * ((pot st + 1) / (2 * Kd)) * - Kd = - (pot st + 1)) by (field; lra). nra.
  - assert (0 < el_th) by lra. specialize (HT (1 / (4 * el_th))). assert (B : 1 / (4 * el_th) * (1 / (4 * el_th)) * Q <= 1 / (4 * el_th) * Kd).
    { replace (1 / (4 * el_th) * Kd) with (1 / (4 * el_th) * (1 / (4 * el_th)) * (4 * el_th * Kd)) by (field; lra). apply Rmult_le_compat_l; [nra|exact HQ]. }
    assert (A : 0 <= pot st - 1 / (4 * el_th) * Kd) by lra. apply (Rmult_le_compat_l (4 * el_th)) in A; [|lra].
    replace (4 * el_th * (pot st - 1 / (4 * el_th) * Kd)) with (4 * el_th * pot st - Kd) in A by (field; lra). lra.
Qed.
Lemma el_bound st st' : step st st' -> el_th < 1 ->
  (1 - el_th) * pot st <= energy st st' /\ (1 - el_th) * kinetic nx ny nz e axes comps st' st' <= 2 * energy st st'.
Proof.
  intros S1 Ht. pose proof el_th_pos. apply (leap_bound _ _ (kin_mean e nx ny nz axes comps st st') (kin_inc e nx ny nz axes comps st st')).
  - unfold visco_energy, pot. rewrite (kin_split e nx ny nz) by exact Hb. lra.
  - apply kin_mean_pos, Hb.
  - apply el_inc, S1.
  - apply pot_pos.
  - lra.
  - apply kin_next, Hb.
Qed.
Lemma stiff_pos : 0 < stiff.
Proof. unfold stiff. destruct (has comps AX); lra. Qed.
(** energy density of the stresses *)
Definition dens (st : rst) (i : Z) : R := compl Pr Mr (spr st) (spr st) i + Rsum (map (fun l => compl dP dM (el st l) (el st l) i) (seq 0 L)).
Lemma pot_dens st : pot st = gs (dens st).
Proof. unfold pot, dens, strain_energy. rewrite <- gs_Rsum, <- gs_add. reflexivity. Qed.
Lemma dens_form S x y z : ins x y z -> 0 <= compl Pr Mr (S 0%nat) (S 0%nat) (ri x y z) + Rsum (map (fun l => compl dP dM (S (Datatypes.S l)) (S (Datatypes.S l)) (ri x y z)) (seq 0 L)).
Proof. intros Hi'. apply Rplus_le_le_0_compat; [apply compl_pos; [exact Hg|apply Hgood, Hi']|]. apply Rsum_map_pos. intros l Hl. apply in_seq in Hl. apply compl_pos; [exact Hg|]. apply (Hgoodd l); [lia|exact Hi']. Qed.
Lemma dens_pos st x y z : ins x y z -> 0 <= dens st (ri x y z).
Proof. apply (dens_form (fun n => match n with O => spr st | S l => el st l end)). Qed.
Lemma dens_point st a b0 x y z : occurs axes comps a b0 -> ins x y z -> stress_of st a b0 (ri x y z) * stress_of st a b0 (ri x y z) <= stiff * dens st (ri x y z).
Proof.
  intros Ho Hi. set (i := ri x y z).
  set (G := fun a' b' (_ : Z) => if (axis_eqb a' a && axis_eqb b' b0)%bool then 1 else 0).
  assert (W : power (law P M G) G i <= stiff /\ forall S, symm S -> power S G i = S a b0 i).
  { pose proof (Hla x y z Hi). pose proof (Hmu x y z Hi) as H1. fold i in H, H1. assert (H2 : forall ab, In ab (shears axes comps) -> M (fst ab) (snd ab) i <= mu0) by (intros; apply Hms; assumption).
    pose proof (fun a => HMd a i) as HMi. revert Ho H H1 H2. unfold stiff, occurs, L_Energy2.power, L_Energy2.law, G, symm. clear - Hg HMi Hmu0 Hla0.
    geo Hg; geo_cbn; intros Ho Hl Hm2 Hs;
    try pose proof (Hs (AX, AY) ltac:(cbn; tauto)) as X1; try pose proof (Hs (AX, AZ) ltac:(cbn; tauto)) as X2; try pose proof (Hs (AY, AZ) ltac:(cbn; tauto)) as X3; cbn [fst snd] in *;
    destruct a, b0; try discriminate Ho; cbn [axis_eqb andb]; rewrite ?HMi; (split; [lra|intros S HS; try (rewrite (HS AY AX i)); try rewrite (HS AZ AX i); try rewrite (HS AZ AY i); lra]). }
  destruct W as (W1 & W2).
  assert (HT : forall t, 0 <= dens st i + 2 * t * stress_of st a b0 i + t * t * stiff).
  { intros t. rewrite <- (W2 (stress_of st) (stress_symm st)). apply Rle_trans with (dens st i + 2 * t * power (stress_of st) G i + t * t * power (law P M G) G i).
    2:{ apply Rplus_le_compat_l, Rmult_le_compat_l; [nra|exact W1]. }
    pose proof (dens_form (fun n => match n with O => fun a b1 j => spr st a b1 j + t * law Pr Mr G a b1 j | S l => fun a b1 j => el st l a b1 j + t * law dP dM G a b1 j end) x y z Hi) as D1. fold i in D1. cbv beta iota in D1.
    rewrite compl_comb in D1 by exact Hg. rewrite !(compl_law axes comps Hg Pr Mr) in D1 by (first [exact HdMr|apply Hgood, Hi]).
    rewrite (Rsum_map_ext (seq 0 L) _ (fun l => compl dP dM (el st l) (el st l) i + 2 * t * power (el st l) G i + t * t * power (law dP dM G) G i)) in D1.
    2:{ intros l Hl. apply in_seq in Hl. rewrite compl_comb by exact Hg. rewrite !(compl_law axes comps Hg dP dM) by (first [exact HdM|apply (Hgoodd l); [lia|exact Hi]]). reflexivity. }
    rewrite !Rsum_map_add, !Rsum_map_mul, Rsum_const, seq_length in D1. rewrite power_total. unfold dens.
    assert (E2 : power (law P M G) G i = power (law Pr Mr G) G i + INR L * power (law dP dM G) G i).
    { rewrite <- power_mul, <- power_add by exact Hg. apply power_ext; [exact Hg|]. intros a1 b1 _. rewrite <- law_relaxed. lra. }
    rewrite E2. match type of D1 with 0 <= ?X => match goal with |- 0 <= ?Y => replace Y with X by ring end end. exact D1. }
  pose proof stiff_pos as Sp. specialize (HT (- stress_of st a b0 i / stiff)). set (q := stress_of st a b0 i) in *.
  apply (Rmult_le_compat_l stiff) in HT; [|lra].
  replace (stiff * (dens st i + 2 * (- q / stiff) * q + - q / stiff * (- q / stiff) * stiff)) with (stiff * dens st i - q * q) in HT by (field; lra). lra.
Qed.
Lemma pot_point st a b0 x y z : occurs axes comps a b0 -> ins x y z -> stress_of st a b0 (ri x y z) * stress_of st a b0 (ri x y z) <= stiff * pot st.
Proof.
  intros Ho Hi. eapply Rle_trans; [apply dens_point; assumption|]. pose proof stiff_pos. apply Rmult_le_compat_l; [lra|]. rewrite pot_dens.
  apply (gpoint nx ny nz (dens st)); [|exact Hi]. intros. apply dens_pos. assumption.
Qed.
End elastic.

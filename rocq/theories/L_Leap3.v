(** Reciprocity of recorded data; reversibility. *)
From Coq Require Import QArith Qreals Reals Lra.
From Verif Require Import M_Grid M_Deriv S_Deriv L_Deriv L_Deriv2 M_Prog M_Solvers M_Env M_Surface S_Solver L_Prog L_Shape L_Live L_Lin L_Src L_Surface L_Leap L_Leap2.
Open Scope R_scope.


Lemma reg_inj nx ny nz g x y z x0 y0 z0 : mk_regular nx ny nz = Ok g -> (0 <= x < nx)%Z -> (0 <= y < ny)%Z -> (0 <= z < nz)%Z ->
  (0 <= x0 < nx)%Z -> (0 <= y0 < ny)%Z -> (0 <= z0 < nz)%Z -> reg_index nx nz x y z = reg_index nx nz x0 y0 z0 -> x = x0 /\ y = y0 /\ z = z0.
Proof.
  intros Hg H1 H2 H3 H4 H5 H6 E. pose proof (regular_i2c _ _ _ _ _ _ _ Hg H1 H2 H3) as A. pose proof (regular_i2c _ _ _ _ _ _ _ Hg H4 H5 H6) as B.
  rewrite E, B in A. injection A as -> -> ->. auto.
Qed.

Lemma ps_inj i w t k : injected (point_source i w TP) t k = w t * (if (k =? i)%Z then 1 else 0).
Proof. unfold injected. cbn. rewrite (Z.eqb_sym i k). destruct (k =? i)%Z; cbn; lra. Qed.
Lemma ps_other i w ty t k : ty <> TP -> injected (point_source i w ty) t k = 0.
Proof. destruct ty; intros H; try reflexivity. destruct H; reflexivity. Qed.

Section rec.
Variables (e : env R_arith) (c : cfg) (useVar hybrid : bool) (nx ny nz p : Z) (rest : list Z) (DH : Q) (fuel : nat)
  (cvs cv : Q -> R) (g : grid).
Hypothesis HM : @fd_matrices R_arith e c true useVar hybrid nx ny nz p rest DH fuel cvs cv g.
Hypothesis Hodd : forall q, cvs (- q)%Q = - cvs q.
Hypothesis Hu : undamped c.
Hypothesis Hfs : (c_fs c =? 1)%Z = false.
Notation K := (e_coef e "pWaveModulus"%string).
Hypothesis HK : forall x y z, (0 <= x < nx)%Z -> (0 <= y < ny)%Z -> (0 <= z < nz)%Z -> K (reg_index nx nz x y z) <> 0.

Lemma ip_delta x0 y0 z0 F : (0 <= x0 < nx)%Z -> (0 <= y0 < ny)%Z -> (0 <= z0 < nz)%Z ->
  ip e nx ny nz F (fun i => if (i =? reg_index nx nz x0 y0 z0)%Z then 1 else 0) = F (reg_index nx nz x0 y0 z0) / K (reg_index nx nz x0 y0 z0).
Proof.
  intros Hx Hy Hz. unfold ip.
  rewrite (gs_ext nx ny nz _ (fun i => if (i =? reg_index nx nz x0 y0 z0)%Z then F i / K i else 0)).
  - apply gs_delta; try lia. intros. eapply reg_inj; eauto. apply (fm_grid _ _ _ _ _ _ _ _ _ _ _ _ _ _ _ _ HM).
  - intros x y z _ _ _. cbv beta. destruct (Z.eqb (reg_index nx nz x y z) _); unfold Rdiv; ring.
Qed.

Lemma recip_state w n (st st' : rstate) xa ya za xb yb zb :
  (0 <= xa < nx)%Z -> (0 <= ya < ny)%Z -> (0 <= za < nz)%Z -> (0 <= xb < nx)%Z -> (0 <= yb < ny)%Z -> (0 <= zb < nz)%Z ->
  (forall i, st "p"%string i = 0 /\ st "vX"%string i = 0 /\ st "vY"%string i = 0) ->
  (forall i, st' "p"%string i = 0 /\ st' "vX"%string i = 0 /\ st' "vY"%string i = 0) ->
  let A := reg_index nx nz xa ya za in let B := reg_index nx nz xb yb zb in
  state_at FD2Dacoustic c (Shot R_arith e (point_source A w) (fun _ => []) 0) 0 n st "p"%string B * K A =
  state_at FD2Dacoustic c (Shot R_arith e (point_source B w) (fun _ => []) 0) 0 n st' "p"%string A * K B.
Proof.
  intros H1 H2 H3 H4 H5 H6 S S' A B.
  pose proof (proj1 (Q_run e c Hu Hfs (point_source A w) w (fun i => if (i =? A)%Z then 1 else 0) (fun ty t i H => ps_other A w ty t i H) (ps_inj A w) st S n)) as RA.
  pose proof (proj1 (Q_run e c Hu Hfs (point_source B w) w (fun i => if (i =? B)%Z then 1 else 0) (fun ty t i H => ps_other B w ty t i H) (ps_inj B w) st' S' n)) as RB.
  rewrite RA, RB.
  pose proof (proj1 (Q_self e c useVar hybrid nx ny nz p rest DH fuel cvs cv g HM Hodd HK w (fun i => if (i =? A)%Z then 1 else 0) (fun i => if (i =? B)%Z then 1 else 0) n)) as G.
  rewrite (ip_sym e nx ny nz (fun i => if (i =? A)%Z then 1 else 0)) in G.
  pose proof (ip_delta xb yb zb (fst (Qn e w n (fun i => if (i =? A)%Z then 1 else 0))) H4 H5 H6) as DB. fold B in DB. rewrite DB in G.
  pose proof (ip_delta xa ya za (fst (Qn e w n (fun i => if (i =? B)%Z then 1 else 0))) H1 H2 H3) as DA. fold A in DA. rewrite DA in G. clear DA DB.
  pose proof (HK xa ya za H1 H2 H3) as KA. pose proof (HK xb yb zb H4 H5 H6) as KB. fold A in KA. fold B in KB.
  revert G. generalize (fst (Qn e w n (fun i => if (i =? A)%Z then 1 else 0)) B). generalize (fst (Qn e w n (fun i => if (i =? B)%Z then 1 else 0)) A).
  revert KA KB. generalize (K A) (K B). intros ka kb NA NB pa pb G.
  assert (E : pb / kb * (ka * kb) = pa / ka * (ka * kb)) by (rewrite G; reflexivity).
  field_simplify in E; auto. lra.
Qed.

Lemma recip_sample w n t (st st' : rstate) xa ya za xb yb zb :
  (0 <= xa < nx)%Z -> (0 <= ya < ny)%Z -> (0 <= za < nz)%Z -> (0 <= xb < nx)%Z -> (0 <= yb < ny)%Z -> (0 <= zb < nz)%Z -> (t < n)%nat ->
  let A := reg_index nx nz xa ya za in let B := reg_index nx nz xb yb zb in
  exists ab ba,
  sample (seismograms FD2Dacoustic c (Shot R_arith e (point_source A w) (point_receiver B) n) st) t 0 0 = Some ab /\
  sample (seismograms FD2Dacoustic c (Shot R_arith e (point_source B w) (point_receiver A) n) st') t 0 0 = Some ba /\
  ab * K A = ba * K B.
Proof.
  intros H1 H2 H3 H4 H5 H6 Ht A B.
  assert (Z0 : forall s0 : rstate, forall i, zero_regs (s_fields FD2Dacoustic c) s0 "p"%string i = 0 /\ zero_regs (s_fields FD2Dacoustic c) s0 "vX"%string i = 0 /\
     zero_regs (s_fields FD2Dacoustic c) s0 "vY"%string i = 0).
  { intros s0 i. cbn. unfold Q2R. cbn. lra. }
  assert (RS : forall (sh : shot R_arith) m k s0, state_at FD2Dacoustic c sh k m s0 = state_at FD2Dacoustic c (Shot R_arith (sh_env sh) (sh_src sh) (fun _ => []) 0) k m s0).
  { intros sh m. induction m as [|m IH]; intros k s0; [reflexivity|]. cbn [state_at sh_env sh_src]. rewrite IH. reflexivity. }
  assert (SM : forall sr rc s0 q, point_receiver q = rc -> sample (seismograms FD2Dacoustic c (Shot R_arith e sr rc n) s0) t 0 0 =
    Some (state_at FD2Dacoustic c (Shot R_arith e sr (fun _ => []) 0) 0 (S t) (zero_regs (s_fields FD2Dacoustic c) s0) "p"%string q)).
  { intros sr rc s0 q <-. unfold seismograms, run_shot, sample.
    pose proof (steps_nth R_arith FD2Dacoustic c (Shot R_arith e sr (point_receiver q) n) n 0 t (zero_regs (s_fields FD2Dacoustic c) s0) Ht) as G.
    cbn [sh_n]. destruct (steps FD2Dacoustic c _ 0 n _) as [a b]. cbn [snd] in *. rewrite G, RS. cbn [sh_env sh_src].
    set (sx := state_at _ _ _ _ _ _). clearbody sx. cbn. f_equal. unfold Q2R. cbn. lra. }
  eexists _, _. split; [apply SM; reflexivity|]. split; [apply SM; reflexivity|]. apply recip_state; auto.
Qed.
End rec.

(** ** reversibility *)
Section back.
Variables (e : env R_arith) (c : cfg) (g : grid).
Hypothesis Hu : undamped c.
Hypothesis Hsv : c_fs c = 1%Z -> surface_vectors e g.
Notation K := (e_coef e "pWaveModulus"%string).

Definition bX (src : acq R_arith) (t : nat) (st : rstate) (i : Z) : R := st "vX"%string i - injected (src TVX) t i.
Definition bY (src : acq R_arith) (t : nat) (st : rstate) (i : Z) : R := st "vY"%string i - injected (src TVY) t i.
Definition bP (src : acq R_arith) (t : nat) (st : rstate) (i : Z) : R :=
  if ((c_fs c =? 1)%Z && match locatedOnSurface g i with Ok true => true | _ => false end)%bool then 0
  else st "p"%string i - injected (src TP) t i - (mvR (e_mat e "Dxb"%string i) (bX src t st) + mvR (e_mat e "Dyb"%string i) (bY src t st)) * K i.
Definition back (src : acq R_arith) (t : nat) (st : rstate) : rstate := fun n i =>
  if nm_eqb n "p" then bP src t st i
  else if nm_eqb n "vX" then bX src t st i - mvR (e_mat e "Dxf"%string i) (bP src t st) * e_coef e "inverseDensityAverageX"%string i
  else if nm_eqb n "vY" then bY src t st i - mvR (e_mat e (if (c_fs c =? 1)%Z then "DyfFreeSurface" else "Dyf")%string i) (bP src t st) * e_coef e "inverseDensityAverageY"%string i
  else st n i.

Definition surface_p0 (st : rstate) : Prop := c_fs c = 1%Z -> forall i, locatedOnSurface g i = Ok true -> st "p"%string i = 0.

Lemma back_step src t st : surface_p0 st ->
  let b := back src t (exec e src t (step_prog FD2Dacoustic c) st) in
  forall i, b "p"%string i = st "p"%string i /\ b "vX"%string i = st "vX"%string i /\ b "vY"%string i = st "vY"%string i.
Proof.
  intros Hz b. destruct (ac_step e c src t st Hu) as (X&Y&P). unfold b. set (st' := exec e src t _ st) in *. clearbody st'. clear b.
  assert (EX : forall i, bX src t st' i = ac_vx e st i) by (intros; unfold bX; rewrite X; lra).
  assert (EY : forall i, bY src t st' i = ac_vy e c st i) by (intros; unfold bY; rewrite Y; lra).
  assert (EP : forall i, bP src t st' i = st "p"%string i).
  { intros i. unfold bP. destruct (Z.eqb_spec (c_fs c) 1) as [F|F].
    - destruct (locatedOnSurface g i) as [[|]| | |] eqn:EL; cbn [andb]; [symmetry; apply Hz; auto|..];
      rewrite P; unfold ac_p; rewrite (proj2 (Z.eqb_eq _ _) F), (proj1 (Hsv F)); unfold setZeroFreeSurface; rewrite EL;
      rewrite (mv_ext _ (bX src t st') (ac_vx e st)) by (intros; apply EX); rewrite (mv_ext _ (bY src t st') (ac_vy e c st)) by (intros; apply EY); lra.
    - cbn [andb]. rewrite P. unfold ac_p. rewrite (proj2 (Z.eqb_neq _ _) F).
      rewrite (mv_ext _ (bX src t st') (ac_vx e st)) by (intros; apply EX); rewrite (mv_ext _ (bY src t st') (ac_vy e c st)) by (intros; apply EY); lra. }
  intros i. unfold back. cbn [nm_eqb nm_s String.eqb Ascii.eqb Bool.eqb Nat.eqb andb]. split; [apply EP|]. rewrite EX, EY.
  unfold ac_vx, ac_vy. split.
  - rewrite (mv_ext _ (bP src t st') (st "p"%string)) by (intros; apply EP). lra.
  - rewrite (mv_ext _ (bP src t st') (st "p"%string)) by (intros; apply EP). lra.
Qed.

Lemma back_ext src t (st st' : rstate) : (forall i, st "p"%string i = st' "p"%string i /\ st "vX"%string i = st' "vX"%string i /\ st "vY"%string i = st' "vY"%string i) ->
  forall i, back src t st "p"%string i = back src t st' "p"%string i /\ back src t st "vX"%string i = back src t st' "vX"%string i /\ back src t st "vY"%string i = back src t st' "vY"%string i.
Proof.
  intros H. assert (EX : forall i, bX src t st i = bX src t st' i) by (intros i; unfold bX; destruct (H i) as (_&->&_); reflexivity).
  assert (EY : forall i, bY src t st i = bY src t st' i) by (intros i; unfold bY; destruct (H i) as (_&_&->); reflexivity).
  assert (EP : forall i, bP src t st i = bP src t st' i).
  { intros i. unfold bP. destruct (_ && _)%bool; [reflexivity|]. rewrite (proj1 (H i)).
    rewrite (mv_ext _ (bX src t st) (bX src t st')) by (intros; apply EX); rewrite (mv_ext _ (bY src t st) (bY src t st')) by (intros; apply EY). reflexivity. }
  intros i. unfold back. cbn [nm_eqb nm_s String.eqb Ascii.eqb Bool.eqb Nat.eqb andb]. rewrite EX, EY, EP.
  split; [reflexivity|]. split; f_equal; f_equal; apply mv_ext; intros; apply EP.
Qed.

Fixpoint back_n (src : acq R_arith) (n : nat) (st : rstate) : rstate :=
  match n with O => st | S m => back_n src m (back src m st) end.
Lemma back_n_ext src n : forall st st' : rstate, (forall i, st "p"%string i = st' "p"%string i /\ st "vX"%string i = st' "vX"%string i /\ st "vY"%string i = st' "vY"%string i) ->
  forall i, back_n src n st "p"%string i = back_n src n st' "p"%string i /\ back_n src n st "vX"%string i = back_n src n st' "vX"%string i /\ back_n src n st "vY"%string i = back_n src n st' "vY"%string i.
Proof.
  induction n as [|n IH]; intros st st' H; [exact H|]. cbn [back_n]. apply IH. apply back_ext. exact H.
Qed.

Lemma back_n_lem sh n st : sh_env sh = e -> surface_p0 st ->
  (c_fs c = 1%Z -> forall js i, In js (sh_src sh TP) -> locatedOnSurface g i = Ok true -> fst js <> i) ->
  forall i, back_n (sh_src sh) n (state_at FD2Dacoustic c sh 0 n st) "p"%string i = st "p"%string i /\
    back_n (sh_src sh) n (state_at FD2Dacoustic c sh 0 n st) "vX"%string i = st "vX"%string i /\
    back_n (sh_src sh) n (state_at FD2Dacoustic c sh 0 n st) "vY"%string i = st "vY"%string i.
Proof.
  intros He Hz Hs. induction n as [|n IH]; [auto|].
  intros i. cbn [back_n]. rewrite state_at_step, He. destruct (IH i) as (<-&<-&<-). apply back_n_ext. apply back_step.
  intros F j Hj. destruct n as [|n]; [apply Hz; auto|]. rewrite state_at_step, He.
  apply (surface_zero_lem e g FD2Dacoustic c "p"%string); auto.
  - left. split; [left; reflexivity|reflexivity].
  - intros ty rs js Hi Hr Hj'. destruct ty; cbn in Hi; try discriminate; injection Hi as <-; cbn in Hr; destruct Hr as [Hr|[]]; try discriminate.
    eapply Hs; eauto.
Qed.
End back.

Lemma C23_reversible_lem e c g sh n : sh_env sh = e -> undamped c -> (c_fs c = 1%Z -> surface_vectors e g) ->
  (c_fs c = 1%Z -> forall js i, In js (sh_src sh TP) -> locatedOnSurface g i = Ok true -> fst js <> i) ->
  exists recover : rstate -> rstate, forall st : rstate, (c_fs c = 1%Z -> forall i, locatedOnSurface g i = Ok true -> st "p"%string i = 0) ->
  same_fields FD2Dacoustic c (recover (fst (steps FD2Dacoustic c sh 0 n st))) st.
Proof.
  intros He Hu Hsv Hs. exists (back_n e c g (sh_src sh) n). intros st Hz. rewrite steps_state_at. split.
  - intros m Hm i. destruct (back_n_lem e c g Hu Hsv sh n st He Hz Hs i) as (A&B&C).
    cbn in Hm. destruct Hm as [<-|[<-|[<-|[]]]]; assumption.
  - destruct Hu as (Hp&_). rewrite Hp. discriminate.
Qed.

(** C163: the graph of the partitioners. *)
From Verif Require Import Base M_Grid M_Deriv S_Deriv L_Fd L_Fd2 L_Deriv L_Deriv2 P_Deriv M_Graph S_Graph L_Graph.
From Coq Require Import Lqa.
Open Scope Z_scope.

(** The graph has no loops, and the weight of an edge only changes its sign with the direction, on every grid. *)
Lemma graph_sym row i j w : graph_entry row i j = Ok w -> exists w', graph_entry row j i = Ok w' /\ (w' == - w)%Q.
Proof.
  unfold graph_entry. intros E. destruct (row j) as [rj| | |] eqn:Ej; try discriminate. cbn [bind] in *.
  destruct (row i) as [ri| | |] eqn:Ei; try discriminate. cbn [bind] in *. injection E as <-. eexists. split; [reflexivity|]. ring.
Qed.
Theorem C163_symmetric : forall fuel g orders useVar useVarGrid DH i j w,
  (getGraph2D fuel g orders useVar useVarGrid DH i j = Ok w ->
     (exists w', getGraph2D fuel g orders useVar useVarGrid DH j i = Ok w' /\ (w' == - w)%Q) /\ (i = j -> (w == 0)%Q)) /\
  (getGraph3D fuel g orders useVar useVarGrid DH i j = Ok w ->
     (exists w', getGraph3D fuel g orders useVar useVarGrid DH j i = Ok w' /\ (w' == - w)%Q) /\ (i = j -> (w == 0)%Q)).
Proof.
  intros fuel g orders useVar useVarGrid DH i j w. split; intros E; (destruct (graph_sym _ _ _ _ E) as (w' & E' & Q);
    split; [exists w'; split; [exact E'|exact Q]|intros ->]).
  - unfold getGraph2D in E. rewrite E in E'. injection E' as <-. lra.
  - unfold getGraph3D in E. rewrite E in E'. injection E' as <-. lra.
Qed.
Print Assumptions C163_symmetric.

Section Regular.
Variables (nx ny nz : Z) (g : grid) (p : Z) (rest : list Z) (useVar : bool) (DH : Q) (fuel : nat).
Hypothesis Hg : mk_regular nx ny nz = Ok g.
Hypothesis Hp : In p [2; 4; 6; 8; 10; 12].
Hypothesis Hf : 15 <= Z.of_nat fuel.
Hypothesis HD : ~ (DH == 0)%Q.
Let h := (DH * inject_Z 1)%Q.
Let Dx := calcDxb fuel g (p :: rest) useVar DH.
Let Dy := calcDyb fuel g (p :: rest) useVar false DH.
Let Dz := calcDzb fuel g (p :: rest) useVar DH.
Let I := reg_index nx nz.
Let inside (x y z : Z) := 0 <= x < nx /\ 0 <= y < ny /\ 0 <= z < nz.

Lemma h_nz : ~ (h == 0)%Q.
Proof using HD. unfold h. change (inject_Z 1) with 1%Q. rewrite Qmult_1_r. exact HD. Qed.

(** The parts of the graph weight between two points that belong to the single axes. *)
Lemma part_gen (N : Z) (D : Z -> res (list (Z * Q))) (colf : Z -> Z) (a b : Z) ra rb :
  (forall X X', 0 <= X < N -> 0 <= X' < N -> colf X = colf X' -> X = X') -> 0 <= a < N -> 0 <= b < N -> a <> b ->
  D (colf a) = Ok ra -> D (colf b) = Ok rb ->
  backward_row N h colf stencil_at p a ra -> backward_row N h colf stencil_at p b rb ->
  (~ (mentry rb (colf a) - mentry ra (colf b) == 0)%Q <-> neighbours p N a b) /\
  (neighbours p N a b <-> uses D (colf a) (colf b) \/ uses D (colf b) (colf a)).
Proof using Hp HD.
  clear Dx Dy Dz I inside Hf Hg. intros Inj Ha Hb N1 Ea Eb Ra Rb.
  assert (U : forall i j r, D i = Ok r -> (uses D i j <-> In j (map fst r))).
  { intros i j r E. unfold uses. split; [intros (r' & E' & Q); rewrite E in E'; injection E' as <-; exact Q|intros Q; exists r; auto]. }
  rewrite (U _ _ _ Ea), (U _ _ _ Eb).
  assert (S : neighbours p N b a <-> neighbours p N a b) by (unfold neighbours; cbn zeta; rewrite (Z.min_comm a b); replace (Z.abs (b - a)) with (Z.abs (a - b)) by lia; tauto).
  destruct (Z_lt_le_dec a b) as [L|L].
  - destruct (line_edge N p h colf a b ra rb Hp h_nz Inj ltac:(lia) ltac:(lia) ltac:(lia) Ra Rb) as [Q1 Q2]. split; [exact Q1|]. rewrite Q2. tauto.
  - destruct (line_edge N p h colf b a rb ra Hp h_nz Inj ltac:(lia) ltac:(lia) ltac:(lia) Rb Ra) as [Q1 Q2]. rewrite S in Q1, Q2. split; [|rewrite Q2; tauto].
    rewrite <- Q1. split; intros Q W; apply Q.
    + assert (W' : (mentry ra (colf b) == mentry rb (colf a))%Q) by lra. rewrite W'. ring.
    + assert (W' : (mentry ra (colf b) == mentry rb (colf a))%Q) by lra. rewrite W'. ring.
Qed.

(** A row only uses points of its own line. *)
Lemma off_line (N x : Z) (colf : Z -> Z) row j : backward_row N h colf stencil_at p x row ->
  In j (map fst row) -> exists X, 0 <= X < N /\ j = colf X.
Proof using.
  clear - h. intros (k & x0 & H1 & H2 & (T1 & T2 & -> & _) & _) Hj. rewrite map_map in Hj. cbn [fst] in Hj. apply in_map_iff in Hj.
  destruct Hj as (q & <- & Hq). apply in_zseq_iff in Hq. exists (x0 + q). split; [lia|reflexivity].
Qed.

Lemma x_row x y z : inside x y z -> 2 <= nx -> exists r, Dx (I x y z) = Ok r /\ backward_row nx h (fun X => I X y z) stencil_at p x r.
Proof using Hg Hp Hf. intros (X & Y & Z) HN. exact (proj2 (C10_Dx_rows nx ny nz g p rest useVar DH x y z fuel Hg Hp X Y Z HN Hf)). Qed.
Lemma y_row x y z : inside x y z -> 2 <= ny -> exists r, Dy (I x y z) = Ok r /\ backward_row ny h (fun Y => I x Y z) stencil_at p y r.
Proof using Hg Hp Hf. intros (X & Y & Z) HN. exact (proj2 (C10_Dy_rows nx ny nz g p rest useVar DH x y z fuel Hg Hp X Y Z HN Hf)). Qed.
Lemma z_row x y z : inside x y z -> 2 <= nz -> exists r, Dz (I x y z) = Ok r /\ backward_row nz h (fun Z => I x y Z) stencil_at p z r.
Proof using Hg Hp Hf. intros (X & Y & Z) HN. exact (proj2 (C10_Dz_rows nx ny nz g p rest useVar DH x y z fuel Hg Hp X Y Z HN Hf)). Qed.

Lemma Iinj x y z x' y' z' : inside x y z -> inside x' y' z' -> I x y z = I x' y' z' -> x = x' /\ y = y' /\ z = z'.
Proof using. intros (A & B & C) (A' & B' & C') E. exact (reg_inj nx nz x y z x' y' z' A A' C C' E). Qed.

(** The weight between two points on different lines of an axis is not changed by that axis. *)
Lemma x_zero x y z x' y' z' r : inside x y z -> inside x' y' z' -> 2 <= nx -> Dx (I x y z) = Ok r -> ~ (y = y' /\ z = z') ->
  (mentry r (I x' y' z') == 0)%Q /\ ~ In (I x' y' z') (map fst r).
Proof using Hg Hp Hf.
  intros H H' HN E NE. destruct (x_row x y z H HN) as (r0 & E0 & R). rewrite E in E0. injection E0 as <-.
  assert (NI : ~ In (I x' y' z') (map fst r)).
  { intros Q. destruct (off_line _ _ _ _ _ R Q) as (X & HX & EQ). apply NE. destruct H as (Q1 & Q2 & Q3).
    destruct (Iinj x' y' z' X y z H' (conj HX (conj Q2 Q3)) EQ) as (_ & -> & ->). auto. }
  split; [apply mentry_none; exact NI|exact NI].
Qed.
Lemma y_zero x y z x' y' z' r : inside x y z -> inside x' y' z' -> 2 <= ny -> Dy (I x y z) = Ok r -> ~ (x = x' /\ z = z') ->
  (mentry r (I x' y' z') == 0)%Q /\ ~ In (I x' y' z') (map fst r).
Proof using Hg Hp Hf.
  intros H H' HN E NE. destruct (y_row x y z H HN) as (r0 & E0 & R). rewrite E in E0. injection E0 as <-.
  assert (NI : ~ In (I x' y' z') (map fst r)).
  { intros Q. destruct (off_line _ _ _ _ _ R Q) as (Y & HY & EQ). apply NE. destruct H as (Q1 & Q2 & Q3).
    destruct (Iinj x' y' z' x Y z H' (conj Q1 (conj HY Q3)) EQ) as (-> & _ & ->). auto. }
  split; [apply mentry_none; exact NI|exact NI].
Qed.
Lemma z_zero x y z x' y' z' r : inside x y z -> inside x' y' z' -> 2 <= nz -> Dz (I x y z) = Ok r -> ~ (x = x' /\ y = y') ->
  (mentry r (I x' y' z') == 0)%Q /\ ~ In (I x' y' z') (map fst r).
Proof using Hg Hp Hf.
  intros H H' HN E NE. destruct (z_row x y z H HN) as (r0 & E0 & R). rewrite E in E0. injection E0 as <-.
  assert (NI : ~ In (I x' y' z') (map fst r)).
  { intros Q. destruct (off_line _ _ _ _ _ R Q) as (Z & HZ & EQ). apply NE. destruct H as (Q1 & Q2 & Q3).
    destruct (Iinj x' y' z' x y Z H' (conj Q1 (conj Q2 HZ)) EQ) as (-> & -> & _). auto. }
  split; [apply mentry_none; exact NI|exact NI].
Qed.

(** Both statements about one axis: weight part and couplings, for any two different points. *)
Definition part (D : Z -> res (list (Z * Q))) (i j : Z) (w : Q) (J : Prop) : Prop :=
  exists ri rj, D i = Ok ri /\ D j = Ok rj /\ (w == mentry rj i - mentry ri j)%Q /\ (~ (w == 0)%Q <-> J) /\ (J <-> uses D i j \/ uses D j i).
Lemma part_x x y z x' y' z' : inside x y z -> inside x' y' z' -> 2 <= nx -> I x y z <> I x' y' z' ->
  exists w, part Dx (I x y z) (I x' y' z') w (y = y' /\ z = z' /\ neighbours p nx x x').
Proof using Hg Hp Hf HD.
  intros H H' HN NE. destruct (x_row x y z H HN) as (r & E & R). destruct (x_row x' y' z' H' HN) as (r' & E' & R').
  exists (mentry r' (I x y z) - mentry r (I x' y' z'))%Q, r, r'. split; [exact E|]. split; [exact E'|]. split; [reflexivity|].
  destruct (Z.eq_dec y y') as [Ey|Ny]; [destruct (Z.eq_dec z z') as [Ez|Nz]|].
  - subst y' z'. assert (NX : x <> x') by (intros ->; auto). destruct H as (Hx & Hy & Hz), H' as (Hx' & _).
    destruct (part_gen nx Dx (fun X => I X y z) x x' r r' (fun X X' P P' Q => proj1 (reg_inj nx nz X y z X' y z P P' Hz Hz Q)) Hx Hx' NX E E' R R') as [Q1 Q2].
    split; [rewrite Q1; tauto|]. rewrite <- Q2. tauto.
  - destruct (x_zero _ _ _ _ _ _ _ H H' HN E ltac:(lia)) as [W1 U1]. destruct (x_zero _ _ _ _ _ _ _ H' H HN E' ltac:(lia)) as [W2 U2]. rewrite W1, W2.
    split; [split; [intros Q; exfalso; apply Q; reflexivity|lia]|]. split; [lia|]. intros [(r0 & E0 & Q)|(r0 & E0 & Q)].
    + rewrite E in E0. injection E0 as <-. contradiction.
    + rewrite E' in E0. injection E0 as <-. contradiction.
  - destruct (x_zero _ _ _ _ _ _ _ H H' HN E ltac:(lia)) as [W1 U1]. destruct (x_zero _ _ _ _ _ _ _ H' H HN E' ltac:(lia)) as [W2 U2]. rewrite W1, W2.
    split; [split; [intros Q; exfalso; apply Q; reflexivity|lia]|]. split; [lia|]. intros [(r0 & E0 & Q)|(r0 & E0 & Q)].
    + rewrite E in E0. injection E0 as <-. contradiction.
    + rewrite E' in E0. injection E0 as <-. contradiction.
Qed.
Lemma part_y x y z x' y' z' : inside x y z -> inside x' y' z' -> 2 <= ny -> I x y z <> I x' y' z' ->
  exists w, part Dy (I x y z) (I x' y' z') w (x = x' /\ z = z' /\ neighbours p ny y y').
Proof using Hg Hp Hf HD.
  intros H H' HN NE. destruct (y_row x y z H HN) as (r & E & R). destruct (y_row x' y' z' H' HN) as (r' & E' & R').
  exists (mentry r' (I x y z) - mentry r (I x' y' z'))%Q, r, r'. split; [exact E|]. split; [exact E'|]. split; [reflexivity|].
  destruct (Z.eq_dec x x') as [Ey|Ny]; [destruct (Z.eq_dec z z') as [Ez|Nz]|].
  - subst x' z'. assert (NX : y <> y') by (intros ->; auto). destruct H as (Hx & Hy & Hz), H' as (_ & Hy' & _).
    destruct (part_gen ny Dy (fun Y => I x Y z) y y' r r' (fun Y Y' P P' Q => proj1 (proj2 (reg_inj nx nz x Y z x Y' z Hx Hx Hz Hz Q))) Hy Hy' NX E E' R R') as [Q1 Q2].
    split; [rewrite Q1; tauto|]. rewrite <- Q2. tauto.
  - destruct (y_zero _ _ _ _ _ _ _ H H' HN E ltac:(lia)) as [W1 U1]. destruct (y_zero _ _ _ _ _ _ _ H' H HN E' ltac:(lia)) as [W2 U2]. rewrite W1, W2.
    split; [split; [intros Q; exfalso; apply Q; reflexivity|lia]|]. split; [lia|]. intros [(r0 & E0 & Q)|(r0 & E0 & Q)].
    + rewrite E in E0. injection E0 as <-. contradiction.
    + rewrite E' in E0. injection E0 as <-. contradiction.
  - destruct (y_zero _ _ _ _ _ _ _ H H' HN E ltac:(lia)) as [W1 U1]. destruct (y_zero _ _ _ _ _ _ _ H' H HN E' ltac:(lia)) as [W2 U2]. rewrite W1, W2.
    split; [split; [intros Q; exfalso; apply Q; reflexivity|lia]|]. split; [lia|]. intros [(r0 & E0 & Q)|(r0 & E0 & Q)].
    + rewrite E in E0. injection E0 as <-. contradiction.
    + rewrite E' in E0. injection E0 as <-. contradiction.
Qed.
Lemma part_z x y z x' y' z' : inside x y z -> inside x' y' z' -> 2 <= nz -> I x y z <> I x' y' z' ->
  exists w, part Dz (I x y z) (I x' y' z') w (x = x' /\ y = y' /\ neighbours p nz z z').
Proof using Hg Hp Hf HD.
  intros H H' HN NE. destruct (z_row x y z H HN) as (r & E & R). destruct (z_row x' y' z' H' HN) as (r' & E' & R').
  exists (mentry r' (I x y z) - mentry r (I x' y' z'))%Q, r, r'. split; [exact E|]. split; [exact E'|]. split; [reflexivity|].
  destruct (Z.eq_dec x x') as [Ey|Ny]; [destruct (Z.eq_dec y y') as [Ez|Nz]|].
  - subst x' y'. assert (NX : z <> z') by (intros ->; auto). destruct H as (Hx & Hy & Hz), H' as (_ & _ & Hz').
    destruct (part_gen nz Dz (fun Z => I x y Z) z z' r r' (fun Z Z' P P' Q => proj2 (proj2 (reg_inj nx nz x y Z x y Z' Hx Hx P P' Q))) Hz Hz' NX E E' R R') as [Q1 Q2].
    split; [rewrite Q1; tauto|]. rewrite <- Q2. tauto.
  - destruct (z_zero _ _ _ _ _ _ _ H H' HN E ltac:(lia)) as [W1 U1]. destruct (z_zero _ _ _ _ _ _ _ H' H HN E' ltac:(lia)) as [W2 U2]. rewrite W1, W2.
    split; [split; [intros Q; exfalso; apply Q; reflexivity|lia]|]. split; [lia|]. intros [(r0 & E0 & Q)|(r0 & E0 & Q)].
    + rewrite E in E0. injection E0 as <-. contradiction.
    + rewrite E' in E0. injection E0 as <-. contradiction.
  - destruct (z_zero _ _ _ _ _ _ _ H H' HN E ltac:(lia)) as [W1 U1]. destruct (z_zero _ _ _ _ _ _ _ H' H HN E' ltac:(lia)) as [W2 U2]. rewrite W1, W2.
    split; [split; [intros Q; exfalso; apply Q; reflexivity|lia]|]. split; [lia|]. intros [(r0 & E0 & Q)|(r0 & E0 & Q)].
    + rewrite E in E0. injection E0 as <-. contradiction.
    + rewrite E' in E0. injection E0 as <-. contradiction.
Qed.
End Regular.

(** Two points of a regular grid are joined exactly if they lie on a common grid line and are neighbours there; and this is
    the case exactly if they differ and one of the backward derivatives at one of the two uses the value at the other. *)
Theorem C163_edges_2D : forall nx ny nz g p rest useVar DH fuel x y z x' y' z',
  mk_regular nx ny nz = Ok g -> In p [2; 4; 6; 8; 10; 12] -> 15 <= Z.of_nat fuel -> ~ (DH == 0)%Q -> 2 <= nx -> 2 <= ny ->
  0 <= x < nx -> 0 <= y < ny -> 0 <= z < nz -> 0 <= x' < nx -> 0 <= y' < ny -> 0 <= z' < nz ->
  let i := reg_index nx nz x y z in let j := reg_index nx nz x' y' z' in
  let Dx := calcDxb fuel g (p :: rest) useVar DH in let Dy := calcDyb fuel g (p :: rest) useVar false DH in
  exists w, getGraph2D fuel g (p :: rest) useVar false DH i j = Ok w /\
    (~ (w == 0)%Q <-> (y = y' /\ z = z' /\ neighbours p nx x x') \/ (x = x' /\ z = z' /\ neighbours p ny y y')) /\
    (~ (w == 0)%Q <-> i <> j /\ (uses Dx i j \/ uses Dx j i \/ uses Dy i j \/ uses Dy j i)).
Proof.
  intros nx ny nz g p rest useVar DH fuel x y z x' y' z' Hg Hp Hf HD HX HY Hx Hy Hz Hx' Hy' Hz' i j Dx Dy.
  assert (H : 0 <= x < nx /\ 0 <= y < ny /\ 0 <= z < nz) by auto. assert (H' : 0 <= x' < nx /\ 0 <= y' < ny /\ 0 <= z' < nz) by auto.
  destruct (Z.eq_dec i j) as [EQ|NE].
  { destruct (reg_inj nx nz x y z x' y' z' Hx Hx' Hz Hz' EQ) as (<- & <- & <-).
    destruct (x_row nx ny nz g p rest useVar DH fuel Hg Hp Hf x y z H HX) as (r & E & _).
    destruct (y_row nx ny nz g p rest useVar DH fuel Hg Hp Hf x y z H HY) as (s & F & _).
    unfold getGraph2D, graph_entry, sum2D. subst i j. rewrite E. cbn [bind]. rewrite F. cbn [bind]. eexists. split; [reflexivity|].
    assert (Z0 : forall q : Q, (q - q == 0)%Q) by (intros; ring). rewrite Z0. unfold neighbours. cbn zeta. split; split; try (intros Q; exfalso; apply Q; reflexivity).
    lia. }
  destruct (part_x nx ny nz g p rest useVar DH fuel Hg Hp Hf HD x y z x' y' z' H H' HX NE) as (w1 & ri & rj & Ei & Ej & W1 & N1 & U1).
  destruct (part_y nx ny nz g p rest useVar DH fuel Hg Hp Hf HD x y z x' y' z' H H' HY NE) as (w2 & si & sj & Fi & Fj & W2 & N2 & U2).
  fold i j Dx in Ei, Ej, W1, U1. fold i j Dy in Fi, Fj, W2, U2.
  unfold getGraph2D, graph_entry, sum2D. fold Dx Dy. rewrite Ei, Ej. cbn [bind]. rewrite Fi, Fj. cbn [bind].
  eexists. split; [reflexivity|].
  assert (W : (mentry (rj ++ sj) i - mentry (ri ++ si) j == w1 + w2)%Q) by (rewrite !mentry_app, W1, W2; ring).
  assert (EX : ~ (w1 + w2 == 0)%Q <-> ~ (w1 == 0)%Q \/ ~ (w2 == 0)%Q).
  { destruct (Qeq_dec w1 0) as [Q|Q], (Qeq_dec w2 0) as [R|R].
    - rewrite Q, R. split; [intros T; exfalso; apply T; reflexivity|tauto].
    - rewrite Q. setoid_replace (0 + w2)%Q with w2 by ring. tauto.
    - rewrite R. setoid_replace (w1 + 0)%Q with w1 by ring. tauto.
    - exfalso. apply N1 in Q. apply N2 in R. unfold neighbours in Q, R. cbn zeta in Q, R. lia. }
  rewrite W, EX, N1, N2. clear - NE U1 U2. split; [reflexivity|]. rewrite U1, U2. clear U1 U2. tauto.
Qed.
Print Assumptions C163_edges_2D.

Theorem C163_edges_3D : forall nx ny nz g p rest useVar DH fuel x y z x' y' z',
  mk_regular nx ny nz = Ok g -> In p [2; 4; 6; 8; 10; 12] -> 15 <= Z.of_nat fuel -> ~ (DH == 0)%Q -> 2 <= nx -> 2 <= ny -> 2 <= nz ->
  0 <= x < nx -> 0 <= y < ny -> 0 <= z < nz -> 0 <= x' < nx -> 0 <= y' < ny -> 0 <= z' < nz ->
  let i := reg_index nx nz x y z in let j := reg_index nx nz x' y' z' in
  let Dx := calcDxb fuel g (p :: rest) useVar DH in let Dy := calcDyb fuel g (p :: rest) useVar false DH in
  let Dz := calcDzb fuel g (p :: rest) useVar DH in
  exists w, getGraph3D fuel g (p :: rest) useVar false DH i j = Ok w /\
    (~ (w == 0)%Q <-> (y = y' /\ z = z' /\ neighbours p nx x x') \/ (x = x' /\ z = z' /\ neighbours p ny y y') \/
                      (x = x' /\ y = y' /\ neighbours p nz z z')) /\
    (~ (w == 0)%Q <-> i <> j /\ (uses Dx i j \/ uses Dx j i \/ uses Dy i j \/ uses Dy j i \/ uses Dz i j \/ uses Dz j i)).
Proof.
  intros nx ny nz g p rest useVar DH fuel x y z x' y' z' Hg Hp Hf HD HX HY HZ Hx Hy Hz Hx' Hy' Hz' i j Dx Dy Dz.
  assert (H : 0 <= x < nx /\ 0 <= y < ny /\ 0 <= z < nz) by auto. assert (H' : 0 <= x' < nx /\ 0 <= y' < ny /\ 0 <= z' < nz) by auto.
  destruct (Z.eq_dec i j) as [EQ|NE].
  { destruct (reg_inj nx nz x y z x' y' z' Hx Hx' Hz Hz' EQ) as (<- & <- & <-).
    destruct (x_row nx ny nz g p rest useVar DH fuel Hg Hp Hf x y z H HX) as (r & E & _).
    destruct (y_row nx ny nz g p rest useVar DH fuel Hg Hp Hf x y z H HY) as (s & F & _).
    destruct (z_row nx ny nz g p rest useVar DH fuel Hg Hp Hf x y z H HZ) as (t & G & _).
    unfold getGraph3D, graph_entry, sum3D. subst i j. rewrite E. cbn [bind]. rewrite F. cbn [bind]. rewrite G. cbn [bind]. eexists. split; [reflexivity|].
    assert (Z0 : forall q : Q, (q - q == 0)%Q) by (intros; ring). rewrite Z0. unfold neighbours. cbn zeta. split; split; try (intros Q; exfalso; apply Q; reflexivity).
    lia. }
  destruct (part_x nx ny nz g p rest useVar DH fuel Hg Hp Hf HD x y z x' y' z' H H' HX NE) as (w1 & ri & rj & Ei & Ej & W1 & N1 & U1).
  destruct (part_y nx ny nz g p rest useVar DH fuel Hg Hp Hf HD x y z x' y' z' H H' HY NE) as (w2 & si & sj & Fi & Fj & W2 & N2 & U2).
  destruct (part_z nx ny nz g p rest useVar DH fuel Hg Hp Hf HD x y z x' y' z' H H' HZ NE) as (w3 & ti & tj & Gi & Gj & W3 & N3 & U3).
  fold i j Dx in Ei, Ej, W1, U1. fold i j Dy in Fi, Fj, W2, U2. fold i j Dz in Gi, Gj, W3, U3.
  unfold getGraph3D, graph_entry, sum3D. fold Dx Dy Dz. rewrite Ei, Ej. cbn [bind]. rewrite Fi, Fj. cbn [bind]. rewrite Gi, Gj. cbn [bind].
  eexists. split; [reflexivity|].
  assert (W : (mentry (rj ++ sj ++ tj) i - mentry (ri ++ si ++ ti) j == w1 + w2 + w3)%Q) by (rewrite !mentry_app, W1, W2, W3; ring).
  assert (NB : forall N a b, neighbours p N a b -> a <> b) by (clear; intros N a b Q; unfold neighbours in Q; cbn zeta in Q; lia).
  assert (X12 : ~ (w1 == 0)%Q -> ~ (w2 == 0)%Q -> False) by (intros A B; apply N1 in A; apply N2 in B; destruct A as (A & _), B as (_ & _ & B); apply NB in B; auto).
  assert (X13 : ~ (w1 == 0)%Q -> ~ (w3 == 0)%Q -> False) by (intros A B; apply N1 in A; apply N3 in B; destruct A as (_ & A & _), B as (_ & _ & B); apply NB in B; auto).
  assert (X23 : ~ (w2 == 0)%Q -> ~ (w3 == 0)%Q -> False) by (intros A B; apply N2 in A; apply N3 in B; destruct A as (_ & A & _), B as (_ & _ & B); apply NB in B; auto).
  assert (EX : ~ (w1 + w2 + w3 == 0)%Q <-> ~ (w1 == 0)%Q \/ ~ (w2 == 0)%Q \/ ~ (w3 == 0)%Q).
  { clear - X12 X13 X23. destruct (Qeq_dec w1 0) as [Q|Q], (Qeq_dec w2 0) as [R|R], (Qeq_dec w3 0) as [S|S];
    try (exfalso; (apply X12; assumption) || (apply X13; assumption) || (apply X23; assumption)).
    - rewrite Q, R, S. split; [intros T; exfalso; apply T; reflexivity|tauto].
    - rewrite Q, R. setoid_replace (0 + 0 + w3)%Q with w3 by ring. tauto.
    - rewrite Q, S. setoid_replace (0 + w2 + 0)%Q with w2 by ring. tauto.
    - rewrite R, S. setoid_replace (w1 + 0 + 0)%Q with w1 by ring. tauto. }
  rewrite W, EX, N1, N2, N3. clear - NE U1 U2 U3. split; [reflexivity|]. rewrite U1, U2, U3. clear U1 U2 U3. tauto.
Qed.
Print Assumptions C163_edges_3D.

(** The graph leaves out couplings of the forward derivative: with the points numbered 0 .. nx-1 along a line of at least
    p points, p >= 4, the last point is used by the forward derivative at the point p/2 before it, but the two are not joined. *)
Theorem C163_forward_refuted : forall nx ny nz g p rest useVar DH fuel y z,
  mk_regular nx ny nz = Ok g -> In p [4; 6; 8; 10; 12] -> 15 <= Z.of_nat fuel -> ~ (DH == 0)%Q -> p <= nx -> 2 <= ny ->
  0 <= y < ny -> 0 <= z < nz ->
  let i := reg_index nx nz (nx - 1 - p / 2) y z in let j := reg_index nx nz (nx - 1) y z in
  i <> j /\ uses (calcDxf fuel g (p :: rest) useVar DH) i j /\
  exists w, getGraph2D fuel g (p :: rest) useVar false DH i j = Ok w /\ (w == 0)%Q.
Proof.
  intros nx ny nz g p rest useVar DH fuel y z Hg Hp Hf HD HN HY Hy Hz i j.
  assert (P : exists k, p = 2 * k /\ 2 <= k <= 6) by (simpl in Hp; destruct Hp as [E|[E|[E|[E|[E|[]]]]]]; subst p; [exists 2|exists 3|exists 4|exists 5|exists 6]; lia).
  destruct P as (k & EP & Hk). assert (EK : p / 2 = k) by (rewrite EP, Z.mul_comm, Z.div_mul; lia). subst i j. rewrite EK in *.
  assert (Hp' : In p [2; 4; 6; 8; 10; 12]) by (simpl in *; tauto).
  split; [|split].
  - intros E. apply reg_inj in E; lia.
  - destruct (C10_Dx_rows nx ny nz g p rest useVar DH (nx - 1 - k) y z fuel Hg Hp' ltac:(lia) Hy Hz ltac:(lia) Hf) as ((r & E & R) & _).
    exists r. split; [exact E|]. destruct R as (q & x0 & Q1 & Q2 & Q3 & Q4 & _). destruct (Q4 ltac:(lia)) as [-> Q5].
    specialize (Q5 k ltac:(lia) ltac:(lia) ltac:(lia)).
    apply (proj2 (in_row nx (DH * inject_Z 1)%Q (fun X => reg_index nx nz X y z)
      (fun X X' P P' Q => proj1 (reg_inj nx nz X y z X' y z P P' Hz Hz Q)) (2 * q) _ r (nx - 1) Q3 ltac:(lia) ltac:(lia))). lia.
  - destruct (C163_edges_2D nx ny nz g p rest useVar DH fuel (nx - 1 - k) y z (nx - 1) y z Hg Hp' Hf HD) as (w & E & W & _); try lia.
    exists w. split; [exact E|]. destruct (Qeq_dec w 0) as [Q|Q]; [exact Q|]. exfalso. apply W in Q. unfold neighbours in Q. cbn zeta in Q. lia.
Qed.
Print Assumptions C163_forward_refuted.

(** Everywhere else the graph has them: if the line goes on for p points from [x] on, then every other point used by the
    forward derivative at [x] is joined to it. *)
Theorem C163_forward : forall nx ny nz g p rest useVar DH fuel x y z j,
  mk_regular nx ny nz = Ok g -> In p [2; 4; 6; 8; 10; 12] -> 15 <= Z.of_nat fuel -> ~ (DH == 0)%Q -> 2 <= nx -> 2 <= ny ->
  0 <= x < nx -> 0 <= y < ny -> 0 <= z < nz -> let i := reg_index nx nz x y z in i <> j ->
  (x + p <= nx -> uses (calcDxf fuel g (p :: rest) useVar DH) i j ->
     exists w, getGraph2D fuel g (p :: rest) useVar false DH i j = Ok w /\ ~ (w == 0)%Q) /\
  (y + p <= ny -> uses (calcDyf fuel g (p :: rest) useVar false DH) i j ->
     exists w, getGraph2D fuel g (p :: rest) useVar false DH i j = Ok w /\ ~ (w == 0)%Q).
Proof.
  intros nx ny nz g p rest useVar DH fuel x y z j Hg Hp Hf HD HX HY Hx Hy Hz i NE.
  assert (L : forall N h colf a r, forward_row N h colf stencil_at p a r -> 2 <= N -> 0 <= a -> a + p <= N -> In j (map fst r) -> j <> colf a ->
    exists X, 0 <= X < N /\ j = colf X /\ neighbours p N a X).
  { clear - Hp. intros N h colf a r (k & x0 & Q1 & Q2 & (T1 & T2 & -> & _) & Q4 & _) HN Ha Hap Hj NE.
    assert (2 <= p) by (simpl in Hp; lia). destruct (Q4 ltac:(lia)) as [-> _]. rewrite map_map in Hj. cbn [fst] in Hj. apply in_map_iff in Hj.
    destruct Hj as (q & <- & Hq). apply in_zseq_iff in Hq. exists (a - k + 1 + q). split; [lia|]. split; [reflexivity|].
    assert (a - k + 1 + q <> a) by (intros E; apply NE; f_equal; exact E). unfold neighbours. cbn zeta. lia. }
  split; intros Hxp (r & E & Hj).
  - destruct (C10_Dx_rows nx ny nz g p rest useVar DH x y z fuel Hg Hp Hx Hy Hz HX Hf) as ((r' & E' & R) & _). fold i in E'.
    rewrite E in E'. injection E' as <-. destruct (L _ _ _ _ _ R HX ltac:(lia) Hxp Hj ltac:(auto)) as (X & HXN & -> & NB).
    destruct (C163_edges_2D nx ny nz g p rest useVar DH fuel x y z X y z Hg Hp Hf HD) as (w & EW & W & _); try lia.
    exists w. split; [exact EW|]. apply W. left. auto.
  - destruct (C10_Dy_rows nx ny nz g p rest useVar DH x y z fuel Hg Hp Hx Hy Hz HY Hf) as ((r' & E' & R) & _). fold i in E'.
    rewrite E in E'. injection E' as <-. destruct (L _ _ _ _ _ R HY ltac:(lia) Hxp Hj ltac:(auto)) as (Y & HYN & -> & NB).
    destruct (C163_edges_2D nx ny nz g p rest useVar DH fuel x y z x Y z Hg Hp Hf HD) as (w & EW & W & _); try lia.
    exists w. split; [exact EW|]. apply W. right. auto.
Qed.
Print Assumptions C163_forward.

(** A 6 x 5 grid, order 4: point (2,1) is joined to (4,1) with weight 1/24 and to (2,2), not to (3,2);
    points (3,1) and (5,1) are not joined although the forward derivative at (3,1) uses (5,1). *)
Example C163_ex : exists g, mk_regular 6 5 1 = Ok g /\
  (exists w, getGraph2D 15 g [4] false false 1 (reg_index 6 1 2 1 0) (reg_index 6 1 4 1 0) = Ok w /\ Qred w = (1 # 24)%Q) /\
  (exists w, getGraph2D 15 g [4] false false 1 (reg_index 6 1 2 1 0) (reg_index 6 1 2 2 0) = Ok w /\ Qred w = (-9 # 8)%Q) /\
  (exists w, getGraph2D 15 g [4] false false 1 (reg_index 6 1 2 1 0) (reg_index 6 1 3 2 0) = Ok w /\ Qred w = 0%Q) /\
  (exists w, getGraph2D 15 g [4] false false 1 (reg_index 6 1 3 1 0) (reg_index 6 1 5 1 0) = Ok w /\ Qred w = 0%Q) /\
  (exists r, calcDxf 15 g [4] false 1 (reg_index 6 1 3 1 0) = Ok r /\ map fst r = [8; 9; 10; 11] /\ reg_index 6 1 5 1 0 = 11).
Proof.
  eexists. split; [reflexivity|]. do 4 (split; [eexists; split; vm_compute; reflexivity|]). eexists. split; [vm_compute; reflexivity|].
  split; vm_compute; reflexivity.
Qed.

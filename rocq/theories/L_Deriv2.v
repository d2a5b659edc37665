(** Derivative rows on regular grids. *)
From Verif Require Import Base M_Grid L_Grid M_Deriv S_Deriv L_Deriv.

Lemma regular_getLayer nx ny nz g y : mk_regular nx ny nz = Ok g -> 0 <= y < ny -> getLayer g y = Ok 0.
Proof.
  intros H Hy. pose proof (mk_regular_inv _ _ _ _ H) as (?&?&?). rewrite mk_regular_ok in H by lia. injection H as <-.
  unfold getLayer; cbn [interface numLayers getLayer_from layers].
  destruct (y <? ny - 1) eqn:E1; replace (y >? -1) with true by lia; cbn [andb]; [reflexivity|].
  replace (y =? ny - 1) with true by lia. reflexivity.
Qed.
Lemma regular_layer0 nx ny nz g : mk_regular nx ny nz = Ok g -> exists l, vget (layers g) 0 = Ok l /\ ldh l = 1.
Proof.
  intros H. pose proof (mk_regular_inv _ _ _ _ H) as (?&?&?). rewrite mk_regular_ok in H by lia. injection H as <-.
  eexists. split; [reflexivity|reflexivity].
Qed.
Lemma regular_onif nx ny nz g y : mk_regular nx ny nz = Ok g -> 0 <= y -> locatedOnInterface g y = Ok false.
Proof.
  intros H Hy. pose proof (mk_regular_inv _ _ _ _ H) as (?&?&?). rewrite mk_regular_ok in H by lia. injection H as <-.
  unfold locatedOnInterface; cbn [numLayers interface on_iface]. replace (y =? -1) with false by lia. reflexivity.
Qed.
Lemma regular_sizes nx ny nz g : mk_regular nx ny nz = Ok g -> gNX g = nx /\ gNY g = ny /\ gNZ g = nz.
Proof. intros H. destruct (mk_regular_wf _ _ _ _ H) as (_&?&?&?&_). auto. Qed.

Lemma regular_i2c nx ny nz g x y z : mk_regular nx ny nz = Ok g -> 0 <= x < nx -> 0 <= y < ny -> 0 <= z < nz ->
  index2coordinate g (reg_index nx nz x y z) = Ok (mkC x y z).
Proof.
  intros H Hx Hy Hz. destruct (regular_bijection _ _ _ _ H) as (_&B&_).
  destruct (B (mkC x y z)) as (i&E&_&R); [simpl; lia|].
  rewrite (regular_formula _ _ _ _ _ _ _ H Hx Hy Hz) in E. injection E as <-. exact R.
Qed.

Lemma row_yb_eq g layer dh h col : (forall y, 0 <= y -> locatedOnInterface g y = Ok false) ->
  forall fuel y p j acc, 0 <= y -> row_yb fuel g layer dh h col y p j acc = row_bwd fuel dh 0 (gNY g) h col y p j acc.
Proof.
  intros Hi. induction fuel as [|f IH]; intros y p j acc Hy; [reflexivity|].
  cbn [row_yb row_bwd]. destruct (negb (j <? p)); [reflexivity|]. rewrite (Hi y Hy). cbn [bind andb].
  rewrite !Z.add_0_r. rewrite !IH by lia. destruct (col _); cbn [bind]; try reflexivity. destruct (fdcoef p j); cbn [bind]; try reflexivity.
  rewrite !IH by lia. reflexivity.
Qed.

Lemma inj_x nx nz y z X X' : 0 < nx -> reg_index nx nz X y z = reg_index nx nz X' y z -> X = X'.
Proof. unfold reg_index. lia. Qed.
Lemma inj_z nx nz x y X X' : 0 < nx -> reg_index nx nz x y X = reg_index nx nz x y X' -> X = X'.
Proof. unfold reg_index. intros. apply (Z.mul_reg_r X X' nx); lia. Qed.
Lemma inj_y nx nz x z X X' : 0 < nx -> 0 < nz -> reg_index nx nz x X z = reg_index nx nz x X' z -> X = X'.
Proof.
  unfold reg_index. intros. apply (Z.mul_reg_r X X' nx); [lia|]. apply (Z.mul_reg_r _ _ nz); lia.
Qed.

Section Reg.
Variables (nx ny nz : Z) (g : grid) (p : Z) (rest : list Z) (useVar : bool) (DH : Q) (x y z : Z) (fuel : nat).
Hypotheses (Hg : mk_regular nx ny nz = Ok g) (Hp : supported p) (Hx : 0 <= x < nx) (Hy : 0 <= y < ny) (Hz : 0 <= z < nz)
  (Hf : 15 <= Z.of_nat fuel).

Lemma reg_order : order_at (p :: rest) useVar 0 = Ok p.
Proof. destruct useVar; reflexivity. Qed.

Ltac start := destruct (regular_sizes _ _ _ _ Hg) as (Ex&Ey&Ez); destruct (regular_layer0 _ _ _ _ Hg) as (l&El&E1);
  rewrite (regular_i2c _ _ _ _ _ _ _ Hg Hx Hy Hz); cbn [bind cx cy cz]; rewrite (regular_getLayer _ _ _ _ _ Hg Hy);
  cbn [bind].

Lemma reg_Dxf : 2 <= nx -> exists row, calcDxf fuel g (p :: rest) useVar DH (reg_index nx nz x y z) = Ok row /\
  forward_row nx (DH * inject_Z 1)%Q (fun X => reg_index nx nz X y z) stencil_at p x row.
Proof.
  intros HN. unfold calcDxf. start. rewrite El. cbn [bind]. rewrite reg_order. cbn [bind].
  rewrite (regular_onif _ _ _ _ y Hg) by lia. cbn [bind]. rewrite E1, Ex.
  apply row_fwd_forward; auto.
  - intros X HX. apply (regular_formula _ _ _ _ _ _ _ Hg); auto.
  - intros X X' _ _. apply inj_x. lia.
Qed.

Lemma reg_Dzf : 2 <= nz -> exists row, calcDzf fuel g (p :: rest) useVar DH (reg_index nx nz x y z) = Ok row /\
  forward_row nz (DH * inject_Z 1)%Q (fun Z => reg_index nx nz x y Z) stencil_at p z row.
Proof.
  intros HN. unfold calcDzf. start. rewrite El. cbn [bind]. rewrite reg_order. cbn [bind].
  rewrite (regular_onif _ _ _ _ y Hg) by lia. cbn [bind]. rewrite E1, Ez.
  apply row_fwd_forward; auto.
  - intros X HX. apply (regular_formula _ _ _ _ _ _ _ Hg); auto.
  - intros X X' _ _. apply inj_z. lia.
Qed.

Lemma reg_Dyf : 2 <= ny -> exists row, calcDyf fuel g (p :: rest) useVar false DH (reg_index nx nz x y z) = Ok row /\
  forward_row ny (DH * inject_Z 1)%Q (fun Y => reg_index nx nz x Y z) stencil_at p y row.
Proof.
  intros HN. unfold calcDyf. start. rewrite reg_order. cbn [bind reduce_order].
  rewrite (regular_onif _ _ _ _ y Hg) by lia. cbn [bind andb]. rewrite El. cbn [bind]. rewrite E1, Ey.
  apply row_fwd_forward; auto.
  - intros X HX. apply (regular_formula _ _ _ _ _ _ _ Hg); auto.
  - intros X X' _ _. apply inj_y; lia.
Qed.

Lemma reg_Dxb : 2 <= nx -> exists row, calcDxb fuel g (p :: rest) useVar DH (reg_index nx nz x y z) = Ok row /\
  backward_row nx (DH * inject_Z 1)%Q (fun X => reg_index nx nz X y z) stencil_at p x row.
Proof.
  intros HN. unfold calcDxb. start. rewrite El. cbn [bind]. rewrite reg_order. cbn [bind].
  rewrite (regular_onif _ _ _ _ y Hg) by lia. cbn [bind]. rewrite E1, Ex.
  apply row_bwd_backward; auto.
  - intros X HX. apply (regular_formula _ _ _ _ _ _ _ Hg); auto.
  - intros X X' _ _. apply inj_x. lia.
Qed.

Lemma reg_Dzb : 2 <= nz -> exists row, calcDzb fuel g (p :: rest) useVar DH (reg_index nx nz x y z) = Ok row /\
  backward_row nz (DH * inject_Z 1)%Q (fun Z => reg_index nx nz x y Z) stencil_at p z row.
Proof.
  intros HN. unfold calcDzb. start. rewrite El. cbn [bind]. rewrite reg_order. cbn [bind].
  rewrite (regular_onif _ _ _ _ y Hg) by lia. cbn [bind]. rewrite E1, Ez.
  apply row_bwd_backward; auto.
  - intros X HX. apply (regular_formula _ _ _ _ _ _ _ Hg); auto.
  - intros X X' _ _. apply inj_z. lia.
Qed.

Lemma reg_Dyb : 2 <= ny -> exists row, calcDyb fuel g (p :: rest) useVar false DH (reg_index nx nz x y z) = Ok row /\
  backward_row ny (DH * inject_Z 1)%Q (fun Y => reg_index nx nz x Y z) stencil_at p y row.
Proof.
  intros HN. unfold calcDyb. start. rewrite El. cbn [bind]. rewrite reg_order. cbn [bind reduce_order].
  rewrite row_yb_eq; [|intros y' Hy'; apply (regular_onif _ _ _ _ y' Hg Hy')|lia]. rewrite E1, Ey.
  apply row_bwd_backward; auto.
  - intros X HX. apply (regular_formula _ _ _ _ _ _ _ Hg); auto.
  - intros X X' _ _. apply inj_y; lia.
Qed.
End Reg.

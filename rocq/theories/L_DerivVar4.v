(** Derivative rows on layered grids: vertical derivatives. *)
From Verif Require Import Base M_Grid S_Grid L_Grid L_Grid2 L_Grid3 L_GridP M_Deriv S_Deriv S_DerivVar L_Deriv L_Deriv2 L_DerivVar L_DerivVar2 L_DerivVar3.
Open Scope Z_scope.

Section Layered.
Variables (g : grid) (itf : list Z).
Hypothesis L : layered g itf.
Variables (i : Z) (c : coord).
Hypothesis Hi : 0 <= i < nGridpoints g.
Hypothesis Hc : index2coordinate g i = Ok c.
Variables (orders : list Z) (useVar : bool) (DH : Q) (fuel : nat) (p : Z).
Hypothesis Hp : In p [2; 4; 6; 8; 10; 12].
Hypothesis Hf : 15 <= Z.of_nat fuel.

Section Off.
Variables (j : nat) (l : layer).
Hypothesis Hj : nth_error (layers g) j = Some l.
Hypothesis Hy : lstart l <= cy c <= lend l.
Hypothesis Hoff : ~ In (cy c) (removelast itf).
Hypothesis Ho : configured orders useVar j p.
Let d := ldh l.
Let y := cy c.
Let q := capped p (distToInterface g y) d.

Lemma off_div : (d | cx c) /\ (d | y - lstart l) /\ (d | cz c).
Proof. exact (point_div g itf L i c l Hi Hc (nth_error_In _ _ Hj) Hy). Qed.
Lemma off_onif : locatedOnInterface g y = Ok false.
Proof.
  destruct (lay_point g itf L i c Hi Hc) as (_&H0&_). destruct (lay_onif g itf L y ltac:(unfold y; lia)) as ([|]&E&Hb); [|exact E].
  exfalso. apply Hoff, Hb. reflexivity.
Qed.
Lemma capped_two : distToInterface g y < d -> q = 2.
Proof.
  intros H. pose proof (d1 g itf L j l Hj) as Hd. fold d in Hd. unfold q, capped.
  destruct (lay_point g itf L i c Hi Hc) as (_&H0&_).
  assert (0 <= distToInterface g y). { destruct (dist_lower g itf L j l y Hj Hy Hoff (proj1 (proj2 off_div))) as [H1|H1]; fold d in H1; lia. }
  rewrite Z.div_small by lia. change (2 * 0) with 0. destruct (supported_even p Hp) as (k&->&Hk). lia.
Qed.

Lemma off_Dyf : central_fits (2 * y + d) d q (gNY g) -> exists row, calcDyf fuel g orders useVar true DH i = Ok row /\
  central_row (2 * y + d) d q (DH * inject_Z d) stencil_at (fun k Y => index2coordinate g k = Ok (mkC (cx c) Y (cz c))) row.
Proof.
  intros F. pose proof (d1 g itf L j l Hj) as Hd. fold d in Hd. destruct off_div as (Dx&Dy&Dz).
  destruct (lay_point g itf L i c Hi Hc) as (Px&Py&Pz&_).
  destruct (reduce_ok g itf L j l y Hj Hy Hoff Dy p Hp) as (R1&R2). fold d q in R1, R2.
  unfold calcDyf. rewrite Hc. cbn [bind]. fold y. rewrite (lay_getLayer g itf L j l y Hj Hy Hoff). cbn [bind].
  rewrite (configured_ok _ _ _ _ Ho). cbn [bind]. rewrite R1. cbn [bind]. rewrite off_onif. cbn [bind andb].
  rewrite (vget_nat _ _ _ Hj). cbn [bind]. fold d.
  assert (HD : d <= distToInterface g y).
  { destruct (Z_lt_le_dec (distToInterface g y) d) as [H|]; [|assumption]. rewrite (capped_two H) in F. destruct F as (F1&F2).
    destruct (dist_lower g itf L j l y Hj Hy Hoff Dy) as [H1|H1]; fold d in H1; [lia|]. unfold y in *. lia. }
  pose proof (capped_reach g itf L j l y Hj p Hp HD) as Hr. fold d q in Hr.
  apply fwd_central; auto; [lia|].
  intros Y HY DY BY. rewrite Z.add_0_r in *.
  apply (Ycol g itf L j l y Hj Hy Hoff Dy (cx c) (cz c) (d * (q / 2)) Y); auto. nia.
Qed.

Lemma off_Dyb : central_fits (2 * y - d) d q (gNY g) -> exists row, calcDyb fuel g orders useVar true DH i = Ok row /\
  central_row (2 * y - d) d q (DH * inject_Z d) stencil_at (fun k Y => index2coordinate g k = Ok (mkC (cx c) Y (cz c))) row.
Proof.
  intros F. pose proof (d1 g itf L j l Hj) as Hd. fold d in Hd. destruct off_div as (Dx&Dy&Dz).
  destruct (lay_point g itf L i c Hi Hc) as (Px&Py&Pz&_).
  destruct (reduce_ok g itf L j l y Hj Hy Hoff Dy p Hp) as (R1&R2). fold d q in R1, R2.
  unfold calcDyb. rewrite Hc. cbn [bind]. fold y. rewrite (lay_getLayer g itf L j l y Hj Hy Hoff). cbn [bind].
  rewrite (vget_nat _ _ _ Hj). cbn [bind].
  rewrite (configured_ok _ _ _ _ Ho). cbn [bind]. rewrite R1. cbn [bind]. fold d.
  assert (HD : d <= distToInterface g y).
  { destruct (Z_lt_le_dec (distToInterface g y) d) as [H|]; [|assumption]. rewrite (capped_two H) in F. destruct F as (F1&F2).
    destruct (dist_lower g itf L j l y Hj Hy Hoff Dy) as [H1|H1]; fold d in H1; [lia|]. unfold y in *. lia. }
  pose proof (capped_reach g itf L j l y Hj p Hp HD) as Hr. fold d q in Hr.
  assert (E : row_yb fuel g (Z.of_nat j) d (DH * inject_Z d) (fun Y => coordinate2index g (mkC (cx c) Y (cz c))) y q 0 [] =
              row_bwd fuel d 0 (gNY g) (DH * inject_Z d) (fun Y => coordinate2index g (mkC (cx c) Y (cz c))) y q 0 []).
  { destruct (supported_even q R2) as (k&Ek&Hk). destruct F as (F1&F2). rewrite Ek in *. apply row_yb_off; [exact off_onif|nia|nia]. }
  rewrite E. apply bwd_central; auto; [lia|].
  intros Y HY DY BY. rewrite Z.add_0_r in *.
  apply (Ycol g itf L j l y Hj Hy Hoff Dy (cx c) (cz c) (d * (q / 2)) Y); auto. nia.
Qed.
End Off.

(** ** On an interface *)
Section On.
Variables (k : nat) (la lb : layer).
Hypothesis Hk : nth_error itf k = Some (cy c).
Hypothesis Hu : forall k', nth_error itf k' = Some (cy c) -> k' = k.
Hypothesis Ha : nth_error (layers g) k = Some la.
Hypothesis Hb : nth_error (layers g) (S k) = Some lb.
Hypothesis Ho : configured orders useVar (if ldh la <? ldh lb then S k else k) p.
Let y := cy c.
Let da := ldh la.
Let db := ldh lb.

Lemma on_order : order_at orders useVar (Z.of_nat (if da <? db then S k else k)) = Ok p.
Proof. exact (configured_ok _ _ _ _ Ho). Qed.

(** the grid point whose cell contains the horizontal position, at depth [Y], in a layer with spacing [s] *)
Definition cell (x z s kk Y : Z) : Prop := exists X Z, index2coordinate g kk = Ok (mkC X Y Z) /\ X <= x < X + s /\ Z <= z < Z + s.

Lemma cell_col l Y : In l (layers g) -> lstart l <= Y <= lend l -> (ldh l | Y - lstart l) ->
  exists kk, coordinate2index g (mkC (cx c) Y (cz c)) = Ok kk /\ cell (cx c) (cz c) (ldh l) kk Y.
Proof.
  intros Hl HY DY. pose proof (layer_pos g itf L l Hl) as Hd. destruct (lay_point g itf L i c Hi Hc) as (Px&Py&Pz&_).
  destruct (lay_lookup g itf L (mkC (cx c) Y (cz c)) l Px Pz Hl HY) as (kk&E&_&c'&Ec&(A1&A2)&(B1&B2)&(C1&C2)). cbn [cx cy cz] in *.
  exists kk. split; [exact E|]. exists (cx c'), (cz c'). split; [|auto]. rewrite Ec. destruct c' as [X' Y' Z']. cbn [cx cy cz] in *.
  enough (Y' - lstart l = Y - lstart l) by (do 2 f_equal; lia). apply (multiple_eq (ldh l)); auto. lia.
Qed.

Lemma on_pair : if da <? db then lend la = y /\ lstart lb = y + db else lend la = y - da /\ lstart lb = y.
Proof. destruct (lay_pair g itf L k la lb Ha Hb) as (i0&E&R). assert (i0 = y) by (unfold y; congruence). subst i0. exact R. Qed.

Lemma on_reduce lr : nth_error (layers g) (if da <? db then S k else k) = Some lr ->
  reduce_order true g y (Z.of_nat (if da <? db then S k else k)) p = Ok 2.
Proof.
  intros Hlr. unfold reduce_order. rewrite (vget_nat _ _ _ Hlr). cbn [bind].
  destruct (iface_trans g itf L k y la lb Hk Hu Ha Hb) as (_&_&D0).
  destruct (lay_dist g itf L y) as (_&_&D3).
  assert (E : distToInterface g y = 0).
  { destruct D3 as [E|(i0&_&E)]; [|lia]. destruct (lay_point g itf L i c Hi Hc) as (_&H0&_). lia. }
  rewrite E. rewrite cdiv_nonneg; [|lia|pose proof (layer_pos g itf L lr (nth_error_In _ _ Hlr)); lia]. cbn [bind]. rewrite Z.div_0_l; [reflexivity|].
  pose proof (layer_pos g itf L lr (nth_error_In _ _ Hlr)); lia.
Qed.

Lemma on_coarser : exists lr, nth_error (layers g) (if da <? db then S k else k) = Some lr /\ ldh lr = Z.max da db.
Proof. unfold da, db. destruct (Z.ltb_spec (ldh la) (ldh lb)); [exists lb|exists la]; split; auto; lia. Qed.

Lemma on_Dyf : y + db <= lend lb -> exists row, calcDyf fuel g orders useVar true DH i = Ok row /\
  central_row (2 * y + db) db 2 (DH * inject_Z db) stencil_at (fun kk Y => cell (cx c) (cz c) (if Y =? y then Z.min da db else db) kk Y) row.
Proof.
  intros Hend. destruct (iface_trans g itf L k y la lb Hk Hu Ha Hb) as (T1&T2&_). fold da db in T2.
  destruct on_coarser as (lr&Hlr&Es). pose proof (layer_pos g itf L lb (nth_error_In _ _ Hb)) as Hdb. fold db in Hdb.
  pose proof (layer_pos g itf L la (nth_error_In _ _ Ha)) as Hda. fold da in Hda.
  destruct (lay_rows g itf L lb (nth_error_In _ _ Hb)) as (RB1&RB2&RB3). destruct (lay_rows g itf L la (nth_error_In _ _ Ha)) as (RA1&RA2&RA3).
  unfold calcDyf. rewrite Hc. cbn [bind]. fold y. rewrite (iface_layer g itf L k y la lb Hk Hu Ha Hb). fold da db. cbn [bind].
  rewrite on_order. cbn [bind]. rewrite (on_reduce lr Hlr). cbn [bind]. rewrite T1. cbn [bind andb]. rewrite T2. cbn [bind].
  assert (E : vget (layers g) (if Z.sgn (db - da) =? -1 then Z.of_nat (if da <? db then S k else k) + 1 else Z.of_nat (if da <? db then S k else k)) =
              Ok (if da <? db then lb else if db <? da then lb else la)).
  { destruct (Z.ltb_spec da db).
    - rewrite (proj2 (Z.sgn_pos_iff (db - da))) by lia. change (1 =? -1) with false. cbv iota. now apply vget_nat.
    - destruct (Z.ltb_spec db da).
      + rewrite (proj2 (Z.sgn_neg_iff (db - da))) by lia. change (-1 =? -1) with true. cbv iota. replace (Z.of_nat k + 1) with (Z.of_nat (S k)) by lia. now apply vget_nat.
      + replace (db - da) with 0 by lia. change (Z.sgn 0 =? -1) with false. cbv iota. now apply vget_nat. }
  rewrite E. cbn [bind].
  assert (Ed : ldh (if da <? db then lb else if db <? da then lb else la) = db).
  { unfold da, db. destruct (Z.ltb_spec (ldh la) (ldh lb)); [reflexivity|]. destruct (Z.ltb_spec (ldh lb) (ldh la)); [reflexivity|lia]. }
  rewrite Ed. pose proof on_pair as OP.
  apply fwd_central; auto; [simpl; auto|lia| |].
  { destruct (lay_point g itf L i c Hi Hc) as (_&H0&_). fold y in H0. split; lia. }
  intros Y HY DY BY. rewrite Z.add_0_r in *. change (2 / 2) with 1 in BY.
  assert (EY : Y = y \/ Y = y + db). { destruct DY as (q&Hq). assert (q = 0 \/ q = 1) as [->| ->] by nia; lia. }
  destruct EY as [->| ->].
  - rewrite Z.eqb_refl. destruct (Z.ltb_spec da db).
    + rewrite Z.min_l by lia. apply cell_col; [eapply nth_error_In; eauto|lia|]. destruct OP as (<-&_). exact RA3.
    + rewrite Z.min_r by lia. apply cell_col; [eapply nth_error_In; eauto|lia|]. destruct OP as (_&->). rewrite Z.sub_diag. apply Z.divide_0_r.
  - replace (y + db =? y) with false by lia. apply cell_col; [eapply nth_error_In; eauto| |].
    + destruct (Z.ltb_spec da db); lia.
    + fold db. destruct (Z.ltb_spec da db); destruct OP as (_&->); [rewrite Z.sub_diag; apply Z.divide_0_r|exists 1; ring].
Qed.

(** Staggered level of row [Y] (doubled): half a cell below [Y]; at the interface half a cell of the lower layer. *)
Lemma on_Dyb : Z.max da db <= y -> (da < db -> db = 3 * da /\ lstart la <= y - 2 * da) -> (db < da -> da = 3 * db /\ y + db <= lend lb) ->
  exists row, calcDyb fuel g orders useVar true DH i = Ok row /\
  central_row (4 * y) (2 * Z.max da db) 2 (DH * inject_Z (Z.max da db)) stencil_at
    (fun kk S => exists Y s w, S = 2 * Y + s /\ cell (cx c) (cz c) w kk Y /\
       ((Y = y /\ s = db /\ w = Z.min da db) \/ (Y < y /\ s = da /\ w = da) \/ (y < Y /\ s = db /\ w = db))) row.
Proof.
  intros Hmax Hlt1 Hlt2. destruct (iface_trans g itf L k y la lb Hk Hu Ha Hb) as (T1&T2&_). fold da db in T2.
  destruct on_coarser as (lr&Hlr&Es). pose proof (layer_pos g itf L lb (nth_error_In _ _ Hb)) as Hdb. fold db in Hdb.
  pose proof (layer_pos g itf L la (nth_error_In _ _ Ha)) as Hda. fold da in Hda.
  destruct (lay_rows g itf L lb (nth_error_In _ _ Hb)) as (RB1&RB2&RB3). destruct (lay_rows g itf L la (nth_error_In _ _ Ha)) as (RA1&RA2&RA3).
  destruct (lay_point g itf L i c Hi Hc) as (_&H0&_). fold y in H0.
  unfold calcDyb. rewrite Hc. cbn [bind]. fold y. rewrite (iface_layer g itf L k y la lb Hk Hu Ha Hb). fold da db. cbn [bind].
  rewrite (vget_nat _ _ _ Hlr). cbn [bind].
  rewrite on_order. cbn [bind]. rewrite (on_reduce lr Hlr). cbn [bind]. rewrite Es. pose proof on_pair as OP.
  set (s := Z.max da db) in *. set (col := fun Y => coordinate2index g (mkC (cx c) Y (cz c))).
  (* the two rows *)
  set (Y0 := if da <? db then y - s + da else y - s). set (Y1 := if db <? da then y + db else y).
  assert (C0 : exists k0, col Y0 = Ok k0 /\ cell (cx c) (cz c) da k0 Y0).
  { unfold Y0, s. destruct (Z.ltb_spec da db) as [H|H].
    - destruct (Hlt1 H) as (E3&Hst). destruct OP as (O1&O2). apply cell_col; [eapply nth_error_In; eauto|lia|]. fold da.
      replace (y - Z.max da db + da - lstart la) with (lend la - lstart la - 2 * da) by lia. apply Z.divide_sub_r; [exact RA3|exists 2; ring].
    - destruct OP as (O1&O2). apply cell_col; [eapply nth_error_In; eauto|lia|]. fold da.
      replace (y - Z.max da db - lstart la) with (lend la - lstart la) by lia. exact RA3. }
  assert (C1 : exists k1, col Y1 = Ok k1 /\ cell (cx c) (cz c) (Z.min da db) k1 Y1).
  { unfold Y1. destruct (Z.ltb_spec db da) as [H|H].
    - destruct (Hlt2 H) as (E3&Hen). rewrite Z.min_r by lia. replace (da <? db) with false in OP by lia. destruct OP as (O1&O2).
      apply cell_col; [eapply nth_error_In; eauto|lia|]. fold db. replace (y + db - lstart lb) with db by lia. exists 1; ring.
    - destruct (Z.ltb_spec da db) as [H'|H'].
      + rewrite Z.min_l by lia. destruct OP as (O1&O2). apply cell_col; [eapply nth_error_In; eauto|lia|]. rewrite <- O1. exact RA3.
      + rewrite Z.min_r by lia. destruct OP as (O1&O2). apply cell_col; [eapply nth_error_In; eauto|lia|]. rewrite O2, Z.sub_diag. apply Z.divide_0_r. }
  destruct C0 as (k0&E0&K0). destruct C1 as (k1&E1&K1).
  assert (D1 : (t <- getTransition g y ;; (if t =? 1 then l <- vget (layers g) (Z.of_nat (if da <? db then S k else k) - 1) ;; Ok (ldh l) else Ok 0)) =
               Ok (if da <? db then da else 0)).
  { rewrite T2. cbn [bind]. destruct (Z.ltb_spec da db) as [H|H].
    - rewrite (proj2 (Z.sgn_pos_iff (db - da))) by lia. change (1 =? 1) with true. cbv iota. replace (Z.of_nat (S k) - 1) with (Z.of_nat k) by lia. now rewrite (vget_nat _ _ _ Ha).
    - replace (Z.sgn (db - da) =? 1) with false; [reflexivity|]. pose proof (Z.sgn_nonpos (db - da)). lia. }
  assert (D2 : (t <- getTransition g y ;; (if t =? -1 then l <- vget (layers g) (Z.of_nat (if da <? db then S k else k) + 1) ;; Ok (ldh l) else Ok 0)) =
               Ok (if db <? da then db else 0)).
  { rewrite T2. cbn [bind]. destruct (Z.ltb_spec db da) as [H|H].
    - rewrite (proj2 (Z.sgn_neg_iff (db - da))) by lia. change (-1 =? -1) with true. cbv iota. replace (da <? db) with false by lia.
      replace (Z.of_nat k + 1) with (Z.of_nat (S k)) by lia. now rewrite (vget_nat _ _ _ Hb).
    - replace (Z.sgn (db - da) =? -1) with false; [reflexivity|]. pose proof (Z.sgn_nonneg (db - da)). lia. }
  destruct fuel as [|[|[|f]]]; [lia..|].
  set (h := (DH * inject_Z s)%Q).
  exists [(k0, (stencil_at 2 0 / h)%Q); (k1, (stencil_at 2 1 / h)%Q)]. split.
  - cbn [row_yb]. change (0 <? 2) with true. cbn [negb]. rewrite T1. cbn [bind andb]. change (0 =? 0) with true. change (0 =? 1) with false. cbv iota.
    rewrite D1. cbn [bind]. change (Z.quot 2 2) with 1. change (Z.quot (-2) 2) with (-1). change (Z.quot (- (2)) 2) with (-1).
    replace (y + s * -1 <? 0) with false by lia. replace (y + s * (1 - 1) >=? gNY g) with false by lia.
    replace (y + s * (0 - 1) + (if da <? db then da else 0) + 0) with Y0 by (unfold Y0; destruct (da <? db); ring).
    fold col. rewrite E0. cbn [bind]. rewrite (fdcoef_ok 2 0) by (unfold supported; simpl; auto; lia). cbn [bind].
    change (0 + 1) with 1. change (1 <? 2) with true. cbn [negb]. change (1 =? 0) with false. change (1 =? 1) with true. cbv iota. cbn [bind].
    rewrite D2. cbn [bind].
    replace (y + s * (1 - 1) + 0 + (if db <? da then db else 0)) with Y1 by (unfold Y1; destruct (db <? da); ring).
    rewrite E1. cbn [bind]. rewrite (fdcoef_ok 2 1) by (unfold supported; simpl; auto; lia). cbn [bind].
    reflexivity.
  - split; [reflexivity|]. intros n kk v Hn. destruct n as [|[|n]]; [| |destruct n; discriminate].
    + cbn [nth_error] in Hn. assert (Hn1 : k0 = kk /\ (stencil_at 2 0 / h)%Q = v) by (split; congruence). destruct Hn1 as (<-&<-). clear Hn.
      exists (2 * y - s). split; [change (Z.of_nat 0) with 0; lia|]. split; [|reflexivity].
      exists Y0, da, da. unfold Y0, s in *. destruct (Z.ltb_spec da db) as [H|H].
      * destruct (Hlt1 H) as (E3&_). split; [lia|]. split; [exact K0|]. right; left. lia.
      * split; [lia|]. split; [exact K0|]. right; left. lia.
    + cbn [nth_error] in Hn. assert (Hn1 : k1 = kk /\ (stencil_at 2 1 / h)%Q = v) by (split; congruence). destruct Hn1 as (<-&<-). clear Hn.
      exists (2 * y + s). split; [change (Z.of_nat 1) with 1; lia|]. split; [|reflexivity].
      exists Y1, db, (Z.min da db). unfold Y1, s in *. destruct (Z.ltb_spec db da) as [H|H].
      * destruct (Hlt2 H) as (E3&_). split; [lia|]. split; [exact K1|]. right; right. lia.
      * split; [lia|]. split; [exact K1|]. left. lia.
Qed.
End On.
End Layered.

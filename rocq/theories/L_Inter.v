(** Interpolation matrices of variable grids. *)
From Verif Require Import Base M_Grid S_Grid L_Grid L_Grid2 L_Grid3 L_GridP M_Deriv S_Deriv L_Deriv M_Inter S_Inter L_DerivVar L_DerivVar2 L_DerivVar3 L_DerivVar4.
Open Scope Z_scope.

(** ** The width of the model relative to the spacings *)
Definition edge (N s : Z) : Prop := exists M, 0 <= M /\ 2 * N = (2 * M + 1) * s + 1.

Lemma edge_of dm d N : pow3 dm -> pow3 d -> d <= dm -> 0 < N -> Z.rem N dm = 1 + Z.quot dm 2 -> edge N d.
Proof.
  intros Hm Hd Hle HN Hr. destruct (pow3_divide d dm Hd Hm Hle) as (m&Hm').
  destruct (pow3_odd dm Hm) as (h&Hh). destruct (pow3_odd d Hd) as (e&He). pose proof (pow3_pos _ Hm). pose proof (pow3_pos _ Hd).
  rewrite Z.quot_div_nonneg in Hr by lia.
  assert (Hq : dm / 2 = h) by (symmetry; apply Z.div_unique with (r := 1); lia).
  rewrite Hq in Hr. pose proof (Z.quot_rem' N dm) as E. rewrite Hr in E. set (q := Z.quot N dm) in *.
  assert (0 <= q) by (apply Z.quot_pos; lia). clearbody q. clear Hr Hq.
  (* m is odd *)
  assert (Hmo : exists m', m = 2 * m' + 1).
  { destruct (Z.Even_or_Odd m) as [(m'&Em)|(m'&Em)]; [exfalso; rewrite Em in Hm'; replace (2 * m' * d) with (2 * (m' * d)) in Hm' by ring; lia|eauto]. }
  destruct Hmo as (m'&Em). assert (0 < m) by (apply (Z.mul_pos_cancel_r m d); lia).
  assert (0 <= q * m) by (apply Z.mul_nonneg_nonneg; lia).
  exists (q * m + m'). split; [lia|]. replace (2 * (q * m + m') + 1) with ((2 * q + 1) * m) by (rewrite Em; ring).
  replace ((2 * q + 1) * m * d) with ((2 * q + 1) * dm) by (rewrite Hm'; ring). rewrite E. replace (2 * (dm * q + (1 + h))) with (2 * q * dm + (2 * h + 1) + 1) by ring. rewrite <- Hh. ring.
Qed.

Lemma edge_ok fuel nx ny nz dhs ifs g : good_request nx ny nz dhs ifs -> enough fuel dhs -> init_variable fuel nx ny nz dhs ifs = Ok g ->
  forall l, In l (layers g) -> edge (gNX g) (ldh l) /\ (gNZ g = 1 \/ edge (gNZ g) (ldh l)).
Proof.
  intros Hg Hf E l Hl. destruct (init_variable_ok _ _ _ _ _ _ Hg Hf) as (g1&E1&_&D&HX&HZ&_). assert (g1 = g) by congruence. subst g1.
  destruct Hg as (Hp&L&Hx&Hy&Hz&_). rewrite init_variable_unfold in E by assumption.
  assert (Hd1 : forall d, In d dhs -> 1 <= d) by (intros; apply pow3_pos; auto).
  assert (Hne : dhs <> []) by (intros ->; discriminate).
  pose proof (dh_max_is_max dhs Hne Hd1) as (Mi&Mu). pose proof (Hp _ Mi) as Hpm.
  assert (Hin : In (ldh l) dhs) by (rewrite <- D; now apply in_map).
  destruct (shrink fuel dhs (ifs ++ [ny - 1]) nx nz) as [((nx', nz'), itf')| | |] eqn:Es; cbn [bind] in E; try discriminate.
  unfold finish in E. destruct (build_layers nx' nz' 0 dhs itf') as [ls| | |]; cbn [bind] in E; try discriminate. injection E as <-. cbn [gNX gNZ] in *.
  unfold shrink in Es. destruct (dh_max dhs =? 1) eqn:Em.
  - injection Es as <- <- <-. assert (ldh l = 1) as ->. { specialize (Hd1 _ Hin). specialize (Mu _ Hin). lia. }
    split; [exists (nx - 1); lia|]. right. exists (nz - 1). lia.
  - destruct (reduceN fuel (dh_max dhs) nx) as [a| | |] eqn:Ea; cbn [bind] in Es; try discriminate.
    destruct (if nz =? 1 then Ok nz else reduceN fuel (dh_max dhs) nz) as [b| | |] eqn:Eb; cbn [bind] in Es; try discriminate.
    destruct (align_all fuel dhs (ifs ++ [ny - 1])); cbn [bind] in Es; try discriminate. injection Es as -> -> _.
    split.
    + apply (edge_of (dh_max dhs)); auto; [lia|]. now apply reduceN_sound in Ea.
    + destruct (Z.eqb_spec nz 1); [injection Eb as <-; now left|right]. apply (edge_of (dh_max dhs)); auto; [lia|]. now apply reduceN_sound in Eb.
Qed.

Lemma inter_points_eq g c dh modx modz t11 t12 t21 t22 : inter_points g c dh modx modz t11 t12 t21 t22 =
  let w a b := (inject_Z a * inject_Z b * (1 / inject_Z (dh * dh)))%Q in
  bind (inter_push g t11 (w (dh - modx) (dh - modz)) (cx c - modx) (cy c) (cz c - modz)) (fun e11 =>
  bind (inter_push g t12 (w modx (dh - modz)) (cx c - modx + dh) (cy c) (cz c - modz)) (fun e12 =>
  bind (inter_push g t21 (w (dh - modx) modz) (cx c - modx) (cy c) (cz c - modz + dh)) (fun e21 =>
  bind (inter_push g t22 (w modx modz) (cx c - modx + dh) (cy c) (cz c - modz + dh)) (fun e22 =>
  Ok (e11 ++ e12 ++ e21 ++ e22))))).
Proof.
  destruct c as [x y z]. unfold inter_points. cbn [cx cy cz].
  replace (x + dh - modx) with (x - modx + dh) by ring. replace (z + dh - modz) with (z - modz + dh) by ring. reflexivity.
Qed.

Section Points.
Variables (g : grid) (itf : list Z).
Hypothesis L : layered g itf.
Variables (c : coord) (l : layer) (s : Z).
Hypothesis Hl : In l (layers g).
Hypothesis Hy : lstart l <= cy c <= lend l.
Hypothesis Dy : (ldh l | cy c - lstart l).
Let col k X Z := 0 <= k < nGridpoints g /\ index2coordinate g k = Ok (mkC X (cy c) Z).
Let d := ldh l.
Let W a b : Q := (inject_Z a * inject_Z b * (1 / inject_Z (s * s)))%Q.

Lemma grid_colr X Y Z l' : In l' (layers g) -> lstart l' <= Y <= lend l' -> 0 <= X < gNX g -> 0 <= Z < gNZ g ->
  (ldh l' | X) -> (ldh l' | Y - lstart l') -> (ldh l' | Z) ->
  exists k, coordinate2index g (mkC X Y Z) = Ok k /\ 0 <= k < nGridpoints g /\ index2coordinate g k = Ok (mkC X Y Z).
Proof.
  intros A1 A2 A3 A4 A5 A6 A7. destruct (grid_col g itf L X Y Z l' A1 A2 A3 A4 A5 A6 A7) as (k&E&C).
  destruct (lay_lookup g itf L (mkC X Y Z) l' A3 A4 A1 A2) as (k'&E'&R&_). assert (k' = k) by congruence. subst. eauto.
Qed.

Lemma push_ok (t : bool) v X Z : (t = true -> 0 <= X < gNX g /\ 0 <= Z < gNZ g /\ (d | X) /\ (d | Z)) ->
  exists k, inter_push g t v X (cy c) Z = Ok (if t then [(k, v)] else []) /\ (t = true -> col k X Z).
Proof.
  intros H. unfold inter_push. destruct t.
  - destruct (H eq_refl) as (HX&HZ&DX&DZ). destruct (grid_colr X (cy c) Z l Hl Hy HX HZ DX Dy DZ) as (k&E&C).
    exists k. rewrite E. cbn [bind]. split; [reflexivity|]. intros _. exact C.
  - exists 0. split; [reflexivity|discriminate].
Qed.

(** the pushed row, as a product of the two axes *)
Lemma points_ok modx modz tx tz : (d | s) ->
  0 <= cx c - modx < gNX g -> 0 <= cz c - modz < gNZ g -> (d | cx c - modx) -> (d | cz c - modz) -> 0 < s ->
  (tx = true -> cx c - modx + s < gNX g) -> (tz = true -> cz c - modz + s < gNZ g) ->
  let X0 := cx c - modx in let Z0 := cz c - modz in
  exists k11 k12 k21 k22,
    inter_points g c s modx modz true tx tz (tx && tz) =
      Ok ([(k11, W (s - modx) (s - modz))] ++ (if tx then [(k12, W modx (s - modz))] else []) ++
          (if tz then [(k21, W (s - modx) modz)] else []) ++ (if tx && tz then [(k22, W modx modz)] else [])) /\
    col k11 X0 Z0 /\ (tx = true -> col k12 (X0 + s) Z0) /\ (tz = true -> col k21 X0 (Z0 + s)) /\ (tx && tz = true -> col k22 (X0 + s) (Z0 + s)).
Proof.
  intros Hds HX HZ DX DZ Hs Hx Hz X0 Z0. rewrite inter_points_eq. cbv zeta. fold X0 Z0. fold X0 in HX, DX, Hx. fold Z0 in HZ, DZ, Hz.
  assert (DXs : (d | X0 + s)) by (apply Z.divide_add_r; auto). assert (DZs : (d | Z0 + s)) by (apply Z.divide_add_r; auto).
  destruct (push_ok true (W (s - modx) (s - modz)) X0 Z0) as (k11&E1&C1); [auto|].
  destruct (push_ok tx (W modx (s - modz)) (X0 + s) Z0) as (k12&E2&C2); [intros T; specialize (Hx T); repeat split; auto; lia|].
  destruct (push_ok tz (W (s - modx) modz) X0 (Z0 + s)) as (k21&E3&C3); [intros T; specialize (Hz T); repeat split; auto; lia|].
  destruct (push_ok (tx && tz) (W modx modz) (X0 + s) (Z0 + s)) as (k22&E4&C4).
  { intros T. apply andb_prop in T as (T1&T2). specialize (Hx T1). specialize (Hz T2). repeat split; auto; lia. }
  exists k11, k12, k21, k22. fold (W (s - modx) (s - modz)) (W modx (s - modz)) (W (s - modx) modz) (W modx modz).
  rewrite E1, E2, E3, E4. cbn [bind]. split; [reflexivity|]. auto.
Qed.
End Points.

(** ** The interface rows *)
(** one axis of the full-point interpolation *)
Lemma axis_full N s d x : (N = 1 \/ edge N s) -> (s = 3 * d \/ s = d) -> 1 <= d -> 0 <= x < N -> (d | x) ->
  let m := x mod s in
  0 <= m < s /\ 0 <= x - m < N /\ (s | x - m) /\ (x + 2 * d < N -> x - m + s < N) /\ (N <= x + 2 * d -> m = 0 \/ N <= x - m + s).
Proof.
  intros HN Hs Hd Hx (u&Hu) m. assert (Hs1 : 1 <= s) by lia.
  pose proof (Z.mod_pos_bound x s ltac:(lia)) as Hm. pose proof (Z.div_mod x s ltac:(lia)) as Hdm. fold m in Hm, Hdm.
  set (v := x / s) in *. assert (0 <= v) by (apply Z.div_pos; lia).
  assert (Hxm : x - m = s * v) by lia.
  assert (0 <= s * v) by (apply Z.mul_nonneg_nonneg; lia).
  split; [lia|]. split; [lia|]. split; [exists v; lia|]. clearbody v m.
  destruct Hs as [->| ->].
  - (* m is 0, d or 2d *)
    assert (Hw : exists w, m = d * w /\ 0 <= w <= 2).
    { exists (u - 3 * v). assert (E : m = d * (u - 3 * v)) by lia. split; [exact E|]. clear - E Hm Hd. set (t := u - 3 * v) in *. clearbody t. nia. }
    destruct Hw as (w&->&Hw). destruct HN as [->|(M&HM&HN)]; [assert (v = 0) by nia; subst v; assert (w = 0) by nia; subst w; lia|].
    assert (Ex : x = d * (3 * v + w)) by lia. clear Hu Hdm Hm. split.
    + intros T. assert (v + 1 <= M) by nia. nia.
    + intros T. right. assert (M <= v) by nia. nia.
  - assert (m = 0). { assert (E : m = d * (u - v)) by (rewrite Z.mul_sub_distr_l; lia). clear - E Hm Hd. set (t := u - v) in *. clearbody t. destruct (Z.eq_dec t 0) as [->|]; [lia|nia]. } subst m. split; [lia|]. auto.
Qed.

Lemma on_coarser_ g k la lb : nth_error (layers g) k = Some la -> nth_error (layers g) (S k) = Some lb ->
  exists lr, nth_error (layers g) (if ldh la <? ldh lb then S k else k) = Some lr /\ ldh lr = Z.max (ldh la) (ldh lb).
Proof. intros Ha Hb. destruct (Z.ltb_spec (ldh la) (ldh lb)); [exists lb|exists la]; split; auto; lia. Qed.

Lemma near_mult s a b m : 1 <= s -> (s | a) -> (s | b) -> 0 <= m < s -> Z.abs (b + m - a) < s -> a = b \/ (a = b + s /\ m <> 0).
Proof. intros Hs (q&->) (q0&->) Hm Hab. assert (q = q0 \/ q = q0 + 1) as [->| ->]; [nia|now left|right; split; nia]. Qed.
Lemma hat_near s x m : 0 <= m < s -> Z.max 0 (s - Z.abs (x - (x - m))) = s - m.
Proof. lia. Qed.
Lemma hat_far s x m : 0 <= m < s -> Z.max 0 (s - Z.abs (x - (x - m + s))) = m.
Proof. lia. Qed.

Lemma nodup4 {A} (tx tz : bool) (a b c d : Z) (u v w q : A) :
  (tx = true -> a <> b) -> (tz = true -> a <> c) -> (tx = true -> tz = true -> a <> d /\ b <> c /\ b <> d /\ c <> d) ->
  NoDup (map fst ([(a, u)] ++ (if tx then [(b, v)] else []) ++ (if tz then [(c, w)] else []) ++ (if tx && tz then [(d, q)] else []))).
Proof.
  intros H1 H2 H3. destruct tx, tz; cbn [andb app map fst]; repeat constructor; simpl; try specialize (H1 eq_refl); try specialize (H2 eq_refl); try specialize (H3 eq_refl eq_refl); intuition congruence.
Qed.

(** one axis of the staggered interpolation between cells of widths 1 and 3 *)
Lemma axis_stag N x : edge N 3 -> 5 <= N -> 0 <= x < N ->
  let m := Z.rem (x - 1) 3 in
  m <= x /\ 0 <= x - m < N /\ (exists n, x - m = 3 * n + 1) /\ (x + 1 * 1 < N -> x - m + 3 < N) /\ (N <= x + 1 * 1 -> m = 0).
Proof.
  intros (M&HM&HN) HN5 Hx m. pose proof (Z.quot_rem' (x - 1) 3) as E. fold m in E. set (q := Z.quot (x - 1) 3) in *.
  assert (Hm : (x = 0 /\ m = -1 /\ q = 0) \/ (1 <= x /\ 0 <= m < 3 /\ 0 <= q)).
  { destruct (Z.eq_dec x 0) as [->|]; [left; split; [reflexivity|]; unfold m, q; split; reflexivity|right].
    pose proof (Z.rem_bound_pos (x - 1) 3 ltac:(lia) ltac:(lia)) as B. fold m in B. split; [lia|]. split; [lia|]. apply Z.quot_pos; lia. }
  clearbody m q. split; [lia|]. split; [lia|]. split; [exists q; lia|]. lia.
Qed.

(** the product row reproduces bilinear fields *)
Lemma product_reproduces s x z mx mz (tx tz : bool) k11 k12 k21 k22 (PX PZ : Z -> Prop) (col : Z -> Z -> Z -> Prop) : 1 <= s ->
  let W a b := (inject_Z a * inject_Z b * (1 / inject_Z (s * s)))%Q in
  let X0 := x - mx in let Z0 := z - mz in
  (tx = false -> mx = 0) -> (tz = false -> mz = 0) ->
  PX X0 -> PZ Z0 -> (tx = true -> PX (X0 + s)) -> (tz = true -> PZ (Z0 + s)) ->
  col k11 X0 Z0 -> (tx = true -> col k12 (X0 + s) Z0) -> (tz = true -> col k21 X0 (Z0 + s)) -> (tx && tz = true -> col k22 (X0 + s) (Z0 + s)) ->
  reproduces PX PZ x z col
    ([(k11, W (s - mx) (s - mz))] ++ (if tx then [(k12, W mx (s - mz))] else []) ++
     (if tz then [(k21, W (s - mx) mz)] else []) ++ (if tx && tz then [(k22, W mx mz)] else [])).
Proof.
  intros Hs W X0 Z0 Tx Tz P1 P2 P3 P4 C1 C2 C3 C4. split.
  - assert (pair_eq : forall (a b : Z) (u v : Q), (a, u) = (b, v) -> a = b /\ u = v) by (intros a b u v H; split; congruence).
    intros kk v H. rewrite !in_app_iff in H. destruct H as [H|[H|[H|H]]].
    + destruct H as [H|[]]. apply pair_eq in H as (<-&<-). exists X0, Z0. auto.
    + destruct tx; [|destruct H]. destruct H as [H|[]]. apply pair_eq in H as (<-&<-). exists (X0 + s), Z0. auto.
    + destruct tz; [|destruct H]. destruct H as [H|[]]. apply pair_eq in H as (<-&<-). exists X0, (Z0 + s). auto.
    + destruct tx, tz; cbn [andb] in *; try (destruct H; fail). destruct H as [H|[]]. apply pair_eq in H as (<-&<-). exists (X0 + s), (Z0 + s). auto.
  - intros a0 a1 a2 a3 f Hf.
    assert (Hq : ~ (inject_Z s == 0)%Q) by (unfold Qeq; cbn; lia).
    pose proof (Hf k11 X0 Z0 C1 P1 P2) as F1.
    assert (F2 : tx = true -> (f k12 == bilinear a0 a1 a2 a3 (X0 + s) Z0)%Q) by (intros T; apply Hf; auto).
    assert (F3 : tz = true -> (f k21 == bilinear a0 a1 a2 a3 X0 (Z0 + s))%Q) by (intros T; apply Hf; auto).
    assert (F4 : tx && tz = true -> (f k22 == bilinear a0 a1 a2 a3 (X0 + s) (Z0 + s))%Q).
    { intros T. pose proof T as T'. apply andb_prop in T' as (T1&T2). apply Hf; auto. }
    clear Hf C1 C2 C3 C4 P1 P2 P3 P4. replace x with (X0 + mx) by (unfold X0; ring). replace z with (Z0 + mz) by (unfold Z0; ring). clearbody X0 Z0.
    unfold apply_row, W, bilinear in *. destruct tx, tz; cbn [andb app map qsum fold_right fst snd].
    + rewrite F1, (F2 eq_refl), (F3 eq_refl), (F4 eq_refl). unfold Zminus. rewrite !inject_Z_plus, !inject_Z_opp, !inject_Z_mult. field. exact Hq.
    + rewrite (Tz eq_refl), F1, (F2 eq_refl). unfold Zminus. rewrite !inject_Z_plus, !inject_Z_opp, !inject_Z_mult. change (inject_Z 0) with 0%Q. field. exact Hq.
    + rewrite (Tx eq_refl), F1, (F3 eq_refl). unfold Zminus. rewrite !inject_Z_plus, !inject_Z_opp, !inject_Z_mult. change (inject_Z 0) with 0%Q. field. exact Hq.
    + rewrite (Tx eq_refl), (Tz eq_refl), F1. unfold Zminus. rewrite !inject_Z_plus, !inject_Z_opp, !inject_Z_mult. change (inject_Z 0) with 0%Q. field. exact Hq.
Qed.

Lemma beyond s x m X : (s | x - m) -> (s | X) -> 0 <= m < s -> 1 <= s -> x <= X -> X < x - m + s -> m = 0.
Proof. intros (q&Hq) (r&Hr) Hm Hs H1 H2. destruct (Z.eq_dec m 0) as [|Hn]; [assumption|exfalso]. assert (q < r) by nia. assert (r < q + 1) by nia. lia. Qed.

Lemma classic_layer g y : (exists j l, nth_error (layers g) j = Some l /\ lstart l <= y <= lend l) \/ (forall l, In l (layers g) -> ~ (lstart l <= y <= lend l)).
Proof.
  induction (layers g) as [|l ls IH]; [right; intros l []|].
  destruct (Z_le_dec (lstart l) y); [destruct (Z_le_dec y (lend l))|].
  - left. exists 0%nat, l. auto.
  - destruct IH as [(j&l'&A&B)|H]; [left; exists (S j), l'; auto|right]. intros l' [<-|H']; [lia|auto].
  - destruct IH as [(j&l'&A&B)|H]; [left; exists (S j), l'; auto|right]. intros l' [<-|H']; [lia|auto].
Qed.

Section Rows.
Variables (g : grid) (itf : list Z).
Hypothesis L : layered g itf.
Hypothesis Hed : forall l, In l (layers g) -> edge (gNX g) (ldh l) /\ (gNZ g = 1 \/ edge (gNZ g) (ldh l)).
Variables (i : Z) (c : coord).
Hypothesis Hi : 0 <= i < nGridpoints g.
Hypothesis Hc : index2coordinate g i = Ok c.

Lemma head_off : ~ In (cy c) (removelast itf) -> inter_head g i = Ok (c, None).
Proof.
  intros Hoff. unfold inter_head. rewrite Hc. cbn [bind].
  destruct (lay_point g itf L i c Hi Hc) as (Px&Py&Pz&E).
  destruct (lay_onif g itf L (cy c) ltac:(lia)) as (b&Eb&Hb). destruct b; [exfalso; apply Hoff, Hb; reflexivity|].
  (* the point lies in a layer *)
  assert (HL : exists j l, nth_error (layers g) j = Some l /\ lstart l <= cy c <= lend l).
  { destruct (classic_layer g (cy c)) as [H|H]; [exact H|]. rewrite (lay_gap g itf L c) in E; [discriminate|auto|exact H]. }
  destruct HL as (j&l&Hj&Hy). rewrite (lay_getLayer g itf L j l _ Hj Hy Hoff). cbn [bind]. rewrite (vget_nat _ _ _ Hj). cbn [bind].
  rewrite Eb. reflexivity.
Qed.

Section On.
Variables (k : nat) (la lb : layer).
Hypothesis Hk : nth_error itf k = Some (cy c).
Hypothesis Hu : forall k', nth_error itf k' = Some (cy c) -> k' = k.
Hypothesis Ha : nth_error (layers g) k = Some la.
Hypothesis Hb : nth_error (layers g) (S k) = Some lb.
Let da := ldh la.
Let db := ldh lb.
Let s := Z.max da db.
Let d := Z.min da db.

Lemma head_on : inter_head g i = Ok (c, Some (s, d)).
Proof.
  unfold inter_head. rewrite Hc. cbn [bind]. rewrite (iface_layer g itf L k (cy c) la lb Hk Hu Ha Hb). cbn [bind].
  destruct (iface_trans g itf L k (cy c) la lb Hk Hu Ha Hb) as (T1&T2&_).
  destruct (on_coarser_ g k la lb Ha Hb) as (lr&Hlr&Es). rewrite (vget_nat _ _ _ Hlr). cbn [bind]. rewrite T1. cbn [bind negb]. rewrite T2. cbn [bind].
  rewrite Es. fold da db s.
  assert (E : (if Z.sgn (db - da) =? 1 then l' <- vget (layers g) (Z.of_nat (if da <? db then S k else k) - 1) ;; Ok (ldh l')
        else if Z.sgn (db - da) =? -1 then l' <- vget (layers g) (Z.of_nat (if da <? db then S k else k) + 1) ;; Ok (ldh l') else Ok s) = Ok d).
  { unfold s, d. destruct (Z.ltb_spec da db).
    - rewrite (proj2 (Z.sgn_pos_iff (db - da))) by lia. change (1 =? 1) with true. cbv iota. replace (Z.of_nat (S k) - 1) with (Z.of_nat k) by lia.
      rewrite (vget_nat _ _ _ Ha). cbn [bind]. f_equal. fold da. lia.
    - destruct (Z.ltb_spec db da).
      + rewrite (proj2 (Z.sgn_neg_iff (db - da))) by lia. change (- (1)) with (-1). change (-1 =? 1) with false. change (-1 =? -1) with true. cbv iota.
        replace (Z.of_nat k + 1) with (Z.of_nat (S k)) by lia. rewrite (vget_nat _ _ _ Hb). cbn [bind]. f_equal. fold db. lia.
      + replace (db - da) with 0 by lia. change (Z.sgn 0 =? 1) with false. change (Z.sgn 0 =? -1) with false. cbv iota. f_equal. lia. }
  rewrite E. reflexivity.
Qed.

(** where the row is stored *)
Lemma on_store : exists l, In l (layers g) /\ lstart l <= cy c <= lend l /\ ldh l = d /\ (d | cx c) /\ (d | cz c) /\ (d | cy c - lstart l).
Proof.
  destruct (iface_store g itf L k (cy c) la lb Hk Ha Hb) as (j&l&Hj&Hy&Hd). exists l. pose proof (nth_error_In _ _ Hj) as Hin.
  destruct (point_div g itf L i c l Hi Hc Hin Hy) as (A&B&C). fold da db d in Hd. rewrite Hd in *. auto 10.
Qed.
Lemma d_pos : 1 <= d /\ 1 <= s.
Proof.
  pose proof (layer_pos g itf L la (nth_error_In _ _ Ha)). pose proof (layer_pos g itf L lb (nth_error_In _ _ Hb)). unfold d, s, da, db. lia.
Qed.
Lemma s_edge : edge (gNX g) s /\ (gNZ g = 1 \/ edge (gNZ g) s).
Proof.
  destruct (on_coarser_ g k la lb Ha Hb) as (lr&Hlr&Es). fold da db s in Es. rewrite <- Es. apply Hed. eapply nth_error_In; eauto.
Qed.

Let col kk X Z := 0 <= kk < nGridpoints g /\ index2coordinate g kk = Ok (mkC X (cy c) Z).
Let W a b : Q := (inject_Z a * inject_Z b * (1 / inject_Z (s * s)))%Q.

Lemma W_hat x z X Z a b : 1 <= s -> Z.max 0 (s - Z.abs (x - X)) = a -> Z.max 0 (s - Z.abs (z - Z)) = b -> (W a b == hat s (x - X) * hat s (z - Z))%Q.
Proof.
  intros H1 <- <-. unfold W, hat. rewrite inject_Z_mult. field. intros E. unfold Qeq in E. cbn in E. lia.
Qed.

Lemma full_on : (s = 3 * d \/ s = d) -> exists row, calcInterpolationFull g i = Ok row /\ bilinear_row s (cx c) (cz c) (gNX g) (gNZ g) col row.
Proof.
  intros Hs. destruct d_pos as (Hd1&Hs1). destruct s_edge as (EX&EZ). destruct on_store as (l&Hin&Hy&Hld&DX&DZ&DY).
  destruct (lay_point g itf L i c Hi Hc) as (Px&Py&Pz&_).
  destruct (axis_full (gNX g) s d (cx c) (or_intror EX) Hs Hd1 Px DX) as (X1&X2&X3&X4&X5).
  destruct (axis_full (gNZ g) s d (cz c) EZ Hs Hd1 Pz DZ) as (Z1&Z2&Z3&Z4&Z5).
  assert (Dds : (d | s)) by (destruct Hs as [->| ->]; [exists 3; ring|exists 1; ring]).
  unfold calcInterpolationFull. rewrite head_on. cbn [bind]. unfold crem. replace (s =? 0) with false by lia. cbn [bind].
  rewrite !Z.rem_mod_nonneg by lia. set (mx := cx c mod s) in *. set (mz := cz c mod s) in *.
  set (tx := cx c + 2 * d <? gNX g). set (tz := cz c + 2 * d <? gNZ g).
  destruct (points_ok g itf L c l s Hin Hy ltac:(rewrite Hld; exact DY) mx mz tx tz) as (k11&k12&k21&k22&E&C1&C2&C3&C4);
    try (rewrite Hld); auto; try lia; try (eapply Z.divide_trans; eauto); try (unfold tx; lia); try (unfold tz; lia).
  eexists. split; [exact E|]. clear E. fold (W (s - mx) (s - mz)) (W mx (s - mz)) (W (s - mx) mz) (W mx mz).
  set (X0 := cx c - mx) in *. set (Z0 := cz c - mz) in *.
  assert (Hx4 : tx = true -> X0 + s < gNX g) by (unfold tx; lia). assert (Hz4 : tz = true -> Z0 + s < gNZ g) by (unfold tz; lia).
  assert (Hx5 : tx = false -> mx = 0 \/ gNX g <= X0 + s) by (unfold tx; lia). assert (Hz5 : tz = false -> mz = 0 \/ gNZ g <= Z0 + s) by (unfold tz; lia).
  assert (inj : forall k1 k2 A B A' B', col k1 A B -> col k2 A' B' -> A <> A' \/ B <> B' -> k1 <> k2).
  { unfold col. intros k1 k2 A B A' B' (_&H1) (_&H2) Hn ->. rewrite H1 in H2. injection H2 as -> ->. lia. }
  assert (w00 : (W (s - mx) (s - mz) == hat s (cx c - X0) * hat s (cz c - Z0))%Q) by (apply W_hat; [exact Hs1|now (apply hat_near || apply hat_far)|now (apply hat_near || apply hat_far)]).
  assert (w10 : (W mx (s - mz) == hat s (cx c - (X0 + s)) * hat s (cz c - Z0))%Q) by (apply W_hat; [exact Hs1|now (apply hat_near || apply hat_far)|now (apply hat_near || apply hat_far)]).
  assert (w01 : (W (s - mx) mz == hat s (cx c - X0) * hat s (cz c - (Z0 + s)))%Q) by (apply W_hat; [exact Hs1|now (apply hat_near || apply hat_far)|now (apply hat_near || apply hat_far)]).
  assert (w11 : (W mx mz == hat s (cx c - (X0 + s)) * hat s (cz c - (Z0 + s)))%Q) by (apply W_hat; [exact Hs1|now (apply hat_near || apply hat_far)|now (apply hat_near || apply hat_far)]).
  assert (X3s : (s | X0 + s)) by (apply Z.divide_add_r; [exact X3|exists 1; ring]). assert (Z3s : (s | Z0 + s)) by (apply Z.divide_add_r; [exact Z3|exists 1; ring]).
  assert (EX0 : X0 = cx c - mx) by reflexivity. assert (EZ0 : Z0 = cz c - mz) by reflexivity.
  clear X4 X5 Z4 Z5. clearbody tx tz X0 Z0 mx mz. clear Hs Hd1 Px Pz Py Hy DX DZ DY.
  split; [|split].
  - apply nodup4.
    + intros T. apply (inj _ _ _ _ _ _ C1 (C2 T)). left. lia.
    + intros T. apply (inj _ _ _ _ _ _ C1 (C3 T)). right. lia.
    + intros T T'. assert (T'' : tx && tz = true) by (now rewrite T, T'). split; [|split; [|split]].
      * apply (inj _ _ _ _ _ _ C1 (C4 T'')). left. lia.
      * apply (inj _ _ _ _ _ _ (C2 T) (C3 T')). left. lia.
      * apply (inj _ _ _ _ _ _ (C2 T) (C4 T'')). right. lia.
      * apply (inj _ _ _ _ _ _ (C3 T') (C4 T'')). left. lia.
  - assert (pair_eq : forall (a b : Z) (u v : Q), (a, u) = (b, v) -> a = b /\ u = v) by (intros a b u v H; split; congruence).
    intros kk v H. rewrite !in_app_iff in H. destruct H as [H|[H|[H|H]]].
    + destruct H as [H|[]]. apply pair_eq in H as (<-&<-). exists X0, Z0. split; [exact C1|]. auto 10.
    + destruct tx; [|destruct H]. destruct H as [H|[]]. apply pair_eq in H as (<-&<-). exists (X0 + s), Z0. specialize (Hx4 eq_refl). split; [exact (C2 eq_refl)|]. split; [lia|]. auto 10.
    + destruct tz; [|destruct H]. destruct H as [H|[]]. apply pair_eq in H as (<-&<-). exists X0, (Z0 + s). specialize (Hz4 eq_refl). split; [exact (C3 eq_refl)|]. split; [lia|]. split; [lia|]. auto 10.
    + destruct tx, tz; cbn [andb] in *; try (destruct H; fail). destruct H as [H|[]]. apply pair_eq in H as (<-&<-). exists (X0 + s), (Z0 + s). specialize (Hz4 eq_refl). specialize (Hx4 eq_refl). split; [exact (C4 eq_refl)|]. split; [lia|]. split; [lia|]. auto 10.
  - intros X Z HX HZ DX' DZ' AX' AZ'.
    assert (CX : X = X0 \/ (X = X0 + s /\ mx <> 0)) by (apply (near_mult s); auto; rewrite EX0; replace (cx c - mx + mx - X) with (cx c - X) by ring; exact AX').
    assert (CZ : Z = Z0 \/ (Z = Z0 + s /\ mz <> 0)) by (apply (near_mult s); auto; rewrite EZ0; replace (cz c - mz + mz - Z) with (cz c - Z) by ring; exact AZ').
    assert (TX : X = X0 + s -> mx <> 0 -> tx = true) by (intros -> Hm; destruct tx; [reflexivity|]; specialize (Hx5 eq_refl); lia).
    assert (TZ : Z = Z0 + s -> mz <> 0 -> tz = true) by (intros -> Hm; destruct tz; [reflexivity|]; specialize (Hz5 eq_refl); lia).
    destruct CX as [->|(->&HmX)], CZ as [->|(->&HmZ)].
    + exists k11, (W (s - mx) (s - mz)). split; [now left|exact C1].
    + specialize (TZ eq_refl HmZ). exists k21, (W (s - mx) mz). split; [|exact (C3 TZ)]. rewrite !in_app_iff, TZ. simpl. auto.
    + specialize (TX eq_refl HmX). exists k12, (W mx (s - mz)). split; [|exact (C2 TX)]. rewrite !in_app_iff, TX. simpl. auto.
    + specialize (TX eq_refl HmX). specialize (TZ eq_refl HmZ). exists k22, (W mx mz). rewrite TX, TZ in *. split; [|exact (C4 eq_refl)]. rewrite !in_app_iff. simpl. auto.
Qed.

(** bilinear fields are reproduced where coarse points lie on both sides *)
Lemma full_reproduces : (s = 3 * d \/ s = d) -> (exists X, (s | X) /\ cx c <= X < gNX g) -> (exists Z, (s | Z) /\ cz c <= Z < gNZ g) ->
  exists row, calcInterpolationFull g i = Ok row /\ reproduces (fun X => (s | X)) (fun Z => (s | Z)) (cx c) (cz c) col row.
Proof.
  intros Hs HX HZ. destruct d_pos as (Hd1&Hs1). destruct s_edge as (EX&EZ). destruct on_store as (l&Hin&Hy&Hld&DX&DZ&DY).
  destruct (lay_point g itf L i c Hi Hc) as (Px&Py&Pz&_).
  destruct (axis_full (gNX g) s d (cx c) (or_intror EX) Hs Hd1 Px DX) as (X1&X2&X3&X4&X5).
  destruct (axis_full (gNZ g) s d (cz c) EZ Hs Hd1 Pz DZ) as (Z1&Z2&Z3&Z4&Z5).
  assert (Dds : (d | s)) by (destruct Hs as [->| ->]; [exists 3; ring|exists 1; ring]).
  unfold calcInterpolationFull. rewrite head_on. cbn [bind]. unfold crem. replace (s =? 0) with false by lia. cbn [bind].
  rewrite !Z.rem_mod_nonneg by lia. set (mx := cx c mod s) in *. set (mz := cz c mod s) in *.
  set (tx := cx c + 2 * d <? gNX g). set (tz := cz c + 2 * d <? gNZ g).
  destruct (points_ok g itf L c l s Hin Hy ltac:(rewrite Hld; exact DY) mx mz tx tz) as (k11&k12&k21&k22&E&C1&C2&C3&C4);
    try (rewrite Hld); auto; try lia; try (eapply Z.divide_trans; eauto); try (unfold tx; lia); try (unfold tz; lia).
  assert (TX2 : tx = false -> mx = 0).
  { intros T. destruct (X5 ltac:(unfold tx in T; lia)) as [|A]; [assumption|]. destruct HX as (X&D1&B). exact (beyond s _ _ X X3 D1 X1 Hs1 (proj1 B) ltac:(lia)). }
  assert (TZ2 : tz = false -> mz = 0).
  { intros T. destruct (Z5 ltac:(unfold tz in T; lia)) as [|A]; [assumption|]. destruct HZ as (Z&D1&B). exact (beyond s _ _ Z Z3 D1 Z1 Hs1 (proj1 B) ltac:(lia)). }
  assert (P3 : (s | cx c - mx + s)) by (apply Z.divide_add_r; [exact X3|exists 1; ring]). assert (P4 : (s | cz c - mz + s)) by (apply Z.divide_add_r; [exact Z3|exists 1; ring]).
  eexists. split; [exact E|]. apply (product_reproduces s); auto.
Qed.

(** the three staggered interpolations between cells of widths 1 and 3 *)
Let stag1 X := exists n, X = 3 * n + 1.
Let coarse X := (3 | X).
Let inside N x := exists X, (3 | X) /\ x <= X < N.

Lemma inside_full N x : (N = 1 \/ edge N 3) -> 0 <= x < N -> inside N x -> N <= x + 2 * 1 -> x mod 3 = 0.
Proof.
  intros HN Hx (X&DX&HX) H. destruct (axis_full N 3 1 x HN (or_introl eq_refl) ltac:(lia) Hx (Z.divide_1_l _)) as (B&_&D&_&A).
  destruct (A H) as [|A']; [assumption|]. destruct D as (q&Hq). destruct DX as (q'&Hq'). lia.
Qed.

Lemma stag_common : s = 3 -> d = 1 -> exists l, In l (layers g) /\ lstart l <= cy c <= lend l /\ ldh l = 1 /\ (1 | cy c - lstart l) /\
  edge (gNX g) 3 /\ (gNZ g = 1 \/ edge (gNZ g) 3) /\ 0 <= cx c < gNX g /\ 0 <= cz c < gNZ g /\ inter_head g i = Ok (c, Some (3, 1)).
Proof.
  intros Es Ed. destruct s_edge as (EX&EZ). destruct on_store as (l&Hin&Hy&Hld&DX&DZ&DY).
  destruct (lay_point g itf L i c Hi Hc) as (Px&Py&Pz&_). pose proof head_on as H. rewrite Es, Ed in *. exists l. auto 15.
Qed.

Lemma stagX_on : s = 3 -> d = 1 -> 5 <= gNX g -> inside (gNZ g) (cz c) ->
  exists row, calcInterpolationStaggeredX g i = Ok row /\ reproduces stag1 coarse (cx c) (cz c) col row.
Proof.
  intros Es Ed HN HZ. destruct (stag_common Es Ed) as (l&Hin&Hy&Hld&DY&EX&EZ&Px&Pz&H).
  destruct (axis_stag (gNX g) (cx c) EX HN Px) as (X1&X2&X3&X4&X5).
  destruct (axis_full (gNZ g) 3 1 (cz c) EZ (or_introl eq_refl) ltac:(lia) Pz (Z.divide_1_l _)) as (Z1&Z2&Z3&Z4&_).
  pose proof (inside_full (gNZ g) (cz c) EZ Pz HZ) as Z5.
  unfold calcInterpolationStaggeredX. rewrite H. cbn [bind]. unfold crem. change (3 =? 0) with false. cbn [bind]. change (Z.quot 3 2) with 1.
  rewrite (Z.rem_mod_nonneg (cz c)) by lia. set (mx := Z.rem (cx c - 1) 3) in *. set (mz := cz c mod 3) in *. clearbody mx mz.
  replace (cx c >=? mx) with true by lia. cbn [andb].
  set (tx := cx c + 1 * 1 <? gNX g). set (tz := cz c + 2 * 1 <? gNZ g).
  assert (TX1 : tx = true -> cx c - mx + 3 < gNX g) by (unfold tx; lia). assert (TZ1 : tz = true -> cz c - mz + 3 < gNZ g) by (unfold tz; lia).
  assert (TX2 : tx = false -> mx = 0) by (unfold tx; lia). assert (TZ2 : tz = false -> mz = 0) by (unfold tz; lia). clearbody tx tz.
  destruct (points_ok g itf L c l 3 Hin Hy ltac:(rewrite Hld; exact DY) mx mz tx tz) as (k11&k12&k21&k22&E&C1&C2&C3&C4);
    try (rewrite Hld); auto using Z.divide_1_l; try lia.
  destruct X3 as (n&Hn). destruct Z3 as (nz&Hnz).
  assert (P1 : stag1 (cx c - mx)) by (exists n; exact Hn). assert (P2 : coarse (cz c - mz)) by (exists nz; exact Hnz).
  assert (P3 : stag1 (cx c - mx + 3)) by (exists (n + 1); lia). assert (P4 : coarse (cz c - mz + 3)) by (exists (nz + 1); lia).
  eexists. split; [exact E|]. apply (product_reproduces 3); auto. lia.
Qed.

Lemma stagZ_on : s = 3 -> d = 1 -> 5 <= gNZ g -> inside (gNX g) (cx c) ->
  exists row, calcInterpolationStaggeredZ g i = Ok row /\ reproduces coarse stag1 (cx c) (cz c) col row.
Proof.
  intros Es Ed HN HX. destruct (stag_common Es Ed) as (l&Hin&Hy&Hld&DY&EX&EZ&Px&Pz&H).
  assert (EZ' : edge (gNZ g) 3) by (destruct EZ; [lia|assumption]).
  destruct (axis_stag (gNZ g) (cz c) EZ' HN Pz) as (Z1&Z2&Z3&Z4&Z5).
  destruct (axis_full (gNX g) 3 1 (cx c) (or_intror EX) (or_introl eq_refl) ltac:(lia) Px (Z.divide_1_l _)) as (X1&X2&X3&X4&_).
  pose proof (inside_full (gNX g) (cx c) (or_intror EX) Px HX) as X5.
  unfold calcInterpolationStaggeredZ. rewrite H. cbn [bind]. unfold crem. change (3 =? 0) with false. cbn [bind]. change (Z.quot 3 2) with 1.
  rewrite (Z.rem_mod_nonneg (cx c)) by lia. set (mz := Z.rem (cz c - 1) 3) in *. set (mx := cx c mod 3) in *. clearbody mx mz.
  replace (cz c >=? mz) with true by lia. replace (cx c >=? mx) with true by lia. cbn [andb].
  set (tx := cx c + 2 * 1 <? gNX g). set (tz := cz c + 1 * 1 <? gNZ g).
  assert (TX1 : tx = true -> cx c - mx + 3 < gNX g) by (unfold tx; lia). assert (TZ1 : tz = true -> cz c - mz + 3 < gNZ g) by (unfold tz; lia).
  assert (TX2 : tx = false -> mx = 0) by (unfold tx; lia). assert (TZ2 : tz = false -> mz = 0) by (unfold tz; lia). clearbody tx tz.
  destruct (points_ok g itf L c l 3 Hin Hy ltac:(rewrite Hld; exact DY) mx mz tx tz) as (k11&k12&k21&k22&E&C1&C2&C3&C4);
    try (rewrite Hld); auto using Z.divide_1_l; try lia.
  destruct X3 as (n&Hn). destruct Z3 as (nz&Hnz).
  assert (P1 : coarse (cx c - mx)) by (exists n; exact Hn). assert (P2 : stag1 (cz c - mz)) by (exists nz; exact Hnz).
  assert (P3 : coarse (cx c - mx + 3)) by (exists (n + 1); lia). assert (P4 : stag1 (cz c - mz + 3)) by (exists (nz + 1); lia).
  eexists. split; [exact E|]. apply (product_reproduces 3); auto. lia.
Qed.

Lemma stagXZ_on : s = 3 -> d = 1 -> 5 <= gNX g -> 5 <= gNZ g ->
  exists row, calcInterpolationStaggeredXZ g i = Ok row /\ reproduces stag1 stag1 (cx c) (cz c) col row.
Proof.
  intros Es Ed HN HN'. destruct (stag_common Es Ed) as (l&Hin&Hy&Hld&DY&EX&EZ&Px&Pz&H).
  assert (EZ' : edge (gNZ g) 3) by (destruct EZ; [lia|assumption]).
  destruct (axis_stag (gNX g) (cx c) EX HN Px) as (X1&X2&X3&X4&X5).
  destruct (axis_stag (gNZ g) (cz c) EZ' HN' Pz) as (Z1&Z2&Z3&Z4&Z5).
  unfold calcInterpolationStaggeredXZ. rewrite H. cbn [bind]. unfold crem. change (3 =? 0) with false. cbn [bind]. change (Z.quot 3 2) with 1.
  set (mz := Z.rem (cz c - 1) 3) in *. set (mx := Z.rem (cx c - 1) 3) in *. clearbody mx mz.
  replace (cz c >=? mz) with true by lia. replace (cx c >=? mx) with true by lia. cbn [andb].
  set (tx := cx c + 1 * 1 <? gNX g). set (tz := cz c + 1 * 1 <? gNZ g).
  assert (TX1 : tx = true -> cx c - mx + 3 < gNX g) by (unfold tx; lia). assert (TZ1 : tz = true -> cz c - mz + 3 < gNZ g) by (unfold tz; lia).
  assert (TX2 : tx = false -> mx = 0) by (unfold tx; lia). assert (TZ2 : tz = false -> mz = 0) by (unfold tz; lia). clearbody tx tz.
  destruct (points_ok g itf L c l 3 Hin Hy ltac:(rewrite Hld; exact DY) mx mz tx tz) as (k11&k12&k21&k22&E&C1&C2&C3&C4);
    try (rewrite Hld); auto using Z.divide_1_l; try lia.
  destruct X3 as (n&Hn). destruct Z3 as (nz&Hnz).
  assert (P1 : stag1 (cx c - mx)) by (exists n; exact Hn). assert (P2 : stag1 (cz c - mz)) by (exists nz; exact Hnz).
  assert (P3 : stag1 (cx c - mx + 3)) by (exists (n + 1); lia). assert (P4 : stag1 (cz c - mz + 3)) by (exists (nz + 1); lia).
  eexists. split; [exact E|]. apply (product_reproduces 3); auto. lia.
Qed.
End On.
End Rows.

(** ** Coarse points keep their values *)
Lemma hat_zero s x X : 1 <= s -> (s | x) -> (s | X) -> X <> x -> (hat s (x - X) == 0)%Q.
Proof.
  intros Hs (a&Ha) (b&Hb) Hn. unfold hat. assert (Z.max 0 (s - Z.abs (x - X)) = 0) as ->; [|change (inject_Z 0) with 0%Q; field; unfold Qeq; cbn; lia].
  assert (s <= Z.abs (x - X)); [|lia]. subst x X. assert (a <> b) by (intros ->; lia).
  replace (a * s - b * s) with ((a - b) * s) by ring. rewrite Z.abs_mul, (Z.abs_eq s) by lia.
  assert (1 <= Z.abs (a - b)) by lia. clear -Hs H0. nia.
Qed.
Lemma hat_one s : 1 <= s -> (hat s 0 == 1)%Q.
Proof. intros Hs. unfold hat. replace (Z.max 0 (s - Z.abs 0)) with s by lia. field. unfold Qeq; cbn; lia. Qed.

Lemma single_term (row : list (Z * Q)) i v f : NoDup (map fst row) -> In (i, v) row ->
  (forall k w, In (k, w) row -> k <> i -> (w == 0)%Q) -> (apply_row row f == v * f i)%Q.
Proof.
  unfold apply_row. induction row as [|(k, w) row IH]; [intros _ []|]. cbn [map fst snd]. intros Hn Hi Hz. inversion_clear Hn as [|? ? Hk Hn'].
  assert (Z0 : forall (r : list (Z * Q)), (forall k w, In (k, w) r -> (w == 0)%Q) -> (qsum (map (fun e => snd e * f (fst e)) r) == 0)%Q).
  { induction r as [|(a, b) r IHr]; intros H; [reflexivity|]. cbn. rewrite (H a b) by now left. unfold qsum in *. rewrite IHr by (intros; eapply H; right; eauto). ring. }
  destruct Hi as [Hi|Hi].
  - assert (k = i /\ w = v) as (->&->) by (split; congruence). cbn [qsum fold_right]. fold (qsum (map (fun e => (snd e * f (fst e))%Q) row)).
    rewrite Z0; [ring|]. intros k' w' H. apply (Hz k' w'); [now right|]. intros ->. apply Hk, in_map_iff. exists (i, w'). auto.
  - cbn [qsum fold_right]. fold (qsum (map (fun e => (snd e * f (fst e))%Q) row)). rewrite IH by (auto; intros; eapply Hz; eauto; now right).
    rewrite (Hz k w); [ring|now left|]. intros ->. apply Hk, in_map_iff. exists (i, v). auto.
Qed.

Lemma keep s x z NX NZ (col : Z -> Z -> Z -> Prop) row i f : 1 <= s -> bilinear_row s x z NX NZ col row ->
  (forall k, col k x z -> k = i) -> (forall X Z, col i X Z -> X = x /\ Z = z) -> (s | x) -> (s | z) -> 0 <= x < NX -> 0 <= z < NZ -> (apply_row row f == f i)%Q.
Proof.
  intros Hs (Nd&H1&H2) Hi Hf Dx Dz Rx Rz. destruct (H2 x z Rx Rz Dx Dz ltac:(lia) ltac:(lia)) as (k&v&Hin&Hk). apply Hi in Hk. subst k.
  destruct (H1 _ _ Hin) as (X&Z&C&RX&RZ&DX&DZ&V). destruct (Hf _ _ C) as (->&->).
  assert (OZ : forall k w, In (k, w) row -> k <> i -> (w == 0)%Q).
  { intros k w Hkw Hne. destruct (H1 _ _ Hkw) as (X'&Z'&C'&_&_&DX'&DZ'&V'). rewrite V'.
    destruct (Z.eq_dec X' x) as [->|Hx]; [|rewrite (hat_zero s x X') by auto; ring].
    destruct (Z.eq_dec Z' z) as [->|Hz]; [|rewrite (hat_zero s z Z') by auto; ring]. exfalso. auto. }
  rewrite (single_term row i v f Nd Hin OZ), V, !Z.sub_diag, hat_one by auto. ring.
Qed.

Lemma apply_row_ext (row : list (Z * Q)) f f' : (forall k v, In (k, v) row -> (f k == f' k)%Q) -> (apply_row row f == apply_row row f')%Q.
Proof.
  unfold apply_row. induction row as [|(k, v) row IH]; intros H; [reflexivity|]. cbn. rewrite (H k v) by now left.
  unfold qsum in IH. rewrite IH by (intros; eapply H; right; eauto). reflexivity.
Qed.

Lemma keep_on g itf (L : layered g itf) : (forall l, In l (layers g) -> edge (gNX g) (ldh l) /\ (gNZ g = 1 \/ edge (gNZ g) (ldh l))) ->
  forall i c k la lb, 0 <= i < nGridpoints g -> index2coordinate g i = Ok c ->
  nth_error itf k = Some (cy c) -> (forall k', nth_error itf k' = Some (cy c) -> k' = k) ->
  nth_error (layers g) k = Some la -> nth_error (layers g) (S k) = Some lb ->
  let d := Z.min (ldh la) (ldh lb) in let s := Z.max (ldh la) (ldh lb) in
  (s = 3 * d \/ s = d) -> (s | cx c) -> (s | cz c) ->
  exists row, calcInterpolationFull g i = Ok row /\ forall f, (apply_row row f == f i)%Q.
Proof.
  intros Hed i c k la lb Hi Hc Hk Hu Ha Hb d s Hs Dx Dz.
  destruct (full_on g itf L Hed i c Hi Hc k la lb Hk Hu Ha Hb Hs) as (row&E1&B). exists row. split; [exact E1|]. intros f.
  destruct (lay_point g itf L i c Hi Hc) as (Px&Py&Pz&Ei).
  assert (Hs1 : 1 <= s). { pose proof (layer_pos g itf L la (nth_error_In _ _ Ha)). unfold s. lia. }
  apply (keep _ _ _ _ _ _ _ _ _ Hs1 B); auto.
  - intros kk (R&C). destruct (lay_point g itf L kk _ R C) as (_&_&_&Ek). replace (mkC (cx c) (cy c) (cz c)) with c in Ek by (now destruct c). congruence.
  - intros X Z (R&C). rewrite Hc in C. destruct c. injection C as -> ->. auto.
Qed.

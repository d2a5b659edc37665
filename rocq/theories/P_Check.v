(** Parameter checks: C48, C49, C59, C76, C77, C78. *)
From Coq Require Import Reals Qreals Lra Ascii String.
From Verif Require Import Base M_Grid S_Grid L_Grid L_GridP P_Grid M_Deriv S_Deriv M_Acq L_AcqFile M_Conf S_Conf L_Conf M_Check S_Check L_Check.
Open Scope Z_scope.
Local Notation length := List.length.

(** ** C48 *)
Lemma fd_h_2 : fd_h 2 = 1%R.
Proof. unfold fd_h. rewrite (Qeq_eqR _ 1); [unfold Q2R; cbn; lra|]. reflexivity. Qed.
Lemma fd_h_gt p : is_order p -> p <> 2 -> (1 < fd_h p)%R.
Proof.
  intros H N. replace 1%R with (Q2R 1) by (unfold Q2R; cbn; lra). apply Qlt_Rlt.
  unfold is_order in H. cbn in H. destruct H as [<-|[<-|[<-|[<-|[<-|[<-|[]]]]]]]; [congruence| | | | |]; reflexivity.
Qed.
(** The fractions written in the code are these sums (up to the rounding of the coefficients of orders 10 and 12,
    which are decimal literals); it is the integer division that loses them. *)
Theorem C48_intended_h : fd_h 2 = 1%R /\ fd_h 4 = (7 / 6)%R /\ fd_h 6 = (149 / 120)%R /\ fd_h 8 = (2161 / 1680)%R /\
  (Rabs (fd_h 10 - 53089 / 40320) <= 1 / 1000000000000)%R /\ (Rabs (fd_h 12 - 1187803 / 887040) <= 1 / 1000000000000)%R.
Proof.
  assert (K : forall p a b, (qsum (map Qabs (stencil p)) / 2 == a # b)%Q -> fd_h p = (IZR a / IZR (Zpos b))%R).
  { intros p a b E. unfold fd_h. rewrite (Qeq_eqR _ _ E). reflexivity. }
  assert (K2 : forall p a b, (qsum (map Qabs (stencil p)) / 2 - (a # b) <= 1 # 1000000000000)%Q -> (- (1 # 1000000000000) <= qsum (map Qabs (stencil p)) / 2 - (a # b))%Q ->
     (Rabs (fd_h p - IZR a / IZR (Zpos b)) <= 1 / 1000000000000)%R).
  { intros p a b U L. unfold fd_h. apply Qle_Rle in U, L. rewrite Q2R_opp in L. rewrite Q2R_minus in U, L.
    replace (Q2R (a # b)) with (IZR a / IZR (Zpos b))%R in U, L by reflexivity.
    replace (Q2R (1 # 1000000000000)) with (1 / 1000000000000)%R in U, L by reflexivity. apply Rabs_le. lra. }
  split; [exact fd_h_2|].
  split; [apply (K 4 7 6%positive); reflexivity|].
  split; [apply (K 6 149 120%positive); reflexivity|].
  split; [apply (K 8 2161 1680%positive); reflexivity|].
  split; [apply (K2 10 53089 40320%positive)|apply (K2 12 1187803 887040%positive)]; vm_compute; discriminate.
Qed.
Print Assumptions C48_intended_h.

Theorem C48_order2_partial : forall dt DH vmax dimension D, has_dim dimension D -> (0 < DH)%R -> (0 < vmax)%R ->
  (checkStabilityCriterion 0 dt DH vmax dimension 2 = Ok tt <-> (dt <= cfl_limit 2 D DH vmax)%R).
Proof.
  intros dt DH v dim D HD HH Hv. destruct (stability_exact dt DH v dim D 2 HD) as [S _]; try lra; [left; reflexivity|].
  rewrite S. unfold cfl_limit. rewrite fd_h_2, Rmult_1_l. pose proof (dim_sqrt dim D HD) as HS.
  assert (P : (0 < sqrt (IZR D) * v)%R) by (apply Rmult_lt_0_compat; lra). split.
  - intros [E|L]; [lra|]. apply (Rmult_le_reg_r (sqrt (IZR D) * v)); [exact P|]. unfold Rdiv. rewrite Rmult_assoc, Rinv_l by lra. lra.
  - intros L. right. apply (Rmult_le_compat_r (sqrt (IZR D) * v)) in L; [|lra]. unfold Rdiv in L. rewrite Rmult_assoc, Rinv_l in L by lra. lra.
Qed.
Print Assumptions C48_order2_partial.

(** For every higher order some time step beyond the limit is accepted. *)
Theorem C48_cfl_refuted : forall p dimension D, is_order p -> p <> 2 -> has_dim dimension D ->
  exists dt DH vmax, (0 < dt /\ 0 < DH /\ 0 < vmax)%R /\
    checkStabilityCriterion 0 dt DH vmax dimension p = Ok tt /\ (cfl_limit p D DH vmax < dt)%R.
Proof.
  intros p dim D HP N HD. pose proof (dim_sqrt dim D HD) as HS. pose proof (fd_h_gt p HP N) as HG.
  exists 1%R, (sqrt (IZR D)), 1%R. split; [lra|]. split.
  - apply (proj1 (stability_exact 1 (sqrt (IZR D)) 1 dim D p HD HP HS ltac:(lra))). right. lra.
  - unfold cfl_limit. apply (Rmult_lt_reg_r (fd_h p * sqrt (IZR D) * 1)).
    + rewrite Rmult_1_r. apply Rmult_lt_0_compat; lra.
    + unfold Rdiv. rewrite Rmult_assoc, Rinv_l.
      * rewrite Rmult_1_r, Rmult_1_l, Rmult_1_r. apply (Rmult_lt_compat_r (sqrt (IZR D))) in HG; [|exact HS]. lra.
      * rewrite Rmult_1_r. apply Rmult_integral_contrapositive. lra.
Qed.
Print Assumptions C48_cfl_refuted.

(** ** C76: the exact criterion, the same for all orders; unknown orders and dimensions are rejected. *)
Theorem C76_criterion : forall dt DH vmax dimension p, (0 < DH)%R -> (0 <= vmax)%R ->
  (checkStabilityCriterion 0 dt DH vmax dimension p = Ok tt <->
    is_order p /\ exists D, has_dim dimension D /\ (dt * (sqrt (IZR D) * vmax) <= DH \/ vmax = 0)%R) /\
  (checkStabilityCriterion 0 dt DH vmax dimension p <> Ok tt -> checkStabilityCriterion 0 dt DH vmax dimension p = Throw).
Proof.
  intros dt DH v dim p HH Hv.
  assert (CD : (exists D, has_dim dim D) \/ cfl_dim dim = Throw).
  { unfold cfl_dim. destruct (str_eqb dim (txt "2D")) eqn:E2; [left; exists 2; left; split; [apply str_eqb_true, E2|reflexivity]|].
    destruct (str_eqb dim (txt "3D")) eqn:E3; [left; exists 3; right; split; [apply str_eqb_true, E3|reflexivity]|]. right; reflexivity. }
  assert (CP : {is_order p} + {~ is_order p}) by (apply (in_dec Z.eq_dec)).
  destruct CD as [(D & HD)|ED].
  - destruct CP as [HP|HP].
    + destruct (stability_exact dt DH v dim D p HD HP HH Hv) as [S1 S2]. split.
      * rewrite S1. split.
        -- intros H. split; [exact HP|]. exists D. split; [exact HD|tauto].
        -- intros (_ & D' & HD' & H). apply cfl_dim_ok in HD, HD'. rewrite HD in HD'. injection HD' as <-. tauto.
      * intros H. destruct S2; [contradiction|assumption].
    + assert (E : checkStabilityCriterion 0 dt DH v dim p = Throw).
      { unfold checkStabilityCriterion. cbn [Z.eqb]. rewrite (proj2 (cfl_dim_ok dim D) HD), (cfl_h_unknown p HP). reflexivity. }
      rewrite E. split; [|reflexivity]. split; [discriminate|tauto].
  - assert (E : checkStabilityCriterion 0 dt DH v dim p = Throw).
    { unfold checkStabilityCriterion. cbn [Z.eqb]. rewrite ED. reflexivity. }
    rewrite E. split; [|reflexivity]. split; [discriminate|]. intros (_ & D & HD & _). apply cfl_dim_ok in HD. congruence.
Qed.
Print Assumptions C76_criterion.
Example C76_ex : checkStabilityCriterion 0 (1/2) 1 1 (txt "3D") 8 = Ok tt /\ checkStabilityCriterion 0 1 1 1 (txt "3D") 8 = Throw.
Proof.
  assert (H3 : has_dim (txt "3D") 3) by (right; split; reflexivity).
  assert (S3 : (17 / 10 < sqrt 3 < 18 / 10)%R).
  { split; [rewrite <- (sqrt_square (17/10)) by lra|rewrite <- (sqrt_square (18/10)) by lra]; apply sqrt_lt_1; lra. }
  destruct (C76_criterion (1/2) 1 1 (txt "3D") 8 ltac:(lra) ltac:(lra)) as [A _].
  destruct (C76_criterion 1 1 1 (txt "3D") 8 ltac:(lra) ltac:(lra)) as [B B']. split.
  - apply A. split; [cbn; tauto|]. exists 3. split; [exact H3|]. left. change (IZR 3) with 3%R. lra.
  - apply B'. intros E. apply B in E. destruct E as (_ & D & HD & H).
    destruct HD as [[E _]|[_ ->]]; [discriminate|]. change (IZR 3) with 3%R in H. lra.
Qed.

(** ** C77: the check of a whole model. *)
Lemma compared_model eq vP vS vEM vhi vlo g rank dim dt DHs orders fcs procs : compared eq vP vS vEM vhi vlo ->
  checkArtefacts g rank eq dim dt DHs orders fcs vP vS vEM procs
  = (p <- all_extremes g (str_eqb eq (txt "elastic") || str_eqb eq (txt "viscoelastic")) vhi vlo procs ;;
     check_layers (zseq 0 (numLayers g)) rank dt DHs (fst p) (snd p) (fc_max fcs) dim orders)
  /\ (str_eqb eq (txt "elastic") || str_eqb eq (txt "viscoelastic") = true <-> elastic_type eq).
Proof.
  intros H. unfold checkArtefacts, elastic_type. split.
  - destruct H as [(I & -> & ->)|[(-> & EP & EP')|[(I & ES & ES')|(I & EE & EE')]]].
    + cbn in I. destruct I as [<-|[<-|[]]]; reflexivity.
    + rewrite EP in *. injection EP' as <-. reflexivity.
    + rewrite ES in *. injection ES' as <-. cbn in I. destruct I as [<-|[<-|[]]]; reflexivity.
    + rewrite EE in *. injection EE' as <-. cbn in I. destruct I as [<-|[<-|[<-|[<-|[]]]]]; reflexivity.
  - rewrite orb_true_iff, !str_eqb_true. cbn. intuition congruence.
Qed.

Lemma zseq_in_layers n k : In k (zseq 0 n) <-> 0 <= k < Z.of_nat n.
Proof.
  assert (G : forall s, In k (zseq s n) <-> s <= k < s + Z.of_nat n).
  { induction n as [|n IH]; intros s; cbn [zseq In]; [lia|]. rewrite IH. lia. }
  rewrite G. lia.
Qed.

Theorem C77_model_check : forall g equationType dimension D dt DHs orders fcs vP vS vEM vhi vlo procs,
  compared equationType vP vS vEM vhi vlo -> has_dim dimension D ->
  length orders = numLayers g -> Forall is_order orders -> (forall k, 0 <= k < Z.of_nat (numLayers g) -> (0 < DHs k)%R) ->
  (0 <= dt)%R ->
  (forall owned i, In owned procs -> In i owned -> exists k, at_layer g i k /\ 0 <= k < Z.of_nat (numLayers g)) ->
  ((exists ws, checkArtefacts g 0 equationType dimension dt DHs orders fcs vP vS vEM procs = Ok ws) <->
    forall owned i k, In owned procs -> In i owned -> at_layer g i k ->
      (dt * (sqrt (IZR D) * vhi i) <= DHs k)%R /\ (elastic_type equationType -> (sqrt 2 <= vhi i / vlo i)%R)).
Proof.
  intros g eq dim D dt DHs orders fcs vP vS vEM vhi vlo procs HC HD HLn HO HH Hdt HL.
  destruct (compared_model eq vP vS vEM vhi vlo g 0 dim dt DHs orders fcs procs HC) as [-> HR].
  set (ratio := str_eqb eq (txt "elastic") || str_eqb eq (txt "viscoelastic")) in *.
  pose proof (dim_sqrt dim D HD) as HS.
  assert (KP : forall vMax : Z -> R, (forall k, 0 <= vMax k)%R -> forall k, In k (zseq 0 (numLayers g)) ->
    0 <= k < Z.of_nat (length orders) /\ is_order (nth (Z.to_nat k) orders 0) /\ (0 < DHs k)%R /\ (0 <= vMax k)%R).
  { intros vMax HV k I. apply zseq_in_layers in I. split; [lia|]. split; [|split; [apply HH, I|apply HV]].
    rewrite Forall_forall in HO. apply HO. apply nth_In. lia. }
  split.
  - intros (ws & H). destruct (all_extremes g ratio vhi vlo procs) as [[a b]| | |] eqn:E; try discriminate. cbn [bind fst snd] in H.
    apply all_extremes_spec in E. destruct E as (A & B & R0).
    assert (A0 : forall k, (0 <= a k)%R) by (intros k; apply (proj1 (A k (a k))); lra).
    destruct (check_layers_exact (zseq 0 (numLayers g)) dt DHs a b (fc_max fcs) dim D orders HD (KP a A0)) as [C _].
    pose proof (proj1 C (ex_intro _ ws H)) as C'.
    intros owned i k IO II AL. split.
    + destruct (HL owned i IO II) as (k' & AL' & Hk).
      assert (k' = k) by (destruct AL as (c & E1 & E2), AL' as (c' & E1' & E2'); congruence). subst k'.
      specialize (C' k (proj2 (zseq_in_layers _ k) Hk)).
      destruct (proj1 (A k (a k))) as [_ U]; [lra|]. specialize (U owned IO i II AL).
      assert (dt * (sqrt (IZR D) * vhi i) <= dt * (sqrt (IZR D) * a k))%R.
      { apply Rmult_le_compat_l; [exact Hdt|]. apply Rmult_le_compat_l; lra. }
      destruct C' as [Z0|L]; [|lra]. rewrite Z0, Rmult_0_r, Rmult_0_r in H0. specialize (HH k Hk). lra.
    + intros ET. apply HR in ET. exact (R0 ET owned IO i II).
  - intros H.
    destruct (all_extremes_ok g ratio vhi vlo procs HL) as ([a b] & E).
    { intros RT owned IO i II. destruct (HL owned i IO II) as (k & AL & _). apply (H owned i k IO II AL). apply HR, RT. }
    rewrite E. cbn [bind fst snd]. apply all_extremes_spec in E. destruct E as (A & B & R0).
    assert (A0 : forall k, (0 <= a k)%R) by (intros k; apply (proj1 (A k (a k))); lra).
    destruct (check_layers_exact (zseq 0 (numLayers g)) dt DHs a b (fc_max fcs) dim D orders HD (KP a A0)) as [C _].
    apply C. intros k I. apply zseq_in_layers in I. specialize (HH k I).
    destruct (Req_EM_T dt 0) as [->|ND]; [right; rewrite Rmult_0_l; lra|]. right.
    assert (U : (a k <= DHs k / (dt * sqrt (IZR D)))%R).
    { assert (P : (0 < dt * sqrt (IZR D))%R) by (apply Rmult_lt_0_compat; lra). apply A. split.
      - apply Rlt_le. apply Rmult_lt_0_compat; [exact HH|]. apply Rinv_0_lt_compat, P.
      - intros owned IO i II AL. destruct (H owned i k IO II AL) as [L _].
        apply (Rmult_le_reg_r (dt * sqrt (IZR D))); [exact P|]. unfold Rdiv. rewrite Rmult_assoc, Rinv_l by lra. lra. }
    assert (P : (0 < dt * sqrt (IZR D))%R) by (apply Rmult_lt_0_compat; lra).
    apply (Rmult_le_compat_r (dt * sqrt (IZR D))) in U; [|lra]. unfold Rdiv in U. rewrite Rmult_assoc, Rinv_l in U by lra. lra.
Qed.
Print Assumptions C77_model_check.

(** The dispersion warning of a layer is printed exactly when the spacing is too large for some point with a
    positive velocity of the layer (or for the velocity of light). *)
Theorem C77_warnings : forall g equationType dimension dt DHs orders fcs vP vS vEM vhi vlo procs ws,
  compared equationType vP vS vEM vhi vlo ->
  checkArtefacts g 0 equationType dimension dt DHs orders fcs vP vS vEM procs = Ok ws ->
  length ws = numLayers g /\
  forall k w, nth_error ws k = Some w -> exists o N, nth_error orders k = Some o /\
    In (o, N) [(2,12); (4,8); (6,7); (8,6); (10,5); (12,4)] /\
    forall fc, In fc fcs -> (forall f, In f fcs -> f <= fc)%R -> (0 < fc)%R ->
    (w = true <-> (300000000 < DHs (Z.of_nat k) * (2 * fc * IZR N) \/
       exists owned i, In owned procs /\ In i owned /\ at_layer g i (Z.of_nat k) /\ 0 < vlo i /\ vlo i < DHs (Z.of_nat k) * (2 * fc * IZR N))%R).
Proof.
  intros g eq dim dt DHs orders fcs vP vS vEM vhi vlo procs ws HC H.
  rewrite (proj1 (compared_model eq vP vS vEM vhi vlo g 0 dim dt DHs orders fcs procs HC)) in H.
  destruct (all_extremes g _ vhi vlo procs) as [[a b]| | |] eqn:E; try discriminate. cbn [bind fst snd] in H.
  apply all_extremes_spec in E. destruct E as (A & B & R0).
  apply check_layers_warn in H.
  assert (LZ : forall s n, length (zseq s n) = n) by (intros s n; revert s; induction n; intros; cbn; [reflexivity|f_equal; apply IHn]).
  split.
  - rewrite <- (LZ 0 (numLayers g)). symmetry. clear - H. induction H; cbn; congruence.
  - intros k w Ew.
    assert (EK : exists kz, nth_error (zseq 0 (numLayers g)) k = Some kz /\ exists o N, vget orders kz = Ok o /\ disp_N o = Ok N /\
       w = negb (le_quot (DHs kz) (b kz) (2 * fc_max fcs * IZR N)%R)).
    { clear - H Ew. revert k Ew. induction H as [|x y l l' HP _ IH]; intros [|k] Ew; cbn in Ew; try discriminate.
      - injection Ew as <-. exists x. split; [reflexivity|exact HP].
      - exact (IH k Ew). }
    destruct EK as (kz & Ek & o & N & EO & EN & ->).
    assert (kz = Z.of_nat k).
    { clear - Ek. assert (G : forall n s k kz, nth_error (zseq s n) k = Some kz -> kz = s + Z.of_nat k).
      { induction n as [|n IH]; intros s [|j] z; cbn; try discriminate; [intros [= <-]; lia|]. intros X. apply IH in X. lia. }
      apply G in Ek. lia. }
    subst kz. exists o, N. split; [|split].
    + unfold vget in EO. replace (Z.of_nat k <? 0) with false in EO by lia. rewrite Nat2Z.id in EO.
      destruct (nth_error orders k); [congruence|discriminate].
    + revert EN. unfold disp_N.
      repeat match goal with |- context [o =? ?q] => destruct (Z.eqb_spec o q); [intros [= <-]; subst; cbn; tauto|] end. discriminate.
    + intros fc IF HM HP.
      assert (EF : fc_max fcs = fc).
      { apply Rle_antisym.
        - apply fc_max_spec. split; [lra|exact HM].
        - apply (proj1 (fc_max_spec fcs (fc_max fcs))); [lra|exact IF]. }
      rewrite EF. assert (NP : (0 < IZR N)%R).
      { apply IZR_lt. revert EN. unfold disp_N.
        repeat match goal with |- context [o =? ?q] => destruct (Z.eqb_spec o q); [intros [= <-]; lia|] end. discriminate. }
      assert (P : (0 < 2 * fc * IZR N)%R) by (apply Rmult_lt_0_compat; lra).
      set (x := (DHs (Z.of_nat k) * (2 * fc * IZR N))%R).
      assert (LE : le_quot (DHs (Z.of_nat k)) (b (Z.of_nat k)) (2 * fc * IZR N) = true <-> (x <= b (Z.of_nat k))%R) by (apply le_quot_pos, P).
      rewrite negb_true_iff. rewrite <- not_true_iff_false, LE, (B (Z.of_nat k) x). split.
      * intros NB. destruct (Rlt_dec 300000000 x) as [L|L]; [left; exact L|]. right.
        (* a finite search *)
        assert (DEC : forall l, (exists i, In i l /\ at_layer g i (Z.of_nat k) /\ (0 < vlo i)%R /\ (vlo i < x)%R) \/ bounded_lo g vlo l (Z.of_nat k) x).
        { induction l as [|i l IHl]; [right; intros i []|]. destruct IHl as [(j & I & J)|IHl]; [left; exists j; split; [right; exact I|exact J]|].
          assert (AD : at_layer g i (Z.of_nat k) \/ ~ at_layer g i (Z.of_nat k)).
          { unfold at_layer. destruct (index2coordinate g i) as [c| | |] eqn:EC; try (right; intros (c' & E1 & _); discriminate).
            destruct (getLayer g (cy c)) as [kk| | |] eqn:EL.
            - destruct (Z.eq_dec kk (Z.of_nat k)) as [->|NE]; [left; exists c; split; [reflexivity|exact EL]|].
              right. intros (c' & E1 & E2). injection E1 as <-. congruence.
            - right. intros (c' & E1 & E2). injection E1 as <-. congruence.
            - right. intros (c' & E1 & E2). injection E1 as <-. congruence.
            - right. intros (c' & E1 & E2). injection E1 as <-. congruence. }
          destruct AD as [AD|AD]; [|right; intros j [<-|I] J; [contradiction|exact (IHl j I J)]].
          destruct (Rlt_dec 0 (vlo i)) as [P0|P0]; [|right; intros j [<-|I] J K; [lra|exact (IHl j I J K)]].
          destruct (Rlt_dec (vlo i) x) as [P1|P1]; [left; exists i; split; [left; reflexivity|auto]|].
          right; intros j [<-|I] J K; [lra|exact (IHl j I J K)]. }
        assert (DEC2 : forall ps, (exists o i, In o ps /\ In i o /\ at_layer g i (Z.of_nat k) /\ (0 < vlo i)%R /\ (vlo i < x)%R) \/
                  forall o, In o ps -> bounded_lo g vlo o (Z.of_nat k) x).
        { induction ps as [|q ps IHp]; [right; intros o' []|]. destruct IHp as [(o' & i & I & J)|IHp]; [left; exists o', i; split; [right; exact I|exact J]|].
          destruct (DEC q) as [(i & I & J)|D']; [left; exists q, i; split; [left; reflexivity|split; [exact I|exact J]]|].
          right. intros o' [<-|I]; [exact D'|exact (IHp o' I)]. }
        destruct (DEC2 procs) as [X|X]; [exact X|]. exfalso. apply NB. split; [lra|exact X].
      * intros [L|(owned & i & I1 & I2 & I3 & I4 & I5)] [B1 B2]; [lra|].
        specialize (B2 owned I1 i I2 I3 I4). lra.
Qed.
Print Assumptions C77_warnings.

(** ** C78: the letter case of the equation type does matter to this check. *)
Definition g1 : grid := match mk_regular 1 1 1 with Ok g => g | _ => fresh 1 1 1 end.
Lemma g1_layer : at_layer g1 0 0.
Proof. exists (mkC 0 0 0). split; vm_compute; reflexivity. Qed.
Lemma g1_layers : numLayers g1 = 1%nat.
Proof. reflexivity. Qed.

Theorem C78_acoustic_case_refuted : exists a b, same_name a b /\ checkEquationType a = Ok true /\ checkEquationType b = Ok true /\
  exists g dim dt DHs orders fcs vP vEM procs ws,
    checkArtefacts g 0 a dim dt DHs orders fcs vP Throw vEM procs = Ok ws /\
    checkArtefacts g 0 b dim dt DHs orders fcs vP Throw vEM procs = Throw.
Proof.
  exists (txt "acoustic"), (txt "Acoustic"). split.
  { constructor; [apply (sl_down 0); lia|]. repeat constructor. }
  split; [reflexivity|]. split; [reflexivity|].
  exists g1, (txt "2D"), 0%R, (fun _ => 1%R), [2], [], (Ok (fun _ => 1%R)), Throw, [[0]].
  assert (K : exists ws, checkArtefacts g1 0 (txt "acoustic") (txt "2D") 0 (fun _ => 1%R) [2] [] (Ok (fun _ => 1%R)) Throw Throw [[0]] = Ok ws).
  { apply (C77_model_check g1 (txt "acoustic") (txt "2D") 2 0 (fun _ => 1%R) [2] [] (Ok (fun _ => 1%R)) Throw Throw (fun _ => 1%R) (fun _ => 1%R) [[0]]).
    - right; left. repeat split.
    - left; split; reflexivity.
    - reflexivity.
    - repeat constructor.
    - intros; lra.
    - lra.
    - intros owned i [<-|[]] [<-|[]]. exists 0. split; [exact g1_layer|rewrite g1_layers; lia].
    - intros owned i k _ _ _. split; [lra|]. intros [E|[E|[]]]; discriminate. }
  destruct K as (ws & K). exists ws. split; [exact K|]. reflexivity.
Qed.
Print Assumptions C78_acoustic_case_refuted.

(** With "Elastic" the ratio of the velocities is not checked. *)
Theorem C78_elastic_case_refuted : exists a b, same_name a b /\ checkEquationType a = Ok true /\ checkEquationType b = Ok true /\
  exists g dim dt DHs orders fcs vP vS vEM procs ws,
    checkArtefacts g 0 a dim dt DHs orders fcs (Ok vP) (Ok vS) vEM procs = Throw /\
    checkArtefacts g 0 b dim dt DHs orders fcs (Ok vP) (Ok vS) vEM procs = Ok ws.
Proof.
  exists (txt "elastic"), (txt "Elastic"). split.
  { constructor; [apply (sl_down 4); lia|]. repeat constructor. }
  split; [reflexivity|]. split; [reflexivity|].
  exists g1, (txt "2D"), 0%R, (fun _ => 1%R), [2], [], (fun _ => 1%R), (fun _ => 1%R), Throw, [[0]].
  assert (HL : forall i, In i [0] -> exists k, at_layer g1 i k /\ 0 <= k < Z.of_nat (numLayers g1)).
  { intros i [<-|[]]. exists 0. split; [exact g1_layer|rewrite g1_layers; lia]. }
  assert (NR : ~ ratio_ok (fun _ => 1%R) (fun _ => 1%R) [0]).
  { intros R. specialize (R 0 (or_introl eq_refl)). assert (1 < sqrt 2)%R.
    { rewrite <- sqrt_1 at 1. apply sqrt_lt_1; lra. } lra. }
  assert (X1 : checkArtefacts g1 0 (txt "elastic") (txt "2D") 0 (fun _ => 1%R) [2] [] (Ok (fun _ => 1%R)) (Ok (fun _ => 1%R)) Throw [[0]] = Throw).
  { rewrite (proj1 (compared_model (txt "elastic") (Ok (fun _ => 1%R)) (Ok (fun _ => 1%R)) Throw (fun _ => 1%R) (fun _ => 1%R) g1 0 (txt "2D") 0%R (fun _ => 1%R) [2] [] [[0]]
       ltac:(left; cbn; tauto))).
    change (str_eqb (txt "elastic") (txt "elastic") || str_eqb (txt "elastic") (txt "viscoelastic")) with true.
    cbn [all_extremes]. rewrite (extremes_throw g1 _ _ [0] _ _ HL NR). reflexivity. }
  assert (X2 : exists ws, checkArtefacts g1 0 (txt "Elastic") (txt "2D") 0 (fun _ => 1%R) [2] [] (Ok (fun _ => 1%R)) (Ok (fun _ => 1%R)) Throw [[0]] = Ok ws).
  { change (checkArtefacts g1 0 (txt "Elastic") (txt "2D") 0%R (fun _ => 1%R) [2] [] (Ok (fun _ => 1%R)) (Ok (fun _ => 1%R)) Throw [[0]])
      with (p <- all_extremes g1 false (fun _ => 1%R) (fun _ => 1%R) [[0]] ;;
            check_layers (zseq 0 (numLayers g1)) 0 0%R (fun _ => 1%R) (fst p) (snd p) (fc_max []) (txt "2D") [2]).
    destruct (all_extremes_ok g1 false (fun _ => 1%R) (fun _ => 1%R) [[0]]) as ([a b] & E).
    { intros owned i [<-|[]] I. exact (HL i I). }
    { discriminate. }
    rewrite E. cbn [bind fst snd]. apply all_extremes_spec in E. destruct E as (A & _).
    apply (check_layers_exact (zseq 0 (numLayers g1)) 0 (fun _ => 1%R) a b (fc_max []) (txt "2D") 2 [2]).
    - left; split; reflexivity.
    - intros k I. rewrite g1_layers in I. destruct I as [<-|[]]. split; [cbn; lia|]. split; [left; reflexivity|]. split; [lra|].
      apply (proj1 (A 0 (a 0))). lra.
    - intros k _. right. lra. }
  destruct X2 as (ws & X2). exists ws. split; assumption.
Qed.
Print Assumptions C78_elastic_case_refuted.

(** ** C49 *)
Theorem C49_regular : forall nx ny nz g cs, 0 < nx -> 0 < ny -> 0 < nz -> mk_regular nx ny nz = Ok g ->
  (checkPoints g cs = Ok tt <-> Forall (on_grid g) cs) /\
  (checkPoints g cs = Ok tt <-> Forall (fun c => 0 <= cx c < nx /\ 0 <= cy c < ny /\ 0 <= cz c < nz) cs) /\
  (checkPoints g cs = Ok tt \/ checkPoints g cs = Throw).
Proof.
  intros nx ny nz g cs Hx Hy Hz E. destruct (C01_regular_bijection nx ny nz Hx Hy Hz) as (g' & E' & B1 & B2 & B3).
  rewrite E in E'. injection E' as <-.
  assert (EG : gNX g = nx /\ gNY g = ny /\ gNZ g = nz /\ nGridpoints g = nx * ny * nz).
  { rewrite (mk_regular_ok nx ny nz Hx Hy Hz) in E. injection E as <-. cbn. lia. }
  destruct EG as (G1 & G2 & G3 & G4).
  assert (ST : forall c, ((0 <= cx c < gNX g /\ 0 <= cy c < gNY g /\ 0 <= cz c < gNZ g) /\
    exists i, coordinate2index g c = Ok i /\ index2coordinate g i = Ok c) <-> (0 <= cx c < nx /\ 0 <= cy c < ny /\ 0 <= cz c < nz)).
  { intros c. rewrite G1, G2, G3. split; [tauto|]. intros H. split; [exact H|]. destruct (B2 c H) as (i & I1 & I2 & I3). exists i. split; assumption. }
  assert (A1 : checkPoints g cs = Ok tt <-> Forall (fun c => 0 <= cx c < nx /\ 0 <= cy c < ny /\ 0 <= cz c < nz) cs).
  { rewrite checkPoints_all. split; apply Forall_impl; intros c; apply ST. }
  split; [|split; [exact A1|]].
  - rewrite A1. split; apply Forall_impl; intros c.
    + intros H. split; [rewrite G1, G2, G3; exact H|]. destruct (B2 c H) as (i & I1 & I2 & I3). exists i. rewrite G4. split; assumption.
    + intros [H _]. rewrite G1, G2, G3 in H. exact H.
  - clear A1. induction cs as [|c cs IH]; [left; reflexivity|]. cbn [checkPoints].
    destruct ((cx c >=? gNX g) || (cx c <? 0) || (cy c >=? gNY g) || (cy c <? 0) || (cz c >=? gNZ g) || (cz c <? 0)) eqn:EB; [right; reflexivity|].
    assert (IN : 0 <= cx c < nx /\ 0 <= cy c < ny /\ 0 <= cz c < nz) by lia.
    destruct (B2 c IN) as (i & I1 & I2 & I3). rewrite I1. cbn [bind]. rewrite I3. cbn [bind].
    rewrite (proj2 (coord_eqb_true c c) eq_refl). exact IH.
Qed.
Print Assumptions C49_regular.

Theorem C49_variable_partial : forall fuel nx ny nz dhs ifs,
  good_request nx ny nz dhs ifs -> (forall d, In d dhs -> d <= Z.of_nat fuel) ->
  exists g, init_variable fuel nx ny nz dhs ifs = Ok g /\
    forall cs, checkPoints g cs = Ok tt <-> Forall (on_grid g) cs.
Proof.
  intros fuel nx ny nz dhs ifs HG HF.
  destruct (C02_variable_roundtrip_partial fuel nx ny nz dhs ifs HG HF) as (g & E & R1 & R2).
  destruct (C03_lookup_partial fuel nx ny nz dhs ifs HG HF) as (g' & E' & L1 & L2 & L3).
  rewrite E in E'. injection E' as <-. exists g. split; [exact E|]. intros cs. rewrite checkPoints_all.
  split; apply Forall_impl; intros c.
  - intros (IN & i & I1 & I2). split; [exact IN|].
    destruct (Exists_dec (fun l => lstart l <= cy c <= lend l) (layers g)) as [X|X].
    { intros l. destruct (Z_le_dec (lstart l) (cy c)); [|right; lia]. destruct (Z_le_dec (cy c) (lend l)); [left; lia|right; lia]. }
    + apply Exists_exists in X. destruct X as (l & Il & Hl).
      destruct (L1 c l) as (j & J1 & J2 & _); try tauto. exists i. rewrite I1 in J1. injection J1 as <-. split; assumption.
    + rewrite L2 in I1; [discriminate|exact IN|]. intros l Il Hl. apply X, Exists_exists. exists l. split; assumption.
  - intros (IN & i & I1 & I2). split; [exact IN|]. destruct (R1 i I1) as (c' & E1 & _ & E2). rewrite I2 in E1. injection E1 as <-.
    exists i. split; assumption.
Qed.
Print Assumptions C49_variable_partial.

(** Points in the gap between two layers of a variable grid are not rejected: the check reads out of range. *)
Theorem C49_gap_refuted : exists nx ny nz its dhs g c, init_config_variable 100 nx ny nz its dhs = Ok g /\
  good_request nx ny nz dhs (tl its) /\ (0 <= cx c < gNX g /\ 0 <= cy c < gNY g /\ 0 <= cz c < gNZ g) /\
  ~ on_grid g c /\ checkPoints g [c] = UB.
Proof.
  exists 30, 70, 30, [0;7;20;47], [1;3;9;3].
  destruct (C02_variable_roundtrip_partial 100 30 70 30 [1;3;9;3] [7;20;47] good_request_ex) as (g & E & R1 & _).
  { intros d [<-|[<-|[<-|[<-|[]]]]]; lia. }
  assert (EC : init_config_variable 100 30 70 30 [0;7;20;47] [1;3;9;3] = Ok g) by exact E.
  assert (U : coordinate2index g (mkC 0 8 0) = UB).
  { assert (X : (g <- init_config_variable 100 30 70 30 [0;7;20;47] [1;3;9;3] ;; coordinate2index g (mkC 0 8 0)) = UB) by (vm_compute; reflexivity).
    rewrite EC in X. exact X. }
  assert (IN : 0 <= 0 < gNX g /\ 0 <= 8 < gNY g /\ 0 <= 0 < gNZ g).
  { assert (X : (g <- init_config_variable 100 30 70 30 [0;7;20;47] [1;3;9;3] ;; Ok (gNX g, gNY g, gNZ g)) = Ok (23, 68, 23)).
    { vm_compute. reflexivity. }
    rewrite EC in X. cbn [bind] in X. injection X as -> -> ->. lia. }
  exists g, (mkC 0 8 0). split; [exact EC|]. split; [exact good_request_ex|]. split; [exact IN|]. split.
  - intros (_ & i & I1 & I2). destruct (R1 i I1) as (c' & E1 & _ & E2). rewrite I2 in E1. injection E1 as <-. congruence.
  - cbn [checkPoints cx cy cz].
    replace ((0 >=? gNX g) || (0 <? 0) || (8 >=? gNY g) || (8 <? 0) || (0 >=? gNZ g) || (0 <? 0)) with false by lia.
    rewrite U. reflexivity.
Qed.
Print Assumptions C49_gap_refuted.
Example C49_ex : exists g, mk_regular 4 3 2 = Ok g /\ checkReceivers g [mkRec (mkC 3 2 1) 1; mkRec (mkC 0 0 0) 2] = Ok tt
  /\ checkReceivers g [mkRec (mkC 3 2 1) 1; mkRec (mkC 4 0 0) 2] = Throw.
Proof. eexists. split; [reflexivity|]. split; reflexivity. Qed.
(** checkSources and checkReceivers check the coordinates of their entries. *)
Theorem C49_lists : forall F g (srcs : list (source F)) recs,
  checkSources g srcs = checkPoints g (map sourceCoords srcs) /\ checkReceivers g recs = checkPoints g (map receiverCoords recs).
Proof. intros. split; reflexivity. Qed.

(** ** C59 *)
Lemma is_name t n : lower n = n -> str_eqb (lower t) n = true <-> same_name t n.
Proof. intros E. rewrite str_eqb_true. rewrite <- E at 1. apply lower_same. Qed.
Theorem C59_names : forall t,
  (checkEquationType t = Ok true <-> exists n, In n seismic_names /\ same_name t n) /\
  (checkEquationType t = Ok false <-> exists n, In n em_names /\ same_name t n) /\
  (checkEquationType t = Throw <-> ~ exists n, In n (seismic_names ++ em_names) /\ same_name t n).
Proof.
  intros t. unfold checkEquationType.
  set (S := str_eqb (lower t) (txt "acoustic") || str_eqb (lower t) (txt "elastic") || str_eqb (lower t) (txt "viscoelastic")
                 || str_eqb (lower t) (txt "sh") || str_eqb (lower t) (txt "viscosh")).
  set (M := str_eqb (lower t) (txt "emem") || str_eqb (lower t) (txt "tmem") || str_eqb (lower t) (txt "viscoemem") || str_eqb (lower t) (txt "viscotmem")).
  assert (ES : S = true <-> exists n, In n seismic_names /\ same_name t n).
  { unfold S. rewrite !orb_true_iff, !is_name by reflexivity. unfold seismic_names. cbn [map In]. split.
    - intros [[[[H|H]|H]|H]|H]; eexists; (split; [|exact H]); tauto.
    - intros (n & [<-|[<-|[<-|[<-|[<-|[]]]]]] & H); tauto. }
  assert (EM : M = true <-> exists n, In n em_names /\ same_name t n).
  { unfold M. rewrite !orb_true_iff, !is_name by reflexivity. unfold em_names. cbn [map In]. split.
    - intros [[[H|H]|H]|H]; eexists; (split; [|exact H]); tauto.
    - intros (n & [<-|[<-|[<-|[<-|[]]]]] & H); tauto. }
  assert (EX : S = true -> M = true -> False).
  { unfold S, M. rewrite !orb_true_iff, !str_eqb_true. intros A B.
    destruct A as [[[[H|H]|H]|H]|H]; rewrite H in B; repeat destruct B as [B|B]; discriminate. }
  assert (EU : (exists n, In n (seismic_names ++ em_names) /\ same_name t n) <-> S = true \/ M = true).
  { rewrite ES, EM. split.
    - intros (n & I & H). apply in_app_or in I. destruct I as [I|I]; [left|right]; exists n; split; assumption.
    - intros [(n & I & H)|(n & I & H)]; exists n; (split; [apply in_or_app; tauto|exact H]). }
  rewrite EU, <- ES, <- EM. clear ES EM EU. destruct S; destruct M; cbn;
    try (exfalso; exact (EX eq_refl eq_refl)); intuition congruence.
Qed.
Print Assumptions C59_names.
Example C59_ex : checkEquationType (txt "ViscoElastic") = Ok true /\ checkEquationType (txt "TMEM") = Ok false /\ checkEquationType (txt "elastc") = Throw.
Proof. repeat split. Qed.

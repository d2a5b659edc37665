(** Final forms of the grid theorems. *)
From Verif Require Import Base M_Grid S_Grid L_Grid L_Grid2 L_Grid3.

Lemma at_layer_in ls l acc : at_layer ls l acc -> In l ls.
Proof. induction 1; [now left|now right]. Qed.
Lemma in_at_layer ls l : In l ls -> exists acc, at_layer ls l acc.
Proof.
  induction ls as [|a ls IH]; [intros []|]. intros [->|H]; [eexists; constructor|].
  destruct (IH H) as (acc&Ha). eexists; constructor; eauto.
Qed.

Lemma wf_layers_in NX NY NZ lo ls l : wf_layers NX NY NZ lo ls -> In l ls -> exists lo', lo <= lo' /\ wf_layers NX NY NZ lo' [l].
Proof. intros H Hin. destruct (in_at_layer _ _ Hin) as (acc&Ha). eapply at_layer_wf; eauto. Qed.

Lemma wf_layers_order NX NY NZ lo ls k l l' : wf_layers NX NY NZ lo ls ->
  nth_error ls k = Some l -> nth_error ls (S k) = Some l' -> lend l < lstart l'.
Proof.
  revert lo k; induction ls as [|a ls IH]; intros lo k H H1 H2; [destruct k; discriminate|].
  simpl in H. destruct H as (_&_&_&_&_&_&_&_&_&_&_&_&_&H). destruct k as [|k].
  - simpl in *. injection H1 as ->. destruct ls as [|b ls]; [discriminate|]. injection H2 as ->.
    simpl in H. lia.
  - eapply IH; eauto.
Qed.

Lemma variable_roundtrip fuel nx ny nz dhs ifs : good_request nx ny nz dhs ifs -> enough fuel dhs ->
  exists g, init_variable fuel nx ny nz dhs ifs = Ok g /\
    (forall i, 0 <= i < nGridpoints g -> exists c, index2coordinate g i = Ok c /\
        (0 <= cx c < gNX g /\ 0 <= cy c < gNY g /\ 0 <= cz c < gNZ g) /\ coordinate2index g c = Ok i) /\
    (forall i j c, 0 <= i < nGridpoints g -> 0 <= j < nGridpoints g ->
        index2coordinate g i = Ok c -> index2coordinate g j = Ok c -> i = j).
Proof.
  intros H Hf. destruct (init_variable_ok _ _ _ _ _ _ H Hf) as (g&E&W&_). exists g. split; [exact E|].
  assert (R : forall i, 0 <= i < nGridpoints g -> exists c, index2coordinate g i = Ok c /\
        (0 <= cx c < gNX g /\ 0 <= cy c < gNY g /\ 0 <= cz c < gNZ g) /\ coordinate2index g c = Ok i).
  { intros i Hi. destruct (i2c_wf g i W Hi) as (c&A&B&C). exists c. auto. }
  split; [exact R|]. intros i j c Hi Hj Ei Ej.
  destruct (R i Hi) as (c1&A1&_&B1). destruct (R j Hj) as (c2&A2&_&B2). congruence.
Qed.

Lemma variable_lookup fuel nx ny nz dhs ifs : good_request nx ny nz dhs ifs -> enough fuel dhs ->
  exists g, init_variable fuel nx ny nz dhs ifs = Ok g /\
    (forall c l, 0 <= cx c < gNX g -> 0 <= cz c < gNZ g -> In l (layers g) -> lstart l <= cy c <= lend l ->
       exists i, coordinate2index g c = Ok i /\ 0 <= i < nGridpoints g /\
         exists c', index2coordinate g i = Ok c' /\
           (cx c' <= cx c < cx c' + ldh l /\ (ldh l | cx c')) /\
           (cy c' <= cy c < cy c' + ldh l /\ (ldh l | cy c' - lstart l)) /\
           (cz c' <= cz c < cz c' + ldh l /\ (ldh l | cz c'))) /\
    (forall c, 0 <= cx c < gNX g /\ 0 <= cy c < gNY g /\ 0 <= cz c < gNZ g ->
       (forall l, In l (layers g) -> ~ (lstart l <= cy c <= lend l)) -> coordinate2index g c = UB) /\
    (forall c, ~ (0 <= cx c < gNX g /\ 0 <= cy c < gNY g /\ 0 <= cz c < gNZ g) -> coordinate2index g c = Throw).
Proof.
  intros H Hf. destruct (init_variable_ok _ _ _ _ _ _ H Hf) as (g&E&W&_). exists g. split; [exact E|].
  split; [|split].
  - intros c l Hx Hz Hin Hy. destruct (in_at_layer _ _ Hin) as (acc&Ha).
    pose proof W as (Wn&Ws&Wl). destruct (wf_layers_in _ _ _ _ _ _ Wl Hin) as (lo'&Hlo&W1).
    simpl in W1. destruct W1 as (W1&W2&W0&W3&W4&_&_&_&_&_&_&W5&_).
    assert (Hins : inside g c) by (repeat split; lia).
    destruct (c2i_wf g c l acc W Hins Ha Hy) as (i&E1&E2&E3).
    exists i. split; [exact E1|]. split; [exact E2|]. exists (round_down l c). split; [exact E3|].
    unfold round_down; simpl.
    assert (G : forall a, 0 <= a -> a / ldh l * ldh l <= a < a / ldh l * ldh l + ldh l).
    { intros a Ha0. pose proof (Z.div_mod a (ldh l) ltac:(lia)). pose proof (Z.mod_pos_bound a (ldh l) ltac:(lia)). lia. }
    split; [|split].
    + split; [apply G; lia|exists (cx c / ldh l); reflexivity].
    + split; [pose proof (G (cy c - lstart l)); lia|exists ((cy c - lstart l) / ldh l); ring].
    + split; [apply G; lia|exists (cz c / ldh l); reflexivity].
  - intros c Hc Hno. apply c2i_gap; auto. intros l acc Ha. apply Hno. eapply at_layer_in; eauto.
  - intros c Hc. apply c2i_outside. exact Hc.
Qed.

Lemma variable_layers fuel nx ny nz dhs ifs : good_request nx ny nz dhs ifs -> enough fuel dhs ->
  exists g itf, init_variable fuel nx ny nz dhs ifs = Ok g /\
    map ldh (layers g) = dhs /\
    (forall k l l', nth_error (layers g) k = Some l -> nth_error (layers g) (S k) = Some l' -> lend l < lstart l') /\
    (forall l, In l (layers g) -> 0 <= lstart l /\ lend l < gNY g /\ 0 < lny l /\ lend l - lstart l = (lny l - 1) * ldh l /\
       (lnx l - 1) * ldh l < gNX g <= lnx l * ldh l /\ (lnz l - 1) * ldh l < gNZ g <= lnz l * ldh l) /\
    interface g = -1 :: itf /\ corrected 0 dhs (ifs ++ [ny - 1]) itf /\ gNY g = last itf 0 + 1 /\
    gNX g <= nx /\ gNY g <= ny /\ gNZ g <= nz /\ 0 < gNX g /\ 0 < gNY g /\ 0 < gNZ g /\
    nGridpoints g = zsum (map (fun l => lnx l * lny l * lnz l) (layers g)).
Proof.
  intros H Hf. destruct (init_variable_ok _ _ _ _ _ _ H Hf) as (g&E&W&D&X&Z&_&itf&I1&I2&I3&I4&I5&I6).
  pose proof W as (Wn&Ws&Wl). destruct H as (Hp&L&_).
  assert (Hd1 : forall d, In d dhs -> 1 <= d) by (intros; apply pow3_pos; auto).
  exists g, itf. split; [exact E|]. split; [exact D|]. split; [intros k l l'; eapply wf_layers_order; eauto|].
  split. { intros l Hin. destruct (wf_layers_in _ _ _ _ _ _ Wl Hin) as (lo'&Hlo&W1). simpl in W1.
    destruct W1 as (W1&W2&W0&W3&W4&W5&W6&W7&W8&W9&W10&W11&W12&_). repeat split; lia. }
  split; [exact I1|]. split; [exact I3|]. split; [exact I2|]. split; [lia|].
  assert (L' : length dhs = length (ifs ++ [ny - 1])) by (rewrite app_length; simpl; lia).
  split. { pose proof (corrected_last _ _ _ _ I3 L') as G. rewrite last_last in G. lia. }
  split; [lia|]. split; [lia|].
  split. { pose proof (chain_last 0 0 dhs itf Hd1 ltac:(lia) ltac:(lia) I5). lia. }
  split; [lia|]. rewrite Ws. f_equal. apply map_ext_in. intros l Hin.
  destruct (wf_layers_in _ _ _ _ _ _ Wl Hin) as (lo'&Hlo&W1). simpl in W1. tauto.
Qed.

Lemma edge_distance g c c' : edgeDistance g c = Ok c' ->
  (0 <= cx c < gNX g /\ 0 <= cy c < gNY g /\ 0 <= cz c < gNZ g) /\
  c' = mkC (Z.min (cx c) (gNX g - 1 - cx c)) (Z.min (cy c) (gNY g - 1 - cy c)) (Z.min (cz c) (gNZ g - 1 - cz c)).
Proof.
  unfold edgeDistance, assert. destruct c as [X Y Z]. cbn [cx cy cz].
  destruct (X <? gNX g) eqn:E1; [cbn [bind]|discriminate].
  destruct (Y <? gNY g) eqn:E2; [cbn [bind]|discriminate].
  destruct (Z <? gNZ g) eqn:E3; [cbn [bind]|discriminate].
  destruct (X >=? 0) eqn:E4; [cbn [bind]|discriminate].
  destruct (Y >=? 0) eqn:E5; [cbn [bind]|discriminate].
  destruct (Z >=? 0) eqn:E6; [cbn [bind]|discriminate].
  intros H. injection H as <-. split; [lia|]. f_equal.
  - destruct (gNX g - 1 - X <? X) eqn:?; simpl; lia.
  - destruct (gNY g - 1 - Y <? Y) eqn:?; simpl; lia.
  - destruct (gNZ g - 1 - Z <? Z) eqn:?; simpl; lia.
Qed.

Lemma edge_distance_ok g c : 0 <= cx c < gNX g -> 0 <= cy c < gNY g -> 0 <= cz c < gNZ g ->
  edgeDistance g c = Ok (mkC (Z.min (cx c) (gNX g - 1 - cx c)) (Z.min (cy c) (gNY g - 1 - cy c)) (Z.min (cz c) (gNZ g - 1 - cz c))).
Proof.
  intros Hx Hy Hz. destruct (edgeDistance g c) as [c'| | |] eqn:E.
  - now apply edge_distance in E as (_&->).
  - exfalso. unfold edgeDistance, assert in E. destruct c as [X Y Z]; simpl in *.
    replace (X <? gNX g) with true in E by lia. replace (Y <? gNY g) with true in E by lia. replace (Z <? gNZ g) with true in E by lia.
    replace (X >=? 0) with true in E by lia. replace (Y >=? 0) with true in E by lia. replace (Z >=? 0) with true in E by lia.
    discriminate.
  - exfalso. unfold edgeDistance, assert in E. destruct c as [X Y Z]; simpl in *.
    destruct (X <? gNX g), (Y <? gNY g), (Z <? gNZ g), (X >=? 0), (Y >=? 0), (Z >=? 0); discriminate.
  - exfalso. unfold edgeDistance, assert in E. destruct c as [X Y Z]; simpl in *.
    destruct (X <? gNX g), (Y <? gNY g), (Z <? gNZ g), (X >=? 0), (Y >=? 0), (Z >=? 0); discriminate.
Qed.

(** C07 *)
Lemma edge_distance_props g c :
  0 <= cx c < gNX g -> 0 <= cy c < gNY g -> 0 <= cz c < gNZ g ->
  exists d, edgeDistance g c = Ok d /\
    (* the smaller of the numbers of steps to the two faces *)
    (cx d = Z.min (cx c - 0) (gNX g - 1 - cx c) /\ cy d = Z.min (cy c - 0) (gNY g - 1 - cy c) /\ cz d = Z.min (cz c - 0) (gNZ g - 1 - cz c)) /\
    (0 <= cx d /\ 0 <= cy d /\ 0 <= cz d) /\
    (cx d = 0 <-> (cx c = 0 \/ cx c = gNX g - 1)) /\ (cy d = 0 <-> (cy c = 0 \/ cy c = gNY g - 1)) /\ (cz d = 0 <-> (cz c = 0 \/ cz c = gNZ g - 1)) /\
    (forall c2 d2, edgeDistance g c2 = Ok d2 ->
        (Z.abs (cx d - cx d2) <= Z.abs (cx c - cx c2)) /\ (Z.abs (cy d - cy d2) <= Z.abs (cy c - cy c2)) /\ (Z.abs (cz d - cz d2) <= Z.abs (cz c - cz c2))) /\
    edgeDistance g (mkC (gNX g - 1 - cx c) (gNY g - 1 - cy c) (gNZ g - 1 - cz c)) = Ok d.
Proof.
  intros Hx Hy Hz. rewrite (edge_distance_ok g c) by assumption. eexists; split; [reflexivity|]. cbn [cx cy cz].
  repeat split; try lia.
  - apply edge_distance in H as (_&->). cbn [cx cy cz]. lia.
  - apply edge_distance in H as (_&->). cbn [cx cy cz]. lia.
  - apply edge_distance in H as (_&->). cbn [cx cy cz]. lia.
  - rewrite edge_distance_ok by (cbn; lia). cbn [cx cy cz]. do 2 f_equal; lia.
Qed.

(** C08 *)
Lemma variable_queries fuel nx ny nz dhs ifs : good_request nx ny nz dhs ifs -> enough fuel dhs ->
  exists g itf, init_variable fuel nx ny nz dhs ifs = Ok g /\ interface g = -1 :: itf /\
    (* layer of a stored row *)
    (forall j l y, nth_error (layers g) j = Some l -> lstart l <= y <= lend l ->
       exists r l', getLayer g y = Ok (Z.of_nat r) /\ nth_error (layers g) r = Some l' /\
         (r = j \/ ((r = S j \/ j = S r) /\ nth_error itf (Nat.min r j) = Some y /\ ldh l <= ldh l'))) /\
    (* on an interior interface *)
    (forall y, 0 <= y -> exists b, locatedOnInterface g y = Ok b /\ (b = true <-> In y (removelast itf))) /\
    (* distance *)
    (forall y, distToInterface g y <= gNY g /\ (forall i, In i (removelast itf) -> distToInterface g y <= Z.abs (y - i)) /\
       (distToInterface g y = gNY g \/ exists i, In i (removelast itf) /\ distToInterface g y = Z.abs (y - i))) /\
    (* transition *)
    (forall y, 0 <= y -> In y (removelast itf) -> exists k l l', getTransition g y = Ok (Z.sgn (ldh l' - ldh l)) /\
       nth_error itf k = Some y /\ nth_error (layers g) k = Some l /\
       (nth_error (layers g) (S k) = Some l' \/ (nth_error (layers g) (S k) = None /\ l' = l))) /\
    (forall y, 0 <= y -> ~ In y (removelast itf) -> getTransition g y = Throw).
Proof.
  intros H Hf. destruct (init_variable_ok _ _ _ _ _ _ H Hf) as (g&E&W&D&X&Z&_&itf&I1&I2&I3&I4&I5&I6).
  pose proof W as (Wn&Ws&Wl). destruct H as (Hp&L&_).
  assert (Hd1 : forall d, In d dhs -> 1 <= d) by (intros; apply pow3_pos; auto).
  assert (Hlen : length (layers g) = length dhs) by (rewrite <- D, map_length; reflexivity).
  assert (Hnl : numLayers g = length itf) by lia.
  assert (Off0 : off_ok 0 dhs). { split; [lia|]. destruct dhs; auto. apply Z.divide_0_r. }
  assert (Hfn : forall y, 0 <= y -> (In y (firstn (length itf) (-1 :: itf)) <-> In y (removelast itf))).
  { intros y Hy. rewrite removelast_firstn_len. destruct itf as [|i itf]; [simpl; tauto|].
    change (length (i :: itf)) with (S (length itf)). rewrite firstn_cons.
    change (pred (S (length itf))) with (length itf). simpl In. split; [intros [|]; [lia|auto]|auto]. }
  assert (Hloc : forall y, 0 <= y -> exists b, locatedOnInterface g y = Ok b /\ (b = true <-> In y (removelast itf))).
  { intros y Hy. unfold locatedOnInterface. rewrite I1, Hnl.
    destruct (on_iface_spec (length itf) (-1 :: itf) y false) as (b&Eb&Hb); [simpl; lia|].
    exists b. split; [exact Eb|]. rewrite Hb, Hfn by assumption. intuition congruence. }
  exists g, itf. split; [exact E|]. split; [exact I1|]. split; [|split; [exact Hloc|split; [|split]]].
  - intros j l y Hj Hy.
    assert (Hl0 : 0 <= lstart l). { destruct (wf_layers_in _ _ _ _ _ l Wl) as (lo'&_&W1); [eapply nth_error_In; eauto|]. simpl in W1. lia. }
    destruct (getLayer_from_spec (gNX g) (gNZ g) (gNY g) dhs 0 0 0 0 (-1) itf (layers g) y j l) as (r&l'&R1&R2&R3); auto; try lia.
    exists r, l'. split; [|auto]. unfold getLayer. rewrite I1, Wn, Hlen. exact R1.
  - intros y. unfold distToInterface. rewrite I1. apply dist_fold_spec.
  - intros y Hy Hin. destruct (Hloc y Hy) as (b&Eb&Hb). unfold getTransition. rewrite Eb. cbn [bind].
    rewrite (proj2 Hb Hin). cbn [negb]. rewrite I1. cbn [tl].
    destruct (transition_ok (numLayers g) itf (layers g) y 0) as (t&Et); [lia|lia|].
    destruct (transition_value (numLayers g) itf (layers g) y 0 t ltac:(lia) ltac:(lia) Et) as [(_&Hn)|(k&l&K1&K2&K3&K4)].
    { exfalso. apply Hn. rewrite Hnl, firstn_all. rewrite removelast_firstn_len in Hin.
      rewrite <- (firstn_skipn (pred (length itf)) itf). apply in_or_app; now left. }
    pose proof (build_trans _ _ dhs _ itf _ _ _ Hd1 ltac:(lia) I4 K3) as Tr.
    destruct (nth_error (layers g) (S k)) as [l'|] eqn:En.
    + exists k, l, l'. rewrite Et, K4, Tr. auto.
    + exists k, l, l. rewrite Et, K4, Tr, Z.sub_diag. repeat split; auto.
  - intros y Hy Hn. destruct (Hloc y Hy) as (b&Eb&Hb). unfold getTransition. rewrite Eb. cbn [bind].
    destruct b; [exfalso; tauto|reflexivity].
Qed.

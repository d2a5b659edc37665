(** Queries on layered grids, termination, re-initialisation. *)
From Verif Require Import Base M_Grid S_Grid L_Grid L_Grid2.

Lemma mk_layer_inv nx nz start d en tr l : 1 <= d -> mk_layer nx nz start d en tr = Ok l ->
  ldh l = d /\ lstart l = start /\ lend l = en /\ ltrans l = tr.
Proof.
  intros Hd H. unfold mk_layer, cdiv in H. destruct (d =? 0) eqn:E; [lia|]. cbn [bind] in H. injection H as <-. auto.
Qed.

Lemma mk_layer_total nx nz start d en tr : 1 <= d -> exists l, mk_layer nx nz start d en tr = Ok l.
Proof. intros Hd. unfold mk_layer, cdiv. destruct (d =? 0) eqn:E; [lia|]. cbn [bind]. eauto. Qed.

Lemma build_total nx nz dhs : forall start is, (forall d, In d dhs -> 1 <= d) -> exists ls, build_layers nx nz start dhs is = Ok ls.
Proof.
  induction dhs as [|d dhs IH]; intros start is Hd; [eexists; reflexivity|].
  destruct is as [|i is]; [eexists; reflexivity|]. destruct dhs as [|d' dhs].
  - simpl. destruct (mk_layer_total nx nz start d i 0 (Hd _ (or_introl eq_refl))) as (l&->). eexists; reflexivity.
  - rewrite build_layers_cons. destruct (if d <? d' then _ else _) as ((tr&en)&st').
    destruct (mk_layer_total nx nz start d en tr (Hd _ (or_introl eq_refl))) as (l&->). cbn [bind].
    destruct (IH st' is) as (ls&->); [intros; apply Hd; now right|]. eexists; reflexivity.
Qed.

(** Head layer of a built table. *)
Lemma build_head nx nz start d dhs i is ls : 1 <= d -> build_layers nx nz start (d :: dhs) (i :: is) = Ok ls ->
  exists l r, ls = l :: r /\ ldh l = d /\ lstart l = start /\ lend l = i - need_of d dhs /\
    ltrans l = match dhs with [] => 0 | d' :: _ => if d <? d' then 1 else if d >? d' then -1 else 0 end /\
    match dhs with [] => r = [] | _ => build_layers nx nz (i + off_of d dhs) dhs is = Ok r end.
Proof.
  intros Hd H. destruct dhs as [|d' dhs].
  - simpl in H. apply bind_ok in H as (l&El&H). injection H as <-. destruct (mk_layer_inv _ _ _ _ _ _ _ Hd El) as (?&?&?&?).
    exists l, []. unfold need_of. repeat split; auto. lia.
  - rewrite build_layers_cons in H. unfold need_of, off_of.
    destruct (d <? d') eqn:E1; [|destruct (d >? d') eqn:E2];
    (apply bind_ok in H as (l&El&H); apply bind_ok in H as (r&Er&H); injection H as <-;
     destruct (mk_layer_inv _ _ _ _ _ _ _ Hd El) as (?&?&?&?); exists l, r; repeat split; auto;
     rewrite ?Z.add_0_r, ?Z.sub_0_r; auto).
Qed.

Lemma getLayer_from_spec nx nz NY dhs : forall base off lo0 k lo is ls y j l,
  (forall d, In d dhs -> 1 <= d) -> length dhs = length is -> off_ok off dhs -> chain base off dhs is ->
  build_layers nx nz (base + off) dhs is = Ok ls -> wf_layers nx NY nz lo0 ls -> lo < y ->
  nth_error ls j = Some l -> lstart l <= y <= lend l ->
  exists r l', getLayer_from (length dhs) k lo is ls y = Ok (k + Z.of_nat r) /\ nth_error ls r = Some l' /\
    (r = j \/ ((r = S j \/ j = S r) /\ nth_error is (Nat.min r j) = Some y /\ ldh l <= ldh l')).
Proof.
  induction dhs as [|d dhs IH]; intros base off lo0 k lo is ls y j l Hd L Ho Hc Hb Hw Hlo Hj Hy.
  { simpl in Hb. injection Hb as <-. destruct j; discriminate. }
  destruct is as [|i is]; [discriminate|].
  pose proof (Hd d (or_introl eq_refl)) as Hd1.
  destruct (build_head _ _ _ _ _ _ _ _ Hd1 Hb) as (l0&ls'&->&E1&E2&E3&E4&E5).
  destruct Hc as (Hdiv&Hth&Hc). destruct (need_of_div d dhs Hd1) as (Hn0&Hn).
  assert (Hoff : off_ok (off_of d dhs) dhs) by (apply off_of_ok; intros; apply Hd; now right).
  destruct j as [|j]; simpl in Hj.
  - injection Hj as ->. cbn [length getLayer_from].
    destruct ((y <? i) && (y >? lo)) eqn:G1.
    { exists 0%nat, l. rewrite Z.add_0_r. auto. }
    destruct (y =? i) eqn:G2; [|lia].
    destruct dhs as [|d' dhs].
    { exists 0%nat, l. rewrite E4. replace (0 >? 0) with false by lia. rewrite Z.add_0_r. auto. }
    unfold need_of in *. rewrite E4. destruct (d <? d') eqn:G3.
    + destruct is as [|i2 is]; [discriminate|].
      destruct (build_head _ _ _ _ _ _ _ _ (Hd d' (or_intror (or_introl eq_refl))) E5) as (l1&r1&->&F1&_).
      exists 1%nat, l1. replace (1 >? 0) with true by lia. split; [f_equal|]. split; [reflexivity|right].
      split; [now left|]. split; [simpl; f_equal; lia|lia].
    + lia.
  - destruct dhs as [|d' dhs]; [subst ls'; destruct j; discriminate|].
    destruct is as [|i2 is]; [discriminate|].
    assert (Hy0 : i + off_of d (d' :: dhs) <= y /\ (j <> 0%nat -> i + off_of d (d' :: dhs) < y)).
    { destruct (build_head _ _ _ _ _ _ _ _ (Hd d' (or_intror (or_introl eq_refl))) E5) as (l1&r1&->&F1&F2&_).
      destruct j as [|j]; simpl in Hj; [injection Hj as ->; split; [lia|congruence]|].
      simpl in Hw. destruct Hw as (_&_&_&_&_&_&_&_&_&_&_&_&_&W1&W2&W0&W3&W4&_&_&_&_&_&_&_&_&W5).
      assert (A : forall ls lo j, wf_layers nx NY nz lo ls -> nth_error ls j = Some l -> lo <= lstart l).
      { clear. induction ls as [|a ls IH]; intros lo j H Hj; destruct j; simpl in *; try discriminate.
        - injection Hj as ->. tauto.
        - destruct H as (H1&H2&H0&H3&H4&H5&H6&_&_&_&_&_&Hc&H). specialize (IH _ _ H Hj). nia. }
      specialize (A _ _ _ W5 Hj). assert (lstart l1 <= lend l1) by nia. lia. }
    destruct Hy0 as (Hy0&Hy1). assert (0 <= off_of d (d' :: dhs)) by (destruct Hoff; auto).
    remember (d' :: dhs) as dd. cbn [length getLayer_from]. replace ((y <? i) && (y >? lo)) with false by lia.
    destruct (y =? i) eqn:G2.
    + (* on the interface: j = 0 *)
      assert (j = 0%nat) by lia. subst j. subst dd.
      assert (d <? d' = false). { unfold off_of in Hy0. pose proof (Hd d' (or_intror (or_introl eq_refl))). destruct (d <? d') eqn:?; lia. }
      exists 0%nat, l0. rewrite E4, H0.
      replace ((if d >? d' then -1 else 0) >? 0) with false by (destruct (d >? d'); reflexivity).
      split; [f_equal; lia|]. split; [reflexivity|right]. split; [now right|]. split; [simpl; f_equal; lia|].
      destruct (build_head _ _ _ _ _ _ _ _ (Hd d' (or_intror (or_introl eq_refl))) E5) as (l1&r1&->&F1&_).
      simpl in Hj. injection Hj as ->. lia.
    + simpl in Hw. destruct Hw as (_&_&_&_&_&_&_&_&_&_&_&_&_&Hw').
      assert (E5' : build_layers nx nz (i + off_of d dd) dd (i2 :: is) = Ok ls') by (subst dd; exact E5).
      destruct (IH i (off_of d dd) (lend l0 + 1) (k + 1) i (i2 :: is) ls' y j l) as (r&l'&R1&R2&R3); auto; try lia.
      { intros; apply Hd; now right. }
      exists (S r), l'. simpl tl. split; [rewrite R1; f_equal; lia|]. split; [exact R2|].
      destruct R3 as [->|(R3&R4&R5)]; [now left|right]. split; [lia|]. split; [|assumption]. exact R4.
Qed.

(** ** on-interface test *)
Lemma on_iface_spec n its y acc : (n <= length its)%nat ->
  exists b, on_iface n its y acc = Ok b /\ (b = true <-> acc = true \/ In y (firstn n its)).
Proof.
  revert its acc; induction n as [|n IH]; intros its acc H; simpl.
  - exists acc. split; [reflexivity|tauto].
  - destruct its as [|i its]; simpl in *; [lia|].
    destruct (IH its (if y =? i then true else acc)) as (b&E&Hb); [lia|]. exists b. split; [exact E|].
    rewrite Hb. destruct (Z.eqb_spec y i); split; intros; intuition congruence.
Qed.

(** ** distance to interior interfaces *)
Lemma dist_fold_spec l : forall y m,
  let r := fold_left (fun d i => if Z.abs (y - i) <? d then Z.abs (y - i) else d) l m in
  r <= m /\ (forall i, In i l -> r <= Z.abs (y - i)) /\ (r = m \/ exists i, In i l /\ r = Z.abs (y - i)).
Proof.
  induction l as [|i l IH]; intros y m; simpl.
  - split; [lia|]. split; [tauto|now left].
  - destruct (IH y (if Z.abs (y - i) <? m then Z.abs (y - i) else m)) as (H1&H2&H3).
    set (r := fold_left _ _ _) in *. destruct (Z.abs (y - i) <? m) eqn:E.
    + split; [lia|]. split; [intros j [->|Hj]; [lia|auto]|]. destruct H3 as [->|(j&Hj&->)]; right; [exists i|exists j]; auto.
    + split; [lia|]. split; [intros j [->|Hj]; [lia|auto]|]. destruct H3 as [->|(j&Hj&->)]; [now left|right; exists j; auto].
Qed.

(** ** transition *)
Lemma transition_ok n its ls y acc : (n <= length its)%nat -> (n <= length ls)%nat -> exists t, transition_from n its ls y acc = Ok t.
Proof.
  revert its ls acc; induction n as [|n IH]; intros its ls acc H1 H2; simpl; [eauto|].
  destruct its as [|i its]; simpl in H1; [lia|]. destruct ls as [|l ls]; simpl in H2; [lia|].
  destruct (y =? i); simpl; apply IH; lia.
Qed.

(** the last matching layer decides *)
Lemma transition_value n its ls y acc t : (n <= length its)%nat -> (n <= length ls)%nat ->
  transition_from n its ls y acc = Ok t ->
  (t = acc /\ ~ In y (firstn n its)) \/ exists k l, (k < n)%nat /\ nth_error its k = Some y /\ nth_error ls k = Some l /\ t = ltrans l.
Proof.
  revert its ls acc; induction n as [|n IH]; intros its ls acc H1 H2 H; simpl in *; [injection H as <-; left; auto|].
  destruct its as [|i its]; simpl in H1; [lia|]. destruct ls as [|l ls]; simpl in H2; [lia|].
  destruct (Z.eqb_spec y i) as [->|Hne]; simpl in H.
  - destruct (IH its ls _ ltac:(lia) ltac:(lia) H) as [(->&_)|(k&l'&K1&K2&K3&K4)].
    + right. exists 0%nat, l. repeat split; auto; lia.
    + right. exists (S k), l'. repeat split; auto; lia.
  - destruct (IH its ls _ ltac:(lia) ltac:(lia) H) as [(->&Hn)|(k&l'&K1&K2&K3&K4)].
    + left. split; [reflexivity|]. simpl. intuition.
    + right. exists (S k), l'. repeat split; auto; lia.
Qed.

(** layer transitions are the sign of the change of spacing *)
Lemma build_trans nx nz dhs : forall start is ls k l, (forall d, In d dhs -> 1 <= d) -> length dhs = length is ->
  build_layers nx nz start dhs is = Ok ls -> nth_error ls k = Some l ->
  ltrans l = match nth_error ls (S k) with Some l' => Z.sgn (ldh l' - ldh l) | None => 0 end.
Proof.
  induction dhs as [|d dhs IH]; intros start is ls k l Hd L Hb Hk.
  { simpl in Hb. injection Hb as <-. destruct k; discriminate. }
  destruct is as [|i is]; [discriminate|].
  destruct (build_head _ _ _ _ _ _ _ _ (Hd d (or_introl eq_refl)) Hb) as (l0&r&->&E1&E2&E3&E4&E5).
  destruct k as [|k]; simpl in Hk.
  - injection Hk as ->. simpl nth_error. destruct dhs as [|d' dhs]; [subst r; exact E4|].
    destruct is as [|i2 is]; [discriminate|].
    destruct (build_head _ _ _ _ _ _ _ _ (Hd d' (or_intror (or_introl eq_refl))) E5) as (l1&r1&->&F1&_).
    rewrite E4, E1, F1. destruct (d <? d') eqn:?; [|destruct (d >? d') eqn:?].
    + symmetry. apply Z.sgn_pos. lia.
    + symmetry. apply Z.sgn_neg. lia.
    + replace (d' - d) with 0 by lia. reflexivity.
  - destruct dhs as [|d' dhs]; [subst r; destruct k; discriminate|].
    change (nth_error (l0 :: r) (S (S k))) with (nth_error r (S k)).
    eapply IH; [| |exact E5|exact Hk]; [intros; apply Hd; now right|simpl in *; lia].
Qed.

(** ** Termination of the construction *)
Lemma shrink_diverges fuel dhs itf nx nz : 3 <= dh_max dhs ->
  (nx < 1 + dh_max dhs / 2 \/ (nz <> 1 /\ nz < 1 + dh_max dhs / 2)) -> shrink fuel dhs itf nx nz = Fuel.
Proof.
  intros Hm H. unfold shrink. replace (dh_max dhs =? 1) with false by lia.
  rewrite <- Z.quot_div_nonneg in H by lia.
  destruct (Z_lt_le_dec nx (1 + Z.quot (dh_max dhs) 2)) as [Hx|Hx].
  - rewrite reduceN_diverges by assumption. reflexivity.
  - destruct H as [H|(H1&H2)]; [lia|]. destruct (reduceN fuel (dh_max dhs) nx) eqn:E; try reflexivity.
    + cbn [bind]. replace (nz =? 1) with false by lia. rewrite reduceN_diverges by assumption. reflexivity.
    + exfalso. clear - E. revert nx E. induction fuel as [|f IH]; intros nx E; simpl in E; [discriminate|]. destruct (_ =? _); [discriminate|eauto].
    + exfalso. clear - E. revert nx E. induction fuel as [|f IH]; intros nx E; simpl in E; [discriminate|]. destruct (_ =? _); [discriminate|eauto].
Qed.

Lemma shrink_terminates fuel dhs itf nx nz : (forall d, In d dhs -> pow3 d) -> dhs <> [] -> enough fuel dhs ->
  (dh_max dhs = 1 \/ (1 + dh_max dhs / 2 <= nx /\ (nz = 1 \/ 1 + dh_max dhs / 2 <= nz))) ->
  exists t, shrink fuel dhs itf nx nz = Ok t.
Proof.
  intros Hp Hne Hf H.
  assert (Hd1 : forall d, In d dhs -> 1 <= d) by (intros; apply pow3_pos; auto).
  pose proof (dh_max_is_max dhs Hne Hd1) as (Mi&Mu). pose proof (Hp _ Mi) as Hpm. pose proof (pow3_pos _ Hpm) as Hm1.
  unfold shrink. destruct (dh_max dhs =? 1) eqn:Em; [eauto|].
  destruct H as [H|(Hx&Hz)]; [lia|].
  assert (Hm3 : 3 <= dh_max dhs).
  { destruct (pow3_S _ Hpm) as [E|(e&He&E)]; [lia|]. apply pow3_pos in He. lia. }
  assert (Hfm : (Z.to_nat (dh_max dhs) <= fuel)%nat). { specialize (Hf _ Mi). lia. }
  destruct (reduceN_terminates (dh_max dhs) nx) as (nx'&Ex); [lia|rewrite Z.quot_div_nonneg by lia; lia|].
  apply (reduceN_more_fuel _ _ fuel) in Ex; [|exact Hfm]. rewrite Ex. cbn [bind].
  assert (Z' : exists nz', (if nz =? 1 then Ok nz else reduceN fuel (dh_max dhs) nz) = Ok nz').
  { destruct (nz =? 1) eqn:E1; [eauto|].
    destruct (reduceN_terminates (dh_max dhs) nz) as (nz'&Ez); [lia|rewrite Z.quot_div_nonneg by lia; lia|].
    apply (reduceN_more_fuel _ _ fuel) in Ez; [|exact Hfm]. eauto. }
  destruct Z' as (nz'&->). cbn [bind]. rewrite align_all_rest.
  destruct (align_rest_terminates fuel 0 dhs itf) as (r&->); [intros; split; auto|]. cbn [bind]. eauto.
Qed.

Lemma init_terminates_iff nx ny nz dhs ifs dm :
  (forall d, In d dhs -> pow3 d) -> is_max dm dhs -> length dhs = S (length ifs) -> 0 < nx -> 0 < ny -> 0 < nz ->
  ((exists fuel, init_variable fuel nx ny nz dhs ifs <> Fuel) <->
   (dm = 1 \/ (1 + dm / 2 <= nx /\ (nz = 1 \/ 1 + dm / 2 <= nz)))) /\
  ((dm = 1 \/ (1 + dm / 2 <= nx /\ (nz = 1 \/ 1 + dm / 2 <= nz))) ->
   forall fuel, dm <= Z.of_nat fuel -> exists g, init_variable fuel nx ny nz dhs ifs = Ok g).
Proof.
  intros Hp (M1&M2) L Hx Hy Hz.
  assert (Hne : dhs <> []) by (intros ->; discriminate).
  assert (Hd1 : forall d, In d dhs -> 1 <= d) by (intros; apply pow3_pos; auto).
  pose proof (dh_max_is_max dhs Hne Hd1) as (Mi&Mu).
  assert (dm = dh_max dhs) by (specialize (M2 _ Mi); specialize (Mu _ M1); lia). subst dm.
  pose proof (Hp _ Mi) as Hpm. pose proof (pow3_pos _ Hpm) as Hm1.
  assert (T : (dh_max dhs = 1 \/ (1 + dh_max dhs / 2 <= nx /\ (nz = 1 \/ 1 + dh_max dhs / 2 <= nz))) ->
   forall fuel, dh_max dhs <= Z.of_nat fuel -> exists g, init_variable fuel nx ny nz dhs ifs = Ok g).
  { intros H fuel Hf. rewrite init_variable_unfold by assumption.
    destruct (shrink_terminates fuel dhs (ifs ++ [ny - 1]) nx nz) as (((nx'&nz')&itf)&->); auto.
    { intros d Hd. specialize (Mu _ Hd). lia. }
    cbn [bind finish]. destruct (build_total nx' nz' dhs 0 itf Hd1) as (ls&->). cbn [bind]. eauto. }
  split; [|exact T]. split.
  - intros (fuel&H). destruct (Z.eq_dec (dh_max dhs) 1) as [|Hn1]; [now left|right].
    assert (Hm3 : 3 <= dh_max dhs).
    { destruct (pow3_S _ Hpm) as [E|(e&He&E)]; [lia|]. apply pow3_pos in He. lia. }
    assert (D : ~ (nx < 1 + dh_max dhs / 2 \/ (nz <> 1 /\ nz < 1 + dh_max dhs / 2))).
    { intros D. apply H. rewrite init_variable_unfold by assumption. rewrite shrink_diverges; auto. }
    lia.
  - intros H. exists (Z.to_nat (dh_max dhs)). destruct (T H (Z.to_nat (dh_max dhs))) as (g&->); [lia|congruence].
Qed.

(** ** Consequences of [corrected] *)
Lemma corrected_last base dhs is js : corrected base dhs is js -> length dhs = length is -> last js base <= last is base.
Proof.
  revert base is js; induction dhs as [|d dhs IH]; intros base is js H L; destruct is as [|i is], js as [|j js]; simpl in H; try discriminate; try tauto; [simpl; lia|].
  destruct H as (_&Hij&H). destruct is as [|i2 is].
  - destruct dhs; [|discriminate]. destruct js; simpl in *; [lia|tauto].
  - destruct dhs as [|d2 dhs]; [discriminate|]. destruct js as [|j2 js]; [simpl in H; tauto|].
    change (last (j2 :: js) base <= last (i2 :: is) base).
    rewrite (last_indep js j2 base j), (last_indep is i2 base j). apply IH; auto.
Qed.

(** ** Re-initialisation: the old table stays in front *)
Lemma reinit_keeps_old nx1 ny1 nz1 nx2 ny2 nz2 g1 g2 idx :
  mk_regular nx1 ny1 nz1 = Ok g1 -> reinit_regular g1 nx2 ny2 nz2 = Ok g2 -> 0 <= idx < nx1 * ny1 * nz1 ->
  index2coordinate g2 idx = index2coordinate g1 idx.
Proof.
  intros H1 H2 Hi. pose proof (mk_regular_inv _ _ _ _ H1) as (?&?&?). rewrite mk_regular_ok in H1 by lia. injection H1 as <-.
  unfold reinit_regular, init_regular, assert in H2. cbn [gNX gNY gNZ layers interface] in H2.
  destruct (0 <? nx2); [|discriminate]. destruct (0 <? ny2); [|discriminate]. destruct (0 <? nz2); [|discriminate].
  cbn [bind] in H2. injection H2 as <-. unfold index2coordinate. cbn [numLayers layers find_index app].
  cbn [lcnt]. replace (idx >=? nx1 * ny1 * nz1) with false by lia. reflexivity.
Qed.

(** C151, C152: the node weights of the partitioning and the memory estimate of the PML. *)
From Coq Require Import Reals Lra Ascii String Permutation.
From Verif Require Import Base M_Grid S_Grid M_Acq M_Conf M_Bound S_Bound L_GridP L_Bound M_Weights S_Weights.
From Coq Require Import ZifyBool Lia.
Open Scope Z_scope.
Local Notation length := List.length.
Local Open Scope list_scope.

(** ** The directions of the PML *)
Lemma profile_nonzero pp w dh s a b : profile pp w dh s a b -> b <> 0%R.
Proof. intros [-> _]. unfold pml_b. apply Rgt_not_eq, exp_pos. Qed.
(** One direction: the coefficients are not zero exactly if the point is in the frame. *)
Definition inFrame (BW d N x : Z) (low : bool) : bool :=
  let w := (BW + d - 1) / d in (Z.min x (N - 1 - x) / d <? w) && (negb (x / d <? w) || low).
Lemma axis_nonzero pp DH BW d N x low p : axis_ok pp DH BW d N x low p ->
  if inFrame BW d N x low then p <> mkPT 0 0 0 0 else p = mkPT 0 0 0 0.
Proof.
  intros (A & B & C & D). unfold inFrame. cbv zeta. destruct (Z.ltb_spec (Z.min x (N - 1 - x) / d) ((BW + d - 1) / d)) as [H|H]; cbn [andb]; [|apply A; exact H].
  destruct (Z.ltb_spec (x / d) ((BW + d - 1) / d)) as [H2|H2]; cbn [negb orb].
  - destruct low.
    + destruct (C H H2 eq_refl) as [[E _] _]. intros ->. cbn in E. symmetry in E. revert E. apply Rgt_not_eq, exp_pos.
    + apply B; auto.
  - destruct (D H H2) as [[E _] _]. intros ->. cbn in E. symmetry in E. revert E. apply Rgt_not_eq, exp_pos.
Qed.
Definition b2z (b : bool) : Z := if b then 1 else 0.
Lemma dir_cons p ps n b : (if (b : bool) then p <> mkPT 0 0 0 0 else p = mkPT 0 0 0 0) -> directions ps n -> directions (p :: ps) (b2z b + n).
Proof. destruct b; intros H D; [apply dir_in; assumption|subst p; apply dir_out; exact D]. Qed.
Lemma directions_fun ps n m : directions ps n -> directions ps m -> n = m.
Proof.
  intros H. revert m. induction H as [|p ps n Hp H IH|ps n H IH]; intros m K.
  - inversion K. reflexivity.
  - inversion K as [|? ? m' _ K'|? ? K']; subst; [f_equal; apply IH; assumption|contradiction].
  - inversion K as [|? ? m' X K'|? ? K']; subst; [contradiction X; reflexivity|apply IH; assumption].
Qed.

(** A point and its frame. *)
Lemma point_frame g pp DH BW fs i : built g -> physical pp -> (0 < DH)%R -> 0 <= BW -> 0 <= i < nGridpoints g ->
  exists c k l, index2coordinate g i = Ok c /\ (0 <= cx c < gNX g /\ 0 <= cy c < gNY g /\ 0 <= cz c < gNZ g) /\
    getLayer g (cy c) = Ok k /\ vget (layers g) k = Ok l /\ 0 < ldh l /\
    (let bx := inFrame BW (ldh l) (gNX g) (cx c) true in let by_ := inFrame BW (ldh l) (gNY g) (cy c) (fs =? 0) in
     let bz := inFrame BW (ldh l) (gNZ g) (cz c) true in
     (exists pts, cpml_init2D pp DH BW fs g i = Ok pts /\ directions pts (b2z bx + (b2z by_ + 0))) /\
     (exists pts, cpml_init3D pp DH BW fs g i = Ok pts /\ directions pts (b2z bx + (b2z by_ + (b2z bz + 0))))).
Proof.
  intros B P HD HB Hi. destruct (point_ok g i B Hi) as (c & k & l & Ec & Hc & Ek & El & Hl).
  destruct (frame3D_lem g pp DH BW fs i B P HD HB Hi) as (c' & k' & l' & px & py & pz & Ec' & Ek' & El' & E3 & E2 & Ax & Ay & Az).
  rewrite Ec in Ec'. injection Ec' as <-. rewrite Ek in Ek'. injection Ek' as <-. rewrite El in El'. injection El' as <-.
  exists c, k, l. split; [exact Ec|]. split; [exact Hc|]. split; [exact Ek|]. split; [exact El|]. split; [exact Hl|]. cbv zeta.
  apply axis_nonzero in Ax, Ay, Az. split.
  - exists [px; py]. split; [exact E2|]. repeat (apply dir_cons; [assumption|]). constructor.
  - exists [px; py; pz]. split; [exact E3|]. repeat (apply dir_cons; [assumption|]). constructor.
Qed.

(** ** One point *)
Lemma pmlWeight_ok o BW fs three g i pp DH : built g -> physical pp -> (0 < DH)%R -> 0 <= BW -> 0 <= i < nGridpoints g ->
  exists n, pmlWeight o BW fs three g i = Ok (IZR n * (IZR (oPML o) * 1.5))%R /\ pml_directions true three pp DH BW fs g i n /\ 0 <= n.
Proof.
  intros B P HD HB Hi. destruct (point_frame g pp DH BW fs i B P HD HB Hi) as (c & k & l & Ec & (Hx & Hy & Hz) & Ek & El & Hl & F2 & F3).
  exists (if three then b2z (inFrame BW (ldh l) (gNX g) (cx c) true) + (b2z (inFrame BW (ldh l) (gNY g) (cy c) (fs =? 0)) + (b2z (inFrame BW (ldh l) (gNZ g) (cz c) true) + 0))
          else b2z (inFrame BW (ldh l) (gNX g) (cx c) true) + (b2z (inFrame BW (ldh l) (gNY g) (cy c) (fs =? 0)) + 0)).
  split; [|split].
  - unfold pmlWeight. rewrite Ec. cbn [bind]. rewrite edge_distance_ok by assumption. cbn [bind]. rewrite Ek. cbn [bind]. rewrite El. cbn [bind].
    unfold pml_width. replace (ldh l =? 0) with false by lia. cbn [bind cx cy cz]. rewrite width_eq by exact Hl.
    rewrite !quot_div by lia. cbn [bind]. unfold inFrame. cbv zeta. set (w := (BW + ldh l - 1) / ldh l).
    set (xd := Z.min (cx c) (gNX g - 1 - cx c) / ldh l). set (yd := Z.min (cy c) (gNY g - 1 - cy c) / ldh l). set (zd := Z.min (cz c) (gNZ g - 1 - cz c) / ldh l).
    rewrite !Bool.orb_true_r, !Bool.andb_true_r. unfold b2z.
    destruct (xd <? w), (yd <? w); cbn [andb bind]; try destruct (cy c / ldh l <? w); cbn [negb orb]; try destruct (fs =? 0); destruct three, (zd <? w);
      f_equal; rewrite ?plus_IZR; lra.
  - unfold pml_directions. destruct three; assumption.
  - unfold b2z. destruct three; repeat match goal with |- context [if ?b then 1 else 0] => destruct b end; lia.
Qed.

Lemma mapM_ok {A B} (f : A -> res B) l : (forall a, In a l -> exists b, f a = Ok b) ->
  exists r, mapM f l = Ok r /\ Forall2 (fun a b => f a = Ok b) l r.
Proof.
  induction l as [|a l IH]; intros H; [exists []; split; [reflexivity|constructor]|].
  destruct (H a (or_introl eq_refl)) as [b E]. destruct IH as [r [E2 F]]; [intros; apply H; right; assumption|].
  exists (b :: r). cbn [mapM]. rewrite E. cbn [bind]. rewrite E2. split; [reflexivity|constructor; assumption].
Qed.
Lemma mapM_map {A B} (f : A -> res B) (h : A -> B) l : (forall a, In a l -> f a = Ok (h a)) -> mapM f l = Ok (map h l).
Proof.
  induction l as [|a l IH]; intros H; [reflexivity|]. cbn [mapM map]. rewrite (H a (or_introl eq_refl)). cbn [bind].
  rewrite IH by (intros; apply H; right; assumption). reflexivity.
Qed.

Lemma usable_index o : usable o -> exists w, vget FDWeights (Z.quot o 2 - 1) = Ok w /\ derivative_cost o w.
Proof.
  intros [d H]. destruct H; (eexists; split; [reflexivity|]).
  - replace (1.00)%R with 1%R by lra. constructor.
  - constructor.
  - constructor.
  - constructor.
  - replace (3.00)%R with 3%R by lra. constructor.
  - replace (3.70)%R with 3.7%R by lra. constructor.
Qed.
Lemma derivative_cost_pos o d : derivative_cost o d -> (1 <= d)%R.
Proof. intros H. destruct H; lra. Qed.
Lemma fdWeight_ok o orders so g i : built g -> usable_orders g orders so -> 0 <= i < nGridpoints g ->
  exists od d, order_at g orders so i od /\ derivative_cost od d /\ fdWeight o orders so g i = Ok (IZR (oMV o) * d + constantWeight o)%R.
Proof.
  intros B U Hi. destruct (point_ok g i B Hi) as (c & k & l & Ec & Hc & Ek & El & Hl).
  unfold fdWeight. rewrite Ec. cbn [bind]. rewrite Ek. cbn [bind]. destruct orders as [v|]; cbn [usable_orders order_at] in *.
  - destruct U as [U1 U2]. assert (V : exists od, vget v k = Ok od /\ usable od).
    { unfold vget in El |- *. destruct (k <? 0); [discriminate|]. destruct (nth_error (layers g) (Z.to_nat k)) eqn:E; [|discriminate].
      assert (nth_error (layers g) (Z.to_nat k) <> None) by congruence. apply nth_error_Some in H.
      destruct (nth_error v (Z.to_nat k)) as [od|] eqn:E2; [|apply nth_error_None in E2; lia].
      exists od. split; [reflexivity|]. rewrite Forall_forall in U2. apply U2. eapply nth_error_In. exact E2. }
    destruct V as [od [V1 V2]]. rewrite V1. cbn [bind]. destruct (usable_index od V2) as [w [W1 W2]]. rewrite W1. cbn [bind].
    exists od, w. split; [exists c, k; auto|]. split; [exact W2|reflexivity].
  - cbn [bind]. destruct (usable_index so U) as [w [W1 W2]]. rewrite W1. cbn [bind]. exists so, w. split; [reflexivity|]. split; [exact W2|reflexivity].
Qed.

(** ** The table *)
Lemma str_eqb_refl s : str_eqb s s = true.
Proof. unfold str_eqb. destruct (list_eq_dec ascii_dec s s); [reflexivity|contradiction]. Qed.
Lemma table_ok d t k : In (d, t, k) costs -> knownDim (txt d) = true /\ knownType (txt t) = true /\
  let o := pickOps (txt d) (txt t) in IZR (oMV o) = IZR (fst (fst k)) /\ constantWeight o = snd (fst k) /\ (IZR (oPML o) * 1.5 = snd k)%R /\
  0 < oMV o /\ (0 < constantWeight o)%R /\ (0 <= snd k)%R.
Proof.
  unfold costs. cbn [In]. intros H.
  repeat (destruct H as [H|H]; [injection H as <- <- <-; (split; [vm_compute; reflexivity|]); (split; [vm_compute; reflexivity|]);
    match goal with |- context [pickOps ?a ?b] => let v := eval vm_compute in (pickOps a b) in change (pickOps a b) with v end;
    cbn [fst snd oMV oPML]; unfold constantWeight; cbn [oVA oVV]; repeat split; lra || lia|]). contradiction.
Qed.

Lemma lsum_total f l : lsum (map f l) = total f l.
Proof. induction l as [|a l IH]; cbn; [reflexivity|]. rewrite IH. reflexivity. Qed.
Lemma total_ext f h l : (forall i, In i l -> f i = h i) -> total f l = total h l.
Proof. induction l as [|a l IH]; intros H; cbn; [reflexivity|]. rewrite H by (left; reflexivity). rewrite IH by (intros; apply H; right; assumption). reflexivity. Qed.
Lemma total_scale f a l : (total (fun i => f i / a) l = total f l / a)%R.
Proof. induction l as [|b l IH]; cbn; [lra|]. rewrite IH. lra. Qed.
Lemma total_pos f l : (forall i, In i l -> (0 < f i)%R) -> l <> [] -> (0 < total f l)%R.
Proof.
  intros H N. destruct l as [|a l]; [contradiction|]. clear N. cbn. 
  assert (0 <= total f l)%R.
  { assert (G : forall i, In i l -> (0 < f i)%R) by (intros; apply H; right; assumption). clear H. induction l as [|b l IH]; cbn; [lra|].
    specialize (IH ltac:(intros; apply G; right; assumption)). specialize (G b (or_introl eq_refl)). lra. }
  specialize (H a (or_introl eq_refl)). lra.
Qed.
Lemma normalise_ok (x : Z -> R) l : (forall i, In i l -> (0 < x i)%R) -> normalise (map (fun i => Some (x i)) l) = map (fun i => Some (x i / total x l)%R) l.
Proof.
  intros H. unfold normalise. 
  assert (T : forall l', fold_right (fun w s => match w, s with Some a, Some b => Some (a + b)%R | _, _ => None end) (Some 0%R) (map (fun i => Some (x i)) l') = Some (total x l')).
  { induction l' as [|a l' IH]; cbn; [reflexivity|]. rewrite IH. reflexivity. }
  rewrite T, map_map. apply map_ext_in. intros i Hi. unfold fdivide.
  destruct (Req_EM_T (total x l) 0) as [E|E]; [|reflexivity]. exfalso. assert (l <> []) by (intros ->; contradiction).
  pose proof (total_pos x l H H0). lra.
Qed.
Lemma combine_map {A B C} (f : A -> B) (h : A -> C) l : combine (map f l) (map h l) = map (fun i => (f i, h i)) l.
Proof. induction l as [|a l IH]; cbn; [reflexivity|]. rewrite IH. reflexivity. Qed.

(** For every combination of dimension and equation type in the table, every grid and every usable order, the weight of a point is its cost
    divided by the cost of all points; with [useNodeWeights] switched off all weights are equal. *)
Theorem C151_weights : forall d t k dimension type use orders so damping BW fs g pp DH,
  In (d, t, k) costs -> lower dimension = txt d -> lower type = txt t ->
  built g -> usable_orders g orders so -> physical pp -> (0 < DH)%R -> 0 <= BW ->
  exists x, nodeWeights dimension type use orders so damping BW fs g =
      Ok (map (fun i => Some (x i / total x (zseq 0 (Z.to_nat (nGridpoints g))))%R) (zseq 0 (Z.to_nat (nGridpoints g)))) /\
    forall i, 0 <= i < nGridpoints g -> (0 < x i)%R /\
      if use then cost_of k orders so (damping =? 2) (if string_dec d "3d" then true else false) pp DH BW fs g i (x i) else x i = x 0.
Proof.
  intros d t k dimension type use orders so damping BW fs g pp DH HT Hd Ht B U P HD HB.
  destruct (table_ok d t k HT) as (K1 & K2 & K3). cbv zeta in K3. set (o := pickOps (txt d) (txt t)) in *. destruct K3 as (M1 & M2 & M3 & M4 & M5 & M6).
  unfold nodeWeights. rewrite Hd, Ht, K1, K2. cbn [assert bind]. fold o. set (pts := zseq 0 (Z.to_nat (nGridpoints g))).
  assert (IN : forall i, In i pts <-> 0 <= i < nGridpoints g) by (intros i; unfold pts; rewrite zseq_in; lia).
  assert (RP : (0 < referenceTotalWeight o)%R).
  { unfold referenceTotalWeight. assert (0 < IZR (oMV o))%R by (apply IZR_lt; exact M4). lra. }
  assert (D3 : str_eqb (txt d) (txt "3d") = if string_dec d "3d" then true else false).
  { destruct (string_dec d "3d") as [->|N]; [apply str_eqb_refl|]. unfold str_eqb. destruct (list_eq_dec _ _ _) as [E|E]; [|reflexivity].
    exfalso. apply N. rewrite <- (string_of_list_ascii_of_string d). unfold txt in E. rewrite E. reflexivity. }
  rewrite D3. set (three := if string_dec d "3d" then true else false).
  set (fdv := fun i => match fdWeight o orders so g i with Ok a => a | _ => 0%R end).
  set (pmv := fun i => match pmlWeight o BW fs three g i with Ok a => a | _ => 0%R end).
  assert (FD : forall i, In i pts -> fdWeight o orders so g i = Ok (fdv i)).
  { intros i Hi. apply IN in Hi. unfold fdv. destruct (fdWeight_ok o orders so g i B U Hi) as (od & dd & _ & _ & E). rewrite E. reflexivity. }
  assert (PM : forall i, In i pts -> pmlWeight o BW fs three g i = Ok (pmv i)).
  { intros i Hi. apply IN in Hi. unfold pmv. destruct (pmlWeight_ok o BW fs three g i pp DH B P HD HB Hi) as (n & E & _). rewrite E. reflexivity. }
  set (y := fun i => (if use then fdv i + (if damping =? 2 then pmv i else 0) else referenceTotalWeight o)%R).
  exists (fun i => (y i)). 
  assert (POS : forall i, 0 <= i < nGridpoints g -> (0 < y i)%R /\ (if use then cost_of k orders so (damping =? 2) three pp DH BW fs g i (y i) else y i = y 0)).
  { intros i Hi. unfold y. destruct use; [|split; [exact RP|reflexivity]].
    destruct (fdWeight_ok o orders so g i B U Hi) as (od & dd & O1 & O2 & E). unfold fdv. rewrite E.
    assert (dd >= 1)%R by (apply Rle_ge; eapply derivative_cost_pos; exact O2).
    assert (0 < IZR (oMV o))%R by (apply IZR_lt; exact M4).
    assert (0 < IZR (oMV o) * dd)%R by (apply Rmult_lt_0_compat; lra).
    destruct (damping =? 2) eqn:ED.
    - destruct (pmlWeight_ok o BW fs three g i pp DH B P HD HB Hi) as (n & E2 & N1 & N2). unfold pmv. rewrite E2, M3.
      assert (0 <= IZR n)%R by (apply IZR_le; exact N2). assert (0 <= IZR n * snd k)%R by (apply Rmult_le_pos; assumption).
      split; [lra|]. exists od, dd, n. split; [exact O1|]. split; [exact O2|]. split; [exact N1|]. rewrite M1, M2. reflexivity.
    - split; [lra|]. exists od, dd, 0. split; [exact O1|]. split; [exact O2|]. split; [reflexivity|]. rewrite M1, M2. lra. }
  split; [|exact POS].
  assert (E1 : (if use then mapM (fdWeight o orders so g) pts else Ok (map (fun _ => referenceTotalWeight o) pts)) =
               Ok (map (fun i => if use then fdv i else referenceTotalWeight o) pts)).
  { destruct use; [apply mapM_map; exact FD|reflexivity]. }
  assert (E2 : (if (damping =? 2) && use then mapM (pmlWeight o BW fs three g) pts else Ok (map (fun _ => 0%R) pts)) =
               Ok (map (fun i => if (damping =? 2) && use then pmv i else 0%R) pts)).
  { destruct ((damping =? 2) && use); [apply mapM_map; exact PM|reflexivity]. }
  rewrite E1. cbn [bind]. rewrite E2. cbn [bind]. f_equal. rewrite combine_map, map_map.
  rewrite (map_ext_in _ (fun i => Some (y i / referenceTotalWeight o)%R)).
  2:{ intros i Hi. unfold fdivide. destruct (Req_EM_T (referenceTotalWeight o) 0); [lra|]. do 2 f_equal. unfold y. destruct use, (damping =? 2); cbn [andb]; lra. }
  rewrite (normalise_ok (fun i => (y i / referenceTotalWeight o)%R)).
  2:{ intros i Hi. apply Rdiv_lt_0_compat; [|exact RP]. apply POS, IN, Hi. }
  apply map_ext_in. intros i Hi. f_equal. rewrite (total_scale y (referenceTotalWeight o) pts).
  assert (0 < total y pts)%R by (apply total_pos; [intros; apply POS, IN; assumption|intros EN; rewrite EN in Hi; contradiction]).
  change (total (fun i0 => y i0) pts) with (total y pts). field. lra.
Qed.

(** The weights are positive and add up to 1. *)
Theorem C151_partition_of_unity : forall d t k dimension type use orders so damping BW fs g,
  In (d, t, k) costs -> lower dimension = txt d -> lower type = txt t -> built g -> 0 < nGridpoints g -> usable_orders g orders so -> 0 <= BW ->
  exists w, nodeWeights dimension type use orders so damping BW fs g = Ok (map (fun i => Some (w i)) (zseq 0 (Z.to_nat (nGridpoints g)))) /\
    (forall i, 0 <= i < nGridpoints g -> (0 < w i)%R) /\ total w (zseq 0 (Z.to_nat (nGridpoints g))) = 1%R.
Proof.
  intros d t k dimension type use orders so damping BW fs g HT Hd Ht B HN U HB.
  destruct (C151_weights d t k dimension type use orders so damping BW fs g (mkPP 0 0 0 0) 1 HT Hd Ht B U) as [x [E X]]; [repeat split; cbn; lra|lra|exact HB|].
  set (pts := zseq 0 (Z.to_nat (nGridpoints g))) in *. exists (fun i => (x i / total x pts)%R). split; [exact E|].
  assert (IN : forall i, In i pts <-> 0 <= i < nGridpoints g) by (intros i; unfold pts; rewrite zseq_in; lia).
  assert (T : (0 < total x pts)%R).
  { apply total_pos; [intros i Hi; apply X, IN, Hi|]. intros EN. assert (In 0 pts) by (apply IN; lia). rewrite EN in H. contradiction. }
  split; [intros i Hi; apply Rdiv_lt_0_compat; [apply X; exact Hi|exact T]|]. rewrite total_scale. field. lra.
Qed.

(** The combinations that pass the assertions but have no entry in the table: every weight is not a number. *)
Theorem C151_missing_refuted : forall t dimension type use orders so damping BW fs g,
  In t ["sh"; "viscosh"; "tmem"; "viscotmem"]%string -> lower dimension = txt "3d" -> lower type = txt t ->
  built g -> usable_orders g orders so -> 0 <= BW ->
  nodeWeights dimension type use orders so damping BW fs g = Ok (map (fun _ => None) (zseq 0 (Z.to_nat (nGridpoints g)))).
Proof.
  intros t dimension type use orders so damping BW fs g HT Hd Ht B U HB.
  assert (K : knownType (txt t) = true /\ pickOps (txt "3d") (txt t) = mkOps 0 0 0 0).
  { cbn [In] in HT. repeat (destruct HT as [<-|HT]; [split; vm_compute; reflexivity|]). contradiction. }
  destruct K as [K1 K2]. unfold nodeWeights. rewrite Hd, Ht, K1. replace (knownDim (txt "3d")) with true by (vm_compute; reflexivity).
  cbn [assert bind]. rewrite K2. set (o := mkOps 0 0 0 0). set (pts := zseq 0 (Z.to_nat (nGridpoints g))).
  assert (IN : forall i, In i pts <-> 0 <= i < nGridpoints g) by (intros i; unfold pts; rewrite zseq_in; lia).
  assert (R0 : referenceTotalWeight o = 0%R) by (unfold referenceTotalWeight, constantWeight, o; cbn; lra).
  destruct (mapM_ok (fdWeight o orders so g) pts) as [fd [E1 F1]].
  { intros i Hi. destruct (fdWeight_ok o orders so g i B U (proj1 (IN i) Hi)) as (a & b & _ & _ & E). eauto. }
  destruct (mapM_ok (pmlWeight o BW fs (str_eqb (txt "3d") (txt "3d")) g) pts) as [pm [E2 F2]].
  { intros i Hi. destruct (pmlWeight_ok o BW fs (str_eqb (txt "3d") (txt "3d")) g i (mkPP 0 0 0 0) 1 B) as (a & E & _); [repeat split; cbn; lra|lra|exact HB|apply IN; exact Hi|]. eauto. }
  assert (G : forall fd pm : list R, length fd = length pts -> length pm = length pts ->
     normalise (map (fun '(a, b) => fdivide (a + b) (referenceTotalWeight o)) (combine fd pm)) = map (fun _ => None) pts).
  { intros fd' pm' L1 L2. unfold normalise.
    assert (N : forall l : list (R * R), map (fun '(a, b) => fdivide (a + b) (referenceTotalWeight o)) l = map (fun _ => None) l).
    { intros l. apply map_ext. intros [a b]. unfold fdivide. destruct (Req_EM_T (referenceTotalWeight o) 0); [reflexivity|contradiction]. }
    rewrite N. rewrite map_map.
    assert (LC : length (combine fd' pm') = length pts) by (rewrite combine_length; lia).
    clear -LC. revert LC. generalize (combine fd' pm') pts. induction l as [|a l IH]; intros [|b q] L; cbn in *; try discriminate; [reflexivity|].
    f_equal. apply IH. lia. }
  assert (L1 : length fd = length pts) by (symmetry; clear -F1; induction F1; cbn; congruence).
  assert (L2 : length pm = length pts) by (symmetry; clear -F2; induction F2; cbn; congruence).
  destruct use.
  - rewrite E1. cbn [bind]. destruct (damping =? 2); cbn [andb].
    + rewrite E2. cbn [bind]. f_equal. apply G; assumption.
    + cbn [bind]. f_equal. apply G; [exact L1|apply map_length].
  - rewrite Bool.andb_false_r. cbn [bind]. f_equal. apply G; apply map_length.
Qed.

(** An order above 13 reads behind the array of weights, an order below 2 in front of it. *)
Theorem C151_order_refuted : forall d t k dimension type so damping BW fs g,
  In (d, t, k) costs -> lower dimension = txt d -> lower type = txt t -> built g -> 0 < nGridpoints g -> (so < 2 \/ 13 < so) ->
  nodeWeights dimension type true None so damping BW fs g = UB.
Proof.
  intros d t k dimension type so damping BW fs g HT Hd Ht B HN HO. destruct (table_ok d t k HT) as (K1 & K2 & _).
  unfold nodeWeights. rewrite Hd, Ht, K1, K2. cbn [assert bind].
  replace (Z.to_nat (nGridpoints g)) with (S (Z.to_nat (nGridpoints g - 1))) by lia. cbn [zseq mapM].
  destruct (point_ok g 0 B ltac:(lia)) as (c & kk & l & Ec & Hc & Ek & El & Hl).
  unfold fdWeight at 1. rewrite Ec. cbn [bind]. rewrite Ek. cbn [bind].
  assert (V : vget FDWeights (Z.quot so 2 - 1) = UB).
  { unfold vget. destruct (Z.ltb_spec (Z.quot so 2 - 1) 0) as [C|C]; [reflexivity|].
    destruct HO as [HO|HO].
    - exfalso. assert (Z.quot so 2 <= 0); [|lia]. destruct (Z_lt_ge_dec so 0); [|rewrite Z.quot_small by lia; lia].
      replace so with (- - so) by lia. rewrite Z.quot_opp_l by lia. assert (0 <= Z.quot (- so) 2) by (apply Z.quot_pos; lia). lia.
    - assert (7 <= Z.quot so 2) by (apply Z.quot_le_lower_bound; lia).
      destruct (nth_error FDWeights (Z.to_nat (Z.quot so 2 - 1))) eqn:E; [|reflexivity]. exfalso.
      assert (nth_error FDWeights (Z.to_nat (Z.quot so 2 - 1)) <> None) by congruence. apply nth_error_Some in H0. cbn [FDWeights length] in H0. lia. }
  rewrite V. reflexivity.
Qed.

(** A point of the interior of a PML frame costs less than a point of the frame: on a 2-D acoustic grid of 6 by 6 points with a frame of one
    point the corner has two directions, the middle none. *)
Example C151_ex : exists g ws, mk_regular 6 6 1 = Ok g /\
  nodeWeights (txt "2D") (txt "Acoustic") true None 4 2 1 0 g = Ok ws /\
  nth 0 ws None = Some ((4 * 1.56 + 1.75 + 6) / (16 * (4 * 1.56 + 1.75) + 16 * (4 * 1.56 + 1.75 + 3) + 4 * (4 * 1.56 + 1.75 + 6)))%R.
Proof.
  set (g := mkG 6 6 1 1 36 [mkL 1 0 5 0 6 6 1 36] [-1; 5]). assert (E : mk_regular 6 6 1 = Ok g) by reflexivity. exists g.
  destruct (C151_weights "2d" "acoustic" (4%Z, 1.75%R, 3%R) (txt "2D") (txt "Acoustic") true None 4 2 1 0 g (mkPP 0 0 0 0) 1) as [x [E1 X]];
    [left; reflexivity|reflexivity|reflexivity|left; exists 6, 6, 1; exact E|exists 1.56%R; constructor|repeat split; cbn; lra|lra|lia|].
  eexists. split; [exact E|]. split; [exact E1|].
  assert (V : forall i, 0 <= i < 36 -> x i = (IZR 4 * 1.56 + 1.75 + IZR (b2z (orb (i mod 6 =? 0) (i mod 6 =? 5)) + b2z (orb (i / 6 =? 0) (i / 6 =? 5))) * 3)%R).
  { intros i Hi. destruct (X i Hi) as [_ (od & dd & n & O1 & O2 & (pts & C & D) & ->)]. cbn in O1. subst od. inversion O2; subst dd.
    destruct (point_frame g (mkPP 0 0 0 0) 1 1 0 i ltac:(left; exists 6, 6, 1; exact E) ltac:(repeat split; cbn; lra) ltac:(lra) ltac:(lia) Hi)
      as (c & k & l & Ec & _ & Ek & El & _ & (pts' & C' & D') & _).
    cbn [string_dec] in C. cbv zeta in D'. 
    assert (pts' = pts) by (change (if string_dec "2d" "3d" then true else false) with false in C; cbv iota in C; rewrite C in C'; congruence). subst pts'.
    rewrite (directions_fun _ _ _ D D'). cbn [fst snd]. do 3 f_equal.
    assert (A : forallb (fun i => match index2coordinate g i with Ok c =>
        (cx c =? i mod 6) && (cy c =? i / 6) && (0 <=? cx c) && (0 <=? cy c) | _ => false end) (zseq 0 36) = true) by (vm_compute; reflexivity).
    rewrite forallb_forall in A. specialize (A i). rewrite zseq_in in A. specialize (A ltac:(lia)). rewrite Ec in A.
    assert (KL : l = mkL 1 0 5 0 6 6 1 36).
    { unfold vget in El. cbn [layers g] in El. destruct (k <? 0); [discriminate|]. destruct (Z.to_nat k) as [|[|?]]; cbn in El; congruence. }
    subst l. cbn [ldh gNX gNY]. assert (cx c = i mod 6 /\ cy c = i / 6) as [-> ->] by lia.
    assert (0 <= i mod 6 < 6) by (apply Z.mod_pos_bound; lia). assert (0 <= i / 6 < 6) by (split; [apply Z.div_pos; lia|apply Z.div_lt_upper_bound; lia]).
    unfold inFrame. cbv zeta. rewrite !Z.div_1_r. change (gNX g) with 6. change (gNY g) with 6. change (1 + 1 - 1) with 1. cbn [Z.eqb].
    set (a := i mod 6) in *. set (b := i / 6) in *. clearbody a b. unfold b2z.
    rewrite !Bool.orb_true_r, !Bool.andb_true_r.
    replace (Z.min a (6 - 1 - a) <? 1) with ((a =? 0) || (a =? 5)) by lia. replace (Z.min b (6 - 1 - b) <? 1) with ((b =? 0) || (b =? 5)) by lia. destruct ((a =? 0) || (a =? 5)), ((b =? 0) || (b =? 5)); reflexivity. }
  change (Z.to_nat (nGridpoints g)) with 36%nat.
  set (T := total x (zseq 0 36)). assert (TV : T = (16 * (4 * 1.56 + 1.75) + 16 * (4 * 1.56 + 1.75 + 3) + 4 * (4 * 1.56 + 1.75 + 6))%R).
  { unfold T. rewrite (total_ext _ (fun i => (IZR 4 * 1.56 + 1.75 + IZR (b2z (orb (i mod 6 =? 0) (i mod 6 =? 5)) + b2z (orb (i / 6 =? 0) (i / 6 =? 5))) * 3)%R)) by (intros i Hi; apply V; apply zseq_in in Hi; lia).
    assert (W : forall (h : Z -> Z) l, total (fun i => (IZR 4 * 1.56 + 1.75 + IZR (h i) * 3)%R) l = (IZR (Z.of_nat (length l)) * (IZR 4 * 1.56 + 1.75) + IZR (zsum (map h l)) * 3)%R).
    { intros h. induction l as [|a l IH]; [cbn; lra|]. cbn [total length map zsum fold_right]. rewrite IH, Nat2Z.inj_succ. unfold Z.succ. rewrite !plus_IZR. fold (zsum (map h l)). lra. }
    rewrite W. match goal with |- context [zsum ?a] => let v := eval vm_compute in (zsum a) in change (zsum a) with v end.
    change (Z.of_nat (length (zseq 0 36))) with 36. lra. }
  transitivity (Some (x 0%Z / T)%R); [reflexivity|]. rewrite TV, V by lia.
  change (b2z ((0 mod 6 =? 0) || (0 mod 6 =? 5)) + b2z ((0 / 6 =? 0) || (0 / 6 =? 5))) with 2. assert (Q : (IZR 2 * 3 = 6)%R) by lra. rewrite Q. reflexivity.
Qed.

(** ** C152 *)
(** The estimate counts, for every distribution of the points over the processes, the pairs of a point and a direction with PML coefficients,
    and is the memory of [numVectorsPerDim] numbers for each pair, in whole MB. *)
Theorem C152_memory : forall g BW fs pp DH owned (three : bool) numVec sz, built g -> physical pp -> (0 < DH)%R -> 0 <= BW ->
  Permutation (concat owned) (zseq 0 (Z.to_nat (nGridpoints g))) ->
  exists count : Z -> Z, (forall i, 0 <= i < nGridpoints g -> pml_directions true three pp DH BW fs g i (count i)) /\
    let n := zsum (map count (zseq 0 (Z.to_nat (nGridpoints g)))) in
    cpml_count (if three then dirs3D fs else dirs2D fs) BW g owned = Ok n /\
    cpml_memory (if three then dirs3D fs else dirs2D fs) numVec sz BW g owned = Ok (numVec * sz * n / 2 ^ 20).
Proof.
  intros g BW fs pp DH owned three numVec sz B P HD HB HP. set (dirs := if three then dirs3D fs else dirs2D fs).
  set (count := fun i => match cpml_count_point dirs BW g i with Ok n => n | _ => 0 end).
  assert (C : forall i, 0 <= i < nGridpoints g -> cpml_count_point dirs BW g i = Ok (count i) /\ pml_directions true three pp DH BW fs g i (count i)).
  { intros i Hi. destruct (point_frame g pp DH BW fs i B P HD HB Hi) as (c & k & l & Ec & (Hx & Hy & Hz) & Ek & El & Hl & F2 & F3). cbv zeta in F2, F3.
    assert (AX : forall N x low, 0 <= x < N -> cpml_count_axis ((BW + ldh l - 1) / ldh l) (ldh l) x (Z.min x (N - 1 - x)) (negb low) = Ok (b2z (inFrame BW (ldh l) N x low))).
    { intros N x low Hxx. unfold cpml_count_axis, inFrame. cbv zeta. rewrite !quot_div by lia. cbn [bind].
      destruct (_ <? _); cbn [andb]; [|reflexivity]. destruct (x / ldh l <? _); cbn [negb orb]; destruct low; reflexivity. }
    assert (E : cpml_count_point dirs BW g i = Ok (if three then b2z (inFrame BW (ldh l) (gNX g) (cx c) true) + (b2z (inFrame BW (ldh l) (gNY g) (cy c) (fs =? 0)) + (b2z (inFrame BW (ldh l) (gNZ g) (cz c) true) + 0))
          else b2z (inFrame BW (ldh l) (gNX g) (cx c) true) + (b2z (inFrame BW (ldh l) (gNY g) (cy c) (fs =? 0)) + 0))).
    { unfold cpml_count_point. rewrite Ec. cbn [bind]. rewrite Ek. cbn [bind]. rewrite edge_distance_ok by assumption. cbn [bind]. rewrite El. cbn [bind].
      unfold pml_width. replace (ldh l =? 0) with false by lia. cbn [bind]. rewrite width_eq by exact Hl.
      assert (A1 := AX (gNX g) (cx c) true Hx). assert (A2 := AX (gNY g) (cy c) (fs =? 0) Hy). assert (A3 := AX (gNZ g) (cz c) true Hz). cbn [negb] in A1, A3.
      unfold dirs. destruct three; cbn [dirs3D dirs2D cx cy cz]; rewrite A1; cbn [bind]; rewrite A2; cbn [bind]; try rewrite A3; reflexivity. }
    unfold count. rewrite E. split; [reflexivity|]. unfold pml_directions. destruct three; assumption. }
  exists count. split; [intros i Hi; apply C; exact Hi|]. cbv zeta.
  assert (E : cpml_count dirs BW g owned = Ok (zsum (map count (zseq 0 (Z.to_nat (nGridpoints g)))))).
  { unfold cpml_count. rewrite count_all_concat.
    assert (G : forall l, (forall i, In i l -> cpml_count_point dirs BW g i = Ok (count i)) -> count_owned (cpml_count_point dirs BW g) l = Ok (zsum (map count l))).
    { induction l as [|a l IH]; intros H; [reflexivity|]. cbn [count_owned map zsum fold_right]. rewrite H by (left; reflexivity). cbn [bind].
      rewrite IH by (intros; apply H; right; assumption). reflexivity. }
    rewrite G. 2:{ intros i Hi. apply C. apply (Permutation_in _ HP) in Hi. apply zseq_in in Hi. lia. }
    f_equal. assert (PZ : forall l l', Permutation l l' -> zsum (map count l) = zsum (map count l')).
    { intros l l' HH. induction HH; unfold zsum in *; cbn in *; lia. }
    apply PZ. exact HP. }
  split; [exact E|]. unfold cpml_memory. rewrite E. cbn [bind]. do 2 f_equal. lia.
Qed.
Example C152_ex : exists g, mk_regular 6 6 1 = Ok g /\ cpml_count (dirs2D 0) 1 g [zseq 0 20; zseq 20 16] = Ok 24 /\
  cpml_memory (dirs2D 0) 6 8 1 g [zseq 0 20; zseq 20 16] = Ok 0.
Proof. eexists. split; [reflexivity|]. split; vm_compute; reflexivity. Qed.

Print Assumptions C151_weights.
Print Assumptions C151_partition_of_unity.
Print Assumptions C151_missing_refuted.
Print Assumptions C151_order_refuted.
Print Assumptions C152_memory.

(** Objects with porosity, saturation and rock matrix: C133 (acoustic class), C134 (copies, sums, assignment), C135 (thresholds), C136
    (variable grids), C137 (per-shot models). *)
From Coq Require Import Reals Lra Psatz.
From Verif Require Import Base M_Grid M_Average M_Common M_Model M_ModelEM M_Petro S_Model S_ModelEM S_Petro L_AcqFile L_Acq2 L_Acq L_Grid L_Average L_Average2 L_Average3 L_Model L_Model2 L_ModelEM L_ModelEM2 L_ModelEM3 L_Petro L_Petro2 P_Average P_Model P_Model2 P_ModelEM3 P_Petro P_Petro2.
Open Scope Z_scope.

Lemma zip_throw {A B C} (f : A -> B -> C) a b : length a <> length b -> zipR f a b = Throw.
Proof.
  revert b. induction a as [|x a IH]; intros [|y b] L; cbn in L |- *; try reflexivity; [lia|]. rewrite IH by lia. reflexivity.
Qed.

(** C133: the acoustic class has the three conversions but they do nothing, so that its rock matrix stays empty; a petrophysical
    parameterisation then makes prepareForModelling throw for every non-empty model. *)
Theorem C133_acoustic : forall o, calcRockMatrix Acoustic o = Ok o /\ fromPetrophysics Acoustic o = Ok o /\ toPetrophysics Acoustic o = Ok o.
Proof. intros o. repeat split. Qed.
Theorem C133_prepare : forall k g o, hasP k = true ->
  (parameterisation o = 1 \/ parameterisation o = 2) -> length (kMa (pet o)) <> length (porosity (pet o)) ->
  (exists m, prepareForModelling k g (base o) = Ok m) -> prepareRock k g o = Throw.
Proof.
  intros k g o HP Z L (m&E). unfold prepareRock. rewrite E. cbn [bind]. rewrite HP.
  assert (petrophysical (parameterisation o) = true) as -> by (unfold petrophysical; destruct Z as [->| ->]; reflexivity). cbn [andb].
  enough (bulkModulusM (porosity (pet o)) (saturation (pet o)) (kMa (pet o)) = Throw) as -> by reflexivity. unfold bulkModulusM.
  destruct (Nat.eq_dec (length (porosity (pet o))) (length (saturation (pet o)))) as [Q|Q].
  - destruct (zip_ex fdiv (porosity (pet o)) (bulkModulusKf (saturation (pet o))) _ eq_refl ltac:(rewrite kf_len; auto)) as (q&->&Lq&_). cbn [bind].
    destruct (zip_ex Rminus (biot (porosity (pet o))) (porosity (pet o)) (length (porosity (pet o))) (biot_len _) eq_refl) as (d&->&Ld&_). cbn [bind].
    rewrite zip_throw by lia. reflexivity.
  - rewrite zip_throw by (rewrite kf_len; exact Q). reflexivity.
Qed.
(** With moduli of the right size it succeeds whenever the rest of the preparation does, and changes nothing else. *)
Theorem C133_prepared : forall k g o n m, prepareForModelling k g (base o) = Ok m ->
  length (porosity (pet o)) = n -> length (saturation (pet o)) = n -> length (kMa (pet o)) = n ->
  prepareRock k g o = Ok (withBase o m).
Proof.
  intros k g o n m E L1 L2 L3. unfold prepareRock. rewrite E. cbn [bind]. destruct (M_ex _ _ _ n L1 L2 L3) as (M&->&_).
  destruct (_ && _); reflexivity.
Qed.
Print Assumptions C133_acoustic.
Print Assumptions C133_prepare.
Print Assumptions C133_prepared.
Example C133_case : exists g m, mk_regular 2 2 1 = Ok g /\ let o := mkRock (fresh (mkP [5; 5; 5; 5]%R [] [3; 3; 3; 3]%R [] [] [] 0 None)) (mkPet [0; 0; 0; 0]%R [0; 0; 0; 0]%R [] [] [] []) 1 in
  prepareForModelling Acoustic g (base o) = Ok m /\ length (kMa (pet o)) <> length (porosity (pet o)).
Proof.
  set (p := mkP [5; 5; 5; 5]%R [] [3; 3; 3; 3]%R [] [] [] 0 None).
  assert (G : exists g, mk_regular 2 2 1 = Ok g) by (eexists; reflexivity). destruct G as (g&G).
  destruct (C88_available Acoustic 2 2 1 g p [] (fresh p) [] G eq_refl eq_refl) as (m1&E&_). { repeat split; intros; try reflexivity; discriminate. }
  cbn in E. apply bind_ok in E as (m&E&_). exists g, m. split; [exact G|]. cbn. split; [exact E|discriminate].
Qed.

(** C134: the copy constructor, and with it every sum of two objects, loses the rock matrix: the conversion to velocities, which
    works on the original, throws on the copy. *)
Theorem C134_copy : forall k o n, k <> Acoustic -> matrix_sized k n (pet o) -> (0 < n)%nat ->
  (exists o', fromPetrophysics k o = Ok o') /\ rhoMa (pet (copyRock k o)) = [] /\ muMa (pet (copyRock k o)) = [] /\ kMa (pet (copyRock k o)) = [] /\
  porosity (pet (copyRock k o)) = porosity (pet o) /\ saturation (pet (copyRock k o)) = saturation (pet o) /\ reflectivity (pet (copyRock k o)) = reflectivity (pet o) /\
  fromPetrophysics k (copyRock k o) = Throw.
Proof.
  intros k o n Hk Sz Hn. destruct (C127_medium k o n Hk Sz) as (o'&E&_). split; [eauto|]. do 6 (split; [reflexivity|]).
  destruct Sz as (L1&L2&_). unfold fromPetrophysics, copyRock. cbn [pet porosity saturation rhoMa]. destruct (pore_ex _ _ n L1 L2) as (w&->&_&_). cbn [bind].
  rewrite (zip_throw Rmult (map _ _) []) by (rewrite map_length, L1; cbn; lia). destruct k; try congruence; reflexivity.
Qed.
Theorem C134_sum : forall k o q r s, plusRock k o q r = Ok s -> rhoMa (pet s) = [] /\ muMa (pet s) = [] /\ kMa (pet s) = [] /\
  length (porosity (pet s)) = length (porosity (pet o)) /\ length (saturation (pet s)) = length (saturation (pet o)) /\
  (forall i x y, pt (porosity (pet o)) i x -> pt (porosity r) i y -> pt (porosity (pet s)) i (x + y)%R) /\
  (forall i x y, pt (saturation (pet o)) i x -> pt (saturation r) i y -> pt (saturation (pet s)) i (x + y)%R) /\
  (k <> Acoustic -> porosity (pet o) <> [] -> length (saturation (pet o)) = length (porosity (pet o)) -> fromPetrophysics k s = Throw).
Proof.
  intros k o q r s H. unfold plusRock in H. apply bind_ok in H as (p&_&H). apply bind_ok in H as (t&E&H). injection H as <-. unfold combinePet in E. cbn [pet porosity saturation reflectivity rhoMa muMa kMa copyRock] in E |- *.
  apply bind_ok in E as (a&Ea&E). apply bind_ok in E as (b&Eb&E). apply bind_ok in E as (c&Ec&E). injection E as <-. cbn [pet porosity saturation reflectivity rhoMa muMa kMa].
  apply zipR_at in Ea as (A1&A2&A3). apply zipR_at in Eb as (B1&B2&B3).
  do 3 (split; [reflexivity|]). split; [exact A2|]. split; [exact B2|].
  split; [unfold pt; intros i x y Hx Hy; rewrite A3, Hx, Hy; reflexivity|]. split; [unfold pt; intros i x y Hx Hy; rewrite B3, Hx, Hy; reflexivity|].
  intros Hk Ne Ls. unfold fromPetrophysics. cbn [pet porosity saturation rhoMa].
  destruct (pore_ex a b (length a)) as (w&->&_&_); [reflexivity|lia|]. cbn [bind].
  rewrite (zip_throw Rmult (map _ _) []) by (rewrite map_length, A2; destruct (porosity (pet o)); [congruence|discriminate]). destruct k; try congruence; reflexivity.
Qed.
(** Assignment takes over what the class needs: the conversion gives the same result as on the original. *)
Theorem C134_assign : forall k o s, k <> Acoustic ->
  porosity (assignPet k (pet o) (pet s)) = porosity (pet s) /\ saturation (assignPet k (pet o) (pet s)) = saturation (pet s) /\
  rhoMa (assignPet k (pet o) (pet s)) = rhoMa (pet s) /\ muMa (assignPet k (pet o) (pet s)) = muMa (pet s) /\ (hasP k = true -> kMa (assignPet k (pet o) (pet s)) = kMa (pet s)) /\
  forall n, matrix_sized k n (pet s) -> exists a b, fromPetrophysics k s = Ok a /\ fromPetrophysics k (withPet s (assignPet k (pet o) (pet s))) = Ok b /\ base b = base a.
Proof.
  intros k o s Hk. assert (KE : hasP k = true -> kMa (assignPet k (pet o) (pet s)) = kMa (pet s)) by (destruct k; try discriminate; auto; congruence).
  assert (R1 : rhoMa (assignPet k (pet o) (pet s)) = rhoMa (pet s)) by (destruct k; try congruence; reflexivity).
  assert (R2 : muMa (assignPet k (pet o) (pet s)) = muMa (pet s)) by (destruct k; try congruence; reflexivity).
  do 2 (split; [reflexivity|]). do 3 (split; [assumption|]). intros n Sz. destruct (from_ex k s n Hk Sz) as (d&vs&vp&E&_). set (X := let m := _ in if hasP k then _ else m) in E.
  exists (withBase s X), (withBase (withPet s (assignPet k (pet o) (pet s))) X). split; [exact E|]. split; [|reflexivity]. destruct (hasP k) eqn:HP.
  - assert (withPet s (assignPet k (pet o) (pet s)) = s) as -> by (destruct k; try discriminate; try congruence; destruct s as [m [? ? ? ? ? ?] z]; reflexivity).
    exact E.
  - destruct k; try discriminate; try congruence; unfold fromPetrophysics in E |- *; cbn [pet porosity saturation rhoMa muMa withPet assignPet hasP] in E |- *.
    + apply bind_ok in E as (x1&E1&E). rewrite E1. cbn [bind]. apply bind_ok in E as (x2&E2&E). rewrite E2. cbn [bind]. apply bind_ok in E as (x3&E3&E). rewrite E3. cbn [bind].
      apply bind_ok in E as (x4&E4&E). rewrite E4. cbn [bind]. apply bind_ok in E as (x5&E5&E). rewrite E5. cbn [bind] in E |- *. apply (f_equal (fun r => match r with Ok x => base x | _ => base s end)) in E. cbn [base withBase] in E. unfold withBase at 1 2. cbn [base withPet parameterisation pet]. rewrite E. reflexivity.
    + apply bind_ok in E as (x1&E1&E). rewrite E1. cbn [bind]. apply bind_ok in E as (x2&E2&E). rewrite E2. cbn [bind]. apply bind_ok in E as (x3&E3&E). rewrite E3. cbn [bind].
      apply bind_ok in E as (x4&E4&E). rewrite E4. cbn [bind]. apply bind_ok in E as (x5&E5&E). rewrite E5. cbn [bind] in E |- *. apply (f_equal (fun r => match r with Ok x => base x | _ => base s end)) in E. cbn [base withBase] in E. unfold withBase at 1 2. cbn [base withPet parameterisation pet]. rewrite E. reflexivity.
Qed.
(** Scaling and linear combinations act on porosity, saturation and reflectivity and leave the rock matrix as it is. *)
Theorem C134_scale : forall p c, rhoMa (scalePet p c) = rhoMa p /\ muMa (scalePet p c) = muMa p /\ kMa (scalePet p c) = kMa p /\
  (forall i x, pt (porosity p) i x -> pt (porosity (scalePet p c)) i (x * c)%R) /\ (forall i x, pt (saturation p) i x -> pt (saturation (scalePet p c)) i (x * c)%R) /\
  (forall i x, at_ (reflectivity p) i x -> at_ (reflectivity (scalePet p c)) i (x * c)%R) /\
  length (porosity (scalePet p c)) = length (porosity p) /\ length (saturation (scalePet p c)) = length (saturation p) /\ length (reflectivity (scalePet p c)) = length (reflectivity p).
Proof.
  intros p c. do 3 (split; [reflexivity|]). split; [intros i x; apply (mp (fun x => x * c)%R)|]. split; [intros i x; apply (mp (fun x => x * c)%R)|].
  split; [intros i x H; unfold at_ in *; cbn; rewrite map_at, H; reflexivity|]. cbn. rewrite !map_length. auto.
Qed.
Theorem C134_combine : forall f h p q r, combinePet f h p q = Ok r -> rhoMa r = rhoMa p /\ muMa r = muMa p /\ kMa r = kMa p /\
  length (porosity r) = length (porosity p) /\ length (saturation r) = length (saturation p) /\
  (forall i x y, pt (porosity p) i x -> pt (porosity q) i y -> pt (porosity r) i (f x y)) /\
  (forall i x y, pt (saturation p) i x -> pt (saturation q) i y -> pt (saturation r) i (f x y)) /\
  (forall i x y, nth_error (reflectivity p) i = Some x -> nth_error (reflectivity q) i = Some y -> nth_error (reflectivity r) i = Some (h x y)).
Proof.
  intros f h p q r E. unfold combinePet in E. apply bind_ok in E as (a&Ea&E). apply bind_ok in E as (b&Eb&E). apply bind_ok in E as (c&Ec&E). injection E as <-.
  apply zipR_at in Ea as (A1&A2&A3). apply zipR_at in Eb as (B1&B2&B3). apply zipR_at in Ec as (C1&C2&C3). cbn. unfold pt. do 3 (split; [reflexivity|]). split; [exact A2|]. split; [exact B2|].
  split; [intros i x y Hx Hy; rewrite A3, Hx, Hy; reflexivity|]. split; [intros i x y Hx Hy; rewrite B3, Hx, Hy; reflexivity|]. intros i x y Hx Hy. rewrite C3, Hx, Hy. reflexivity.
Qed.
Print Assumptions C134_copy.
Print Assumptions C134_sum.
Print Assumptions C134_assign.
Print Assumptions C134_scale.
Print Assumptions C134_combine.
Example C134_case : let o := mkRock (fresh (mkP [] [1500]%R [2200]%R [] [] [] 0 None)) (mkPet [(1/5)%R] [(1/2)%R] [Num 0] [2650%R] [1%R] []) 1 in
  matrix_sized SH 1 (pet o) /\ exists s, plusRock SH o (par (base o)) (pet o) = Ok s.
Proof. cbn. split; [repeat split; auto; discriminate|]. eexists. reflexivity. Qed.

(** C135: thresholds of porosity, saturation and reflectivity.  The mask is the velocity of the class (P for acoustic, S otherwise): where
    it is zero the three quantities are set to zero; elsewhere they are limited when the configuration asks for it, else kept. *)
Definition mask_velocity (k : kind) (p : params) : list R := match k with Acoustic => vP p | _ => vS p end.
Lemma mask_pt v i x : pt v i x -> pt (mask v) i (if Req_EM_T x 0 then 0 else 1)%R.
Proof. apply mp. Qed.
Lemma clipR_pt lo up v i x : (lo <= up)%R -> pt v i x -> exists y, pt (clipR lo up v) i y /\ clipped lo up x y.
Proof.
  intros L H. eexists. split; [apply (mp (fun x => if Rlt_dec up x then up else x)), (mp (fun x => if Rlt_dec x lo then lo else x)), H|].
  unfold clipped, within. destruct (Rlt_dec x lo); [destruct (Rlt_dec up lo); lra|destruct (Rlt_dec up x); lra].
Qed.
Lemma clipR_len lo up v : length (clipR lo up v) = length v. Proof. unfold clipR. rewrite !map_length. reflexivity. Qed.
Lemma limit_num lo up v i x : (lo <= up)%R -> at_ v i x -> exists y, at_ (limit lo up v) i y /\ clipped lo up x y.
Proof.
  intros L H. unfold at_, limit, lower, raise in *. rewrite !map_at, H. cbn. destruct (Rlt_dec x lo); cbn.
  - destruct (Rlt_dec up lo); [lra|]. exists lo. split; [reflexivity|]. unfold clipped, within. lra.
  - destruct (Rlt_dec up x); eexists; (split; [reflexivity|]); unfold clipped, within; lra.
Qed.
Definition ordered_petro (u : petroTh) : Prop :=
  match phiTh u with Some (l, h, l', h') => (l <= h /\ l' <= h')%R | None => True end /\ match refTh u with Some (l, h) => (l <= h)%R | None => True end.
Definition limited (b : option (R * R)) (x y : R) : Prop := match b with Some (l, h) => clipped l h x y | None => y = x end.
Definition phi_bounds (u : petroTh) : option (R * R) := match phiTh u with Some (l, h, _, _) => Some (l, h) | None => None end.
Definition sat_bounds (u : petroTh) : option (R * R) := match phiTh u with Some (_, _, l, h) => Some (l, h) | None => None end.
Theorem C135_thresholds : forall k t u o n, ordered t -> ordered_petro u -> sized k n (par (base o)) ->
  length (porosity (pet o)) = n -> length (saturation (pet o)) = n -> length (reflectivity (pet o)) = n ->
  exists o', thresholdRock k t u o = Ok o' /\ thresholdParams k t (par (base o)) = Ok (par (base o')) /\
    parameterisation o' = parameterisation o /\ rhoMa (pet o') = rhoMa (pet o) /\ muMa (pet o') = muMa (pet o) /\ kMa (pet o') = kMa (pet o) /\
    length (porosity (pet o')) = n /\ length (saturation (pet o')) = n /\ length (reflectivity (pet o')) = n /\
    forall i v x y, pt (mask_velocity k (par (base o))) i v -> pt (porosity (pet o)) i x -> pt (saturation (pet o)) i y ->
      (v = 0%R -> pt (porosity (pet o')) i 0%R /\ pt (saturation (pet o')) i 0%R /\ forall z, at_ (reflectivity (pet o)) i z -> at_ (reflectivity (pet o')) i 0%R) /\
      (v <> 0%R -> (exists x', pt (porosity (pet o')) i x' /\ limited (phi_bounds u) x x') /\ (exists y', pt (saturation (pet o')) i y' /\ limited (sat_bounds u) y y') /\
                 forall z, at_ (reflectivity (pet o)) i z -> exists z', at_ (reflectivity (pet o')) i z' /\ limited (refTh u) z z').
Proof.
  intros k t u o n Ot (Ou1&Ou2) Sz L1 L2 L3. destruct (threshold_points k t (par (base o)) n Ot Sz) as (q&Eq1&_).
  assert (Lm : length (mask_velocity k (par (base o))) = n) by (destruct Sz as (_&S1&S2); destruct k; cbn in *; auto).
  set (m := mask (mask_velocity k (par (base o)))). assert (Lm' : length m = n) by (unfold m, mask; rewrite map_length; exact Lm).
  set (A := match phiTh u with Some (l, h, _, _) => clipR l h (porosity (pet o)) | None => porosity (pet o) end).
  set (B := match phiTh u with Some (_, _, l, h) => clipR l h (saturation (pet o)) | None => saturation (pet o) end).
  set (C := match refTh u with Some (l, h) => limit l h (reflectivity (pet o)) | None => reflectivity (pet o) end).
  assert (LA : length A = n) by (unfold A; destruct (phiTh u) as [(((l&h)&l')&h')|]; rewrite ?clipR_len; exact L1).
  assert (LB : length B = n) by (unfold B; destruct (phiTh u) as [(((l&h)&l')&h')|]; rewrite ?clipR_len; exact L2).
  assert (LC : length C = n) by (unfold C; destruct (refTh u) as [(l&h)|]; rewrite ?limit_len; exact L3).
  destruct (zip_ex Rmult A m n LA Lm') as (a&Ea&La&Pa). destruct (zip_ex Rmult B m n LB Lm') as (b&Eb&Lb&Pb).
  destruct (zip_ex fmul C (fp m) n LC ltac:(rewrite fp_len; exact Lm')) as (c&Ec&Lc&Pc).
  exists (mkRock (flagAll k (base o) q) (mkPet a b c (rhoMa (pet o)) (muMa (pet o)) (kMa (pet o))) (parameterisation o)). split.
  { unfold thresholdRock. rewrite Eq1. cbn [bind]. fold A B C. change (mask (match k with Acoustic => vP (par (base o)) | _ => vS (par (base o)) end)) with m.
    rewrite Ea. cbn [bind]. rewrite Eb. cbn [bind]. rewrite Ec. reflexivity. }
  cbn [base pet par flagAll flag parameterisation rhoMa muMa kMa porosity saturation reflectivity]. split; [exact Eq1|]. do 4 (split; [reflexivity|]). do 3 (split; [assumption|]).
  intros i v x y Hv Hx Hy. pose proof (mask_pt _ _ _ Hv) as Hm. fold m in Hm.
  assert (XA : exists x', pt A i x' /\ limited (phi_bounds u) x x').
  { unfold A, phi_bounds. destruct (phiTh u) as [(((l&h)&l')&h')|]; [apply clipR_pt; [apply Ou1|exact Hx]|]. exists x. split; [exact Hx|reflexivity]. }
  assert (YB : exists y', pt B i y' /\ limited (sat_bounds u) y y').
  { unfold B, sat_bounds. destruct (phiTh u) as [(((l&h)&l')&h')|]; [apply clipR_pt; [apply Ou1|exact Hy]|]. exists y. split; [exact Hy|reflexivity]. }
  assert (ZC : forall z, at_ (reflectivity (pet o)) i z -> exists z', at_ C i z' /\ limited (refTh u) z z').
  { intros z Hz. unfold C. destruct (refTh u) as [(l&h)|]; [apply limit_num; assumption|]. exists z. split; [exact Hz|reflexivity]. }
  destruct XA as (x'&XA&XB), YB as (y'&YA&YB). unfold pt, at_ in *. destruct (Req_EM_T v 0) as [Z|Z]; (split; [intros V|intros V]); try congruence.
  - split; [rewrite (Pa _ _ _ XA Hm); f_equal; ring|]. split; [rewrite (Pb _ _ _ YA Hm); f_equal; ring|]. intros z Hz. destruct (ZC z Hz) as (z'&HC&_).
    rewrite (Pc _ _ _ HC (fp_pt _ _ _ Hm)). cbn. do 2 f_equal. ring.
  - split; [exists x'; split; [rewrite (Pa _ _ _ XA Hm); f_equal; ring|exact XB]|]. split; [exists y'; split; [rewrite (Pb _ _ _ YA Hm); f_equal; ring|exact YB]|].
    intros z Hz. destruct (ZC z Hz) as (z'&HC&HL). exists z'. split; [|exact HL]. rewrite (Pc _ _ _ HC (fp_pt _ _ _ Hm)). cbn. do 2 f_equal. ring.
Qed.
Print Assumptions C135_thresholds.
Example C135_case : let o := mkRock (fresh (mkP [3000; 1500]%R [1500; 0]%R [2200; 1000]%R [] [] [] 0 None)) (mkPet [2; 1]%R [0; 1]%R [Num 0; Num 1] [] [] []) 1 in
  ordered (mkT 1000 6000 200 4000 1000 4000 (3/2) 6) /\ ordered_petro (mkPT (Some (0, 1, 0, 1)%R) None) /\ sized Elastic 2 (par (base o)).
Proof. cbn. unfold ordered, ordered_petro, sized; cbn. repeat split; auto; lra. Qed.

(** C136: the conversion of a model to a variable grid resamples density and velocities only; porosity, saturation and reflectivity keep
    the size of the regular grid, so that applyThresholds throws whenever the two grids have different numbers of points. *)
Lemma mesh_lens var reg W : meshingMatrix var reg = Ok W -> mcols W = nGridpoints reg /\ length (mrows W) = Z.to_nat (nGridpoints var).
Proof.
  unfold meshingMatrix, fill. intros H. apply bind_ok in H as (x&E&H). injection H as <-. cbn. split; [reflexivity|].
  assert (G : forall f l r, mapres f l = Ok (r : list row) -> length r = @length Z l).
  { intros f. induction l as [|a l IH]; intros r F; cbn in F; [injection F as <-; reflexivity|]. apply bind_ok in F as (b&_&F). apply bind_ok in F as (c&Fc&F). injection F as <-. cbn. f_equal. auto. }
  rewrite (G _ _ _ E). clear. generalize 0 at 1. induction (Z.to_nat (nGridpoints var)) as [|k IH]; intros a; cbn; [reflexivity|]. f_equal. apply IH.
Qed.
Theorem C136_variable : forall k var reg o o', toVariableGrid k var reg o = Ok o' ->
  pet o' = pet o /\ length (rho (par (base o'))) = Z.to_nat (nGridpoints var) /\ length (vP (par (base o'))) = Z.to_nat (nGridpoints var) /\
  (hasS k = true -> length (vS (par (base o'))) = Z.to_nat (nGridpoints var)) /\
  forall t u, ordered t -> length (porosity (pet o)) <> Z.to_nat (nGridpoints var) -> thresholdRock k t u o' = Throw.
Proof.
  intros k var reg o o' H. unfold toVariableGrid in H. apply bind_ok in H as (W&EW&H). apply bind_ok in H as (d&Ed&H). apply bind_ok in H as (v&Ev&H). apply bind_ok in H as (s&Es&H). injection H as <-.
  destruct (mesh_lens _ _ _ EW) as (_&LW).
  assert (ML : forall a b, matvec W a = Ok b -> length b = Z.to_nat (nGridpoints var)).
  { intros a b F. unfold matvec in F. destruct (_ =? _); [|discriminate]. injection F as <-. rewrite map_length. exact LW. }
  cbn [base pet par flag rho vP vS withBase].
  assert (Ls : hasS k = true -> length s = Z.to_nat (nGridpoints var)) by (intros K; rewrite K in Es; eauto).
  split; [reflexivity|]. split; [eauto|]. split; [eauto|]. split; [exact Ls|].
  intros t u Ot Lp. unfold thresholdRock. cbn [base pet par flag withBase]. set (p := mkP _ _ _ _ _ _ _ _).
  destruct (threshold_points k t p (Z.to_nat (nGridpoints var)) Ot) as (q&->&_); [repeat split; cbn; eauto|]. cbn [bind].
  rewrite zip_throw; [reflexivity|]. unfold mask. rewrite map_length.
  replace (length (match k with Acoustic => vP p | _ => vS p end)) with (Z.to_nat (nGridpoints var)).
  - destruct (phiTh u) as [(((l&h)&l')&h')|]; rewrite ?clipR_len; exact Lp.
  - symmetry. destruct k; cbn; eauto.
Qed.
Print Assumptions C136_variable.
(** Every point of the variable grid takes over the density and velocities of the point of the regular grid with the same coordinates. *)
Lemma mapres_nth {A B} (f : A -> res B) : forall l r i a, mapres f l = Ok r -> nth_error l i = Some a -> exists b, f a = Ok b /\ nth_error r i = Some b.
Proof.
  induction l as [|a l IH]; intros r [|i] x F H; cbn in F, H; try discriminate; apply bind_ok in F as (b&Fb&F); apply bind_ok in F as (c&Fc&F); injection F as <-.
  - injection H as <-. exists b. split; [exact Fb|reflexivity].
  - exact (IH c i x Fc H).
Qed.
Theorem C136_same_point : forall k var reg o o', toVariableGrid k var reg o = Ok o' -> forall i, 0 <= i < nGridpoints var ->
  exists c j, index2coordinate var i = Ok c /\ coordinate2index reg c = Ok j /\
    pt (rho (par (base o'))) (Z.to_nat i) (nth (Z.to_nat j) (rho (par (base o))) 0%R) /\
    pt (vP (par (base o'))) (Z.to_nat i) (nth (Z.to_nat j) (vP (par (base o))) 0%R) /\
    (hasS k = true -> pt (vS (par (base o'))) (Z.to_nat i) (nth (Z.to_nat j) (vS (par (base o))) 0%R)).
Proof.
  intros k var reg o o' H i Hi. unfold toVariableGrid in H. apply bind_ok in H as (W&EW&H). apply bind_ok in H as (d&Ed&H). apply bind_ok in H as (v&Ev&H). apply bind_ok in H as (s&Es&H). injection H as <-.
  unfold meshingMatrix, fill in EW. apply bind_ok in EW as (rs&ER&EW). injection EW as <-.
  assert (Zi : nth_error (zseq 0 (Z.to_nat (nGridpoints var))) (Z.to_nat i) = Some i).
  { clear -Hi. assert (G : forall n a j, (j < n)%nat -> nth_error (zseq a n) j = Some (a + Z.of_nat j)).
    { induction n as [|n IH]; intros a [|j] L; cbn; try lia; [f_equal; lia|]. rewrite IH by lia. f_equal. lia. }
    rewrite G by lia. f_equal. lia. }
  destruct (mapres_nth _ _ _ _ _ ER Zi) as (r&Er&Hr). apply bind_ok in Er as (r0&Er0&Er). injection Er as <-.
  unfold meshingRow in Er0. apply bind_ok in Er0 as (c&Ec&Er0). apply bind_ok in Er0 as (j&Ej&Er0). injection Er0 as <-. exists c, j. split; [exact Ec|]. split; [exact Ej|].
  assert (MV : forall a b, matvec (mkMat (nGridpoints reg) rs) a = Ok b -> pt b (Z.to_nat i) (nth (Z.to_nat j) a 0%R)).
  { intros a b F. unfold matvec in F. destruct (_ =? _); [|discriminate]. injection F as <-. unfold pt. cbn [mrows]. rewrite nth_error_map, Hr. cbn. f_equal. ring. }
  cbn [base pet par flag rho vP vS withBase]. split; [auto|]. split; [auto|]. intros K. rewrite K in Es. auto.
Qed.
Print Assumptions C136_same_point.
(** Two layers, the lower one with coarser cells, on top of a regular grid. *)
Example C136_case : exists var reg o', init_variable 100 3 6 1 [1; 3] [3] = Ok var /\ mk_regular 3 6 1 = Ok reg /\
  let v := repeat 1%R 18 in toVariableGrid Acoustic var reg (mkRock (fresh (mkP v [] v [] [] [] 0 None)) (mkPet v v (map Num v) [] [] []) 0) = Ok o' /\
  length (porosity (pet o')) <> Z.to_nat (nGridpoints var).
Proof.
  eexists. eexists. eexists. split; [vm_compute; reflexivity|]. split; [vm_compute; reflexivity|]. cbv zeta. split; [unfold toVariableGrid|]. 
  - match goal with |- context [meshingMatrix ?a ?b] => let w := eval vm_compute in (meshingMatrix a b) in change (meshingMatrix a b) with w end.
    cbn [bind base par fresh rho vP hasS]. unfold matvec. cbn [mcols repeat length]. reflexivity.
  - cbn. discriminate.
Qed.

(** C137: the per-shot model: porosity, saturation, reflectivity and, with a petrophysical parameterisation, the rock matrix are the
    window of the big model.  The object handed over is the default-constructed one of the factory. *)
(** The parameterisation numbers that stand for porosity and saturation. *)
Definition petrophysical_number (n : Z) : bool := (1 <=? n) && (n <=? 2).
Lemma petro_number n : petrophysical n = petrophysical_number n.
Proof. unfold petrophysical, petrophysical_number. lia. Qed.
Definition noPet : petro := mkPet [] [] [] [] [] [].
Theorem C137_window : forall k nx ny nz mx my mz sub big cut o z,
  mk_regular mx my mz = Ok sub -> mk_regular nx ny nz = Ok big -> inside_window nx ny nz mx my mz cut ->
  let n := Z.to_nat (nx * ny * nz) in let ask := petrophysical_number (parameterisation o) in
  complete k n (par (base o)) -> length (porosity (pet o)) = n -> length (saturation (pet o)) = n ->
  length (reflectivity (pet o)) = n -> numbers (reflectivity (pet o)) ->
  (ask = true -> length (rhoMa (pet o)) = n /\ (hasS k = true -> length (muMa (pet o)) = n) /\ (hasP k = true -> length (kMa (pet o)) = n)) ->
  exists w ms s, shrinkMatrix sub big cut = Ok w /\ getModelPerShot k w (par (base o)) (fresh noParams) = Ok ms /\
    perShot k w o (mkRock (fresh noParams) noPet z) = Ok s /\ base s = ms /\ parameterisation s = z /\
    window_of nx nz mx my mz cut (porosity (pet o)) (porosity (pet s)) /\ window_of nx nz mx my mz cut (saturation (pet o)) (saturation (pet s)) /\
    fwindow nx nz mx my mz cut (reflectivity (pet o)) (reflectivity (pet s)) /\
    (if ask then window_of nx nz mx my mz cut (rhoMa (pet o)) (rhoMa (pet s)) else rhoMa (pet s) = []) /\
    (if ask && hasS k then window_of nx nz mx my mz cut (muMa (pet o)) (muMa (pet s)) else muMa (pet s) = []) /\
    (if ask && hasP k then window_of nx nz mx my mz cut (kMa (pet o)) (kMa (pet s)) else kMa (pet s) = []).
Proof.
  intros k nx ny nz mx my mz sub big cut o z Hs Hb I n ask Cp L1 L2 L3 Nr Lr. assert (Hask : petrophysical (parameterisation o) = ask) by apply petro_number.
  destruct (C92_window k _ _ _ _ _ _ _ _ _ _ Hs Hb I Cp) as (w&ms&E&G&_). exists w, ms. destruct I as (C1&C2&C3&C4&C5&C6).
  destruct (shrink_ok _ _ _ _ _ _ _ _ _ Hs Hb C1 C2 C3 C4 C5 C6) as (w'&E'&H). rewrite E in E'. injection E' as <-.
  pose proof (mk_regular_inv _ _ _ _ Hb) as (Qx&Qy&Qz).
  assert (N : 0 < nx * ny * nz) by (apply Z.mul_pos_pos; [apply Z.mul_pos_pos|]; lia).
  assert (W : forall v, length v = n -> exists u, matvec w v = Ok u /\ window_of nx nz mx my mz cut v u).
  { intros v Hv. unfold n in Hv. destruct (H v ltac:(lia)) as (u&Eu&Lu&Nu). exists u. split; [exact Eu|]. split; [exact Lu|]. exact Nu. }
  destruct (W _ L1) as (a&Ea&Wa). destruct (W _ L2) as (b&Eb&Wb).
  destruct (numbers_map _ Nr) as (l&El). assert (Ll : length l = n) by (rewrite El, map_length in L3; exact L3). destruct (W _ Ll) as (c&Ec&Wc).
  assert (Fc : fmatvec w (reflectivity (pet o)) = Ok (map Num c)) by (rewrite El, fmatvec_matvec, Ec; reflexivity).
  assert (X : exists x, (if ask && hasP k then matvec w (kMa (pet o)) else Ok (kMa noPet)) = Ok x /\ if ask && hasP k then window_of nx nz mx my mz cut (kMa (pet o)) x else x = []).
  { destruct (ask && hasP k) eqn:Q; [|eexists; split; reflexivity]. apply andb_prop in Q as (Q1&Q2). apply W, (Lr Q1), Q2. }
  assert (Y : exists x, (if ask && hasS k then matvec w (muMa (pet o)) else Ok (muMa noPet)) = Ok x /\ if ask && hasS k then window_of nx nz mx my mz cut (muMa (pet o)) x else x = []).
  { destruct (ask && hasS k) eqn:Q; [|eexists; split; reflexivity]. apply andb_prop in Q as (Q1&Q2). apply W, (Lr Q1), Q2. }
  assert (Z : exists x, (if ask then matvec w (rhoMa (pet o)) else Ok (rhoMa noPet)) = Ok x /\ if ask then window_of nx nz mx my mz cut (rhoMa (pet o)) x else x = []).
  { destruct ask eqn:Q; [|eexists; split; reflexivity]. apply W, (Lr eq_refl). }
  destruct X as (x&Ex&Wx), Y as (y&Ey&Wy), Z as (v&Ez&Wz). exists (mkRock ms (mkPet a b (map Num c) v y x) z). split; [exact E|]. split; [exact G|]. split.
  { unfold perShot. cbn [base pet]. rewrite G. cbn [bind]. rewrite Ea. cbn [bind]. rewrite Eb. cbn [bind]. rewrite Fc. cbn [bind]. rewrite Hask. rewrite Ex. cbn [bind]. rewrite Ey. cbn [bind]. rewrite Ez. reflexivity. }
  cbn. do 2 (split; [reflexivity|]). split; [exact Wa|]. split; [exact Wb|]. split; [|auto]. destruct Wc as (Lc&Nc). split; [rewrite map_length; exact Lc|].
  intros p q r Hp Hq Hr. rewrite El, !map_at. f_equal. apply Nc; assumption.
Qed.
Print Assumptions C137_window.
(** The conversion to velocities commutes with taking the window. *)
Theorem C137_commutes : forall k nx ny nz mx my mz sub big cut o z,
  k <> Acoustic -> mk_regular mx my mz = Ok sub -> mk_regular nx ny nz = Ok big -> inside_window nx ny nz mx my mz cut ->
  let n := Z.to_nat (nx * ny * nz) in petrophysical_number (parameterisation o) = true ->
  complete k n (par (base o)) -> matrix_sized k n (pet o) -> length (reflectivity (pet o)) = n -> numbers (reflectivity (pet o)) ->
  exists w s o' s', shrinkMatrix sub big cut = Ok w /\ perShot k w o (mkRock (fresh noParams) noPet z) = Ok s /\
    fromPetrophysics k o = Ok o' /\ fromPetrophysics k s = Ok s' /\
    window_of nx nz mx my mz cut (rho (par (base o'))) (rho (par (base s'))) /\ window_of nx nz mx my mz cut (vS (par (base o'))) (vS (par (base s'))) /\
    (hasP k = true -> window_of nx nz mx my mz cut (vP (par (base o'))) (vP (par (base s')))).
Proof.
  intros k nx ny nz mx my mz sub big cut o z Hk Hs Hb I n Ask Cp Sz Lr Nr. pose proof Sz as (L1&L2&L3&L4&L5).
  assert (HS : hasS k = true) by (destruct k; auto; congruence).
  destruct (C137_window k _ _ _ _ _ _ _ _ _ o z Hs Hb I Cp L1 L2 Lr Nr ltac:(auto)) as (w&ms&s&E&_&P&_&_&W1&W2&_&W3&W4&W5). rewrite Ask, HS in *. cbn [andb] in *.
  assert (Sz' : matrix_sized k (Z.to_nat (mx * my * mz)) (pet s)).
  { destruct W1 as (W1&_), W2 as (W2&_), W3 as (W3&_), W4 as (W4&_). repeat split; try lia. intros HP. rewrite HP in W5. destruct W5 as (W5&_). lia. }
  destruct (from_ex k o n Hk Sz) as (d&vs&vp&F1&D1&D2&D3&D4). destruct (from_ex k s _ Hk Sz') as (d'&vs'&vp'&F2&G1&G2&G3&G4).
  exists w, s. do 2 eexists. split; [exact E|]. split; [exact P|]. split; [exact F1|]. split; [exact F2|].
  pose proof (mk_regular_inv _ _ _ _ Hb) as (Qx&Qy&Qz). pose proof (mk_regular_inv _ _ _ _ Hs) as (Rx&Ry&Rz).
  assert (N : 0 < nx * ny * nz) by (apply Z.mul_pos_pos; [apply Z.mul_pos_pos|]; lia).
  assert (M : 0 < mx * my * mz) by (apply Z.mul_pos_pos; [apply Z.mul_pos_pos|]; lia).
  assert (V : forall x y c, 0 <= x < mx -> 0 <= y < my -> 0 <= c < mz -> let i := Z.to_nat (x + c * mx + y * mx * mz) in
     let j := Z.to_nat ((x + cx cut) + (c + cz cut) * nx + (y + cy cut) * nx * nz) in
     nth_error d' i = nth_error d j /\ nth_error vs' i = nth_error vs j /\ (hasP k = true -> nth_error vp' i = nth_error vp j)).
  { intros x y c Hx Hy Hc i j. destruct I as (C1&C2&C3&C4&C5&C6).
    pose proof (num_range nx ny nz (x + cx cut) (y + cy cut) (c + cz cut) ltac:(lia) ltac:(lia) ltac:(lia)) as R2. assert (Hj : (j < n)%nat) by (unfold j, n; lia).
    assert (Gt : forall v : list R, length v = n -> exists a, pt v j a). { intros v Lv. exists (nth j v 0%R). apply nth_error_nth'. lia. }
    destruct (Gt _ L1) as (phi&H1), (Gt _ L2) as (sa&H2), (Gt _ L3) as (rm&H3), (Gt _ L4) as (mm&H4).
    assert (T : forall big small a, window_of nx nz mx my mz cut big small -> pt big j a -> pt small i a).
    { intros bg sm a (_&Wn) Ha. unfold pt in *. rewrite <- Ha. apply Wn; assumption. }
    destruct (D4 j phi sa rm mm H1 H2 H3 H4) as (U1&U2&U3). destruct (G4 i phi sa rm mm ltac:(eauto) ltac:(eauto) ltac:(eauto) ltac:(eauto)) as (U4&U5&U6).
    unfold pt in *. split; [congruence|]. split; [congruence|]. intros HP. rewrite HP in W5. destruct (Gt _ (L5 HP)) as (km&H5).
    rewrite (U6 HP km), (U3 HP km); auto. exact (T _ _ _ W5 H5). }
  cbv zeta. destruct (hasP k) eqn:HP; cbn [base withBase par setVelocityP setVelocityS setDensity flag rho vS vP];
    (split; [split; [rewrite G1; lia|intros; apply V; assumption]|]); (split; [split; [rewrite G2; lia|intros; apply V; assumption]|]); intros K; try discriminate.
  split; [rewrite G3 by reflexivity; lia|]. intros. apply V; auto.
Qed.
Print Assumptions C137_commutes.
Example C137_case : exists sub big, mk_regular 2 1 1 = Ok sub /\ mk_regular 4 1 1 = Ok big /\ inside_window 4 1 1 2 1 1 (mkC 1 0 0) /\
  let v := [1; 2; 3; 4]%R in let o := mkRock (fresh (mkP v v v [] [] [] 0 None)) (mkPet v v (map Num v) v v v) 1 in
  complete Elastic 4 (par (base o)) /\ matrix_sized Elastic 4 (pet o) /\ numbers (reflectivity (pet o)) /\ petrophysical_number (parameterisation o) = true.
Proof.
  do 2 eexists. split; [reflexivity|]. split; [reflexivity|]. split; [unfold inside_window; cbn; lia|]. cbn. split; [repeat split; intros; try reflexivity; discriminate|].
  split; [repeat split; auto|]. split; [|reflexivity]. repeat constructor; eexists; reflexivity.
Qed.

(** C138: reflectivity of the seismic parameter classes on regular grids. *)
From Coq Require Import Reals Lra Psatz QArith Qreals Permutation.
From Verif Require Import Base M_Grid M_Deriv M_Prog M_Env M_Average M_Common M_Model M_ModelEM M_Petro S_Deriv S_Solver S_Average S_Model S_ModelEM S_Petro
  L_AcqFile L_Acq2 L_Acq L_Grid L_Deriv L_Deriv2 L_Average L_Average2 L_Average3 L_Model L_Model2 L_ModelEM L_ModelEM3 L_Petro L_Petro2 P_Average P_Model2.
Open Scope Z_scope.

(** The y-derivative matrix that getDyf returns (stencil matrix or assembled rows) on a regular grid, scaled for the time step. *)
Definition dyf_matrix (useStencil useVar : bool) (nx ny nz p : Z) (rest : list Z) (DH : Q) (DT : R) (fuel : nat) (g : grid) (D : matrix) : Prop :=
  mcols D = nx * ny * nz /\ Z.of_nat (length (mrows D)) = nx * ny * nz /\
  forall x y z, 0 <= x < nx -> 0 <= y < ny -> 0 <= z < nz -> let i := reg_index nx nz x y z in
    exists row, nth_error (mrows D) (Z.to_nat i) = Some row /\
      code_row (A := R_arith) useStencil (fun c => Q2R c * (DT / Q2R DH))%R (fun c => Q2R c * DT)%R (stencil_row p ny y) (fun Y => reg_index nx nz x Y z)
        (calcDyf fuel g (p :: rest) useVar false DH i) row.

Lemma vset_pt {A} (l : list A) i x : 0 <= i < Z.of_nat (length l) -> exists r, vset l i x = Ok r /\ length r = length l /\
  forall j, nth_error r j = if Nat.eqb j (Z.to_nat i) then Some x else nth_error l j.
Proof.
  intros H. unfold vset. replace ((0 <=? i) && (i <? Z.of_nat (length l))) with true by lia. eexists. split; [reflexivity|].
  assert (L : length (firstn (Z.to_nat i) l) = Z.to_nat i) by (rewrite firstn_length; lia). split.
  - rewrite app_length, L. cbn [length]. rewrite skipn_length. lia.
  - intros j. destruct (Nat.eqb_spec j (Z.to_nat i)) as [->|N].
    + rewrite nth_error_app2, L, Nat.sub_diag by lia. reflexivity.
    + destruct (Nat.lt_ge_cases j (Z.to_nat i)) as [Lt|Ge].
      * rewrite nth_error_app1 by lia. rewrite <- (firstn_skipn (Z.to_nat i) l) at 2. rewrite nth_error_app1 by lia. reflexivity.
      * rewrite nth_error_app2, L by lia. replace (j - Z.to_nat i)%nat with (S (j - Z.to_nat i - 1)) by lia. cbn [nth_error].
        rewrite <- (firstn_skipn (S (Z.to_nat i)) l) at 2. rewrite nth_error_app2 by (rewrite firstn_length; lia). f_equal. rewrite firstn_length. lia.
Qed.
Lemma silence_pt total n : forall a r, 0 <= a -> Z.of_nat (length r) = total -> a + Z.of_nat n <= total -> exists r', silence (zseq a n) total r = Ok r' /\ length r' = length r /\
  forall j, (j < length r)%nat -> nth_error r' j = if ((a <=? Z.of_nat j) && (Z.of_nat j <? a + Z.of_nat n)) || ((total - a - Z.of_nat n <=? Z.of_nat j) && (Z.of_nat j <? total - a)) then Some (Num 0) else nth_error r j.
Proof.
  induction n as [|n IH]; intros a r Ha L B; cbn [zseq silence].
  - exists r. split; [reflexivity|]. split; [reflexivity|]. intros j Hj. replace (_ || _) with false by lia. reflexivity.
  - destruct (vset_pt r a (Num 0)) as (r1&->&L1&P1); [lia|]. cbn [bind]. destruct (vset_pt r1 (total - a - 1) (Num 0)) as (r2&->&L2&P2); [lia|]. cbn [bind].
    destruct (IH (a + 1) r2) as (r3&E&L3&P3); [lia|lia|lia|]. exists r3. split; [exact E|]. split; [lia|]. intros j Hj. rewrite P3 by lia. rewrite P2, P1.
    destruct (Nat.eqb_spec j (Z.to_nat (total - a - 1))), (Nat.eqb_spec j (Z.to_nat a));
      repeat match goal with |- context [if ?b then _ else _] => destruct b eqn:? end; try reflexivity; exfalso; lia.
Qed.
Lemma silence_throw total n : forall a r, 0 <= a -> Z.of_nat (length r) = total -> total < a + Z.of_nat n -> a <= total -> silence (zseq a n) total r = Throw.
Proof.
  induction n as [|n IH]; intros a r Ha L B C; [lia|]. cbn [zseq silence]. destruct (Z.eq_dec a total) as [->|N].
  - unfold vset. replace (total <? Z.of_nat (length r)) with false by lia. rewrite andb_false_r. reflexivity.
  - destruct (vset_pt r a (Num 0)) as (r1&->&L1&P1); [lia|]. cbn [bind]. destruct (vset_pt r1 (total - a - 1) (Num 0)) as (r2&->&L2&P2); [lia|]. cbn [bind]. apply IH; lia.
Qed.

(** The weighted difference of a field along y, as the finite-difference stencil of order p takes it half a cell below y. *)
Definition difference (p : Z) (f : Z -> R) (y : Z) : R :=
  fold_right Rplus 0%R (map (fun j => (Q2R (stencil_at p j) * f (y - p / 2 + 1 + j)%Z)%R) (zseq 0 (Z.to_nat p))).

Lemma flat_one {A B} (f : A -> B) (g : A -> list B) l : (forall a, In a l -> g a = [f a]) -> flat_map g l = map f l.
Proof. induction l as [|a l IH]; intros H; [reflexivity|]. cbn. rewrite (H a (or_introl eq_refl)), IH; [reflexivity|]. intros b Hb. apply H. right. exact Hb. Qed.
Lemma quot_half k : Z.quot (2 * k) 2 = k. Proof. rewrite Z.mul_comm. apply Z.quot_mul. lia. Qed.
Lemma div_half k : 2 * k / 2 = k. Proof. rewrite Z.mul_comm. apply Z.div_mul. lia. Qed.

(** Interior rows: the same in both storage forms. *)
Lemma dyf_row us uv nx ny nz p rest DH DT fuel g D x y z : mk_regular nx ny nz = Ok g -> supported p -> 15 <= Z.of_nat fuel -> (0 < DH)%Q ->
  dyf_matrix us uv nx ny nz p rest DH DT fuel g D -> 0 <= x < nx -> 0 <= z < nz -> p / 2 - 1 <= y < ny - p / 2 ->
  nth_error (mrows D) (Z.to_nat (reg_index nx nz x y z)) =
    Some (map (fun j => (reg_index nx nz x (y - p / 2 + 1 + j) z, (Q2R (stencil_at p j) * (DT / Q2R DH))%R)) (zseq 0 (Z.to_nat p))).
Proof.
  intros Hg Hp Hf HD (_&_&HR) Hx Hz Hy. destruct (supported_even p Hp) as (k&->&Hk). rewrite div_half in *.
  destruct (HR x y z Hx ltac:(lia) Hz) as (row&E&C). cbv zeta in C. rewrite E. f_equal. unfold code_row in C. destruct us.
  - rewrite C. unfold stencil_entries, stencil_row. rewrite quot_half.
    rewrite (flat_one (fun j => (y + j - (k - 1), stencil_at (2 * k) j))).
    + rewrite map_map. apply map_ext. intros j. cbn [fst snd]. f_equal. f_equal. lia.
    + intros j Hj. apply zseq_in in Hj. unfold on_line. replace ((0 <=? y + j - (k - 1)) && (y + j - (k - 1) <? ny)) with true by lia. reflexivity.
  - destruct C as (r&Er&->). destruct (reg_Dyf nx ny nz g (2 * k) rest uv DH x y z fuel Hg Hp Hx ltac:(lia) Hz Hf ltac:(lia)) as (r'&Er'&F).
    rewrite Er in Er'. injection Er' as <-. destruct F as (k'&x0&K1&K2&IR&K3&_). destruct (K3 ltac:(lia)) as (X0&K4). specialize (K4 k ltac:(lia) ltac:(lia) ltac:(lia)).
    assert (k' = k) by lia. subst k' x0. destruct IR as (_&_&->&_). unfold sparse_entries. rewrite map_map. apply map_ext. intros j. cbn [fst snd]. apply f_equal.
      match goal with |- ?a = ?b => change (@eq R a b) end. unfold Qdiv. rewrite Q2R_mult, Q2R_inv, Q2R_mult.
      * replace (Q2R (inject_Z 1)) with 1%R by (unfold Q2R; cbn; lra). unfold Rdiv. rewrite Rmult_1_r. ring.
      * intros Z0. assert (0 < DH * inject_Z 1)%Q by (rewrite Qmult_1_r; exact HD). rewrite Z0 in H. apply (Qlt_irrefl 0). exact H.
Qed.
Lemma mean_map (f : Z -> Z) (c : Z -> R) v l : mean (map (fun j => (f j, c j)) l) v = fold_right Rplus 0%R (map (fun j => (c j * nth (Z.to_nat (f j)) v 0)%R) l).
Proof. unfold mean. rewrite map_map. reflexivity. Qed.
Lemma sum_perm (l l' : list R) : Permutation l l' -> fold_right Rplus 0%R l = fold_right Rplus 0%R l'.
Proof. induction 1; cbn; try lra. Qed.
Lemma mean_perm r r' v : Permutation r r' -> mean r v = mean r' v.
Proof. intros H. unfold mean. apply sum_perm, Permutation_map, H. Qed.

(** The impedance at a point. *)
Definition impedance (k : kind) (p : params) (i : Z) : R :=
  (nth (Z.to_nat i) (rho p) 0 * nth (Z.to_nat i) (match k with Acoustic => vP p | _ => vS p end) 0)%R.

Theorem C138_reflectivity : forall k us uv nx ny nz p rest DH DT fuel g D o,
  mk_regular nx ny nz = Ok g -> supported p -> 15 <= Z.of_nat fuel -> (0 < DH)%Q -> DT <> 0%R -> dyf_matrix us uv nx ny nz p rest DH DT fuel g D ->
  p / 2 <= ny -> let q := par (base o) in Z.of_nat (length (rho q)) = nx * ny * nz ->
  Z.of_nat (length (match k with Acoustic => vP q | _ => vS q end)) = nx * ny * nz ->
  exists o', calcReflectivity k g D p (Q2R DH) DT o = Ok o' /\ base o' = base o /\ parameterisation o' = parameterisation o /\
    porosity (pet o') = porosity (pet o) /\ saturation (pet o') = saturation (pet o) /\ rhoMa (pet o') = rhoMa (pet o) /\ muMa (pet o') = muMa (pet o) /\ kMa (pet o') = kMa (pet o) /\
    Z.of_nat (length (reflectivity (pet o'))) = nx * ny * nz /\
    forall x y z, 0 <= x < nx -> 0 <= y < ny -> 0 <= z < nz ->
      let i := Z.to_nat (reg_index nx nz x y z) in let I Y := impedance k q (reg_index nx nz x Y z) in
      (y < p / 2 \/ ny - p / 2 <= y -> at_ (reflectivity (pet o')) i 0%R) /\
      (p / 2 <= y < ny - p / 2 -> (I y + I (y + 1)%Z <> 0)%R -> at_ (reflectivity (pet o')) i (- difference p I y / (I y + I (y + 1)%Z))%R) /\
      (p / 2 <= y < ny - p / 2 -> (I y + I (y + 1)%Z = 0)%R -> forall r, ~ at_ (reflectivity (pet o')) i r).
Proof.
  intros k us uv nx ny nz p rest DH DT fuel g D o Hg Hp Hf HD HT HM Hny q Lr Lv.
  pose proof (mk_regular_inv _ _ _ _ Hg) as (Qx&Qy&Qz). destruct (mk_regular_wf _ _ _ _ Hg) as (_&Nx&Ny&Nz&NG&_).
  assert (N : 0 < nx * ny * nz) by (apply Z.mul_pos_pos; [apply Z.mul_pos_pos|]; lia). set (n := Z.to_nat (nx * ny * nz)).
  destruct (supported_even p Hp) as (hp&Ep&Hhp).
  destruct (zip_ex Rmult (rho q) (match k with Acoustic => vP q | _ => vS q end) n ltac:(unfold n; lia) ltac:(unfold n; lia)) as (imp&Ei&Li&Pi).
  assert (Imp : forall j, 0 <= j < nx * ny * nz -> nth (Z.to_nat j) imp 0%R = impedance k q j).
  { intros j Hj. apply nth_error_nth. unfold impedance. apply Pi; apply nth_error_nth'; lia. }
  destruct (C55_regular AY nx ny nz g Hg) as (A&EA&CA&LA&_). rewrite NG in CA, LA.
  assert (EV : matvec A imp = Ok (map (fun r => mean r imp) (mrows A))).
  { unfold matvec. rewrite CA. replace (nx * ny * nz =? Z.of_nat (length imp)) with true by (unfold n in Li; lia). f_equal. apply map_ext. intros r. apply rowdot_mean. }
  pose proof HM as (CD&LD&_).
  assert (ED : matvec D imp = Ok (map (fun r => mean r imp) (mrows D))).
  { unfold matvec. rewrite CD. replace (nx * ny * nz =? Z.of_nat (length imp)) with true by (unfold n in Li; lia). f_equal. apply map_ext. intros r. apply rowdot_mean. }
  destruct (zip_ex fdiv (map (fun x => x * (- Q2R DH / DT))%R (map (fun r => mean r imp) (mrows D))) (map (fun x => x * 2)%R (map (fun r => mean r imp) (mrows A))) n) as (r&Er&Lr'&Pr);
    [rewrite !map_length; unfold n, row in *; lia|rewrite !map_length; unfold n, row in *; lia|].
  assert (HQ : Z.quot (p * gNX g * gNZ g) 2 = hp * nx * nz). { rewrite Nx, Nz, Ep. replace (2 * hp * nx * nz) with (2 * (hp * nx * nz)) by ring. apply quot_half. }
  assert (Hh : p / 2 = hp) by (rewrite Ep; apply div_half). rewrite Hh in *.
  assert (Hc : 0 < nx * nz) by (apply Z.mul_pos_pos; lia).
  assert (Tot : nx * ny * nz = ny * (nx * nz)) by ring.
  assert (Lay : hp * nx * nz = hp * (nx * nz)) by ring.
  assert (Hle : hp * (nx * nz) <= ny * (nx * nz)) by (apply Z.mul_le_mono_nonneg_r; lia).
  assert (Hpos : 0 < hp * (nx * nz)) by (apply Z.mul_pos_pos; lia).
  destruct (silence_pt (nx * ny * nz) (Z.to_nat (hp * nx * nz)) 0 r) as (r'&Es&Ls&Ps); [lia|unfold n in Lr'; lia|rewrite Z2Nat.id; lia|].
  eexists. split.
  { unfold calcReflectivity. fold q. rewrite Ei. cbn [bind]. rewrite EA. cbn [bind]. rewrite EV. cbn [bind]. rewrite ED. cbn [bind]. rewrite Er. cbn [bind]. rewrite HQ, Nx, Ny, Nz. rewrite Es. reflexivity. }
  lazy beta iota delta [base pet parameterisation withPet porosity saturation rhoMa muMa kMa reflectivity]. do 7 (split; [reflexivity|]). split; [unfold n in Lr'; lia|].
  intros x y z Hx Hy Hz i I. assert (Ri : 0 <= reg_index nx nz x y z < nx * ny * nz) by (apply num_range; assumption).
  assert (Ei' : Z.of_nat i = reg_index nx nz x y z) by (unfold i; lia).
  assert (Dec : reg_index nx nz x y z = y * (nx * nz) + (x + z * nx)) by (unfold reg_index; ring).
  assert (Hin : 0 <= x + z * nx < nx * nz). { split; [assert (0 <= z * nx) by (apply Z.mul_nonneg_nonneg; lia); lia|]. assert (z * nx <= (nz - 1) * nx) by (apply Z.mul_le_mono_nonneg_r; lia). lia. }
  assert (Hi : (i < length r)%nat) by (unfold n in Lr'; lia). rewrite Z2Nat.id in Ps by lia.
  assert (Low : y < hp <-> Z.of_nat i < hp * (nx * nz)).
  { split; intros H.
    - assert (y * (nx * nz) <= (hp - 1) * (nx * nz)) by (apply Z.mul_le_mono_nonneg_r; lia). lia.
    - destruct (Z.lt_ge_cases y hp); [assumption|]. assert (hp * (nx * nz) <= y * (nx * nz)) by (apply Z.mul_le_mono_nonneg_r; lia). lia. }
  assert (High : ny - hp <= y <-> nx * ny * nz - hp * (nx * nz) <= Z.of_nat i).
  { split; intros H.
    - assert ((ny - hp) * (nx * nz) <= y * (nx * nz)) by (apply Z.mul_le_mono_nonneg_r; lia). lia.
    - destruct (Z.le_gt_cases (ny - hp) y); [assumption|]. assert (y * (nx * nz) <= (ny - hp - 1) * (nx * nz)) by (apply Z.mul_le_mono_nonneg_r; lia). lia. }
  split.
  { intros Out. unfold at_. rewrite Ps by exact Hi. replace (_ || _) with true by lia. reflexivity. }
  assert (Val : hp <= y < ny - hp -> nth_error r' i = Some (fdiv (- difference p I y) (I y + I (y + 1)%Z))).
  { intros In. rewrite Ps by exact Hi. replace (_ || _) with false by lia.
    assert (RD := dyf_row us uv nx ny nz p rest DH DT fuel g D x y z Hg Hp Hf HD HM Hx Hz ltac:(rewrite Hh; lia)).
    destruct (C86_regular_cells AY nx ny nz g A Hg EA x y z Hx Hy Hz) as (ra&RA&Pa). unfold reg_index in i. fold i in RA.
    set (DR := map _ (zseq 0 (Z.to_nat p))) in RD.
    rewrite (Pr i (mean DR imp * (- Q2R DH / DT))%R (mean ra imp * 2)%R).
    - f_equal. f_equal.
      + unfold DR. rewrite (mean_map (fun j => reg_index nx nz x (y - p / 2 + 1 + j) z) (fun j => (Q2R (stencil_at p j) * (DT / Q2R DH))%R)).
        assert (HDR : (Q2R DH <> 0)%R). { apply Rgt_not_eq. replace 0%R with (Q2R 0) by (unfold Q2R; cbn; lra). apply Qlt_Rlt, HD. }
        unfold difference. assert (Rj : forall j, List.In j (zseq 0 (Z.to_nat p)) -> nth (Z.to_nat (reg_index nx nz x (y - p / 2 + 1 + j) z)) imp 0%R = I (y - p / 2 + 1 + j)).
        { intros j Hj. apply zseq_in in Hj. apply Imp. apply num_range; lia. }
        revert Rj. generalize (zseq 0 (Z.to_nat p)). induction l as [|j l IH]; intros Rj; cbn [map fold_right].
        * ring.
        * rewrite (Rj j (or_introl eq_refl)). rewrite Rmult_plus_distr_r, IH by (intros j' Hj'; apply Rj; right; exact Hj'). field. split; assumption.
      + rewrite (mean_perm _ _ _ Pa). unfold cell_average. cbn [directions]. unfold open_dirs. cbn [filter move extent].
        replace (y + 1 <? ny) with true by lia. cbn [corners map move app length fst snd]. unfold mean. cbn [map fold_right fst snd].
        fold (reg_index nx nz x y z). fold (reg_index nx nz x (y + 1) z). rewrite !Imp by (apply num_range; lia). fold (I y). fold (I (y + 1)).
        cbn [INR]. field.
    - apply (mp (fun x => x * (- Q2R DH / DT))%R), (mp (fun r => mean r imp)). exact RD.
    - apply (mp (fun x => x * 2)%R), (mp (fun r => mean r imp)). exact RA. }
  split; intros In Hs.
  - unfold at_. rewrite (Val In), fdiv_ok by exact Hs. reflexivity.
  - unfold at_. rewrite (Val In), Hs. intros r0 H0. destruct (fdiv_zero (- difference p I y)) as (u&Eu&_&Nu). rewrite Eu in H0. injection H0 as H0. exact (Nu r0 H0).
Qed.
Print Assumptions C138_reflectivity.

(** Second order: the difference of the two impedances over their sum, upper minus lower (the sign is opposite to the usual
    reflection coefficient); between -1 and 1 for positive impedances and zero exactly where the impedance does not change. *)
Lemma difference_2 f y : difference 2 f y = (f (y + 1)%Z - f y)%R.
Proof.
  unfold difference. change (Z.to_nat 2) with 2%nat. cbn [zseq map fold_right]. replace (y - 2 / 2 + 1 + 0) with y by (change (2 / 2) with 1; lia).
  replace (y - 2 / 2 + 1 + (0 + 1)) with (y + 1) by (change (2 / 2) with 1; lia).
  replace (Q2R (stencil_at 2 0)) with (-1)%R by (vm_compute stencil_at; unfold Q2R; cbn; lra).
  replace (Q2R (stencil_at 2 (0 + 1))) with 1%R by (vm_compute stencil_at; unfold Q2R; cbn; lra). ring.
Qed.
Theorem C138_second_order : forall k us uv nx ny nz rest DH DT fuel g D o o',
  mk_regular nx ny nz = Ok g -> 15 <= Z.of_nat fuel -> (0 < DH)%Q -> DT <> 0%R -> dyf_matrix us uv nx ny nz 2 rest DH DT fuel g D ->
  let q := par (base o) in Z.of_nat (length (rho q)) = nx * ny * nz ->
  Z.of_nat (length (match k with Acoustic => vP q | _ => vS q end)) = nx * ny * nz ->
  calcReflectivity k g D 2 (Q2R DH) DT o = Ok o' ->
  forall x y z, 0 <= x < nx -> 1 <= y < ny - 1 -> 0 <= z < nz ->
    let a := impedance k q (reg_index nx nz x y z) in let b := impedance k q (reg_index nx nz x (y + 1) z) in (0 < a)%R -> (0 < b)%R ->
    exists r, at_ (reflectivity (pet o')) (Z.to_nat (reg_index nx nz x y z)) r /\ r = ((a - b) / (a + b))%R /\ (-1 < r < 1)%R /\ (r = 0%R <-> a = b).
Proof.
  intros k us uv nx ny nz rest DH DT fuel g D o o' Hg Hf HD HT HM q Lr Lv E x y z Hx Hy Hz a b Ha Hb.
  destruct (C138_reflectivity k us uv nx ny nz 2 rest DH DT fuel g D o Hg ltac:(left; reflexivity) Hf HD HT HM ltac:(change (2 / 2) with 1; lia) Lr Lv) as (o''&E'&_&_&_&_&_&_&_&_&P).
  rewrite E in E'. injection E' as <-. destruct (P x y z Hx ltac:(lia) Hz) as (_&V&_). change (2 / 2) with 1 in V. specialize (V ltac:(lia)).
  assert (S : (a + b <> 0)%R) by lra. specialize (V S). rewrite difference_2 in V. fold q a b in V. eexists. split; [exact V|]. split; [fold q; fold a b; field; exact S|].
  fold q. fold a b. replace (- (b - a) / (a + b))%R with ((a - b) / (a + b))%R by (field; exact S).
  assert (X : ((a - b) = (a - b) / (a + b) * (a + b))%R) by (field; exact S). set (r := ((a - b) / (a + b))%R) in *. split; [split|split; intros H].
  - destruct (Rlt_le_dec (-1) r); [assumption|]. nra.
  - destruct (Rlt_le_dec r 1); [assumption|]. nra.
  - rewrite H in X. lra.
  - unfold r. rewrite H. unfold Rdiv. rewrite Rminus_diag_eq by reflexivity. apply Rmult_0_l.
Qed.
Print Assumptions C138_second_order.

(** Fewer layers than half the order: the loop that clears the outermost layers leaves the vector. *)
Theorem C138_too_few_layers : forall k us uv nx ny nz p rest DH DT fuel g D o,
  mk_regular nx ny nz = Ok g -> supported p -> dyf_matrix us uv nx ny nz p rest DH DT fuel g D -> ny < p / 2 ->
  let q := par (base o) in Z.of_nat (length (rho q)) = nx * ny * nz ->
  Z.of_nat (length (match k with Acoustic => vP q | _ => vS q end)) = nx * ny * nz ->
  calcReflectivity k g D p (Q2R DH) DT o = Throw.
Proof.
  intros k us uv nx ny nz p rest DH DT fuel g D o Hg Hp HM Hny q Lr Lv.
  pose proof (mk_regular_inv _ _ _ _ Hg) as (Qx&Qy&Qz). destruct (mk_regular_wf _ _ _ _ Hg) as (_&Nx&Ny&Nz&NG&_).
  assert (N : 0 < nx * ny * nz) by (apply Z.mul_pos_pos; [apply Z.mul_pos_pos|]; lia). set (n := Z.to_nat (nx * ny * nz)).
  destruct (supported_even p Hp) as (hp&Ep&Hhp).
  destruct (zip_ex Rmult (rho q) (match k with Acoustic => vP q | _ => vS q end) n ltac:(unfold n; lia) ltac:(unfold n; lia)) as (imp&Ei&Li&_).
  destruct (C55_regular AY nx ny nz g Hg) as (A&EA&CA&LA&_). rewrite NG in CA, LA. destruct HM as (CD&LD&_).
  unfold calcReflectivity. fold q. rewrite Ei. cbn [bind]. rewrite EA. cbn [bind]. unfold matvec. rewrite CA, CD.
  replace (nx * ny * nz =? Z.of_nat (length imp)) with true by (unfold n in Li; lia). cbn [bind].
  match goal with |- context [zipR fdiv ?a ?b] => destruct (zip_ex fdiv a b n) as (r&Er&Lr'&_) end;
    [rewrite !map_length; unfold n, row in *; lia|rewrite !map_length; unfold n, row in *; lia|].
  rewrite Er. cbn [bind]. assert (HQ : Z.quot (p * gNX g * gNZ g) 2 = hp * nx * nz). { rewrite Nx, Nz, Ep. replace (2 * hp * nx * nz) with (2 * (hp * nx * nz)) by ring. apply quot_half. }
  rewrite HQ, Nx, Ny, Nz. assert (Hh : p / 2 = hp) by (rewrite Ep; apply div_half). rewrite Hh in Hny.
  assert (ny * (nx * nz) < hp * (nx * nz)) by (apply Z.mul_lt_mono_pos_r; [apply Z.mul_pos_pos|]; lia).
  rewrite silence_throw; [reflexivity|lia|unfold n in Lr'; lia|rewrite Z2Nat.id; lia|lia].
Qed.
Print Assumptions C138_too_few_layers.

(** A column of four points, the impedance doubling between the second and the third: the hypotheses hold and the value is -1/3. *)
Definition reflect_D : matrix := mkMat 4 (map (fun y => stencil_entries (A := R_arith) (fun c => Q2R c * (1 / Q2R 1))%R (fun Y => reg_index 1 1 0 Y 0) (stencil_row 2 4 y)) [0; 1; 2; 3]).
Definition reflect_o : rock := mkRock (fresh (mkP [1; 1; 2; 2]%R [] [1; 1; 1; 1]%R [] [] [] 0 None)) (mkPet [] [] [] [] [] []) 1.
Lemma reflect_D_ok g : dyf_matrix true false 1 4 1 2 [] 1%Q 1%R 15 g reflect_D.
Proof.
  split; [reflexivity|]. split; [reflexivity|]. intros x y z Hx Hy Hz i. assert (x = 0) by lia. assert (z = 0) by lia. subst x z.
  assert (Ei : i = y) by (unfold i, reg_index; lia). rewrite Ei. unfold code_row, reflect_D. cbn [mrows].
  eexists. split; [|reflexivity]. assert (C : y = 0 \/ y = 1 \/ y = 2 \/ y = 3) by lia. destruct C as [-> | [-> | [-> | -> ]]]; reflexivity.
Qed.
Example C138_case : exists g o', mk_regular 1 4 1 = Ok g /\ dyf_matrix true false 1 4 1 2 [] 1%Q 1%R 15 g reflect_D /\
  calcReflectivity Acoustic g reflect_D 2 (Q2R 1) 1 reflect_o = Ok o' /\ at_ (reflectivity (pet o')) 0 0%R /\ at_ (reflectivity (pet o')) 1 (-1 / 3)%R.
Proof.
  eexists. destruct (C138_reflectivity Acoustic true false 1 4 1 2 [] 1%Q 1%R 15 _ reflect_D reflect_o eq_refl) as (o'&E&_&_&_&_&_&_&_&_&P);
    [left; reflexivity|cbn; lia|reflexivity|lra|apply reflect_D_ok|cbn; lia|reflexivity|reflexivity|].
  exists o'. split; [reflexivity|]. split; [apply reflect_D_ok|]. split; [exact E|].
  destruct (P 0 0 0 ltac:(lia) ltac:(lia) ltac:(lia)) as (A&_&_). destruct (P 0 1 0 ltac:(lia) ltac:(lia) ltac:(lia)) as (_&B&_).
  split; [apply A; left; reflexivity|]. rewrite difference_2 in B.
  replace (impedance Acoustic (par (base reflect_o)) (reg_index 1 1 0 1 0)) with 1%R in B by (unfold impedance, reg_index; change (Z.to_nat (0 + 0 * 1 + 1 * 1 * 1)) with 1%nat; change (Z.to_nat (0 + 0 * 1 + (1 + 1) * 1 * 1)) with 2%nat; cbn [nth rho vP par base reflect_o fresh]; ring).
  replace (impedance Acoustic (par (base reflect_o)) (reg_index 1 1 0 (1 + 1) 0)) with 2%R in B by (unfold impedance, reg_index; change (Z.to_nat (0 + 0 * 1 + 1 * 1 * 1)) with 1%nat; change (Z.to_nat (0 + 0 * 1 + (1 + 1) * 1 * 1)) with 2%nat; cbn [nth rho vP par base reflect_o fresh]; ring).
  replace (-1 / 3)%R with (- (2 - 1) / (1 + 2))%R by field. apply B; [change (2 / 2) with 1; lia|lra].
Qed.

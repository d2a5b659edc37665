(** Properties C55, C57, C86: averaging of parameters and windows of the big model. *)
From Coq Require Import Reals Lra Permutation.
From Verif Require Import Base M_Grid S_Grid L_Grid L_Grid2 L_Grid3 L_GridP M_Average S_Average L_Average L_Average2 L_Average3.

(** ** C55: every row is a weighted average *)

(** [averages_well a g]: the averaging matrix is built, is square, every row is a weighted average over points of the model,
    a homogeneous parameter is unchanged and every averaged value lies between bounds of the values that contribute to it. *)
Definition averages_well (a : avgkind) (g : grid) : Prop :=
  exists m, averageMatrix a g = Ok m /\ mcols m = nGridpoints g /\ Z.of_nat (length (mrows m)) = nGridpoints g /\
    (forall r, In r (mrows m) -> is_average (nGridpoints g) r) /\
    (forall c, matvec m (repeat c (Z.to_nat (nGridpoints g))) = Ok (repeat c (Z.to_nat (nGridpoints g)))) /\
    (forall v, Z.of_nat (length v) = nGridpoints g -> exists w, matvec m v = Ok w /\ length w = length v /\
       forall i r x, nth_error (mrows m) i = Some r -> nth_error w i = Some x ->
         forall lo hi, (forall k w y, In (k, w) r -> nth_error v (Z.to_nat k) = Some y -> (lo <= y <= hi)%R) -> (lo <= x <= hi)%R).

Lemma well_if_steps a g : wf g -> steps g -> 0 <= nGridpoints g -> averages_well a g.
Proof.
  intros W S N. destruct (averageMatrix_ok a g W S N) as (m&E&C&L&R). exists m. split; [exact E|]. split; [exact C|]. split; [exact L|].
  assert (A : forall i r, nth_error (mrows m) i = Some r -> is_average (nGridpoints g) r).
  { intros i r Hr. assert (i < length (mrows m))%nat by (apply nth_error_Some; congruence).
    destruct (R (Z.of_nat i) ltac:(lia)) as (r'&E'&A&_). rewrite Nat2Z.id in E'. congruence. }
  split; [intros r Hr; apply In_nth_error in Hr as (i&Hi); eauto|]. split.
  - intros c. unfold matvec. rewrite C, repeat_length, Z2Nat.id, Z.eqb_refl by lia. f_equal.
    replace (Z.to_nat (nGridpoints g)) with (length (mrows m)) by lia.
    assert (F : Forall (fun r => rowdot r (repeat c (length (mrows m))) = c) (mrows m)).
    { apply Forall_forall. intros r Hr. apply In_nth_error in Hr as (i&Hi). replace (length (mrows m)) with (Z.to_nat (nGridpoints g)) by lia.
      apply (average_const (nGridpoints g)). eauto. }
    clear - F. revert F. generalize (length (mrows m)) at 1 2. intros n F. induction F as [|r l E F IH]; [reflexivity|].
    simpl. now rewrite E, IH.
  - intros v Hv. unfold matvec. rewrite C, Hv, Z.eqb_refl. eexists. split; [reflexivity|]. rewrite map_length. split; [lia|].
    intros i r x Hr Hx lo hi B. rewrite (map_nth_error _ _ _ Hr) in Hx. injection Hx as <-.
    apply (average_between (nGridpoints g)); [eauto|]. intros k Hk. pose proof (A i r Hr) as (F&_).
    apply in_map_iff in Hk as ([k' w]&<-&Hk). rewrite Forall_forall in F. destruct (F _ Hk) as (K&_). cbn [fst] in *.
    apply (B k' w); [exact Hk|]. apply nth_error_nth'. lia.
Qed.

(** Regular grids of every size. *)
Theorem C55_regular : forall a nx ny nz g, mk_regular nx ny nz = Ok g -> averages_well a g.
Proof.
  intros a nx ny nz g H. destruct (mk_regular_wf _ _ _ _ H) as (W&_&_&_&N&_). pose proof (mk_regular_inv _ _ _ _ H) as (?&?&?).
  apply well_if_steps; [exact W|eapply regular_steps; eauto|]. rewrite N. nia.
Qed.
Print Assumptions C55_regular.

(** Layered grids, as long as every inner layer is at least as high as one cell of the layer above it. *)
Theorem C55_layered : forall a fuel nx ny nz dhs ifs g, good_request nx ny nz dhs ifs -> enough fuel dhs ->
  init_variable fuel nx ny nz dhs ifs = Ok g ->
  (forall k l l' l'', nth_error (layers g) k = Some l -> nth_error (layers g) (S k) = Some l' ->
     nth_error (layers g) (S (S k)) = Some l'' -> ldh l <= lend l' - lstart l') ->
  averages_well a g.
Proof.
  intros a fuel nx ny nz dhs ifs g H Hf E Rm. destruct (variable_steps _ _ _ _ _ _ _ H Hf E Rm) as (W&S).
  apply well_if_steps; auto. destruct W as (_&->&Wl). clear - Wl. revert Wl. generalize 0 at 1. induction (layers g) as [|l ls IH]; intros lo Wl; [simpl; lia|].
  simpl in Wl. destruct Wl as (_&_&_&P1&_&P2&P3&_&_&_&_&_&C&W2).
  assert (0 <= lcnt l) by (rewrite C; apply Z.mul_nonneg_nonneg; [apply Z.mul_nonneg_nonneg|]; lia).
  specialize (IH _ W2). unfold zsum in *. simpl in *. lia.
Qed.
Print Assumptions C55_layered.

(** Without it the construction leaves the grid: a fine layer of two rows between coarse ones. *)
Definition thin_grid : grid := match init_variable 100 9 40 1 [3; 1; 3] [9; 10] with Ok g => g | _ => mkG 0 0 0 0 0 [] [] end.
Lemma thin_good : good_request 9 40 1 [3; 1; 3] [9; 10].
Proof.
  split. { intros d [<-|[<-|[<-|[]]]]; [exists 1%nat|exists 0%nat|exists 1%nat]; reflexivity. }
  split; [reflexivity|]. repeat (split; [lia|]). split; [|simpl; lia].
  intros d [<-|[<-|[<-|[]]]]; simpl; lia.
Qed.
Theorem C55_refuted : exists nx ny nz dhs ifs fuel g i, good_request nx ny nz dhs ifs /\ enough fuel dhs /\
  init_variable fuel nx ny nz dhs ifs = Ok g /\ 0 <= i < nGridpoints g /\
  averageMatrix AY g = UB /\ averageMatrix AXY g = UB /\ avgRow AY g i = UB.
Proof.
  exists 9, 40, 1, [3; 1; 3], [9; 10], 100%nat, thin_grid, 9. split; [exact thin_good|].
  split; [unfold enough; simpl; lia|]. repeat (split; [vm_compute; (reflexivity || (split; congruence))|]). vm_compute. reflexivity.
Qed.
Print Assumptions C55_refuted.

Example C55_example : exists g, mk_regular 4 3 2 = Ok g /\ nGridpoints g = 24 /\ averages_well AXY g.
Proof. eexists. split; [reflexivity|]. split; [reflexivity|]. apply (C55_regular AXY 4 3 2). reflexivity. Qed.
Example C55_layered_example : exists g, good_request 9 40 1 [3; 1; 3] [9; 20] /\ enough 100 [3; 1; 3] /\ init_variable 100 9 40 1 [3; 1; 3] [9; 20] = Ok g /\
  map ldh (layers g) = [3; 1; 3] /\ averages_well AXY g.
Proof.
  assert (H : good_request 9 40 1 [3; 1; 3] [9; 20]).
  { split. { intros d [<-|[<-|[<-|[]]]]; [exists 1%nat|exists 0%nat|exists 1%nat]; reflexivity. }
    split; [reflexivity|]. repeat (split; [lia|]). split; [|simpl; lia]. intros d [<-|[<-|[<-|[]]]]; simpl; lia. }
  assert (F : enough 100 [3; 1; 3]) by (unfold enough; simpl; lia).
  destruct (init_variable 100 9 40 1 [3; 1; 3] [9; 20]) as [g| | |] eqn:E; try (vm_compute in E; discriminate).
  exists g. split; [exact H|]. split; [exact F|]. split; [reflexivity|].
  assert (L : layers g = layers g) by reflexivity. split; [vm_compute in E; injection E as <-; reflexivity|].
  apply (C55_layered AXY 100 9 40 1 [3; 1; 3] [9; 20] g H F E).
  vm_compute in E. injection E as <-. cbn [layers]. intros k l l' l'' A B C.
  destruct k as [|[|[|k]]]; simpl in A, B, C; try discriminate. injection A as <-. injection B as <-. simpl. lia.
Qed.

(** ** C86: on a regular grid the averages are the plain means over the corners of the cell *)
Definition directions (a : avgkind) : list dir :=
  match a with AX => [DX] | AY => [DY] | AZ => [DZ] | AXY => [DX; DY] | AXZ => [DX; DZ] | AYZ => [DY; DZ] end.
Theorem C86_regular_cells : forall a nx ny nz g m, mk_regular nx ny nz = Ok g -> averageMatrix a g = Ok m ->
  let num p := let '(x, y, z) := p in x + z * nx + y * nx * nz in
  forall x y z, 0 <= x < nx -> 0 <= y < ny -> 0 <= z < nz ->
  exists r, nth_error (mrows m) (Z.to_nat (num (x, y, z))) = Some r /\
    Permutation r (cell_average num (nx, ny, nz) (directions a) (x, y, z)).
Proof.
  intros a nx ny nz g m H Em num x y z Hx Hy Hz.
  destruct (mk_regular_wf _ _ _ _ H) as (W&_&_&_&N&_).
  destruct (averageMatrix_ok a g W (regular_steps _ _ _ _ H)) as (m'&E&_&_&R); [rewrite N; pose proof (num_range nx ny nz x y z Hx Hy Hz); lia|].
  rewrite Em in E. injection E as <-. pose proof (num_range nx ny nz x y z Hx Hy Hz) as B.
  destruct (R (num (x, y, z))) as (r&Er&_&Ar); [rewrite N; exact B|]. exists r. split; [exact Er|].
  destruct (regular_rows a nx ny nz g x y z H Hx Hy Hz) as (r'&Er'&P). fold num in Er', P.
  assert (r = r') by (enough (Ok r = Ok r') by congruence; rewrite <- Ar, <- Er'; reflexivity). subst r'. exact P.
Qed.
Print Assumptions C86_regular_cells.

(** An inner point of the (x,y) average, the last column, and the corner. *)
Example C86_example : exists g m, mk_regular 4 3 2 = Ok g /\ averageMatrix AXY g = Ok m /\
  (let num p := let '(x, y, z) := p in x + z * 4 + y * 4 * 2 in
   map fst (cell_average num (4, 3, 2) [DX; DY] (1, 1, 1)) = [13; 21; 14; 22] /\
   map fst (cell_average num (4, 3, 2) [DX; DY] (3, 1, 1)) = [15; 23] /\
   map fst (cell_average num (4, 3, 2) [DX; DY] (3, 2, 1)) = [23]).
Proof.
  destruct (C55_regular AXY 4 3 2 _ eq_refl) as (m&E&_). eexists _, m. split; [reflexivity|]. split; [exact E|]. repeat split.
Qed.

(** ** C57: the submodel is a window of the big model *)
Theorem C57_window : forall nx ny nz mx my mz sub big cut,
  mk_regular mx my mz = Ok sub -> mk_regular nx ny nz = Ok big ->
  0 <= cx cut -> 0 <= cy cut -> 0 <= cz cut -> cx cut + mx <= nx -> cy cut + my <= ny -> cz cut + mz <= nz ->
  exists m, shrinkMatrix sub big cut = Ok m /\ forall v, Z.of_nat (length v) = nx * ny * nz ->
    exists w, matvec m v = Ok w /\ Z.of_nat (length w) = mx * my * mz /\
      forall x y z, 0 <= x < mx -> 0 <= y < my -> 0 <= z < mz ->
        0 <= (x + cx cut) + (z + cz cut) * nx + (y + cy cut) * nx * nz < Z.of_nat (length v) /\
        nth_error w (Z.to_nat (x + z * mx + y * mx * mz)) =
        nth_error v (Z.to_nat ((x + cx cut) + (z + cz cut) * nx + (y + cy cut) * nx * nz)).
Proof.
  intros nx ny nz mx my mz sub big cut Hs Hb C1 C2 C3 C4 C5 C6.
  destruct (shrink_ok _ _ _ _ _ _ _ _ _ Hs Hb C1 C2 C3 C4 C5 C6) as (m&E&H). exists m. split; [exact E|]. intros v Hv.
  destruct (H v Hv) as (w&E1&E2&E3). exists w. split; [exact E1|]. split; [exact E2|]. intros x y z Hx Hy Hz. split; [|auto].
  rewrite Hv. apply num_range; lia.
Qed.
Print Assumptions C57_window.

(** A window that leaves the big model on any side is rejected. *)
Theorem C57_outside : forall nx ny nz mx my mz sub big cut,
  mk_regular mx my mz = Ok sub -> mk_regular nx ny nz = Ok big ->
  ~ (0 <= cx cut /\ cx cut + mx <= nx /\ 0 <= cy cut /\ cy cut + my <= ny /\ 0 <= cz cut /\ cz cut + mz <= nz) ->
  shrinkMatrix sub big cut = Throw.
Proof. exact shrink_throw. Qed.
Print Assumptions C57_outside.

Example C57_example : exists sub big m, mk_regular 2 2 1 = Ok sub /\ mk_regular 4 3 2 = Ok big /\
  shrinkMatrix sub big (mkC 1 1 1) = Ok m /\ map (map fst) (mrows m) = [[13]; [14]; [21]; [22]] /\
  shrinkMatrix sub big (mkC 3 1 1) = Throw.
Proof. do 3 eexists. repeat split; vm_compute; reflexivity. Qed.

(** Properties C146 and C147: interpolation matrices at the interfaces of layered grids. *)
From Verif Require Import Base M_Grid S_Grid L_Grid L_Grid2 P_Grid M_Deriv S_Deriv S_DerivVar L_Deriv L_DerivVar L_DerivVar2 L_DerivVar3 L_DerivVar4 M_Inter S_Inter L_Inter.
Open Scope Z_scope.

(** ** C146 *)
(** [itf] are the corrected interfaces.  Away from interior interfaces all four matrices have unit rows.  On the interface between
    layers [k] and [k+1] with factors of ratio 1 or 3 the row interpolates bilinearly from the points of the interface that belong
    to the coarser grid; where such points exist on all sides, bilinear fields are reproduced. *)
Theorem C146_full : forall fuel nx ny nz dhs ifs g, good_request nx ny nz dhs ifs -> (forall d, In d dhs -> d <= Z.of_nat fuel) ->
  init_variable fuel nx ny nz dhs ifs = Ok g ->
  exists itf, interface g = -1 :: itf /\
  forall i c, 0 <= i < nGridpoints g -> index2coordinate g i = Ok c ->
  (~ In (cy c) (removelast itf) -> calcInterpolationFull g i = Ok [(i, 1%Q)] /\ calcInterpolationStaggeredX g i = Ok [(i, 1%Q)] /\
     calcInterpolationStaggeredZ g i = Ok [(i, 1%Q)] /\ calcInterpolationStaggeredXZ g i = Ok [(i, 1%Q)]) /\
  (forall k la lb, nth_error itf k = Some (cy c) -> (forall k', nth_error itf k' = Some (cy c) -> k' = k) ->
     nth_error (layers g) k = Some la -> nth_error (layers g) (S k) = Some lb ->
     let d := Z.min (ldh la) (ldh lb) in let s := Z.max (ldh la) (ldh lb) in
     let col kk X Z := 0 <= kk < nGridpoints g /\ index2coordinate g kk = Ok (mkC X (cy c) Z) in
     (s = 3 * d \/ s = d) ->
     exists row, calcInterpolationFull g i = Ok row /\ bilinear_row s (cx c) (cz c) (gNX g) (gNZ g) col row /\
     ((exists X, (s | X) /\ cx c <= X < gNX g) -> (exists Z, (s | Z) /\ cz c <= Z < gNZ g) ->
        reproduces (fun X => (s | X)) (fun Z => (s | Z)) (cx c) (cz c) col row)).
Proof.
  intros fuel nx ny nz dhs ifs g Hg Hf E. destruct (layered_ok fuel nx ny nz dhs ifs g Hg Hf E) as (itf&L&Ed).
  pose proof (edge_ok fuel nx ny nz dhs ifs g Hg Hf E) as Hed.
  exists itf. split; [apply (lay_if g itf L)|]. intros i c Hi Hc. split.
  - intros Hoff. pose proof (head_off g itf L i c Hi Hc Hoff) as H.
    unfold calcInterpolationFull, calcInterpolationStaggeredX, calcInterpolationStaggeredZ, calcInterpolationStaggeredXZ. rewrite H. auto.
  - intros k la lb Hk Hu Ha Hb d s col Hs.
    destruct (full_on g itf L Hed i c Hi Hc k la lb Hk Hu Ha Hb Hs) as (row&E1&B). exists row. split; [exact E1|]. split; [exact B|].
    intros HX HZ. destruct (full_reproduces g itf L Hed i c Hi Hc k la lb Hk Hu Ha Hb Hs HX HZ) as (row'&E2&R). assert (row' = row) by congruence. subst row'. exact R.
Qed.
Print Assumptions C146_full.

(** Points of an interface that belong to the coarser grid keep their values. *)
Theorem C146_coarse_kept : forall fuel nx ny nz dhs ifs g, good_request nx ny nz dhs ifs -> (forall d, In d dhs -> d <= Z.of_nat fuel) ->
  init_variable fuel nx ny nz dhs ifs = Ok g ->
  exists itf, interface g = -1 :: itf /\
  forall i c k la lb, 0 <= i < nGridpoints g -> index2coordinate g i = Ok c ->
  nth_error itf k = Some (cy c) -> (forall k', nth_error itf k' = Some (cy c) -> k' = k) ->
  nth_error (layers g) k = Some la -> nth_error (layers g) (S k) = Some lb ->
  let d := Z.min (ldh la) (ldh lb) in let s := Z.max (ldh la) (ldh lb) in
  (s = 3 * d \/ s = d) -> (s | cx c) -> (s | cz c) ->
  exists row, calcInterpolationFull g i = Ok row /\ forall f, (apply_row row f == f i)%Q.
Proof.
  intros fuel nx ny nz dhs ifs g Hg Hf E. destruct (layered_ok fuel nx ny nz dhs ifs g Hg Hf E) as (itf&L&Ed).
  pose proof (edge_ok fuel nx ny nz dhs ifs g Hg Hf E) as Hed.
  exists itf. split; [apply (lay_if g itf L)|]. exact (keep_on g itf L Hed).
Qed.
Print Assumptions C146_coarse_kept.

(** Interpolating twice is interpolating once, when every interface has its own depth and neighbouring factors have ratio 1 or 3:
    [Pf] is the interpolated field. *)
Theorem C146_idempotent : forall fuel nx ny nz dhs ifs g, good_request nx ny nz dhs ifs -> (forall d, In d dhs -> d <= Z.of_nat fuel) ->
  init_variable fuel nx ny nz dhs ifs = Ok g ->
  NoDup (interface g) ->
  (forall k da db, nth_error dhs k = Some da -> nth_error dhs (S k) = Some db -> da = db \/ da = 3 * db \/ db = 3 * da) ->
  forall f Pf, (forall i, 0 <= i < nGridpoints g -> exists row, calcInterpolationFull g i = Ok row /\ (Pf i == apply_row row f)%Q) ->
  forall i row, 0 <= i < nGridpoints g -> calcInterpolationFull g i = Ok row -> (apply_row row Pf == Pf i)%Q.
Proof.
  intros fuel nx ny nz dhs ifs g Hg Hf E Nd Hr f Pf HP i row Hi Er. destruct (layered_ok fuel nx ny nz dhs ifs g Hg Hf E) as (itf&L&Ed).
  pose proof (edge_ok fuel nx ny nz dhs ifs g Hg Hf E) as Hed.
  assert (Nd' : NoDup itf) by (rewrite (lay_if g itf L) in Nd; now inversion Nd).
  assert (HPi : (Pf i == apply_row row f)%Q) by (destruct (HP i Hi) as (row'&E'&V); assert (row' = row) by congruence; subst; exact V).
  destruct (index2coordinate g i) as [c| | |] eqn:Hc; try (unfold calcInterpolationFull, inter_head in Er; rewrite Hc in Er; discriminate).
  destruct (in_dec Z.eq_dec (cy c) (removelast itf)) as [Hon|Hoff].
  - destruct (nth_removelast itf (cy c) Hon) as (k&Hk&Hlen). rewrite (lay_len g itf L) in Hlen.
    destruct (nth_error (layers g) k) as [la|] eqn:Ha; [|apply nth_error_None in Ha; lia].
    destruct (nth_error (layers g) (S k)) as [lb|] eqn:Hb; [|apply nth_error_None in Hb; lia].
    assert (Hu : forall k', nth_error itf k' = Some (cy c) -> k' = k).
    { intros k' H. eapply (proj1 (NoDup_nth_error itf) Nd'); [apply nth_error_Some; congruence|congruence]. }
    assert (Hs : Z.max (ldh la) (ldh lb) = 3 * Z.min (ldh la) (ldh lb) \/ Z.max (ldh la) (ldh lb) = Z.min (ldh la) (ldh lb)).
    { pose proof (layer_pos g itf L la (nth_error_In _ _ Ha)). pose proof (layer_pos g itf L lb (nth_error_In _ _ Hb)).
      destruct (Hr k (ldh la) (ldh lb)) as [H1|[H1|H1]]; [rewrite <- Ed; now apply map_nth_error| rewrite <- Ed; now apply map_nth_error| | |]; lia. }
    destruct (full_on g itf L Hed i c Hi Hc k la lb Hk Hu Ha Hb Hs) as (row1&E1&B). assert (row1 = row) by congruence. subst row1.
    rewrite HPi. apply apply_row_ext. intros k' v Hin. destruct B as (_&B&_). destruct (B k' v Hin) as (X&Z&(R&C)&_&_&DX&DZ&_).
    destruct (HP k' R) as (row'&E'&V). rewrite V.
    destruct (keep_on g itf L Hed k' _ k la lb R C Hk Hu Ha Hb Hs DX DZ) as (row2&E2&K). assert (row2 = row') by congruence. subst. apply K.
  - pose proof (head_off g itf L i c Hi Hc Hoff) as H. unfold calcInterpolationFull in Er. rewrite H in Er. injection Er as <-. unfold apply_row. cbn. ring.
Qed.
Print Assumptions C146_idempotent.

(** Grid 23x68x23 with factors 1, 3, 9, 3: rows of the interface at row 7 (factors 1 and 3). *)
Example C146_ex : exists g, init_variable 9 30 70 30 [1;3;9;3] [7;20;47] = Ok g /\ interface g = [-1; 7; 19; 46; 67] /\ gNX g = 23 /\
  (exists i row, coordinate2index g (mkC 11 7 6) = Ok i /\ index2coordinate g i = Ok (mkC 11 7 6) /\ calcInterpolationFull g i = Ok row /\
     map (fun e => index2coordinate g (fst e)) row = [Ok (mkC 9 7 6); Ok (mkC 12 7 6); Ok (mkC 9 7 9); Ok (mkC 12 7 9)] /\
     map (fun e => Qred (snd e)) row = [1 # 3; 2 # 3; 0; 0]%Q) /\
  (exists i row, coordinate2index g (mkC 10 7 8) = Ok i /\ calcInterpolationFull g i = Ok row /\
     map (fun e => Qred (snd e)) row = [2 # 9; 1 # 9; 4 # 9; 2 # 9]%Q).
Proof.
  eexists. split; [vm_compute; reflexivity|]. split; [reflexivity|]. split; [reflexivity|]. split.
  - do 2 eexists. split; [vm_compute; reflexivity|]. split; [vm_compute; reflexivity|]. split; [vm_compute; reflexivity|]. split; vm_compute; reflexivity.
  - do 2 eexists. split; [vm_compute; reflexivity|]. split; vm_compute; reflexivity.
Qed.

(** At the last columns of the finer grid the point of the coarser grid to the right is missing and its weight is dropped: a
    constant field is damped there. *)
Theorem C146_constant_refuted : exists nx ny nz dhs ifs g i c row,
  good_request nx ny nz dhs ifs /\ init_variable 9 nx ny nz dhs ifs = Ok g /\ 0 <= i < nGridpoints g /\ index2coordinate g i = Ok c /\
  cx c = gNX g - 1 /\ cy c = 7 /\ interface g = [-1; 7; 28] /\ map ldh (layers g) = [1; 3] /\
  calcInterpolationFull g i = Ok row /\ (apply_row row (fun _ => 1) == 2 # 3)%Q.
Proof.
  exists 30, 31, 1, [1; 3], [7]. do 4 eexists. split.
  { unfold good_request; simpl. repeat split; try lia; try (intros d0 [<-|[<-|[]]]; [exact (pow3_ex 0)|exact (pow3_ex 1)]); destruct H as [<-|[<-|[]]]; cbv; try discriminate; now left. }
  split; [vm_compute; reflexivity|].
  split; [instantiate (1 := 231); vm_compute; split; [discriminate|reflexivity]|].
  split; [vm_compute; reflexivity|]. split; [vm_compute; reflexivity|]. split; [vm_compute; reflexivity|]. split; [vm_compute; reflexivity|]. split; [vm_compute; reflexivity|].
  split; [vm_compute; reflexivity|]. vm_compute; reflexivity.
Qed.
Print Assumptions C146_constant_refuted.

(** ** C147 *)
(** Points staggered in x lie half a cell of their grid to the right: on an interface between factors 1 and 3 the staggered points
    of the coarse grid are the fine ones with x = 3n + 1.  The interpolation on staggered points uses only them and reproduces
    every bilinear field, up to both edges, when the model is at least two coarse cells wide. *)
Theorem C147_staggered : forall fuel nx ny nz dhs ifs g, good_request nx ny nz dhs ifs -> (forall d, In d dhs -> d <= Z.of_nat fuel) ->
  init_variable fuel nx ny nz dhs ifs = Ok g ->
  exists itf, interface g = -1 :: itf /\
  forall i c k la lb, 0 <= i < nGridpoints g -> index2coordinate g i = Ok c ->
  nth_error itf k = Some (cy c) -> (forall k', nth_error itf k' = Some (cy c) -> k' = k) ->
  nth_error (layers g) k = Some la -> nth_error (layers g) (S k) = Some lb ->
  (ldh la = 1 /\ ldh lb = 3) \/ (ldh la = 3 /\ ldh lb = 1) ->
  let col kk X Z := 0 <= kk < nGridpoints g /\ index2coordinate g kk = Ok (mkC X (cy c) Z) in
  let on X := exists n, X = 3 * n in
  let half X := exists n, X = 3 * n + 1 in
  (5 <= gNX g -> (exists Z, on Z /\ cz c <= Z < gNZ g) ->
     exists row, calcInterpolationStaggeredX g i = Ok row /\ reproduces half on (cx c) (cz c) col row) /\
  (5 <= gNZ g -> (exists X, on X /\ cx c <= X < gNX g) ->
     exists row, calcInterpolationStaggeredZ g i = Ok row /\ reproduces on half (cx c) (cz c) col row) /\
  (5 <= gNX g -> 5 <= gNZ g ->
     exists row, calcInterpolationStaggeredXZ g i = Ok row /\ reproduces half half (cx c) (cz c) col row).
Proof.
  intros fuel nx ny nz dhs ifs g Hg Hf E. destruct (layered_ok fuel nx ny nz dhs ifs g Hg Hf E) as (itf&L&Ed).
  pose proof (edge_ok fuel nx ny nz dhs ifs g Hg Hf E) as Hed.
  exists itf. split; [apply (lay_if g itf L)|]. intros i c k la lb Hi Hc Hk Hu Ha Hb Hd col on half.
  assert (Es : Z.max (ldh la) (ldh lb) = 3) by lia. assert (Em : Z.min (ldh la) (ldh lb) = 1) by lia.
  assert (Hon : forall X, on X <-> (3 | X)) by (intros X; split; intros (n&Hn); exists n; lia).
  split; [|split].
  - intros HN (Z0&D0&B0). destruct (stagX_on g itf L Hed i c Hi Hc k la lb Hk Hu Ha Hb Es Em HN) as (row&Er&(R1&R2)); [exists Z0; split; [now apply Hon|exact B0]|].
    exists row. split; [exact Er|]. split.
    + intros kk v Hin. destruct (R1 _ _ Hin) as (X&Z&C&PX&PZ). exists X, Z. split; [exact C|]. split; [exact PX|now apply Hon].
    + intros a0 a1 a2 a3 f Hff. apply R2. intros kk X Z C PX PZ. apply Hff; auto. now apply Hon.
  - intros HN (X0&D0&B0). destruct (stagZ_on g itf L Hed i c Hi Hc k la lb Hk Hu Ha Hb Es Em HN) as (row&Er&(R1&R2)); [exists X0; split; [now apply Hon|exact B0]|].
    exists row. split; [exact Er|]. split.
    + intros kk v Hin. destruct (R1 _ _ Hin) as (X&Z&C&PX&PZ). exists X, Z. split; [exact C|]. split; [now apply Hon|exact PZ].
    + intros a0 a1 a2 a3 f Hff. apply R2. intros kk X Z C PX PZ. apply Hff; auto. now apply Hon.
  - intros HN HN'. exact (stagXZ_on g itf L Hed i c Hi Hc k la lb Hk Hu Ha Hb Es Em HN HN').
Qed.
Print Assumptions C147_staggered.

(** In the example grid: the row at x = 0 extrapolates from 1 and 4, the last column is a staggered point of the coarse grid. *)
Example C147_ex : exists g, init_variable 9 30 70 30 [1;3;9;3] [7;20;47] = Ok g /\
  (exists i row, coordinate2index g (mkC 0 7 6) = Ok i /\ index2coordinate g i = Ok (mkC 0 7 6) /\ calcInterpolationStaggeredX g i = Ok row /\
     map (fun e => index2coordinate g (fst e)) row = [Ok (mkC 1 7 6); Ok (mkC 4 7 6); Ok (mkC 1 7 9); Ok (mkC 4 7 9)] /\
     map (fun e => Qred (snd e)) row = [4 # 3; -1 # 3; 0; 0]%Q) /\
  (exists i row, coordinate2index g (mkC 22 7 5) = Ok i /\ calcInterpolationStaggeredXZ g i = Ok row /\
     map (fun e => index2coordinate g (fst e)) row = [Ok (mkC 22 7 4); Ok (mkC 22 7 7)] /\ map (fun e => Qred (snd e)) row = [2 # 3; 1 # 3]%Q).
Proof.
  eexists. split; [vm_compute; reflexivity|]. split.
  - do 2 eexists. split; [vm_compute; reflexivity|]. split; [vm_compute; reflexivity|]. split; [vm_compute; reflexivity|]. split; vm_compute; reflexivity.
  - do 2 eexists. split; [vm_compute; reflexivity|]. split; [vm_compute; reflexivity|]. split; vm_compute; reflexivity.
Qed.

(** Between factors 3 and 9 the code takes the shift 9/2 = 4 where the staggered points of the coarse grid are the fine ones with
    x = 9n + 3: a point of the coarse grid does not keep its value; at the last one only a ninth of another point is left. *)
Theorem C147_coarser_refuted : exists nx ny nz dhs ifs g i c row i' c' row',
  good_request nx ny nz dhs ifs /\ init_variable 27 nx ny nz dhs ifs = Ok g /\ map ldh (layers g) = [3; 9] /\ interface g = [-1; 12; 48] /\
  0 <= i < nGridpoints g /\ index2coordinate g i = Ok c /\ cy c = 12 /\ (exists n, cx c = 9 * n + 3) /\
  calcInterpolationStaggeredX g i = Ok row /\ ~ (forall f, apply_row row f == f i)%Q /\
  0 <= i' < nGridpoints g /\ index2coordinate g i' = Ok c' /\ cy c' = 12 /\ (exists n, cx c' = 9 * n + 3) /\ gNX g <= cx c' + 3 /\
  calcInterpolationStaggeredX g i' = Ok row' /\ (apply_row row' (fun _ => 1) == 1 # 9)%Q.
Proof.
  exists 41, 50, 1, [3; 9], [12]. eexists. exists 57. do 2 eexists. exists 69. do 2 eexists. split.
  { unfold good_request; simpl. repeat split; try lia; try (intros d0 [<-|[<-|[]]]; [exact (pow3_ex 1)|exact (pow3_ex 2)]); destruct H as [<-|[<-|[]]]; cbv; try discriminate; now left. }
  split; [vm_compute; reflexivity|]. split; [reflexivity|]. split; [reflexivity|].
  split; [cbn; lia|]. split; [vm_compute; reflexivity|]. split; [reflexivity|]. split; [exists 0; reflexivity|].
  split; [vm_compute; reflexivity|]. split.
  { intros H. specialize (H (fun k => if k =? 57 then 1 else 0)%Q). vm_compute in H. discriminate. }
  split; [cbn; lia|]. split; [vm_compute; reflexivity|]. split; [reflexivity|]. split; [exists 4; reflexivity|]. split; [cbn; lia|].
  split; [vm_compute; reflexivity|]. vm_compute; reflexivity.
Qed.
Print Assumptions C147_coarser_refuted.

(** Properties C148 and C149: vertical derivatives of horizontally staggered fields on layered grids, and the free surface. *)
From Verif Require Import Base M_Grid S_Grid L_Grid L_Grid2 P_Grid M_Deriv S_Deriv S_DerivVar L_Deriv L_DerivVar L_DerivVar2 L_DerivVar3 L_DerivVar4 P_DerivVar M_Inter S_Inter L_Inter L_Stag.
Open Scope Z_scope.

(** A field staggered in direction [a] has its value at grid point X half a cell to the right of X, with the cell of the row of the
    point.  Column [k] is the grid point of row [Y] whose staggered position is the one of [c], a point with cell [d]. *)
Definition staggered_line (g : grid) (a : axis) (c : coord) (d k Y : Z) : Prop :=
  0 <= k < nGridpoints g /\ exists X e, index2coordinate g k = Ok (moved a c X Y) /\ row_spacing g Y e /\ 2 * X + e = 2 * along a c + d.

(** Neighbouring factors have ratio 1 or 3. *)
Definition ratios_ok (dhs : list Z) : Prop :=
  forall k da db, nth_error dhs k = Some da -> nth_error dhs (S k) = Some db -> da = db \/ da = 3 * db \/ db = 3 * da.

Lemma ratio_layers dhs g : map ldh (layers g) = dhs -> ratios_ok dhs -> forall k la lb, nth_error (layers g) k = Some la -> nth_error (layers g) (S k) = Some lb ->
  ldh la = ldh lb \/ ldh la = 3 * ldh lb \/ ldh lb = 3 * ldh la.
Proof. intros <- H k la lb Ha Hb. apply (H k); now apply map_nth_error. Qed.

Lemma edge_axis fuel nx ny nz dhs ifs g a : good_request nx ny nz dhs ifs -> enough fuel dhs -> init_variable fuel nx ny nz dhs ifs = Ok g ->
  (a = AX \/ 1 < gNZ g) -> forall l, In l (layers g) -> edge (extent a g) (ldh l).
Proof. intros Hg Hf E Hz l Hl. destruct (edge_ok fuel nx ny nz dhs ifs g Hg Hf E l Hl) as (H1&[H2|H2]); unfold extent; destruct a; auto. destruct Hz as [Hz|Hz]; [discriminate|lia]. Qed.

(** ** C148 *)
(** Inside a layer the rows are the part inside the model of the central difference about the level half a cell below (forward)
    resp. above (backward) the point, of the configured order reduced so that the stencil ends at the nearest interface; every
    column lies exactly above or below the staggered position of the point. *)
Theorem C148_inside : forall fuel nx ny nz dhs ifs g, good_request nx ny nz dhs ifs -> (forall d, In d dhs -> d <= Z.of_nat fuel) ->
  init_variable fuel nx ny nz dhs ifs = Ok g -> NoDup (interface g) -> ratios_ok dhs ->
  exists itf, interface g = -1 :: itf /\
  forall a i c orders useVar DH p j l, (a = AX \/ 1 < gNZ g) -> 0 <= i < nGridpoints g -> index2coordinate g i = Ok c -> In p [2; 4; 6; 8; 10; 12] ->
  nth_error (layers g) j = Some l -> lstart l <= cy c <= lend l -> ~ In (cy c) (removelast itf) -> configured orders useVar j p ->
  let d := ldh l in
  exists D, interface_distance itf (gNY g) (cy c) D /\
  let q := Z.max 2 (Z.min p (2 * (D / d))) in
  (exists row, calcDyfStaggered a g orders useVar DH i = Ok row /\
     cut_row (2 * cy c + d) d q (gNY g) (DH * inject_Z d) (stencil_at q) (staggered_line g a c d) row) /\
  (exists row, calcDybStaggered a g orders useVar DH i = Ok row /\
     cut_row (2 * cy c - d) d q (gNY g) (DH * inject_Z d) (stencil_at q) (staggered_line g a c d) row).
Proof.
  intros fuel nx ny nz dhs ifs g Hg Hf E Nd Hr. destruct (layered_ok fuel nx ny nz dhs ifs g Hg Hf E) as (itf&L&Ed).
  assert (Nd' : NoDup itf) by (rewrite (lay_if g itf L) in Nd; now inversion Nd). pose proof (ratio_layers dhs g Ed Hr) as Ra.
  exists itf. split; [apply (lay_if g itf L)|]. intros a i c orders useVar DH p j l Hz Hi Hc Hp Hj Hy Hoff Ho d.
  pose proof (edge_axis fuel nx ny nz dhs ifs g a Hg Hf E Hz) as Hed.
  exists (distToInterface g (cy c)). split; [apply (lay_dist g itf L)|]. cbv zeta. split.
  - exact (off_dyf g itf L Nd' Ra a i c Hi Hc Hed j l orders useVar DH p Hj Hy Hoff Hp Ho).
  - exact (off_dyb g itf L Nd' Ra a i c Hi Hc Hed j l orders useVar DH p Hj Hy Hoff Hp Ho).
Qed.
Print Assumptions C148_inside.

Lemma forall2_nth {A B} (P : A -> B -> Prop) l r : Forall2 P l r ->
  length l = length r /\ forall n x y, nth_error l n = Some x -> nth_error r n = Some y -> P x y.
Proof.
  induction 1 as [|x y l r Hxy _ (IH1&IH2)]; [split; [reflexivity|intros [|n]; discriminate]|]. split; [cbn; lia|].
  intros [|n] x' y'; cbn; [congruence|apply IH2].
Qed.

(** Where the stencil fits into the model nothing is cut off, and C144_exact applies. *)
Theorem C148_fits : forall m s p N h col row, 0 <= p -> 0 <= s -> central_fits m s p N -> cut_row m s p N h (stencil_at p) col row ->
  central_row m s p h stencil_at col row.
Proof.
  intros m s p N h col row Hp Hs (F1&F2) H. unfold cut_row in H. cbv zeta in H.
  assert (Hf : filter (fun j => (0 <=? m + s * (2 * j - (p - 1))) && (m + s * (2 * j - (p - 1)) <? 2 * N)) (zseq 0 (Z.to_nat p)) = zseq 0 (Z.to_nat p)).
  { assert (G : forall l, (forall j, In j l -> 0 <= j < p) -> filter (fun j => (0 <=? m + s * (2 * j - (p - 1))) && (m + s * (2 * j - (p - 1)) <? 2 * N)) l = l).
    { induction l as [|j l IH]; intros Hl; [reflexivity|]. cbn [filter]. assert (0 <= j < p) by (apply Hl; now left).
      assert (- (s * (p - 1)) <= s * (2 * j - (p - 1)) <= s * (p - 1)) by (split; [rewrite <- Z.mul_opp_r|]; apply Z.mul_le_mono_nonneg_l; lia).
      replace ((0 <=? m + s * (2 * j - (p - 1))) && (m + s * (2 * j - (p - 1)) <? 2 * N)) with true by lia. f_equal. apply IH. intros; apply Hl; now right. }
    apply G. intros j Hj. apply zseq_in in Hj. lia. }
  rewrite Hf in H. clear Hf. destruct (forall2_nth _ _ _ H) as (Hl&Hn0). split; [rewrite <- Hl, zseq_length; reflexivity|].
  intros n k v Hn. assert (Hlt : (n < Z.to_nat p)%nat). { rewrite <- (zseq_length 0 (Z.to_nat p)), Hl. apply nth_error_Some. congruence. }
  destruct (Hn0 n (Z.of_nat n) (k, v)) as (Y&E1&E2&E3); [|exact Hn|exists Y; auto].
  clear -Hlt. change (Some (Z.of_nat n)) with (Some (0 + Z.of_nat n)). revert Hlt. generalize (Z.to_nat p) as m. generalize 0 as s.
  induction n as [|n IH]; intros s m H; (destruct m; [lia|]); cbn [zseq nth_error]; [f_equal; lia|]. rewrite IH by lia. f_equal. lia.
Qed.
Print Assumptions C148_fits.

(** On the interface between layers [la] and [lb], at a point that is also a staggered point of the coarser layer: the rows join
    points of the staggered line of the point, the forward row over a cell of the lower layer, the backward row the two levels half
    a coarse cell above and below the interface, as in C145.  The condition on y - 3 da is needed, see below. *)
Theorem C148_interface : forall fuel nx ny nz dhs ifs g, good_request nx ny nz dhs ifs -> (forall d, In d dhs -> d <= Z.of_nat fuel) ->
  init_variable fuel nx ny nz dhs ifs = Ok g -> NoDup (interface g) -> ratios_ok dhs ->
  exists itf, interface g = -1 :: itf /\
  forall a i c orders useVar DH p k la lb, (a = AX \/ 1 < gNZ g) -> 0 <= i < nGridpoints g -> index2coordinate g i = Ok c -> In p [2; 4; 6; 8; 10; 12] ->
  nth_error itf k = Some (cy c) -> nth_error (layers g) k = Some la -> nth_error (layers g) (S k) = Some lb ->
  configured orders useVar (if ldh la <? ldh lb then S k else k) p ->
  let y := cy c in let da := ldh la in let db := ldh lb in let s := Z.max da db in let d := Z.min da db in
  (da <> db -> (s | along a c - d) /\ (s | match a with AX => cz c | AZ => cx c end)) ->
  (y + db <= lend lb -> exists row, calcDyfStaggered a g orders useVar DH i = Ok row /\
     central_row (2 * y + db) db 2 (DH * inject_Z db) stencil_at (staggered_line g a c d) row) /\
  (s <= y -> (da < db -> lstart la <= y - 2 * da /\ ~ In (y - 3 * da) (removelast itf)) -> (db < da -> y + db <= lend lb) ->
     exists row, calcDybStaggered a g orders useVar DH i = Ok row /\
     central_row (4 * y) (2 * s) 2 (DH * inject_Z s) stencil_at
       (fun k S => exists Y h, S = 2 * Y + h /\ staggered_line g a c d k Y /\ ((Y < y /\ h = da) \/ (y <= Y /\ h = db))) row /\
     exists row', calcDybStaggeredFreeSurface a g orders useVar true DH i = Ok row' /\
     central_row (4 * y) (2 * s) 2 (DH * inject_Z s) stencil_at
       (fun k S => exists Y h, S = 2 * Y + h /\ staggered_line g a c d k Y /\ ((Y < y /\ h = da) \/ (y <= Y /\ h = db))) row').
Proof.
  intros fuel nx ny nz dhs ifs g Hg Hf E Nd Hr. destruct (layered_ok fuel nx ny nz dhs ifs g Hg Hf E) as (itf&L&Ed).
  assert (Nd' : NoDup itf) by (rewrite (lay_if g itf L) in Nd; now inversion Nd). pose proof (ratio_layers dhs g Ed Hr) as Ra.
  exists itf. split; [apply (lay_if g itf L)|]. intros a i c orders useVar DH p k la lb Hz Hi Hc Hp Hk Ha Hb Ho y da db s d Hco.
  pose proof (edge_axis fuel nx ny nz dhs ifs g a Hg Hf E Hz) as Hed.
  split.
  - exact (on_dyf g itf L Nd' Ra a i c Hi Hc Hed k la lb orders useVar DH p Hk Ha Hb Ho Hco).
  - intros H1 H2 H3. destruct (on_dyb g itf L Nd' Ra a i c Hi Hc Hed k la lb orders useVar DH p Hk Ha Hb Ho Hco H1 H2 H3) as (row&E1&R1).
    destruct (on_fs g itf L Nd' Ra a i c Hi Hc Hed k la lb orders useVar DH p Hk Ha Hb Ho Hco H1 H2 H3) as (row'&E2&R2).
    exists row. split; [exact E1|]. split; [exact R1|]. exists row'. split; [exact E2|exact R2].
Qed.
Print Assumptions C148_interface.

(** Grid 23x68x23 with factors 1, 3, 9, 3 and interfaces 7, 19, 46: the backward row just below the interface 7 takes the fine
    point x = 13 above x = 12 (staggered position 13.5 both); forward and backward rows at the point (12,19,9) of the interface
    with the layer of factor 9; the backward row at the point (3,46,9). *)
Example C148_ex : exists g, init_variable 9 30 70 30 [1;3;9;3] [7;20;47] = Ok g /\ interface g = [-1; 7; 19; 46; 67] /\ NoDup (interface g) /\
  (exists i, index2coordinate g i = Ok (mkC 12 10 6) /\ exists row, calcDybStaggered AX g [6] false 2 i = Ok row /\
     map (fun e => index2coordinate g (fst e)) row = [Ok (mkC 13 7 6); Ok (mkC 12 10 6)] /\ map (fun e => Qred (snd e)) row = [-1 # 6; 1 # 6]%Q) /\
  (exists i, index2coordinate g i = Ok (mkC 12 4 6) /\ exists row, calcDyfStaggered AX g [6] false 2 i = Ok row /\
     map (fun e => index2coordinate g (fst e)) row = map (fun Y => Ok (mkC 12 Y 6)) [2; 3; 4; 5; 6; 7]) /\
  (exists i, index2coordinate g i = Ok (mkC 12 19 9) /\
     (exists row, calcDyfStaggered AX g [6] false 2 i = Ok row /\ map (fun e => index2coordinate g (fst e)) row = [Ok (mkC 12 19 9); Ok (mkC 9 28 9)]) /\
     (exists row, calcDybStaggered AX g [6] false 2 i = Ok row /\ map (fun e => index2coordinate g (fst e)) row = [Ok (mkC 12 13 9); Ok (mkC 12 19 9)])) /\
  (exists i, index2coordinate g i = Ok (mkC 3 46 9) /\ exists row, calcDybStaggered AX g [6] false 2 i = Ok row /\
     map (fun e => index2coordinate g (fst e)) row = [Ok (mkC 0 37 9); Ok (mkC 3 49 9)]).
Proof.
  eexists. split; [vm_compute; reflexivity|]. split; [reflexivity|]. split; [repeat constructor; simpl; lia|]. split; [|split; [|split]].
  - exists 4252. split; [vm_compute; reflexivity|]. eexists. split; [vm_compute; reflexivity|]. split; vm_compute; reflexivity.
  - exists 2266. split; [vm_compute; reflexivity|]. eexists. split; vm_compute; reflexivity.
  - exists 4452. split; [vm_compute; reflexivity|]. split; eexists; split; vm_compute; reflexivity.
  - exists 4531. split; [vm_compute; reflexivity|]. eexists. split; vm_compute; reflexivity.
Qed.

(** A layer exactly three cells thick between a finer and a coarser one: at its lower interface the code takes the upper interface
    for the end of the stencil and moves the upper point by a cell, to a position one and a half fine cells off the line. *)
Theorem C148_thin_layer_refuted : exists nx ny nz dhs ifs g i c row,
  good_request nx ny nz dhs ifs /\ ratios_ok dhs /\ init_variable 9 nx ny nz dhs ifs = Ok g /\ interface g = [-1; 6; 15; 51] /\ map ldh (layers g) = [1; 3; 9] /\
  0 <= i < nGridpoints g /\ index2coordinate g i = Ok c /\ cy c = 15 /\ (9 | cx c - 3) /\ (9 | cz c) /\
  calcDybStaggered AX g [2] false 1 i = Ok row /\
  map (fun e => index2coordinate g (fst e)) row = [Ok (mkC (cx c + 3) 9 (cz c)); Ok c] /\
  row_spacing g 9 3 /\ ~ exists Y, staggered_line g AX c 3 (fst (nth 0 row (0, 0%Q))) Y.
Proof.
  exists 41, 60, 41, [1; 3; 9], [6; 15]. eexists. exists 12205. do 2 eexists. split.
  { unfold good_request; simpl. repeat split; try lia.
    - intros d0 [<-|[<-|[<-|[]]]]; [exact (pow3_ex 0)|exact (pow3_ex 1)|exact (pow3_ex 2)].
    - destruct H as [<-|[<-|[<-|[]]]]; cbv; discriminate.
    - right. destruct H as [<-|[<-|[<-|[]]]]; cbv; discriminate. }
  split. { intros k da db. destruct k as [|[|[|k]]]; cbn [nth_error]; intros H1 H2; try discriminate; injection H1 as <-; injection H2 as <-; lia. }
  split; [vm_compute; reflexivity|]. split; [reflexivity|]. split; [reflexivity|]. split; [cbn; lia|]. split; [vm_compute; reflexivity|]. split; [reflexivity|].
  split; [exists 1; reflexivity|]. split; [exists 1; reflexivity|]. split; [vm_compute; reflexivity|]. split; [vm_compute; reflexivity|]. split.
  - exists (nth 1 (layers (match init_variable 9 41 60 41 [1; 3; 9] [6; 15] with Ok g => g | _ => mkG 0 0 0 0 0 [] [] end)) (mkL 0 0 0 0 0 0 0 0)). vm_compute. repeat split; try discriminate. right. now left.
  - intros (Y&_&X&e&HX&(l&Hl&HY&He)&Hp). cbn [nth fst] in HX. vm_compute in HX. injection HX as <- <-. cbn [along cx] in Hp. cbn [layers In] in Hl.
    destruct Hl as [<-|[<-|[<-|[]]]]; cbn in HY, He; lia.
Qed.
Print Assumptions C148_thin_layer_refuted.

(** ** C149 *)
(** The free surface lies half a cell above the first row.  The backward rows for staggered fields and for unstaggered ones give
    the central difference of the field continued antisymmetrically about the free surface. *)
Theorem C149_free_surface : forall fuel nx ny nz dhs ifs g, good_request nx ny nz dhs ifs -> (forall d, In d dhs -> d <= Z.of_nat fuel) ->
  init_variable fuel nx ny nz dhs ifs = Ok g -> NoDup (interface g) -> ratios_ok dhs ->
  exists itf, interface g = -1 :: itf /\
  forall i c orders useVar DH p j l, 0 <= i < nGridpoints g -> index2coordinate g i = Ok c -> In p [2; 4; 6; 8; 10; 12] ->
  nth_error (layers g) j = Some l -> lstart l <= cy c <= lend l -> ~ In (cy c) (removelast itf) -> configured orders useVar j p ->
  let d := ldh l in
  exists D, interface_distance itf (gNY g) (cy c) D /\
  let q := Z.max 2 (Z.min p (2 * (D / d))) in
  let derivative F := qsum_to q (fun n => stencil_at q n / (DH * inject_Z d) * odd_about d (gNY g) F (cy c + d * (n - q / 2)))%Q in
  (forall a, a = AX \/ 1 < gNZ g -> exists row, calcDybStaggeredFreeSurface a g orders useVar true DH i = Ok row /\
     forall f F, (forall k Y, staggered_line g a c d k Y -> (f k == F Y)%Q) -> (apply_row row f == derivative F)%Q) /\
  (exists row, calcDybFreeSurfaceVar g orders useVar true DH i = Ok row /\
     forall f F, (forall k Y, index2coordinate g k = Ok (mkC (cx c) Y (cz c)) -> (f k == F Y)%Q) -> (apply_row row f == derivative F)%Q).
Proof.
  intros fuel nx ny nz dhs ifs g Hg Hf E Nd Hr. destruct (layered_ok fuel nx ny nz dhs ifs g Hg Hf E) as (itf&L&Ed).
  assert (Nd' : NoDup itf) by (rewrite (lay_if g itf L) in Nd; now inversion Nd). pose proof (ratio_layers dhs g Ed Hr) as Ra.
  exists itf. split; [apply (lay_if g itf L)|]. intros i c orders useVar DH p j l Hi Hc Hp Hj Hy Hoff Ho d.
  exists (distToInterface g (cy c)). split; [apply (lay_dist g itf L)|]. cbv zeta. split.
  - intros a Hz. pose proof (edge_axis fuel nx ny nz dhs ifs g a Hg Hf E Hz) as Hed.
    exact (off_fs g itf L Nd' Ra a i c Hi Hc Hed j l orders useVar DH p Hj Hy Hoff Hp Ho).
  - exact (off_fsv g itf L Ra AX i c Hi Hc (edge_axis fuel nx ny nz dhs ifs g AX Hg Hf E (or_introl eq_refl)) j l orders useVar DH p Hj Hy Hoff Hp Ho).
Qed.
Print Assumptions C149_free_surface.

(** Row 1 of the same grid with order 6: the stencil reaches two rows above the free surface. *)
Example C149_ex : exists g, init_variable 9 30 70 30 [1;3;9;3] [7;20;47] = Ok g /\
  exists i, index2coordinate g i = Ok (mkC 12 1 6) /\ exists row, calcDybStaggeredFreeSurface AX g [6] false true 2 i = Ok row /\
     map (fun e => index2coordinate g (fst e)) row = map (fun Y => Ok (mkC 12 Y 6)) [0; 1; 2; 3] /\
     map (fun e => Qred (snd e)) row = [-475 # 768; 753 # 1280; -25 # 768; 3 # 1280]%Q.
Proof. eexists. split; [vm_compute; reflexivity|]. exists 679. split; [vm_compute; reflexivity|]. eexists. split; [vm_compute; reflexivity|]. split; vm_compute; reflexivity. Qed.

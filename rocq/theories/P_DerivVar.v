(** Properties C144 and C145: derivative matrices on layered (variable) grids. *)
From Verif Require Import Base M_Grid S_Grid L_Grid L_Grid2 P_Grid M_Deriv S_Deriv S_DerivVar L_Deriv L_DerivVar L_DerivVar2 L_DerivVar3 L_DerivVar4.
Open Scope Z_scope.

(** ** C144: horizontal derivatives *)
(** The four horizontal rows of grid point [i] with coordinates [c]: central differences of the configured order [p] with point
    distance [s], about the position half a cell [d] to the right (forward) resp. left (backward) of the point.  Every column is
    the grid point at exactly that position of the same line. *)
Definition horizontal_rows (g : grid) (orders : list Z) (useVar : bool) (DH : Q) (fuel : nat) (i : Z) (c : coord) (d s p : Z) : Prop :=
  let h := (DH * inject_Z s)%Q in
  let atx k X := index2coordinate g k = Ok (mkC X (cy c) (cz c)) in
  let atz k Z := index2coordinate g k = Ok (mkC (cx c) (cy c) Z) in
  (central_fits (2 * cx c + d) s p (gNX g) -> exists row, calcDxf fuel g orders useVar DH i = Ok row /\ central_row (2 * cx c + d) s p h stencil_at atx row) /\
  (central_fits (2 * cx c - d) s p (gNX g) -> exists row, calcDxb fuel g orders useVar DH i = Ok row /\ central_row (2 * cx c - d) s p h stencil_at atx row) /\
  (central_fits (2 * cz c + d) s p (gNZ g) -> exists row, calcDzf fuel g orders useVar DH i = Ok row /\ central_row (2 * cz c + d) s p h stencil_at atz row) /\
  (central_fits (2 * cz c - d) s p (gNZ g) -> exists row, calcDzb fuel g orders useVar DH i = Ok row /\ central_row (2 * cz c - d) s p h stencil_at atz row).

(** [itf] are the corrected interfaces.  Rows inside a layer use the spacing of the layer; rows on the interface between layers
    [k] and [k+1] are stored with the finer spacing and differentiated with the coarser one, three times as large. *)
Theorem C144_horizontal : forall fuel nx ny nz dhs ifs g, good_request nx ny nz dhs ifs -> (forall d, In d dhs -> d <= Z.of_nat fuel) ->
  init_variable fuel nx ny nz dhs ifs = Ok g ->
  exists itf, interface g = -1 :: itf /\ corrected 0 dhs (ifs ++ [ny - 1]) itf /\
  forall i c orders useVar DH f p, 0 <= i < nGridpoints g -> index2coordinate g i = Ok c -> In p [2; 4; 6; 8; 10; 12] -> 15 <= Z.of_nat f ->
  (forall j l, nth_error (layers g) j = Some l -> lstart l <= cy c <= lend l -> ~ In (cy c) (removelast itf) -> configured orders useVar j p ->
     horizontal_rows g orders useVar DH f i c (ldh l) (ldh l) p) /\
  (forall k la lb, nth_error itf k = Some (cy c) -> (forall k', nth_error itf k' = Some (cy c) -> k' = k) ->
     nth_error (layers g) k = Some la -> nth_error (layers g) (S k) = Some lb ->
     let d := Z.min (ldh la) (ldh lb) in let s := Z.max (ldh la) (ldh lb) in
     (s = 3 * d \/ s = 1) -> configured orders useVar (if ldh la <? ldh lb then S k else k) p ->
     horizontal_rows g orders useVar DH f i c d s p).
Proof.
  intros fuel nx ny nz dhs ifs g Hg Hf E. destruct (layered_ok fuel nx ny nz dhs ifs g Hg Hf E) as (itf&L&Ed).
  exists itf. split; [apply (lay_if g itf L)|]. split.
  { destruct (C04_layers_partial fuel nx ny nz dhs ifs Hg Hf) as (g'&itf'&E'&_&_&_&I&Co&_). assert (g' = g) by congruence. subst g'.
    rewrite (lay_if g itf L) in I. injection I as ->. exact Co. }
  intros i c orders useVar DH f p Hi Hc Hp Hfu. split.
  - intros j l Hj Hy Hoff Ho. pose proof (lay_getLayer g itf L j l (cy c) Hj Hy Hoff) as HL.
    assert (Hb : locatedOnInterface g (cy c) = Ok false) by (eapply off_onif; eauto).
    split; [|split; [|split]]; [eapply (lay_Dxf g itf L i c j l)|eapply (lay_Dxb g itf L i c j l)|eapply (lay_Dzf g itf L i c j l)|eapply (lay_Dzb g itf L i c j l)]; eauto; reflexivity.
  - intros k la lb Hk Hu Ha Hb d s Hs Ho.
    destruct (iface_store g itf L k (cy c) la lb Hk Ha Hb) as (j&l&Hj&Hy&Hd). fold d in Hd.
    pose proof (iface_layer g itf L k (cy c) la lb Hk Hu Ha Hb) as HL.
    destruct (iface_trans g itf L k (cy c) la lb Hk Hu Ha Hb) as (Hon&_).
    assert (X : exists lr, nth_error (layers g) (if ldh la <? ldh lb then S k else k) = Some lr /\ ldh lr = s).
    { unfold s. destruct (Z.ltb_spec (ldh la) (ldh lb)); [exists lb|exists la]; split; auto; lia. }
    destruct X as (lr&Hlr&Hls).
    assert (Hsd : ldh lr = 3 * ldh l \/ (ldh lr = 1 /\ ldh l = 1)).
    { rewrite Hls, Hd. destruct Hs as [Hs|Hs]; [now left|right]. split; [exact Hs|].
      pose proof (layer_pos g itf L la (nth_error_In _ _ Ha)). pose proof (layer_pos g itf L lb (nth_error_In _ _ Hb)). unfold s in Hs. unfold d. lia. }
    clearbody d s. rewrite <- Hd, <- Hls.
    split; [|split; [|split]]; [eapply (lay_Dxf g itf L i c j l)|eapply (lay_Dxb g itf L i c j l)|eapply (lay_Dzf g itf L i c j l)|eapply (lay_Dzb g itf L i c j l)]; eauto.
Qed.
Print Assumptions C144_horizontal.

(** A central row differentiates every polynomial of degree up to the order exactly (orders 2 to 8): with the field sampled at
    the grid points it gives the derivative at the staggered position m/2. *)
Theorem C144_exact : forall m s p DH (col : Z -> Z -> Prop) row (l : list Q) (f : Z -> Q), In p [2; 4; 6; 8] -> 1 <= s -> ~ (DH == 0)%Q ->
  Z.of_nat (length l) <= p + 1 -> central_row m s p (DH * inject_Z s) stencil_at col row ->
  (forall k X, col k X -> (f k == peval l (inject_Z X * DH))%Q) ->
  (apply_row row f == peval (pder l) (inject_Z m / 2 * DH))%Q.
Proof. intros. eapply central_exact; eauto. Qed.
Print Assumptions C144_exact.

(** Grid 30x70x30 with factors 1, 3, 9, 3: a point of the coarse layer, and a point of the interface at row 7 between the layers
    with factors 1 and 3. *)
Example C144_ex : exists g, init_variable 9 30 70 30 [1;3;9;3] [7;20;47] = Ok g /\
  (exists i, coordinate2index g (mkC 12 13 6) = Ok i /\ index2coordinate g i = Ok (mkC 12 13 6) /\ central_fits (2 * 12 + 3) 3 4 (gNX g) /\
     exists row, calcDxf 15 g [4] false 2 i = Ok row /\ map (fun e => index2coordinate g (fst e)) row = map (fun x => Ok (mkC x 13 6)) [9; 12; 15; 18]) /\
  (exists i, coordinate2index g (mkC 11 7 6) = Ok i /\ index2coordinate g i = Ok (mkC 11 7 6) /\ central_fits (2 * 11 + 1) 3 4 (gNX g) /\
     exists row, calcDxf 15 g [4] false 2 i = Ok row /\ map (fun e => index2coordinate g (fst e)) row = map (fun x => Ok (mkC x 7 6)) [7; 10; 13; 16] /\
       map (fun e => Qred (snd e)) row = [1 # 144; -3 # 16; 3 # 16; -1 # 144]%Q).
Proof.
  eexists. split; [vm_compute; reflexivity|]. split.
  - eexists. split; [vm_compute; reflexivity|]. split; [vm_compute; reflexivity|]. split; [vm_compute; split; discriminate|].
    eexists. split; [vm_compute; reflexivity|vm_compute; reflexivity].
  - eexists. split; [vm_compute; reflexivity|]. split; [vm_compute; reflexivity|]. split; [vm_compute; split; discriminate|].
    eexists. split; [vm_compute; reflexivity|]. split; vm_compute; reflexivity.
Qed.

(** The grid file may put two layers with the same factor above each other.  With a factor above 1 the interface between them
    is still shifted by a third of a cell, the lookup rounds down, and the forward x-derivative at the interface row uses the
    points of the backward one. *)
Theorem C144_equal_layers_refuted : exists nx ny nz its dhs g i c la lb row,
  init_config_variable 100 nx ny nz its dhs = Ok g /\ good_request nx ny nz dhs (tl its) /\ 0 <= i < nGridpoints g /\
  index2coordinate g i = Ok c /\ nth_error (interface g) 1 = Some (cy c) /\
  nth_error (layers g) 0 = Some la /\ nth_error (layers g) 1 = Some lb /\ ldh la = ldh lb /\
  central_fits (2 * cx c + ldh la) (ldh la) 2 (gNX g) /\
  calcDxf 15 g [2] false 1 i = Ok row /\ calcDxb 15 g [2] false 1 i = Ok row /\
  ~ central_row (2 * cx c + ldh la) (ldh la) 2 (1 * inject_Z (ldh la))%Q stencil_at (fun k X => index2coordinate g k = Ok (mkC X (cy c) (cz c))) row.
Proof.
  exists 32, 30, 1, [0; 12], [3; 3]. do 6 eexists.
  split; [vm_compute; reflexivity|]. split.
  { unfold good_request; simpl. repeat split; try lia; try (intros d0 [<-|[<-|[]]]; exact (pow3_ex 1)); destruct H as [<-|[<-|[]]]; cbv; try discriminate; now left. }
  split; [instantiate (1 := 48); vm_compute; split; [discriminate|reflexivity]|].
  split; [vm_compute; reflexivity|]. split; [reflexivity|]. split; [reflexivity|]. split; [reflexivity|]. split; [reflexivity|].
  split; [vm_compute; split; discriminate|]. split; [vm_compute; reflexivity|]. split; [vm_compute; reflexivity|].
  intros (_&H). destruct (H 0%nat 47 _ eq_refl) as (X&HX&HC&_). vm_compute in HC. injection HC as <-. vm_compute in HX. discriminate.
Qed.
Print Assumptions C144_equal_layers_refuted.

(** ** C145: vertical derivatives *)
(** Distance of row [y] from the nearest interior interface, at most NY. *)
Definition interface_distance (itf : list Z) (NY y D : Z) : Prop :=
  D <= NY /\ (forall i, In i (removelast itf) -> D <= Z.abs (y - i)) /\ (D = NY \/ exists i, In i (removelast itf) /\ D = Z.abs (y - i)).

(** Inside a layer the order is reduced so that the stencil ends at the nearest interface; all columns are grid points of the
    same vertical line at distance [d]. *)
Theorem C145_vertical : forall fuel nx ny nz dhs ifs g, good_request nx ny nz dhs ifs -> (forall d, In d dhs -> d <= Z.of_nat fuel) ->
  init_variable fuel nx ny nz dhs ifs = Ok g ->
  exists itf, interface g = -1 :: itf /\
  forall i c orders useVar DH f p j l, 0 <= i < nGridpoints g -> index2coordinate g i = Ok c -> In p [2; 4; 6; 8; 10; 12] -> 15 <= Z.of_nat f ->
  nth_error (layers g) j = Some l -> lstart l <= cy c <= lend l -> ~ In (cy c) (removelast itf) -> configured orders useVar j p ->
  let d := ldh l in
  exists D, interface_distance itf (gNY g) (cy c) D /\
  let q := Z.max 2 (Z.min p (2 * (D / d))) in
  let aty k Y := index2coordinate g k = Ok (mkC (cx c) Y (cz c)) in
  (central_fits (2 * cy c + d) d q (gNY g) -> exists row, calcDyf f g orders useVar true DH i = Ok row /\
     central_row (2 * cy c + d) d q (DH * inject_Z d) stencil_at aty row) /\
  (central_fits (2 * cy c - d) d q (gNY g) -> exists row, calcDyb f g orders useVar true DH i = Ok row /\
     central_row (2 * cy c - d) d q (DH * inject_Z d) stencil_at aty row).
Proof.
  intros fuel nx ny nz dhs ifs g Hg Hf E. destruct (layered_ok fuel nx ny nz dhs ifs g Hg Hf E) as (itf&L&Ed).
  exists itf. split; [apply (lay_if g itf L)|]. intros i c orders useVar DH f p j l Hi Hc Hp Hfu Hj Hy Hoff Ho d.
  exists (distToInterface g (cy c)). split; [apply (lay_dist g itf L)|]. cbv zeta. split.
  - exact (off_Dyf g itf L i c Hi Hc orders useVar DH f p Hp Hfu j l Hj Hy Hoff Ho).
  - exact (off_Dyb g itf L i c Hi Hc orders useVar DH f p Hp Hfu j l Hj Hy Hoff Ho).
Qed.
Print Assumptions C145_vertical.

(** On the interface between layer [la] and layer [lb] below it, with factors [da] and [db].  The forward derivative joins the
    interface row and the next row of the lower layer.  The backward derivative acts on the staggered levels: the level of a row
    lies half a cell of its layer below the row, for the interface row half a cell of the lower layer; the two rows used have
    staggered levels half a coarse cell above and below the interface.  [cell x z s k Y]: column [k] is the grid point at depth Y
    whose cell of width [s] contains the horizontal position (x,z). *)
Theorem C145_interface : forall fuel nx ny nz dhs ifs g, good_request nx ny nz dhs ifs -> (forall d, In d dhs -> d <= Z.of_nat fuel) ->
  init_variable fuel nx ny nz dhs ifs = Ok g ->
  exists itf, interface g = -1 :: itf /\
  forall i c orders useVar DH f p k la lb, 0 <= i < nGridpoints g -> index2coordinate g i = Ok c -> In p [2; 4; 6; 8; 10; 12] -> 15 <= Z.of_nat f ->
  nth_error itf k = Some (cy c) -> (forall k', nth_error itf k' = Some (cy c) -> k' = k) ->
  nth_error (layers g) k = Some la -> nth_error (layers g) (S k) = Some lb -> configured orders useVar (if ldh la <? ldh lb then S k else k) p ->
  let y := cy c in let da := ldh la in let db := ldh lb in let s := Z.max da db in
  let cell w kk Y := exists X Z, index2coordinate g kk = Ok (mkC X Y Z) /\ X <= cx c < X + w /\ Z <= cz c < Z + w in
  (y + db <= lend lb -> exists row, calcDyf f g orders useVar true DH i = Ok row /\
     central_row (2 * y + db) db 2 (DH * inject_Z db) stencil_at (fun kk Y => cell (if Y =? y then Z.min da db else db) kk Y) row) /\
  (s <= y -> (da < db -> db = 3 * da /\ lstart la <= y - 2 * da) -> (db < da -> da = 3 * db /\ y + db <= lend lb) ->
     exists row, calcDyb f g orders useVar true DH i = Ok row /\
     central_row (4 * y) (2 * s) 2 (DH * inject_Z s) stencil_at
       (fun kk S => exists Y h w, S = 2 * Y + h /\ cell w kk Y /\
          ((Y = y /\ h = db /\ w = Z.min da db) \/ (Y < y /\ h = da /\ w = da) \/ (y < Y /\ h = db /\ w = db))) row).
Proof.
  intros fuel nx ny nz dhs ifs g Hg Hf E. destruct (layered_ok fuel nx ny nz dhs ifs g Hg Hf E) as (itf&L&Ed).
  exists itf. split; [apply (lay_if g itf L)|]. intros i c orders useVar DH f p k la lb Hi Hc Hp Hfu Hk Hu Ha Hb Ho. cbv zeta. split.
  - exact (on_Dyf g itf L i c Hi Hc orders useVar DH f p Hfu k la lb Hk Hu Ha Hb Ho).
  - exact (on_Dyb g itf L i c Hi Hc orders useVar DH f p Hfu k la lb Hk Hu Ha Hb Ho).
Qed.
Print Assumptions C145_interface.

(** The same grid: a row of the layer with factor 9 two cells above its lower interface (order 8 reduced to 2), and the
    backward rows at the interfaces 7 (factors 1 and 3) and 46 (factors 9 and 3). *)
Example C145_ex : exists g, init_variable 9 30 70 30 [1;3;9;3] [7;20;47] = Ok g /\ interface g = [-1; 7; 19; 46; 67] /\
  (exists i, coordinate2index g (mkC 18 37 9) = Ok i /\ index2coordinate g i = Ok (mkC 18 37 9) /\
     exists row, calcDyf 15 g [8] false true 2 i = Ok row /\ map (fun e => index2coordinate g (fst e)) row = map (fun y => Ok (mkC 18 y 9)) [37; 46]) /\
  (exists i, coordinate2index g (mkC 11 7 6) = Ok i /\ index2coordinate g i = Ok (mkC 11 7 6) /\
     exists row, calcDyb 15 g [8] false true 2 i = Ok row /\ map (fun e => index2coordinate g (fst e)) row = map (fun y => Ok (mkC 11 y 6)) [5; 7] /\
       map (fun e => Qred (snd e)) row = [-1 # 6; 1 # 6]%Q) /\
  (exists i, coordinate2index g (mkC 12 46 6) = Ok i /\ index2coordinate g i = Ok (mkC 12 46 6) /\
     exists row, calcDyb 15 g [8] false true 2 i = Ok row /\ map (fun e => index2coordinate g (fst e)) row = [Ok (mkC 9 37 0); Ok (mkC 12 49 6)]).
Proof.
  eexists. split; [vm_compute; reflexivity|]. split; [reflexivity|]. split; [|split].
  - eexists. split; [vm_compute; reflexivity|]. split; [vm_compute; reflexivity|]. eexists. split; [vm_compute; reflexivity|vm_compute; reflexivity].
  - eexists. split; [vm_compute; reflexivity|]. split; [vm_compute; reflexivity|]. eexists. split; [vm_compute; reflexivity|]. split; vm_compute; reflexivity.
  - eexists. split; [vm_compute; reflexivity|]. split; [vm_compute; reflexivity|]. eexists. split; vm_compute; reflexivity.
Qed.

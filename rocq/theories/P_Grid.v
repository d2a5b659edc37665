(** Properties C01-C08: grid indexing. *)
From Verif Require Import Base M_Grid S_Grid L_Grid L_Grid2 L_Grid3 L_GridP.

(** ** C01 *)
Theorem C01_regular_bijection : forall nx ny nz, 0 < nx -> 0 < ny -> 0 < nz ->
  exists g, mk_regular nx ny nz = Ok g /\
  (forall i, 0 <= i < nx * ny * nz -> exists c, index2coordinate g i = Ok c /\
       (0 <= cx c < nx /\ 0 <= cy c < ny /\ 0 <= cz c < nz) /\ coordinate2index g c = Ok i) /\
  (forall c, 0 <= cx c < nx /\ 0 <= cy c < ny /\ 0 <= cz c < nz ->
       exists i, coordinate2index g c = Ok i /\ 0 <= i < nx * ny * nz /\ index2coordinate g i = Ok c) /\
  (forall c, ~ (0 <= cx c < nx /\ 0 <= cy c < ny /\ 0 <= cz c < nz) -> coordinate2index g c = Throw).
Proof. intros nx ny nz Hx Hy Hz. pose proof (mk_regular_ok nx ny nz Hx Hy Hz) as E. eexists; split; [exact E|]. exact (regular_bijection _ _ _ _ E). Qed.
Print Assumptions C01_regular_bijection.

(** The storage order: x fastest, then z, then y. *)
Theorem C01_regular_formula : forall nx ny nz g x y z, mk_regular nx ny nz = Ok g ->
  0 <= x < nx -> 0 <= y < ny -> 0 <= z < nz -> coordinate2index g (mkC x y z) = Ok (x + z * nx + y * nx * nz).
Proof. exact regular_formula. Qed.
Print Assumptions C01_regular_formula.

Example C01_ex : exists g, mk_regular 4 3 2 = Ok g /\ coordinate2index g (mkC 1 2 1) = Ok 21 /\ index2coordinate g 21 = Ok (mkC 1 2 1) /\ coordinate2index g (mkC 1 3 1) = Throw.
Proof. eexists; split; [reflexivity|]. repeat split. Qed.

(** ** C02 *)
(** The configuration accepts lists of interfaces that leave a layer without rows; then two grid points share a
    coordinate and the round trip fails. *)
Theorem C02_variable_roundtrip_refuted : exists nx ny nz its dhs g i c j,
  init_config_variable 100 nx ny nz its dhs = Ok g /\ 0 <= i < nGridpoints g /\
  index2coordinate g i = Ok c /\ coordinate2index g c = Ok j /\ j <> i.
Proof.
  exists 30, 30, 1, [0;5;6], [1;3;1]. eexists. exists 174. eexists. exists 155.
  split; [vm_compute; reflexivity|]. split; [vm_compute; intuition discriminate|].
  split; [vm_compute; reflexivity|]. split; [vm_compute; reflexivity|discriminate].
Qed.
Print Assumptions C02_variable_roundtrip_refuted.

(** Full statement except that requests whose layers are too thin are excluded ([good_request]). *)
Theorem C02_variable_roundtrip_partial : forall fuel nx ny nz dhs ifs,
  good_request nx ny nz dhs ifs -> (forall d, In d dhs -> d <= Z.of_nat fuel) ->
  exists g, init_variable fuel nx ny nz dhs ifs = Ok g /\
    (forall i, 0 <= i < nGridpoints g -> exists c, index2coordinate g i = Ok c /\
        (0 <= cx c < gNX g /\ 0 <= cy c < gNY g /\ 0 <= cz c < gNZ g) /\ coordinate2index g c = Ok i) /\
    (forall i j c, 0 <= i < nGridpoints g -> 0 <= j < nGridpoints g ->
        index2coordinate g i = Ok c -> index2coordinate g j = Ok c -> i = j).
Proof. exact variable_roundtrip. Qed.
Print Assumptions C02_variable_roundtrip_partial.

Lemma pow3_ex n : pow3 (3 ^ Z.of_nat n). Proof. now exists n. Qed.
Example good_request_ex : good_request 30 70 30 [1;3;9;3] [7;20;47].
Proof.
  unfold good_request; simpl. repeat split; try lia.
  - intros d Hd. destruct Hd as [<-|[<-|[<-|[<-|[]]]]]; [exact (pow3_ex 0)|exact (pow3_ex 1)|exact (pow3_ex 2)|exact (pow3_ex 1)].
  - destruct H as [<-|[<-|[<-|[<-|[]]]]]; cbv; discriminate.
  - right. destruct H as [<-|[<-|[<-|[<-|[]]]]]; cbv; discriminate.
Qed.
Example C02_ex : exists g, init_variable 9 30 70 30 [1;3;9;3] [7;20;47] = Ok g /\ nGridpoints g = 5018 /\
  index2coordinate g 4300 = Ok (mkC 12 13 0) /\ coordinate2index g (mkC 12 13 0) = Ok 4300.
Proof. eexists; split; [vm_compute; reflexivity|]. vm_compute. auto. Qed.

(** ** C03 *)
(** Between a fine layer and the coarse layer below it lie rows that belong to no layer: looking them up reads behind
    the layer tables. *)
Theorem C03_lookup_refuted : exists nx ny nz its dhs g c,
  init_config_variable 100 nx ny nz its dhs = Ok g /\ good_request nx ny nz dhs (tl its) /\
  (0 <= cx c < gNX g /\ 0 <= cy c < gNY g /\ 0 <= cz c < gNZ g) /\ coordinate2index g c = UB.
Proof.
  exists 30, 70, 30, [0;7;20;47], [1;3;9;3]. eexists. exists (mkC 0 8 0).
  split; [vm_compute; reflexivity|]. split; [exact good_request_ex|]. split; [vm_compute; intuition discriminate|reflexivity].
Qed.
Print Assumptions C03_lookup_refuted.

(** Exact behaviour for every coordinate: rounding down inside a layer, out-of-range read in a gap between layers, error
    report outside the model. *)
Theorem C03_lookup_partial : forall fuel nx ny nz dhs ifs,
  good_request nx ny nz dhs ifs -> (forall d, In d dhs -> d <= Z.of_nat fuel) ->
  exists g, init_variable fuel nx ny nz dhs ifs = Ok g /\
    (forall c l, 0 <= cx c < gNX g -> 0 <= cz c < gNZ g -> In l (layers g) -> lstart l <= cy c <= lend l ->
       exists i, coordinate2index g c = Ok i /\ 0 <= i < nGridpoints g /\
         exists c', index2coordinate g i = Ok c' /\
           (cx c' <= cx c < cx c' + ldh l /\ (ldh l | cx c')) /\
           (cy c' <= cy c < cy c' + ldh l /\ (ldh l | cy c' - lstart l)) /\
           (cz c' <= cz c < cz c' + ldh l /\ (ldh l | cz c'))) /\
    (forall c, 0 <= cx c < gNX g /\ 0 <= cy c < gNY g /\ 0 <= cz c < gNZ g ->
       (forall l, In l (layers g) -> ~ (lstart l <= cy c <= lend l)) -> coordinate2index g c = UB) /\
    (forall c, ~ (0 <= cx c < gNX g /\ 0 <= cy c < gNY g /\ 0 <= cz c < gNZ g) -> coordinate2index g c = Throw).
Proof. exact variable_lookup. Qed.
Print Assumptions C03_lookup_partial.

(** ** C04 *)
Theorem C04_layers_partial : forall fuel nx ny nz dhs ifs,
  good_request nx ny nz dhs ifs -> (forall d, In d dhs -> d <= Z.of_nat fuel) ->
  exists g itf, init_variable fuel nx ny nz dhs ifs = Ok g /\
    map ldh (layers g) = dhs /\
    (forall k l l', nth_error (layers g) k = Some l -> nth_error (layers g) (S k) = Some l' -> lend l < lstart l') /\
    (forall l, In l (layers g) -> 0 <= lstart l /\ lend l < gNY g /\ 0 < lny l /\ lend l - lstart l = (lny l - 1) * ldh l /\
       (lnx l - 1) * ldh l < gNX g <= lnx l * ldh l /\ (lnz l - 1) * ldh l < gNZ g <= lnz l * ldh l) /\
    interface g = -1 :: itf /\ corrected 0 dhs (ifs ++ [ny - 1]) itf /\ gNY g = last itf 0 + 1 /\
    gNX g <= nx /\ gNY g <= ny /\ gNZ g <= nz /\ 0 < gNX g /\ 0 < gNY g /\ 0 < gNZ g /\
    nGridpoints g = zsum (map (fun l => lnx l * lny l * lnz l) (layers g)).
Proof. exact variable_layers. Qed.
Print Assumptions C04_layers_partial.

(** With interfaces that the configuration accepts but that are too close together, layers overlap. *)
Theorem C04_layers_refuted : exists nx ny nz its dhs g l l' y,
  init_config_variable 100 nx ny nz its dhs = Ok g /\ nth_error (layers g) 0 = Some l /\ nth_error (layers g) 2 = Some l' /\
  lstart l <= y <= lend l /\ lstart l' <= y <= lend l'.
Proof.
  exists 30, 30, 1, [0;5;6], [1;3;1]. eexists. eexists. eexists. exists 5.
  split; [vm_compute; reflexivity|]. split; [vm_compute; reflexivity|]. split; [vm_compute; reflexivity|].
  vm_compute. intuition discriminate.
Qed.
Print Assumptions C04_layers_refuted.

(** ** C05 *)
(** A positive, accepted configuration on which the construction loops for ever. *)
Theorem C05_termination_refuted : exists nx ny nz its dhs, 0 < nx /\ 0 < ny /\ 0 < nz /\
  (forall d, In d dhs -> pow3 d) /\ forall fuel, init_config_variable fuel nx ny nz its dhs = Fuel.
Proof.
  exists 1, 30, 1, [0;10], [1;3]. repeat split; try lia.
  - intros d [<-|[<-|[]]]; [exact (pow3_ex 0)|exact (pow3_ex 1)].
  - intros fuel. unfold init_config_variable. simpl.
    unfold init_variable. simpl. change (dh_max [1; 3]) with 3. cbn [Z.eqb Pos.eqb].
    rewrite reduceN_diverges; [reflexivity|lia|cbv; reflexivity].
Qed.
Print Assumptions C05_termination_refuted.

(** Exact condition for termination; when it holds the construction also succeeds, within as many loop iterations as the
    largest factor. *)
Theorem C05_termination_iff : forall nx ny nz dhs ifs dm,
  (forall d, In d dhs -> pow3 d) -> is_max dm dhs -> length dhs = S (length ifs) -> 0 < nx -> 0 < ny -> 0 < nz ->
  ((exists fuel, init_variable fuel nx ny nz dhs ifs <> Fuel) <->
   (dm = 1 \/ (1 + dm / 2 <= nx /\ (nz = 1 \/ 1 + dm / 2 <= nz)))) /\
  ((dm = 1 \/ (1 + dm / 2 <= nx /\ (nz = 1 \/ 1 + dm / 2 <= nz))) ->
   forall fuel, dm <= Z.of_nat fuel -> exists g, init_variable fuel nx ny nz dhs ifs = Ok g).
Proof. exact init_terminates_iff. Qed.
Print Assumptions C05_termination_iff.
Example C05_ex : is_max 9 [1;3;9;3] /\ 1 + 9 / 2 <= 30 /\ exists g, init_variable 9 30 70 30 [1;3;9;3] [7;20;47] = Ok g.
Proof. split; [split; [simpl; auto|intros d H; simpl in H; lia]|]. split; [cbv; discriminate|]. eexists; vm_compute; reflexivity. Qed.

(** ** C06 *)
(** Not only does the old grid survive: every index of the old grid is still mapped by the old table, whatever the new
    size is. *)
Theorem C06_reinit_keeps_old_table : forall nx1 ny1 nz1 nx2 ny2 nz2 g1 g2 idx,
  mk_regular nx1 ny1 nz1 = Ok g1 -> reinit_regular g1 nx2 ny2 nz2 = Ok g2 -> 0 <= idx < nx1 * ny1 * nz1 ->
  index2coordinate g2 idx = index2coordinate g1 idx.
Proof. exact reinit_keeps_old. Qed.
Print Assumptions C06_reinit_keeps_old_table.
(** so the mapping differs from that of a new object *)
Theorem C06_reinit_refuted : exists g1 g2 g3, mk_regular 2 2 1 = Ok g1 /\ reinit_regular g1 3 3 1 = Ok g2 /\ mk_regular 3 3 1 = Ok g3 /\
  index2coordinate g2 2 = Ok (mkC 0 1 0) /\ index2coordinate g3 2 = Ok (mkC 2 0 0).
Proof. do 3 eexists. repeat split; reflexivity. Qed.
Print Assumptions C06_reinit_refuted.

(** ** C07 *)
Theorem C07_edge_distance : forall g c,
  0 <= cx c < gNX g -> 0 <= cy c < gNY g -> 0 <= cz c < gNZ g ->
  exists d, edgeDistance g c = Ok d /\
    (cx d = Z.min (cx c - 0) (gNX g - 1 - cx c) /\ cy d = Z.min (cy c - 0) (gNY g - 1 - cy c) /\ cz d = Z.min (cz c - 0) (gNZ g - 1 - cz c)) /\
    (0 <= cx d /\ 0 <= cy d /\ 0 <= cz d) /\
    (cx d = 0 <-> (cx c = 0 \/ cx c = gNX g - 1)) /\ (cy d = 0 <-> (cy c = 0 \/ cy c = gNY g - 1)) /\ (cz d = 0 <-> (cz c = 0 \/ cz c = gNZ g - 1)) /\
    (forall c2 d2, edgeDistance g c2 = Ok d2 ->
        (Z.abs (cx d - cx d2) <= Z.abs (cx c - cx c2)) /\ (Z.abs (cy d - cy d2) <= Z.abs (cy c - cy c2)) /\ (Z.abs (cz d - cz d2) <= Z.abs (cz c - cz c2))) /\
    edgeDistance g (mkC (gNX g - 1 - cx c) (gNY g - 1 - cy c) (gNZ g - 1 - cz c)) = Ok d.
Proof. exact edge_distance_props. Qed.
Print Assumptions C07_edge_distance.
Example C07_ex : exists g, mk_regular 10 20 5 = Ok g /\ edgeDistance g (mkC 7 3 2) = Ok (mkC 2 3 2).
Proof. eexists; split; reflexivity. Qed.

(** ** C08 *)
(** On an interface getLayer names the coarser neighbour although the row is stored in the finer layer. *)
Theorem C08_getLayer_refuted : exists g l y, init_variable 9 30 70 30 [1;3;9;3] [7;20;47] = Ok g /\
  nth_error (layers g) 0 = Some l /\ lstart l <= y <= lend l /\ getLayer g y = Ok 1.
Proof.
  eexists. eexists. exists 7. split; [vm_compute; reflexivity|]. split; [reflexivity|]. vm_compute. intuition discriminate.
Qed.
Print Assumptions C08_getLayer_refuted.

(** What the queries return: getLayer names the layer the row is stored in or, on an interface, possibly the adjacent layer,
    which is then at least as coarse; locatedOnInterface is exact; distToInterface is the minimum over interior interfaces
    (capped by NY); getTransition is defined exactly on interior interfaces and is the sign of the change of spacing. *)
Theorem C08_queries_partial : forall fuel nx ny nz dhs ifs,
  good_request nx ny nz dhs ifs -> (forall d, In d dhs -> d <= Z.of_nat fuel) ->
  exists g itf, init_variable fuel nx ny nz dhs ifs = Ok g /\ interface g = -1 :: itf /\
    (forall j l y, nth_error (layers g) j = Some l -> lstart l <= y <= lend l ->
       exists r l', getLayer g y = Ok (Z.of_nat r) /\ nth_error (layers g) r = Some l' /\
         (r = j \/ ((r = S j \/ j = S r) /\ nth_error itf (Nat.min r j) = Some y /\ ldh l <= ldh l'))) /\
    (forall y, 0 <= y -> exists b, locatedOnInterface g y = Ok b /\ (b = true <-> In y (removelast itf))) /\
    (forall y, distToInterface g y <= gNY g /\ (forall i, In i (removelast itf) -> distToInterface g y <= Z.abs (y - i)) /\
       (distToInterface g y = gNY g \/ exists i, In i (removelast itf) /\ distToInterface g y = Z.abs (y - i))) /\
    (forall y, 0 <= y -> In y (removelast itf) -> exists k l l', getTransition g y = Ok (Z.sgn (ldh l' - ldh l)) /\
       nth_error itf k = Some y /\ nth_error (layers g) k = Some l /\
       (nth_error (layers g) (S k) = Some l' \/ (nth_error (layers g) (S k) = None /\ l' = l))) /\
    (forall y, 0 <= y -> ~ In y (removelast itf) -> getTransition g y = Throw).
Proof. exact variable_queries. Qed.
Print Assumptions C08_queries_partial.
Example C08_ex : exists g, init_variable 9 30 70 30 [1;3;9;3] [7;20;47] = Ok g /\ interface g = [-1; 7; 19; 46; 67] /\
  getLayer g 10 = Ok 1 /\ getTransition g 19 = Ok 1 /\ getTransition g 46 = Ok (-1) /\ distToInterface g 15 = 4 /\ locatedOnInterface g 20 = Ok false.
Proof. eexists; split; [vm_compute; reflexivity|]. vm_compute. intuition. Qed.

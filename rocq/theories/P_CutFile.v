(** C181: the file of the cut coordinates. *)
From Verif Require Import Base M_Grid M_Acq M_CutFile S_Acq L_AcqFile L_Acq L_Acq2.
From Verif Require P_IncrFile.
Open Scope Z_scope.

Lemma cut_loop_length {F} : forall (l : list (source F)) i scx minX encode per out,
  cut_loop l i scx minX encode per = Ok out -> List.length out = List.length l.
Proof.
  induction l as [|s l IH]; intros i scx minX encode per out H; [inversion H; reflexivity|].
  cbn [cut_loop] in H. apply bind_ok in H. destruct H as (scx' & _ & H). apply bind_ok in H. destruct H as (u & _ & H).
  apply bind_ok in H. destruct H as (rest & R & H). inversion H; subst. cbn. f_equal. eapply IH. exact R.
Qed.
Lemma cut_lines_combine : forall nos cuts, List.length nos = List.length cuts -> cut_lines nos cuts = Ok (combine nos cuts).
Proof.
  induction nos as [|no nos IH]; intros [|c cuts] H; try discriminate; [reflexivity|].
  cbn [cut_lines combine]. rewrite IH by (cbn in H; congruence). reflexivity.
Qed.
Lemma per_shot {F} : forall (big : list (source F)) cuts NX NY NZ BW small,
  getSettingsPerShot big cuts NX NY NZ BW = Ok small ->
  Forall2 (fun s t => sourceNo t = sourceNo s) big small /\
  forall i s t c, nth_error big i = Some s -> nth_error small i = Some t -> nth_error cuts i = Some c ->
    cx (sourceCoords s) = cx (sourceCoords t) + cx c /\ cy (sourceCoords s) = cy (sourceCoords t) + cy c /\
    cz (sourceCoords s) = cz (sourceCoords t) + cz c.
Proof.
  induction big as [|s big IH]; intros cuts NX NY NZ BW small H.
  - cbn in H. inversion H; subst. split; [constructor|]. intros [|i]; discriminate.
  - cbn [getSettingsPerShot] in H. destruct cuts as [|c cuts]; [discriminate|].
    apply bind_ok in H. destruct H as (q & Q & H). apply bind_ok in H. destruct H as (rest & R & H). inversion H; subst.
    destruct (IH _ _ _ _ _ _ R) as [I1 I2]. split; [constructor; [reflexivity|exact I1]|].
    intros [|i] s0 t0 c0 Hs Ht Hc; [|apply (I2 i s0 t0 c0 Hs Ht Hc)].
    cbn in Hs, Ht, Hc. inversion Hs; inversion Ht; inversion Hc; subst. cbn [sourceCoords set_coords].
    unfold cut_coord in Q. repeat (apply bind_ok in Q; destruct Q as (? & _ & Q)). inversion Q; subst. cbn. lia.
Qed.

(** The file of the cuts: the head gives the number of points and the sizes of the model of one shot; then there is one
    line for every source of the big model, in order, with its shot number and its cut; adding the cut to the source of
    the small model gives the source of the big one.  No vector is read out of range. *)
Theorem C181_file : forall F (big small : list (source F)) x0residual encode dom cuts NX NY NZ BW nos,
  getCutCoord big x0residual encode dom = Ok cuts -> getSettingsPerShot big cuts NX NY NZ BW = Ok small ->
  calcuniqueShotNo small = Ok nos ->
  exists lines, writeCutCoord cuts nos NX NY NZ = Ok ((NX * NY * NZ, mkC NX NY NZ), lines) /\
    List.length lines = List.length big /\
    forall i s t, nth_error big i = Some s -> nth_error small i = Some t ->
      exists c, nth_error lines i = Some (Z.abs (sourceNo s), c) /\ sourceNo t = sourceNo s /\
        cx (sourceCoords s) = cx (sourceCoords t) + cx c /\ cy (sourceCoords s) = cy (sourceCoords t) + cy c /\
        cz (sourceCoords s) = cz (sourceCoords t) + cz c.
Proof.
  intros F big small x0residual encode dom cuts NX NY NZ BW nos Hc Hs En.
  destruct (per_shot _ _ _ _ _ _ _ Hs) as [N1 N2].
  unfold getCutCoord in Hc. apply bind_ok in Hc. destruct Hc as (u & Eu & Hc). apply bind_ok in Hc.
  destruct Hc as (tt' & A & Hc). unfold assert in A.
  destruct (Nat.eqb_spec (List.length big) (List.length u)) as [E|E]; [clear A|discriminate].
  assert (Lc : List.length cuts = List.length big).
  { destruct big as [|s0 r]; [discriminate|]. eapply cut_loop_length. exact Hc. }
  assert (Hb : big <> []) by (intros ->; discriminate).
  destruct (unique_lem big Hb) as (u' & Eu' & NN & Hin & _). rewrite Eu in Eu'. inversion Eu'; subst u'. clear Eu'.
  assert (ND : NoDup (map shot_of big)).
  { apply (NoDup_incl_NoDup NN); [rewrite map_length; lia|]. intros n Hn. apply Hin. exact Hn. }
  assert (Es : map shot_of small = map shot_of big).
  { clear - N1. induction N1 as [|a b l l' H _ IH]; [reflexivity|]. cbn. unfold shot_of at 1 3. rewrite H, IH. reflexivity. }
  assert (En' : nos = map shot_of big).
  { destruct small as [|s0 r]; [discriminate|]. unfold calcuniqueShotNo in En. fold (shot_of s0) in En.
    rewrite uq_start, Es in En. inversion En. apply (P_IncrFile.uq_nodup (map shot_of big) []). exact ND. }
  subst nos. unfold writeCutCoord. rewrite cut_lines_combine by (rewrite map_length; lia). cbn [bind].
  eexists. split; [reflexivity|]. split; [rewrite combine_length, map_length; lia|].
  intros i s t Hi Ht. assert (Li : (i < List.length big)%nat) by (apply nth_error_Some; congruence).
  destruct (nth_error cuts i) as [c|] eqn:Ec; [|apply nth_error_None in Ec; lia]. exists c. split; [|split].
  - clear - Hi Ec. revert cuts i Hi Ec. induction big as [|a big IH]; intros [|c0 cuts] [|i] Hi Ec; try discriminate.
    + cbn in *. inversion Hi; inversion Ec; subst. reflexivity.
    + cbn in *. apply IH; assumption.
  - clear - N1 Hi Ht. revert i Hi Ht. induction N1 as [|a b l l' H _ IH]; intros [|i] Hi Ht; try discriminate.
    + cbn in *. inversion Hi; inversion Ht; subst. exact H.
    + apply (IH i Hi Ht).
  - apply (N2 i s t c Hi Ht Ec).
Qed.
Print Assumptions C181_file.

(** Three sources at x = 20, 30 and 45, models of one shot of 60 x 40 x 1 points with a frame of 10. *)
Definition at_x (n x : Z) : source Z := mkSrc n (mkC x 20 0) 1 1 1 5 7 0 0.
Example C181_ex : exists cuts small, getCutCoord [at_x 3 20; at_x 8 30; at_x 5 45] 0 0 1 = Ok cuts /\
  getSettingsPerShot [at_x 3 20; at_x 8 30; at_x 5 45] cuts 60 40 1 10 = Ok small /\
  calcuniqueShotNo small = Ok [3; 8; 5] /\
  writeCutCoord cuts [3; 8; 5] 60 40 1 = Ok ((2400, mkC 60 40 1), [(3, mkC 0 0 0); (8, mkC 10 0 0); (5, mkC 25 0 0)]).
Proof. do 2 eexists. split; [vm_compute; reflexivity|]. split; [vm_compute; reflexivity|]. split; reflexivity. Qed.

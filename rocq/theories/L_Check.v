(** Lemmas about the parameter checks. *)
From Coq Require Import Reals Qreals Lra Ascii String.
From Verif Require Import Base M_Grid S_Grid L_Grid L_GridP M_Deriv S_Deriv M_Acq L_AcqFile M_Conf S_Conf L_Conf M_Check S_Check.
Open Scope Z_scope.
Local Notation length := List.length.

Lemma cfl_h_one p h : cfl_h p = Ok h -> h = 1 /\ is_order p.
Proof.
  unfold cfl_h, is_order.
  repeat match goal with |- context [p =? ?k] => destruct (Z.eqb_spec p k);
    [intros E; vm_compute in E; injection E as <-; split; [reflexivity|subst p; cbn; tauto]|] end.
  discriminate.
Qed.
Lemma cfl_h_order p : is_order p -> cfl_h p = Ok 1.
Proof. unfold is_order. cbn. intros [<-|[<-|[<-|[<-|[<-|[<-|[]]]]]]]; reflexivity. Qed.
Lemma cfl_h_unknown p : ~ is_order p -> cfl_h p = Throw.
Proof.
  intros H. unfold cfl_h, is_order in *. cbn in H.
  repeat match goal with |- context [p =? ?k] => destruct (Z.eqb_spec p k); [exfalso; subst; tauto|] end. reflexivity.
Qed.
Lemma cfl_dim_ok d D : cfl_dim d = Ok D <-> has_dim d D.
Proof.
  unfold cfl_dim, has_dim. destruct (str_eqb d (txt "2D")) eqn:E2.
  - apply str_eqb_true in E2. subst. split; [intros [= <-]; auto|]. intros [[_ ->]|[E _]]; [reflexivity|discriminate].
  - apply str_eqb_false in E2. destruct (str_eqb d (txt "3D")) eqn:E3.
    + apply str_eqb_true in E3. subst. split; [intros [= <-]; auto|]. intros [[E _]|[_ ->]]; [discriminate|reflexivity].
    + apply str_eqb_false in E3. split; [discriminate|]. intros [[E _]|[E _]]; contradiction.
Qed.
Lemma dim_sqrt d D : has_dim d D -> (0 < sqrt (IZR D))%R.
Proof. intros [[_ ->]|[_ ->]]; apply sqrt_lt_R0; lra. Qed.

Lemma le_quot_pos a b c : (0 < c)%R -> le_quot a b c = true <-> (a * c <= b)%R.
Proof.
  intros H. unfold le_quot. destruct (Req_EM_T c 0) as [E|_]; [lra|].
  destruct (Rle_dec a (b / c)) as [L|L].
  - split; [intros _|reflexivity]. apply (Rmult_le_compat_r c) in L; [|lra]. unfold Rdiv in L. rewrite Rmult_assoc, Rinv_l in L by lra. lra.
  - split; [discriminate|]. intros K. exfalso. apply L. apply (Rmult_le_reg_r c); [exact H|]. unfold Rdiv. rewrite Rmult_assoc, Rinv_l by lra. lra.
Qed.
Lemma le_quot_zero a b : (0 < b)%R -> le_quot a b 0 = true.
Proof. intros H. unfold le_quot. destruct (Req_EM_T 0 0); [|lra]. destruct (Rlt_dec 0 b); [reflexivity|lra]. Qed.

(** acceptance by one call *)
Lemma stability_exact dt DH v dim D p : has_dim dim D -> is_order p -> (0 < DH)%R -> (0 <= v)%R ->
  (checkStabilityCriterion 0 dt DH v dim p = Ok tt <-> (v = 0 \/ dt * (sqrt (IZR D) * v) <= DH)%R) /\
  (checkStabilityCriterion 0 dt DH v dim p = Ok tt \/ checkStabilityCriterion 0 dt DH v dim p = Throw).
Proof.
  intros HD HP HH Hv. unfold checkStabilityCriterion. cbn [Z.eqb]. rewrite (proj2 (cfl_dim_ok dim D) HD), (cfl_h_order p HP).
  cbn [bind]. pose proof (dim_sqrt dim D HD) as HS.
  destruct (Req_EM_T v 0) as [E|N].
  - subst v. rewrite Rmult_0_r, le_quot_zero by exact HH. split; [tauto|left; reflexivity].
  - assert (P : (0 < 1 * sqrt (IZR D) * v)%R) by (rewrite Rmult_1_l; apply Rmult_lt_0_compat; lra).
    destruct (le_quot dt DH (1 * sqrt (IZR D) * v)) eqn:L.
    + apply le_quot_pos in L; [|exact P]. split; [|left; reflexivity]. split; [|reflexivity]. intros _. right.
      rewrite Rmult_1_l in L. exact L.
    + split; [|right; reflexivity]. split; [discriminate|]. intros [E|K]; [contradiction|]. exfalso.
      assert (T : le_quot dt DH (1 * sqrt (IZR D) * v) = true) by (apply le_quot_pos; [exact P|rewrite Rmult_1_l; exact K]).
      congruence.
Qed.

(** the per-layer extremes *)
Definition bounded_hi (g : grid) (vhi : Z -> R) (owned : list Z) (k : Z) (x : R) : Prop :=
  forall i, In i owned -> at_layer g i k -> (vhi i <= x)%R.
Definition bounded_lo (g : grid) (vlo : Z -> R) (owned : list Z) (k : Z) (x : R) : Prop :=
  forall i, In i owned -> at_layer g i k -> (0 < vlo i)%R -> (x <= vlo i)%R.
Definition ratio_ok (vhi vlo : Z -> R) (owned : list Z) : Prop := forall i, In i owned -> (sqrt 2 <= vhi i / vlo i)%R.

Lemma extremes_spec g ratio vhi vlo owned : forall a b a' b', extremes g ratio vhi vlo owned a b = Ok (a', b') ->
  (forall k x, (a' k <= x <-> a k <= x /\ bounded_hi g vhi owned k x)%R) /\
  (forall k x, (x <= b' k <-> x <= b k /\ bounded_lo g vlo owned k x)%R) /\
  (ratio = true -> ratio_ok vhi vlo owned).
Proof.
  induction owned as [|i owned IH]; intros a b a' b'; cbn [extremes].
  - intros [= <- <-]. split; [|split].
    + intros k x. split; [intros H; split; [exact H|intros i []]|tauto].
    + intros k x. split; [intros H; split; [exact H|intros i []]|tauto].
    + intros _ i [].
  - destruct (index2coordinate g i) as [c| | |] eqn:EC; try discriminate. cbn [bind].
    destruct (getLayer g (cy c)) as [k0| | |] eqn:EL; try discriminate. cbn [bind].
    assert (AL : forall k, at_layer g i k <-> k = k0).
    { intros k. split; [intros (c' & E1 & E2); congruence|intros ->; exists c; split; assumption]. }
    destruct (if ratio then if Rle_dec (sqrt 2) (vhi i / vlo i) then Ok tt else Throw else Ok tt) as [[]| | |] eqn:ER; try discriminate.
    cbn [bind]. destruct (in_layers g k0); [|discriminate].
    intros H. apply IH in H. destruct H as (H1 & H2 & H3). split; [|split].
    + intros k x. rewrite H1. split.
      * intros [Ha Hb]. split.
        -- destruct (Rlt_dec (a k0) (vhi i)); [|exact Ha]. unfold upd in Ha. destruct (Z.eqb_spec k k0); [subst; lra|exact Ha].
        -- intros j [<-|I] A; [|exact (Hb j I A)]. apply AL in A. subst k.
           destruct (Rlt_dec (a k0) (vhi i)); [|lra]. unfold upd in Ha. rewrite Z.eqb_refl in Ha. exact Ha.
      * intros [Ha Hb]. split; [|intros j I A; apply Hb; [right; exact I|exact A]].
        destruct (Rlt_dec (a k0) (vhi i)); [|exact Ha]. unfold upd. destruct (Z.eqb_spec k k0); [|exact Ha].
        subst. apply (Hb i); [left; reflexivity|]. apply AL. reflexivity.
    + intros k x. rewrite H2. split.
      * intros [Ha Hb]. split.
        -- destruct (Rlt_dec (vlo i) (b k0)); [|exact Ha]. destruct (Rlt_dec 0 (vlo i)); [|exact Ha].
           unfold upd in Ha. destruct (Z.eqb_spec k k0); [subst; lra|exact Ha].
        -- intros j [<-|I] A P; [|exact (Hb j I A P)]. apply AL in A. subst k.
           destruct (Rlt_dec (vlo i) (b k0)); [|lra]. destruct (Rlt_dec 0 (vlo i)); [|lra]. unfold upd in Ha. rewrite Z.eqb_refl in Ha. exact Ha.
      * intros [Ha Hb]. split; [|intros j I A P; apply Hb; [right; exact I|exact A|exact P]].
        destruct (Rlt_dec (vlo i) (b k0)); [|exact Ha]. destruct (Rlt_dec 0 (vlo i)) as [P|P]; [|exact Ha].
        unfold upd. destruct (Z.eqb_spec k k0); [|exact Ha]. subst. apply (Hb i); [left; reflexivity| |exact P]. apply AL. reflexivity.
    + intros -> j [<-|I].
      * destruct (Rle_dec (sqrt 2) (vhi i / vlo i)); [assumption|discriminate].
      * apply H3; [reflexivity|exact I].
Qed.
Lemma extremes_ok g ratio vhi vlo owned : forall a b,
  (forall i, In i owned -> exists k, at_layer g i k /\ 0 <= k < Z.of_nat (numLayers g)) ->
  (ratio = true -> ratio_ok vhi vlo owned) -> exists p, extremes g ratio vhi vlo owned a b = Ok p.
Proof.
  induction owned as [|i owned IH]; intros a b HL HR; cbn [extremes]; [eexists; reflexivity|].
  destruct (HL i (or_introl eq_refl)) as (k & (c & EC & EL) & Hk). rewrite EC. cbn [bind]. rewrite EL. cbn [bind].
  assert (E : (if ratio then if Rle_dec (sqrt 2) (vhi i / vlo i) then Ok tt else Throw else Ok tt) = Ok tt).
  { destruct ratio; [|reflexivity]. destruct (Rle_dec (sqrt 2) (vhi i / vlo i)) as [|N]; [reflexivity|].
    exfalso. apply N, (HR eq_refl). left. reflexivity. }
  rewrite E. cbn [bind]. replace (in_layers g k) with true by (unfold in_layers; lia).
  apply IH; [intros j I; apply HL; right; exact I|intros R j I; apply (HR R); right; exact I].
Qed.
Lemma extremes_throw g vhi vlo owned : forall a b,
  (forall i, In i owned -> exists k, at_layer g i k /\ 0 <= k < Z.of_nat (numLayers g)) ->
  ~ ratio_ok vhi vlo owned -> extremes g true vhi vlo owned a b = Throw.
Proof.
  induction owned as [|i owned IH]; intros a b HL HR; cbn [extremes]; [exfalso; apply HR; intros i []|].
  destruct (HL i (or_introl eq_refl)) as (k & (c & EC & EL) & Hk). rewrite EC. cbn [bind]. rewrite EL. cbn [bind].
  destruct (Rle_dec (sqrt 2) (vhi i / vlo i)) as [L|N]; [|reflexivity]. cbn [bind].
  replace (in_layers g k) with true by (unfold in_layers; lia).
  apply IH; [intros j I; apply HL; right; exact I|]. intros R. apply HR. intros j [<-|I]; [exact L|apply R, I].
Qed.

Lemma all_extremes_spec g ratio vhi vlo procs : forall a b, all_extremes g ratio vhi vlo procs = Ok (a, b) ->
  (forall k x, (a k <= x <-> 0 <= x /\ forall owned, In owned procs -> bounded_hi g vhi owned k x)%R) /\
  (forall k x, (x <= b k <-> x <= 300000000 /\ forall owned, In owned procs -> bounded_lo g vlo owned k x)%R) /\
  (ratio = true -> forall owned, In owned procs -> ratio_ok vhi vlo owned).
Proof.
  induction procs as [|o procs IH]; intros a b; cbn [all_extremes].
  - intros [= <- <-]. split; [|split].
    + intros k x. split; [intros H; split; [exact H|intros o []]|tauto].
    + intros k x. split; [intros H; split; [exact H|intros o []]|tauto].
    + intros _ o [].
  - destruct (extremes g ratio vhi vlo o (fun _ => 0%R) (fun _ => 300000000%R)) as [[a1 b1]| | |] eqn:E1; try discriminate. cbn [bind].
    destruct (all_extremes g ratio vhi vlo procs) as [[a2 b2]| | |] eqn:E2; try discriminate. cbn [bind fst snd].
    intros [= <- <-]. apply extremes_spec in E1. destruct E1 as (A1 & B1 & R1).
    destruct (IH a2 b2 eq_refl) as (A2 & B2 & R2). split; [|split].
    + intros k x. split.
      * intros H. pose proof (Rmax_l (a1 k) (a2 k)). pose proof (Rmax_r (a1 k) (a2 k)).
        destruct (proj1 (A1 k x)) as [P1 P2]; [lra|]. destruct (proj1 (A2 k x)) as [Q1 Q2]; [lra|].
        split; [exact P1|]. intros o' [<-|I]; [exact P2|exact (Q2 o' I)].
      * intros [P Q]. apply Rmax_lub.
        -- apply A1. split; [exact P|]. apply Q. left; reflexivity.
        -- apply A2. split; [exact P|]. intros o' I. apply Q. right; exact I.
    + intros k x. split.
      * intros H. pose proof (Rmin_l (b1 k) (b2 k)). pose proof (Rmin_r (b1 k) (b2 k)).
        destruct (proj1 (B1 k x)) as [P1 P2]; [lra|]. destruct (proj1 (B2 k x)) as [Q1 Q2]; [lra|].
        split; [exact P1|]. intros o' [<-|I]; [exact P2|exact (Q2 o' I)].
      * intros [P Q]. apply Rmin_glb.
        -- apply B1. split; [exact P|]. apply Q. left; reflexivity.
        -- apply B2. split; [exact P|]. intros o' I. apply Q. right; exact I.
    + intros R o' [<-|I]; [exact (R1 R)|exact (R2 R o' I)].
Qed.
Lemma all_extremes_ok g ratio vhi vlo procs :
  (forall owned i, In owned procs -> In i owned -> exists k, at_layer g i k /\ 0 <= k < Z.of_nat (numLayers g)) ->
  (ratio = true -> forall owned, In owned procs -> ratio_ok vhi vlo owned) ->
  exists p, all_extremes g ratio vhi vlo procs = Ok p.
Proof.
  induction procs as [|o procs IH]; intros HL HR; cbn [all_extremes]; [eexists; reflexivity|].
  destruct (extremes_ok g ratio vhi vlo o (fun _ => 0%R) (fun _ => 300000000%R)) as (p & ->).
  { intros i I. apply (HL o i); [left; reflexivity|exact I]. }
  { intros R. apply (HR R). left. reflexivity. }
  destruct IH as (q & ->).
  { intros o' i I. apply (HL o' i). right; exact I. }
  { intros R o' I. apply (HR R). right; exact I. }
  eexists. reflexivity.
Qed.

Lemma fc_max_spec fcs x : (fc_max fcs <= x <-> 0 <= x /\ forall f, In f fcs -> f <= x)%R.
Proof.
  unfold fc_max. generalize 0%R. induction fcs as [|f fcs IH]; intros m; cbn [fold_left].
  - split; [intros H; split; [exact H|intros f []]|tauto].
  - rewrite IH. destruct (Rlt_dec m f) as [L|L]; split; intros [P Q]; (split; [|]).
    + lra.
    + intros h [<-|I]; [exact P|exact (Q h I)].
    + apply Q. left; reflexivity.
    + intros h I. apply Q. right; exact I.
    + exact P.
    + intros h [<-|I]; [lra|exact (Q h I)].
    + exact P.
    + intros h I. apply Q. right; exact I.
Qed.
Lemma disp_N_order p : is_order p -> exists N, disp_N p = Ok N /\ 0 < N.
Proof. unfold is_order. cbn. intros [<-|[<-|[<-|[<-|[<-|[<-|[]]]]]]]; eexists; (split; [reflexivity|lia]). Qed.

Lemma vget_nth_z (l : list Z) k : 0 <= k < Z.of_nat (length l) -> vget l k = Ok (nth (Z.to_nat k) l 0).
Proof.
  intros H. unfold vget. replace (k <? 0) with false by lia.
  rewrite (nth_error_nth' l 0) by lia. reflexivity.
Qed.

(** the loop over layers *)
Lemma check_layers_exact ks dt DHs vMax vMin fc dim D orders : has_dim dim D ->
  (forall k, In k ks -> 0 <= k < Z.of_nat (length orders) /\ is_order (nth (Z.to_nat k) orders 0) /\ (0 < DHs k)%R /\ (0 <= vMax k)%R) ->
  ((exists ws, check_layers ks 0 dt DHs vMax vMin fc dim orders = Ok ws) <->
   (forall k, In k ks -> vMax k = 0 \/ dt * (sqrt (IZR D) * vMax k) <= DHs k)%R) /\
  ((exists ws, check_layers ks 0 dt DHs vMax vMin fc dim orders = Ok ws) \/ check_layers ks 0 dt DHs vMax vMin fc dim orders = Throw).
Proof.
  intros HD. induction ks as [|k ks IH]; intros HK; cbn [check_layers].
  - split; [split; [intros _ k []|intros _; eexists; reflexivity]|left; eexists; reflexivity].
  - destruct (HK k (or_introl eq_refl)) as (K1 & K2 & K3 & K4).
    assert (HK' : forall j, In j ks -> 0 <= j < Z.of_nat (length orders) /\ is_order (nth (Z.to_nat j) orders 0) /\ (0 < DHs j)%R /\ (0 <= vMax j)%R)
      by (intros j I; apply HK; right; exact I).
    specialize (IH HK'). destruct IH as [IH1 IH2].
    rewrite (vget_nth_z orders k K1). cbn [bind]. set (o := nth (Z.to_nat k) orders 0) in *.
    destruct (stability_exact dt (DHs k) (vMax k) dim D o HD K2 K3 K4) as [S1 S2].
    destruct S2 as [S2|S2].
    + rewrite S2. cbn [bind]. unfold checkNumericalDispersion. cbn [Z.eqb].
      destruct (disp_N_order o K2) as (N & EN & HN). rewrite EN. cbn [bind].
      destruct IH2 as [(ws & E)|E].
      * rewrite E. cbn [bind]. split; [|left; eexists; reflexivity]. split; [|intros _; eexists; reflexivity].
        intros _ j [<-|I]; [apply S1, S2|]. apply IH1; [eexists; exact E|exact I].
      * rewrite E. cbn [bind]. split; [|right; reflexivity]. split; [intros (ws & W); discriminate|].
        intros H. exfalso. destruct (proj2 IH1) as (ws & W); [intros j I; apply H; right; exact I|congruence].
    + rewrite S2. cbn [bind]. split; [|right; reflexivity]. split; [intros (ws & W); discriminate|].
      intros H. exfalso. rewrite (proj2 S1) in S2; [discriminate|]. apply H. left; reflexivity.
Qed.
Lemma check_layers_warn ks dt DHs vMax vMin fc dim orders ws :
  check_layers ks 0 dt DHs vMax vMin fc dim orders = Ok ws ->
  Forall2 (fun k w => exists o N, vget orders k = Ok o /\ disp_N o = Ok N /\ w = negb (le_quot (DHs k) (vMin k) (2 * fc * IZR N)%R)) ks ws.
Proof.
  revert ws. induction ks as [|k ks IH]; intros ws; cbn [check_layers]; [intros [= <-]; constructor|].
  destruct (vget orders k) as [o| | |] eqn:EO; try discriminate. cbn [bind].
  destruct (checkStabilityCriterion 0 dt (DHs k) (vMax k) dim o); try discriminate. cbn [bind].
  unfold checkNumericalDispersion. cbn [Z.eqb]. destruct (disp_N o) as [N| | |] eqn:EN; try discriminate. cbn [bind].
  destruct (check_layers ks 0 dt DHs vMax vMin fc dim orders) as [ws'| | |] eqn:E; try discriminate. cbn [bind].
  intros [= <-]. constructor; [exists o, N; auto|apply IH; reflexivity].
Qed.

(** points *)
Lemma coord_eqb_true a b : coord_eqb a b = true <-> a = b.
Proof.
  unfold coord_eqb. destruct a as [x y z], b as [x' y' z']. cbn. split; [|intros [= -> -> ->]; lia].
  intros H. assert (x = x') by lia. assert (y = y') by lia. assert (z = z') by lia. congruence.
Qed.
Lemma checkPoints_step g c cs : checkPoints g (c :: cs) = Ok tt <->
  (0 <= cx c < gNX g /\ 0 <= cy c < gNY g /\ 0 <= cz c < gNZ g) /\
  (exists i, coordinate2index g c = Ok i /\ index2coordinate g i = Ok c) /\ checkPoints g cs = Ok tt.
Proof.
  cbn [checkPoints].
  destruct ((cx c >=? gNX g) || (cx c <? 0) || (cy c >=? gNY g) || (cy c <? 0) || (cz c >=? gNZ g) || (cz c <? 0)) eqn:E.
  - split; [discriminate|]. intros ((H1 & H2 & H3) & _). exfalso. lia.
  - assert (IN : 0 <= cx c < gNX g /\ 0 <= cy c < gNY g /\ 0 <= cz c < gNZ g) by lia. clear E. split.
    + destruct (coordinate2index g c) as [i| | |] eqn:EI; try discriminate. cbn [bind].
      destruct (index2coordinate g i) as [q| | |] eqn:EQ; try discriminate. cbn [bind].
      destruct (coord_eqb q c) eqn:EC; [|discriminate]. apply coord_eqb_true in EC. subst q. cbn.
      intros H. split; [exact IN|]. split; [exists i; split; [reflexivity|exact EQ]|exact H].
    + intros (_ & (i & EI & EQ) & H). rewrite EI. cbn [bind]. rewrite EQ. cbn [bind].
      rewrite (proj2 (coord_eqb_true c c) eq_refl). exact H.
Qed.
Lemma checkPoints_all g cs : checkPoints g cs = Ok tt <->
  Forall (fun c => (0 <= cx c < gNX g /\ 0 <= cy c < gNY g /\ 0 <= cz c < gNZ g) /\
    exists i, coordinate2index g c = Ok i /\ index2coordinate g i = Ok c) cs.
Proof.
  induction cs as [|c cs IH]; [split; [constructor|reflexivity]|]. rewrite checkPoints_step, IH. split.
  - intros (A & B & C). constructor; [split; assumption|exact C].
  - intros F. inversion F as [|? ? [A B] C]; subst. tauto.
Qed.

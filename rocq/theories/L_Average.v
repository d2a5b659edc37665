(** Proofs about the averaging matrices. *)
From Coq Require Import Reals Lra Permutation.
From Verif Require Import Base M_Grid L_Grid L_Grid2 L_Grid3 L_GridP M_Average S_Average S_Grid.

(** ** Generic grids *)

(** What the averaging needs to know about the grid: every point has a row [D] below it in the grid, unless the model ends. *)
Definition next_row (g : grid) (y D : Z) : Prop :=
  gNY g <= y + D \/ exists l acc, at_layer (layers g) l acc /\ lstart l <= y + D <= lend l /\ ldh l <= D.
Definition stepY (g : grid) (y : Z) : res Z :=
  k <- getLayer g y ;; b <- locatedOnInterface g y ;;
  t <- (if b then t <- getTransition g y ;; Ok (t =? 0) else Ok false) ;;
  if (t : bool) then dhFactorOfLayer g (k + 1) else dhFactorOfLayer g k.
Definition steps (g : grid) : Prop := forall l acc y, at_layer (layers g) l acc -> lstart l <= y <= lend l -> (ldh l | y - lstart l) ->
  exists D D', getDHFactor g y = Ok D /\ stepY g y = Ok D' /\ 1 <= ldh l <= D /\ next_row g y D /\ 1 <= ldh l <= D' /\ next_row g y D'.

Lemma at_layer_dec ls y : {exists l acc, at_layer ls l acc /\ lstart l <= y <= lend l} + {forall l acc, at_layer ls l acc -> ~ lstart l <= y <= lend l}.
Proof.
  induction ls as [|l0 ls IH].
  - right. intros l acc H. inversion H.
  - destruct (Z_le_dec (lstart l0) y) as [H1|H1]; [destruct (Z_le_dec y (lend l0)) as [H2|H2]|].
    { left. exists l0, 0. split; [constructor|lia]. }
    all: destruct IH as [IH|IH]; [left; destruct IH as (l&acc&A&B); exists l, (lcnt l0 + acc); split; [now constructor|exact B]|].
    all: right; intros l acc H; inversion H; subst; [lia|eauto].
Qed.

(** A stored point lies on the raster of its layer. *)
Lemma stored_point g i : wf g -> 0 <= i < nGridpoints g ->
  exists c l acc, index2coordinate g i = Ok c /\ inside g c /\ coordinate2index g c = Ok i /\
    at_layer (layers g) l acc /\ lstart l <= cy c <= lend l /\ round_down l c = c.
Proof.
  intros W Hi. destruct (i2c_wf g i W Hi) as (c&E1&E2&E3). exists c.
  destruct (at_layer_dec (layers g) (cy c)) as [(l&acc&A&B)|N].
  - exists l, acc. destruct (c2i_wf g c l acc W E2 A B) as (j&F1&F2&F3).
    rewrite E3 in F1. injection F1 as <-. rewrite E1 in F3. injection F3 as F3. repeat (split; auto); lia.
  - rewrite (c2i_gap g c W E2 N) in E3. discriminate.
Qed.

Lemma round_down_divide l c : 1 <= ldh l -> round_down l c = c -> (ldh l | cx c) /\ (ldh l | cy c - lstart l) /\ (ldh l | cz c).
Proof.
  intros Hd H. unfold round_down in H. destruct c as [x y z]; simpl in *. injection H as H1 H2 H3.
  split; [|split]; [exists (x / ldh l)|exists ((y - lstart l) / ldh l)|exists (z / ldh l)]; lia.
Qed.

(** Two coordinates in stored rows whose rounded positions differ have different numbers. *)
Lemma lookup g c l acc : wf g -> inside g c -> at_layer (layers g) l acc -> lstart l <= cy c <= lend l ->
  exists k, coordinate2index g c = Ok k /\ 0 <= k < nGridpoints g /\ index2coordinate g k = Ok (round_down l c).
Proof. apply c2i_wf. Qed.

Lemma div_step a b D d : 1 <= d <= D -> b = a + D -> a / d * d < b / d * d.
Proof.
  intros H ->. assert (a / d + 1 <= (a + D) / d).
  { replace (a / d + 1) with ((a + 1 * d) / d) by (rewrite Z.div_add; lia). apply Z.div_le_mono; lia. }
  nia.
Qed.

Lemma layer_wf g l acc : wf g -> at_layer (layers g) l acc -> 1 <= ldh l /\ 0 <= lstart l /\ lend l < gNY g.
Proof.
  intros (Hn&Hs&Hw) Ha.
  destruct (at_layer_wf _ _ _ _ _ _ _ Hw Ha) as (lo'&Hlo&H1&H2&H0&H3&H4&H5&H6&H7&H8&H9&H10&H11&Hc&_). lia.
Qed.

(** Different rows: the same layer or disjoint layers. *)
Lemma layers_disjoint NX NY NZ lo ls l1 a1 l2 a2 y : wf_layers NX NY NZ lo ls -> at_layer ls l1 a1 -> at_layer ls l2 a2 ->
  lstart l1 <= y <= lend l1 -> lstart l2 <= y <= lend l2 -> l1 = l2 /\ a1 = a2.
Proof.
  intros W A1 A2 H1 H2. revert lo W A2. revert a2. induction A1 as [l ls|l0 ls l1 acc A1 IH]; intros a2 lo W A2.
  - inversion A2 as [? ?|? ? ? ? A3]; subst; [auto|]. simpl in W. destruct W as (_&_&_&_&_&_&_&_&_&_&_&_&_&W).
    destruct (at_layer_wf _ _ _ _ _ _ _ W A3) as (lo'&Hlo&W1&W2&_). lia.
  - simpl in W. destruct W as (_&_&_&_&_&_&_&_&_&_&_&_&_&W). inversion A2 as [? ?|? ? ? ? A3]; subst.
    + destruct (at_layer_wf _ _ _ _ _ _ _ W A1) as (lo'&Hlo&W1&W2&_). lia.
    + destruct (IH H1 _ _ W A3). subst. auto.
Qed.

Lemma row_in s e d y : 1 <= d -> s <= y <= e -> s <= (y - s) / d * d + s <= e.
Proof.
  intros Hd Hy. assert (0 <= (y - s) / d) by (apply Z.div_pos; lia).
  pose proof (Z.mul_div_le (y - s) d ltac:(lia)). rewrite (Z.mul_comm _ d). nia.
Qed.

Lemma same_step p s s' D d : 0 <= s <= 1 -> 0 <= s' <= 1 -> 1 <= d <= D ->
  (p + s * D) / d * d = (p + s' * D) / d * d -> s = s'.
Proof.
  intros S1 S2 Hd S. pose proof (div_step p (p + D) D d Hd eq_refl) as X.
  assert (C1 : s = 0 \/ s = 1) by (clear - S1; lia). assert (C2 : s' = 0 \/ s' = 1) by (clear - S2; lia).
  destruct C1 as [->| ->], C2 as [->| ->]; auto; rewrite Z.mul_1_l, Z.mul_0_l, Z.add_0_r in S; rewrite S in X; exfalso; exact (Z.lt_irrefl _ X).
Qed.

Lemma bind_Ok {A B} (a : A) (f : A -> res B) : bind (Ok a) f = f a. Proof. reflexivity. Qed.

(** *** The points of a cell *)
Section Cell.
Variables (g : grid) (i : Z) (c : coord) (l : layer) (acc D : Z).
Hypotheses (W : wf g) (Hi : 0 <= i < nGridpoints g) (E : index2coordinate g i = Ok c) (Ins : inside g c)
  (A : at_layer (layers g) l acc) (Hy : lstart l <= cy c <= lend l) (Rd : round_down l c = c)
  (HD : 1 <= ldh l <= D) (Nx : next_row g (cy c) D).

(** Corner (a,b,e) of the cell, a, b, e in {0,1}. *)
Definition corner (a b e : Z) : coord := mkC (cx c + a * D) (cy c + b * D) (cz c + e * D).

Lemma corner_ok a b e : 0 <= a <= 1 -> 0 <= b <= 1 -> 0 <= e <= 1 ->
  cx c + a * D < gNX g -> cy c + b * D < gNY g -> cz c + e * D < gNZ g ->
  exists k q l2 acc2, coordinate2index g (corner a b e) = Ok k /\ 0 <= k < nGridpoints g /\ index2coordinate g k = Ok q /\
    at_layer (layers g) l2 acc2 /\ lstart l2 <= cy c + b * D <= lend l2 /\ 1 <= ldh l2 <= D /\ (b = 0 -> l2 = l) /\
    q = round_down l2 (corner a b e).
Proof.
  intros Ha Hb He H1 H2 H3. destruct Ins as (I1&I2&I3).
  assert (Ic : inside g (corner a b e)). { unfold inside, corner; simpl. nia. }
  assert (L : exists l2 acc2, at_layer (layers g) l2 acc2 /\ lstart l2 <= cy c + b * D <= lend l2 /\ ldh l2 <= D /\ (b = 0 -> l2 = l)).
  { assert (B : b = 0 \/ b = 1) by lia. destruct B as [->| ->].
    - exists l, acc. rewrite Z.mul_0_l, Z.add_0_r. repeat split; auto; lia.
    - rewrite Z.mul_1_l in *. destruct Nx as [N|(l2&acc2&N1&N2&N3)]; [lia|]. exists l2, acc2. repeat split; auto; lia. }
  destruct L as (l2&acc2&L1&L2&L3&L4).
  destruct (c2i_wf g (corner a b e) l2 acc2 W Ic L1 L2) as (k&K1&K2&K3).
  destruct (layer_wf g l2 acc2 W L1) as (P1&_).
  exists k, (round_down l2 (corner a b e)), l2, acc2. repeat (split; auto); lia.
Qed.

Lemma corner_neq a b e a' b' e' k k' : 0 <= a <= 1 -> 0 <= b <= 1 -> 0 <= e <= 1 -> 0 <= a' <= 1 -> 0 <= b' <= 1 -> 0 <= e' <= 1 ->
  cx c + a * D < gNX g -> cy c + b * D < gNY g -> cz c + e * D < gNZ g ->
  cx c + a' * D < gNX g -> cy c + b' * D < gNY g -> cz c + e' * D < gNZ g ->
  coordinate2index g (corner a b e) = Ok k -> coordinate2index g (corner a' b' e') = Ok k' ->
  (a, b, e) <> (a', b', e') -> k <> k'.
Proof.
  intros Ha Hb He Ha' Hb' He' H1 H2 H3 H1' H2' H3' K K' N ->.
  destruct (corner_ok a b e Ha Hb He H1 H2 H3) as (k1&q1&l1&ac1&F1&F2&F3&F4&F5&F6&F7&F8).
  destruct (corner_ok a' b' e' Ha' Hb' He' H1' H2' H3') as (k2&q2&l2&ac2&G1&G2&G3&G4&G5&G6&G7&G8).
  rewrite K in F1. injection F1 as <-. rewrite K' in G1. injection G1 as <-.
  rewrite F3 in G3. injection G3 as Q. rewrite F8, G8 in Q. unfold round_down, corner in Q; simpl in Q. injection Q as Q1 Q2 Q3.
  (* the row the point is stored in lies in both layers *)
  pose proof (row_in (lstart l1) (lend l1) (ldh l1) _ ltac:(lia) F5) as Y1.
  pose proof (row_in (lstart l2) (lend l2) (ldh l2) _ ltac:(lia) G5) as Y2.
  assert (EL : l1 = l2 /\ ac1 = ac2). { rewrite <- Q2 in Y2. eapply (layers_disjoint (gNX g) (gNY g) (gNZ g)); eauto. apply W. }
  destruct EL as (<-&_).
  clear Y1 Y2. apply N. f_equal; [f_equal|].
  - exact (same_step _ _ _ _ _ Ha Ha' F6 Q1).
  - apply (same_step (cy c - lstart l1) b b' D (ldh l1) Hb Hb' F6).
    replace (cy c - lstart l1 + b * D) with (cy c + b * D - lstart l1) by ring.
    replace (cy c - lstart l1 + b' * D) with (cy c + b' * D - lstart l1) by ring. exact (proj1 (Z.add_cancel_r _ _ _) Q2).
  - exact (same_step _ _ _ _ _ He He' F6 Q3).
Qed.

Lemma corner_self : coordinate2index g (corner 0 0 0) = Ok i.
Proof.
  unfold corner. rewrite !Z.mul_0_l, !Z.add_0_r.
  replace (mkC (cx c) (cy c) (cz c)) with c by (destruct c; reflexivity).
  destruct (c2i_wf g c l acc W Ins A Hy) as (k&K1&K2&K3). rewrite Rd in K3.
  destruct (i2c_wf g i W Hi) as (c'&X1&X2&X3). rewrite E in X1. injection X1 as <-. congruence.
Qed.
End Cell.

Lemma nodup2 (a b : Z) : a <> b -> NoDup [a; b].
Proof. intros H. constructor; [intros [|[]]; congruence|constructor; [intros []|constructor]]. Qed.
Lemma nodup4 (a b c d : Z) : a <> b -> a <> c -> a <> d -> b <> c -> b <> d -> c <> d -> NoDup [a; b; c; d].
Proof.
  intros. constructor; [intros [|[|[|[]]]]; congruence|]. constructor; [intros [|[|[]]]; congruence|].
  constructor; [intros [|[]]; congruence|]. constructor; [intros []|constructor].
Qed.

Lemma average1 n i : 0 <= i < n -> is_average n [(i, 1%R)].
Proof.
  intros H. split; [|split]; simpl.
  - constructor; [|constructor]. simpl. split; [lia|lra].
  - constructor; [intros []|constructor].
  - lra.
Qed.
Lemma average2 n i j : 0 <= i < n -> 0 <= j < n -> i <> j -> is_average n [(i, (1 / 2)%R); (j, (1 / 2)%R)].
Proof.
  intros H H' N. split; [|split]; simpl.
  - repeat constructor; simpl; try lia; lra.
  - now apply nodup2.
  - lra.
Qed.
Lemma average4 n i j k m : 0 <= i < n -> 0 <= j < n -> 0 <= k < n -> 0 <= m < n -> NoDup [i; j; k; m] ->
  is_average n [(i, (1 / 4)%R); (j, (1 / 4)%R); (k, (1 / 4)%R); (m, (1 / 4)%R)].
Proof.
  intros. split; [|split]; simpl.
  - repeat constructor; simpl; try lia; lra.
  - assumption.
  - lra.
Qed.

Lemma assemble_id r : NoDup (map fst r) -> assemble r = r.
Proof.
  unfold assemble. assert (G : forall r acc, NoDup (map fst (acc ++ r)) -> fold_left put r acc = acc ++ r).
  { clear. induction r as [|e r IH]; intros acc H; simpl; [now rewrite app_nil_r|].
    assert (P : put acc e = acc ++ [e]).
    { rewrite map_app in H. simpl in H. apply NoDup_remove_2 in H. rewrite in_app_iff in H.
      assert (Ni : ~ In (fst e) (map fst acc)) by tauto. clear H.
      induction acc as [|(k, w) acc IH']; [reflexivity|]. simpl in *.
      destruct (Z.eqb_spec k (fst e)); [exfalso; apply Ni; auto|]. f_equal. apply IH'. tauto. }
    rewrite P, IH; [now rewrite <- app_assoc|]. now rewrite <- app_assoc. }
  intros H. now rewrite G.
Qed.

Lemma max4 a b c d : 0 <= a -> fold_left Z.max [a; b; c; d] 0 = Z.max (Z.max (Z.max a b) c) d.
Proof. intros. cbn [fold_left]. lia. Qed.

Ltac norm H := repeat rewrite ?Z.mul_1_l, ?Z.mul_0_l, ?Z.add_0_r in H.

(** Every row of every averaging matrix is an average. *)
Lemma rows_average g a i : wf g -> steps g -> 0 <= i < nGridpoints g -> exists r, avgRow a g i = Ok r /\ is_average (nGridpoints g) r.
Proof.
  intros W S Hi. destruct (stored_point g i W Hi) as (c&l&acc&E&Ins&E3&A&Hy&Rd).
  destruct (layer_wf g l acc W A) as (P1&_).
  destruct (round_down_divide l c P1 Rd) as (_&Dv&_).
  destruct (S l acc (cy c) A Hy Dv) as (D&D'&D1&D2&D3&D4&D5&D6).
  pose proof (fun a b e => corner_ok g c l acc D W Ins A Hy D3 D4 a b e) as CO.
  pose proof (fun a b e a' b' e' k k' => corner_neq g c l acc D W Ins A Hy D3 D4 a b e a' b' e' k k') as CN.
  pose proof (corner_self g i c l acc D W Hi E Ins A Hy Rd) as CS.
  pose proof (fun a b e => corner_ok g c l acc D' W Ins A Hy D5 D6 a b e) as CO'.
  pose proof (fun a b e a' b' e' k k' => corner_neq g c l acc D' W Ins A Hy D5 D6 a b e a' b' e' k k') as CN'.
  pose proof (corner_self g i c l acc D' W Hi E Ins A Hy Rd) as CS'.
  destruct c as [x y z]. unfold corner in CO, CN, CS, CO', CN', CS'. cbn [cx cy cz] in CO, CN, CS, CO', CN', CS', D1, D2, Ins. unfold inside in Ins; simpl in Ins.
  (* the six neighbours *)
  destruct a; simpl avgRow; unfold avgX, avgY, avgZ, avgXY, avgXZ, avgYZ; rewrite E; cbn [bind cx cy cz].
  - rewrite D1; cbn [bind]. destruct (Z.ltb_spec (x + D) (gNX g)) as [L|L]; [|exists [(i, 1%R)]; split; [reflexivity|now apply average1]].
    destruct (CO 1 0 0 ltac:(lia) ltac:(lia) ltac:(lia) ltac:(lia) ltac:(lia) ltac:(lia)) as (k&_&_&_&K1&K2&_).
    assert (i <> k) by (eapply (CN 0 0 0 1 0 0); eauto; try lia; discriminate).
    rewrite Z.mul_1_l, !Z.mul_0_l, !Z.add_0_r in K1. rewrite K1; cbn [bind]. eexists; split; [reflexivity|]. now apply average2.
  - change (exists r, (k <- getLayer g y ;; b <- locatedOnInterface g y ;;
      t <- (if b then t <- getTransition g y ;; Ok (t =? 0) else Ok false) ;;
      d <- (if (t : bool) then dhFactorOfLayer g (k + 1) else dhFactorOfLayer g k) ;;
      (if y + d <? gNY g then col <- coordinate2index g (mkC x (y + d) z) ;; Ok [(i, (1 / 2)%R); (col, (1 / 2)%R)] else Ok [(i, 1%R)])) = Ok r
      /\ is_average (nGridpoints g) r).
    unfold stepY in D2. apply bind_ok in D2 as (k0&L1&D2). rewrite L1; cbn [bind]. apply bind_ok in D2 as (b0&L2&D2). rewrite L2; cbn [bind].
    apply bind_ok in D2 as (t0&L3&D2). rewrite L3; cbn [bind]. rewrite D2; cbn [bind].
    destruct (Z.ltb_spec (y + D') (gNY g)) as [L|L]; [|exists [(i, 1%R)]; split; [reflexivity|now apply average1]].
    destruct (CO' 0 1 0 ltac:(lia) ltac:(lia) ltac:(lia) ltac:(lia) ltac:(lia) ltac:(lia)) as (k&_&_&_&K1&K2&_).
    assert (i <> k) by (eapply (CN' 0 0 0 0 1 0); eauto; try lia; discriminate).
    rewrite Z.mul_1_l, !Z.mul_0_l, !Z.add_0_r in K1. rewrite K1; cbn [bind]. eexists; split; [reflexivity|]. now apply average2.
  - rewrite D1; cbn [bind]. destruct (Z.ltb_spec (z + D) (gNZ g)) as [L|L]; [|exists [(i, 1%R)]; split; [reflexivity|now apply average1]].
    destruct (CO 0 0 1 ltac:(lia) ltac:(lia) ltac:(lia) ltac:(lia) ltac:(lia) ltac:(lia)) as (k&_&_&_&K1&K2&_).
    assert (i <> k) by (eapply (CN 0 0 0 0 0 1); eauto; try lia; discriminate).
    rewrite Z.mul_1_l, !Z.mul_0_l, !Z.add_0_r in K1. rewrite K1; cbn [bind]. eexists; split; [reflexivity|]. now apply average2.
  - rewrite D1; cbn [bind]. unfold row4; cbn [cx cy cz]. rewrite !max4 by lia.
    replace (Z.max (Z.max (Z.max x (x + D)) x) (x + D)) with (x + D) by lia.
    replace (Z.max (Z.max (Z.max y y) (y + D)) (y + D)) with (y + D) by lia.
    replace (Z.max (Z.max (Z.max z z) z) z) with z by lia.
    destruct (Z.ltb_spec z (gNZ g)) as [LZ|LZ]; [|lia].
    destruct (Z.ltb_spec (x + D) (gNX g)) as [LX|LX]; destruct (Z.ltb_spec (y + D) (gNY g)) as [LY|LY]; cbn [andb negb bind app].
    + destruct (CO 1 0 0 ltac:(lia) ltac:(lia) ltac:(lia) ltac:(lia) ltac:(lia) ltac:(lia)) as (k1&_&_&_&K1&R1&_).
      destruct (CO 0 1 0 ltac:(lia) ltac:(lia) ltac:(lia) ltac:(lia) ltac:(lia) ltac:(lia)) as (k2&_&_&_&K2&R2&_).
      destruct (CO 1 1 0 ltac:(lia) ltac:(lia) ltac:(lia) ltac:(lia) ltac:(lia) ltac:(lia)) as (k3&_&_&_&K3&R3&_).
      assert (ND : NoDup [i; k1; k2; k3]).
      { apply nodup4;
        [eapply (CN 0 0 0 1 0 0)|eapply (CN 0 0 0 0 1 0)|eapply (CN 0 0 0 1 1 0)|eapply (CN 1 0 0 0 1 0)|eapply (CN 1 0 0 1 1 0)|eapply (CN 0 1 0 1 1 0)];
        eauto; try lia; discriminate. }
      norm K1; norm K2; norm K3. rewrite K1, K2, K3; cbn [bind app].
      eexists; split; [reflexivity|]. now apply average4.
    + destruct (CO 1 0 0 ltac:(lia) ltac:(lia) ltac:(lia) ltac:(lia) ltac:(lia) ltac:(lia)) as (k1&_&_&_&K1&R1&_).
      assert (k1 <> i) by (eapply (CN 1 0 0 0 0 0); eauto; try lia; discriminate).
      norm K1. rewrite K1; cbn [bind app]. eexists; split; [reflexivity|]. now apply average2.
    + destruct (CO 0 1 0 ltac:(lia) ltac:(lia) ltac:(lia) ltac:(lia) ltac:(lia) ltac:(lia)) as (k1&_&_&_&K1&R1&_).
      assert (k1 <> i) by (eapply (CN 0 1 0 0 0 0); eauto; try lia; discriminate).
      norm K1. rewrite K1; cbn [bind app]. eexists; split; [reflexivity|]. now apply average2.
    + eexists; split; [reflexivity|]. now apply average1.
  - rewrite D1; cbn [bind]. unfold row4; cbn [cx cy cz]. rewrite !max4 by lia.
    replace (Z.max (Z.max (Z.max x (x + D)) x) (x + D)) with (x + D) by lia.
    replace (Z.max (Z.max (Z.max y y) y) y) with y by lia.
    replace (Z.max (Z.max (Z.max z z) (z + D)) (z + D)) with (z + D) by lia.
    destruct (Z.ltb_spec y (gNY g)) as [LY|LY]; [|lia].
    destruct (Z.ltb_spec (x + D) (gNX g)) as [LX|LX]; destruct (Z.ltb_spec (z + D) (gNZ g)) as [LZ|LZ]; cbn [andb negb bind app].
    + destruct (CO 1 0 0 ltac:(lia) ltac:(lia) ltac:(lia) ltac:(lia) ltac:(lia) ltac:(lia)) as (k1&_&_&_&K1&R1&_).
      destruct (CO 0 0 1 ltac:(lia) ltac:(lia) ltac:(lia) ltac:(lia) ltac:(lia) ltac:(lia)) as (k2&_&_&_&K2&R2&_).
      destruct (CO 1 0 1 ltac:(lia) ltac:(lia) ltac:(lia) ltac:(lia) ltac:(lia) ltac:(lia)) as (k3&_&_&_&K3&R3&_).
      assert (ND : NoDup [i; k1; k2; k3]).
      { apply nodup4;
        [eapply (CN 0 0 0 1 0 0)|eapply (CN 0 0 0 0 0 1)|eapply (CN 0 0 0 1 0 1)|eapply (CN 1 0 0 0 0 1)|eapply (CN 1 0 0 1 0 1)|eapply (CN 0 0 1 1 0 1)];
        eauto; try lia; discriminate. }
      norm K1; norm K2; norm K3. rewrite K1, K2, K3; cbn [bind app].
      eexists; split; [reflexivity|]. now apply average4.
    + destruct (CO 1 0 0 ltac:(lia) ltac:(lia) ltac:(lia) ltac:(lia) ltac:(lia) ltac:(lia)) as (k1&_&_&_&K1&R1&_).
      assert (k1 <> i) by (eapply (CN 1 0 0 0 0 0); eauto; try lia; discriminate).
      norm K1. rewrite K1; cbn [bind app]. eexists; split; [reflexivity|]. now apply average2.
    + destruct (CO 0 0 1 ltac:(lia) ltac:(lia) ltac:(lia) ltac:(lia) ltac:(lia) ltac:(lia)) as (k1&_&_&_&K1&R1&_).
      assert (k1 <> i) by (eapply (CN 0 0 1 0 0 0); eauto; try lia; discriminate).
      norm K1. rewrite K1; cbn [bind app]. eexists; split; [reflexivity|]. now apply average2.
    + eexists; split; [reflexivity|]. now apply average1.
  - rewrite D1; cbn [bind]. unfold row4; cbn [cx cy cz]. rewrite !max4 by lia.
    replace (Z.max (Z.max (Z.max x x) x) x) with x by lia.
    replace (Z.max (Z.max (Z.max y (y + D)) y) (y + D)) with (y + D) by lia.
    replace (Z.max (Z.max (Z.max z z) (z + D)) (z + D)) with (z + D) by lia.
    destruct (Z.ltb_spec x (gNX g)) as [LX|LX]; [|lia].
    destruct (Z.ltb_spec (y + D) (gNY g)) as [LY|LY]; destruct (Z.ltb_spec (z + D) (gNZ g)) as [LZ|LZ]; cbn [andb negb bind app].
    + destruct (CO 0 1 0 ltac:(lia) ltac:(lia) ltac:(lia) ltac:(lia) ltac:(lia) ltac:(lia)) as (k1&_&_&_&K1&R1&_).
      destruct (CO 0 0 1 ltac:(lia) ltac:(lia) ltac:(lia) ltac:(lia) ltac:(lia) ltac:(lia)) as (k2&_&_&_&K2&R2&_).
      destruct (CO 0 1 1 ltac:(lia) ltac:(lia) ltac:(lia) ltac:(lia) ltac:(lia) ltac:(lia)) as (k3&_&_&_&K3&R3&_).
      assert (ND : NoDup [i; k1; k2; k3]).
      { apply nodup4;
        [eapply (CN 0 0 0 0 1 0)|eapply (CN 0 0 0 0 0 1)|eapply (CN 0 0 0 0 1 1)|eapply (CN 0 1 0 0 0 1)|eapply (CN 0 1 0 0 1 1)|eapply (CN 0 0 1 0 1 1)];
        eauto; try lia; discriminate. }
      norm K1; norm K2; norm K3. rewrite K1, K2, K3; cbn [bind app].
      eexists; split; [reflexivity|]. now apply average4.
    + destruct (CO 0 1 0 ltac:(lia) ltac:(lia) ltac:(lia) ltac:(lia) ltac:(lia) ltac:(lia)) as (k1&_&_&_&K1&R1&_).
      assert (k1 <> i) by (eapply (CN 0 1 0 0 0 0); eauto; try lia; discriminate).
      norm K1. rewrite K1; cbn [bind app]. eexists; split; [reflexivity|]. now apply average2.
    + destruct (CO 0 0 1 ltac:(lia) ltac:(lia) ltac:(lia) ltac:(lia) ltac:(lia) ltac:(lia)) as (k1&_&_&_&K1&R1&_).
      assert (k1 <> i) by (eapply (CN 0 0 1 0 0 0); eauto; try lia; discriminate).
      norm K1. rewrite K1; cbn [bind app]. eexists; split; [reflexivity|]. now apply average2.
    + eexists; split; [reflexivity|]. now apply average1.
Qed.

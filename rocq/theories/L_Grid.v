(** Proofs about the grid model. *)
From Verif Require Import Base M_Grid.

Lemma bind_ok {A B} (x : res A) (f : A -> res B) b : bind x f = Ok b -> exists a, x = Ok a /\ f a = Ok b.
Proof. destruct x; simpl; intros H; try discriminate; eauto. Qed.

Lemma assert_ok b : assert b = Ok tt <-> b = true.
Proof. destruct b; simpl; split; congruence. Qed.

(* ---------------------------------------------------------------- *)
(** ** Well-formed layer tables *)

Fixpoint wf_layers (NX NY NZ lo : Z) (ls : list layer) : Prop :=
  match ls with
  | [] => True
  | l :: ls' =>
      1 <= ldh l /\ lo <= lstart l /\ 0 <= lstart l /\ 0 < lny l /\ lend l = lstart l + (lny l - 1) * ldh l /\
      0 < lnx l /\ 0 < lnz l /\ (lnx l - 1) * ldh l < NX /\ NX <= lnx l * ldh l /\
      (lnz l - 1) * ldh l < NZ /\ NZ <= lnz l * ldh l /\ lend l < NY /\
      lcnt l = lnx l * lny l * lnz l /\ wf_layers NX NY NZ (lend l + 1) ls'
  end.

Definition wf (g : grid) : Prop :=
  numLayers g = length (layers g) /\ nGridpoints g = zsum (map lcnt (layers g)) /\
  wf_layers (gNX g) (gNY g) (gNZ g) 0 (layers g).

Definition inside (g : grid) (c : coord) : Prop :=
  0 <= cx c < gNX g /\ 0 <= cy c < gNY g /\ 0 <= cz c < gNZ g.

(** [l] is one of the layers, [acc] the number of points before it. *)
Inductive at_layer : list layer -> layer -> Z -> Prop :=
| at_here l ls : at_layer (l :: ls) l 0
| at_next l0 ls l acc : at_layer ls l acc -> at_layer (l0 :: ls) l (lcnt l0 + acc).

Lemma wf_layers_nonneg NX NY NZ lo ls : wf_layers NX NY NZ lo ls -> 0 <= zsum (map lcnt ls).
Proof.
  revert lo; induction ls as [|l ls IH]; simpl; intros lo H; [lia|].
  destruct H as (H1&H2&H0&H3&H4&H5&H6&_&_&_&_&_&Hc&H). specialize (IH _ H). rewrite Hc.
  assert (0 <= lnx l * lny l * lnz l) by (apply Z.mul_nonneg_nonneg; [apply Z.mul_nonneg_nonneg|]; lia). lia.
Qed.

Lemma find_index_spec NX NY NZ lo ls idx :
  wf_layers NX NY NZ lo ls -> 0 <= idx < zsum (map lcnt ls) ->
  exists l i acc, find_index (length ls) ls idx = Ok (l, i) /\ at_layer ls l acc /\ idx = acc + i /\ 0 <= i < lcnt l.
Proof.
  revert lo idx; induction ls as [|l ls IH]; simpl; intros lo idx H Hi; [lia|].
  destruct H as (H1&H2&H0&H3&H4&H5&H6&_&_&_&_&_&Hc&H).
  destruct (idx >=? lcnt l) eqn:E.
  - destruct (IH _ (idx - lcnt l) H) as (l'&i&acc&E1&E2&E3&E4); [lia|].
    exists l', i, (lcnt l + acc). repeat split; auto; try lia. now constructor.
  - exists l, idx, 0. repeat split; try lia. constructor.
Qed.

Lemma at_layer_wf NX NY NZ lo ls l acc :
  wf_layers NX NY NZ lo ls -> at_layer ls l acc -> exists lo', lo <= lo' /\ wf_layers NX NY NZ lo' [l].
Proof.
  intros H Ha; revert lo H; induction Ha as [l ls|l0 ls l acc Ha IH]; intros lo H; simpl in H.
  - exists lo; simpl; intuition lia.
  - destruct H as (H1&H2&H0&H3&H4&H5&H6&_&_&_&_&_&Hc&H).
    destruct (IH _ H) as (lo'&Hlo&H'). exists lo'; split; auto. nia.
Qed.

Lemma at_layer_bound NX NY NZ lo ls l acc :
  wf_layers NX NY NZ lo ls -> at_layer ls l acc -> 0 <= acc /\ acc + lcnt l <= zsum (map lcnt ls).
Proof.
  intros H Ha; revert lo H; induction Ha as [l ls|l0 ls l acc Ha IH]; intros lo H; simpl in *.
  - destruct H as (H1&H2&H0&H3&H4&H5&H6&_&_&_&_&_&Hc&H). pose proof (wf_layers_nonneg _ _ _ _ _ H). lia.
  - destruct H as (H1&H2&H0&H3&H4&H5&H6&_&_&_&_&_&Hc&H).
    specialize (IH _ H). 
    assert (0 <= lnx l0 * lny l0 * lnz l0) by (apply Z.mul_nonneg_nonneg; [apply Z.mul_nonneg_nonneg|]; lia). lia.
Qed.

Lemma find_y_spec NX NY NZ lo ls l acc Y a :
  wf_layers NX NY NZ lo ls -> at_layer ls l acc -> lstart l <= Y <= lend l ->
  find_y (length ls) ls Y a = Ok (l, Y - lstart l, a + acc).
Proof.
  intros H Ha; revert lo a H; induction Ha as [l ls|l0 ls l acc Ha IH]; intros lo a H HY; simpl in *.
  - destruct ((Y <=? lend l) && (Y >=? lstart l)) eqn:E; [now rewrite Z.add_0_r|lia].
  - destruct H as (H1&H2&H0&H3&H4&H5&H6&_&_&_&_&_&Hc&H).
    destruct (at_layer_wf _ _ _ _ _ _ _ H Ha) as (lo'&Hlo&H'). simpl in H'.
    destruct ((Y <=? lend l0) && (Y >=? lstart l0)) eqn:E; [lia|].
    rewrite (IH _ _ H HY). do 2 f_equal. lia.
Qed.

Lemma find_y_gap NX NY NZ lo ls Y a :
  wf_layers NX NY NZ lo ls -> (forall l acc, at_layer ls l acc -> ~ (lstart l <= Y <= lend l)) ->
  find_y (length ls) ls Y a = UB.
Proof.
  revert lo a; induction ls as [|l ls IH]; intros lo a H HY; simpl in *; [reflexivity|].
  destruct H as (H1&H2&H0&H3&H4&H5&H6&_&_&_&_&_&Hc&H).
  destruct ((Y <=? lend l) && (Y >=? lstart l)) eqn:E.
  - exfalso. apply (HY l 0); [constructor|lia].
  - eapply IH; eauto. intros l' acc' Ha'. eapply HY. constructor; eauto.
Qed.

(** C++ division on non-negative numbers. *)
Lemma cdiv_nonneg a b : 0 <= a -> 0 < b -> cdiv a b = Ok (a / b).
Proof. intros Ha Hb. unfold cdiv. destruct (b =? 0) eqn:E; [lia|]. now rewrite Z.quot_div_nonneg by lia. Qed.

(** Decomposition of an index inside one layer. *)
Lemma decompose i nx ny nz :
  0 < nx -> 0 < nz -> 0 <= i < nx * ny * nz ->
  let y := i / (nx * nz) in let i1 := i - y * (nx * nz) in let z := i1 / nx in let x := i1 - z * nx in
  0 <= y < ny /\ 0 <= z < nz /\ 0 <= x < nx /\ i = x + z * nx + y * nx * nz.
Proof.
  intros Hx Hz Hi y i1 z x.
  assert (Hxz : 0 < nx * nz) by nia.
  assert (Hy : 0 <= y < ny).
  { split; [apply Z.div_pos; lia|]. apply Z.div_lt_upper_bound; [lia|]. nia. }
  assert (Hi1 : 0 <= i1 < nx * nz).
  { unfold i1, y. pose proof (Z.mod_pos_bound i (nx*nz) Hxz). rewrite Z.mod_eq in H by lia. lia. }
  assert (Hzz : 0 <= z < nz).
  { split; [apply Z.div_pos; lia|]. apply Z.div_lt_upper_bound; lia. }
  assert (Hxx : 0 <= x < nx).
  { unfold x, z. pose proof (Z.mod_pos_bound i1 nx Hx). rewrite Z.mod_eq in H by lia. lia. }
  repeat split; lia.
Qed.

Lemma recompose x y z nx nz dh :
  0 < dh -> (x * dh) / dh + (z * dh) / dh * nx + (y * dh) / dh * nx * nz = x + z * nx + y * nx * nz.
Proof. intros H. now rewrite !Z.div_mul by lia. Qed.

(** index -> coordinate -> index on a well-formed grid *)
Lemma i2c_wf g idx : wf g -> 0 <= idx < nGridpoints g ->
  exists c, index2coordinate g idx = Ok c /\ inside g c /\ coordinate2index g c = Ok idx.
Proof.
  intros (Hn&Hs&Hw) Hi. rewrite Hs in Hi.
  destruct (find_index_spec _ _ _ _ _ _ Hw Hi) as (l&i&acc&E&Ha&Hidx&Hb).
  destruct (at_layer_wf _ _ _ _ _ _ _ Hw Ha) as (lo'&Hlo&H1&H2&H0&H3&H4&H5&H6&H7&H8&H9&H10&H11&Hc&_).
  rewrite Hc in Hb.
  pose proof (decompose i (lnx l) (lny l) (lnz l) ltac:(lia) ltac:(lia) Hb) as D. cbv zeta in D.
  set (y := i / (lnx l * lnz l)) in *. set (z := (i - y * (lnx l * lnz l)) / lnx l) in *.
  set (x := i - y * (lnx l * lnz l) - z * lnx l) in *.
  destruct D as (Dy&Dz&Dx&Di).
  assert (Hi2c : index2coordinate g idx = Ok (mkC (x * ldh l) (y * ldh l + lstart l) (z * ldh l))).
  { unfold index2coordinate. rewrite Hn, E. cbn [bind].
    rewrite cdiv_nonneg by nia. cbn [bind]. fold y. rewrite cdiv_nonneg by nia. cbn [bind]. fold z. reflexivity. }
  assert (Hxb : 0 <= x * ldh l < gNX g) by nia.
  assert (Hzb : 0 <= z * ldh l < gNZ g) by nia.
  assert (Hyl : lstart l <= y * ldh l + lstart l <= lend l) by nia.
  assert (Hyb : 0 <= y * ldh l + lstart l < gNY g) by lia.
  eexists; split; [exact Hi2c|]. split; [repeat split; simpl; lia|].
  unfold coordinate2index. unfold assert.
  destruct (x * ldh l <? gNX g) eqn:E1; [|lia]. cbn [bind].
  destruct (y * ldh l + lstart l <? gNY g) eqn:E2; [|lia]. cbn [bind].
  destruct (z * ldh l <? gNZ g) eqn:E3; [|lia]. cbn [bind].
  destruct (x * ldh l >=? 0) eqn:E4; [|lia]. cbn [bind].
  destruct (y * ldh l + lstart l >=? 0) eqn:E5; [|lia]. cbn [bind].
  destruct (z * ldh l >=? 0) eqn:E6; [|lia]. cbn [bind].
  rewrite Hn, (find_y_spec _ _ _ _ _ _ _ _ _ Hw Ha Hyl). cbn [bind].
  replace (y * ldh l + lstart l - lstart l) with (y * ldh l) by ring.
  rewrite !cdiv_nonneg by nia. cbn [bind].
  rewrite recompose by lia. f_equal. lia.
Qed.

(** coordinate -> index -> coordinate: rounds down inside the layer *)
Definition round_down (l : layer) (c : coord) : coord :=
  mkC (cx c / ldh l * ldh l) ((cy c - lstart l) / ldh l * ldh l + lstart l) (cz c / ldh l * ldh l).

Lemma compose_bound x y z nx ny nz :
  0 <= x < nx -> 0 <= y < ny -> 0 <= z < nz -> 0 <= x + z * nx + y * nx * nz < nx * ny * nz.
Proof. intros. assert (0 <= z * nx) by nia. assert (0 <= y * nx * nz) by (apply Z.mul_nonneg_nonneg; nia).
  split; [lia|]. assert (x + z * nx < nx * nz) by nia. assert (0 < nx * nz) by nia.
  assert ((y + 1) * (nx * nz) <= ny * (nx * nz)) by (apply Z.mul_le_mono_nonneg_r; lia). lia. Qed.

Lemma decompose_unique x y z nx nz :
  0 <= x < nx -> 0 <= z < nz -> 0 <= y ->
  let i := x + z * nx + y * nx * nz in
  i / (nx * nz) = y /\ (i - y * (nx * nz)) / nx = z.
Proof.
  intros Hx Hz Hy i. split.
  - symmetry. apply Z.div_unique with (r := x + z * nx); unfold i; [left; nia|ring].
  - symmetry. apply Z.div_unique with (r := x); unfold i; [left; lia|ring].
Qed.

Lemma find_index_at NX NY NZ lo ls l acc i :
  wf_layers NX NY NZ lo ls -> at_layer ls l acc -> 0 <= i < lcnt l ->
  find_index (length ls) ls (acc + i) = Ok (l, i).
Proof.
  intros H Ha; revert lo H; induction Ha as [l ls|l0 ls l acc Ha IH]; intros lo H Hi; simpl in *.
  - destruct (i >=? lcnt l) eqn:E; [lia|reflexivity].
  - destruct H as (H1&H2&H0&H3&H4&H5&H6&_&_&_&_&_&Hc&H).
    pose proof (at_layer_bound _ _ _ _ _ _ _ H Ha).
    destruct (lcnt l0 + acc + i >=? lcnt l0) eqn:E; [|lia].
    replace (lcnt l0 + acc + i - lcnt l0) with (acc + i) by ring. eauto.
Qed.

Lemma c2i_wf g c l acc : wf g -> inside g c -> at_layer (layers g) l acc -> lstart l <= cy c <= lend l ->
  exists idx, coordinate2index g c = Ok idx /\ 0 <= idx < nGridpoints g /\ index2coordinate g idx = Ok (round_down l c).
Proof.
  intros (Hn&Hs&Hw) (Hx&Hy&Hz) Ha HY.
  destruct (at_layer_wf _ _ _ _ _ _ _ Hw Ha) as (lo'&Hlo&H1&H2&H0&H3&H4&H5&H6&H7&H8&H9&H10&H11&Hc&_).
  pose proof (at_layer_bound _ _ _ _ _ _ _ Hw Ha) as Hb.
  set (qx := cx c / ldh l). set (qz := cz c / ldh l). set (qy := (cy c - lstart l) / ldh l).
  assert (Hqx : 0 <= qx < lnx l).
  { split; [apply Z.div_pos; lia|apply Z.div_lt_upper_bound; lia]. }
  assert (Hqz : 0 <= qz < lnz l).
  { split; [apply Z.div_pos; lia|apply Z.div_lt_upper_bound; lia]. }
  assert (Hqy : 0 <= qy < lny l).
  { split; [apply Z.div_pos; lia|apply Z.div_lt_upper_bound; [lia|]]. nia. }
  pose proof (compose_bound qx qy qz (lnx l) (lny l) (lnz l) Hqx Hqy Hqz) as Hi.
  exists (qx + qz * lnx l + qy * lnx l * lnz l + acc). split; [|split].
  - unfold coordinate2index. destruct c as [X Y Z]; simpl in *. unfold assert.
    destruct (X <? gNX g) eqn:E1; [|lia]. cbn [bind].
    destruct (Y <? gNY g) eqn:E2; [|lia]. cbn [bind].
    destruct (Z <? gNZ g) eqn:E3; [|lia]. cbn [bind].
    destruct (X >=? 0) eqn:E4; [|lia]. cbn [bind].
    destruct (Y >=? 0) eqn:E5; [|lia]. cbn [bind].
    destruct (Z >=? 0) eqn:E6; [|lia]. cbn [bind].
    rewrite Hn, (find_y_spec _ _ _ _ _ _ _ _ 0 Hw Ha HY). cbn [bind].
    rewrite !cdiv_nonneg by lia. cbn [bind]. f_equal.
  - rewrite Hs. rewrite Hc in Hb. lia.
  - unfold index2coordinate. rewrite Z.add_comm, Hn.
    rewrite (find_index_at _ _ _ _ _ _ _ _ Hw Ha) by (rewrite Hc; exact Hi). cbn [bind].
    destruct (decompose_unique qx qy qz (lnx l) (lnz l) Hqx Hqz ltac:(lia)) as (D1&D2).
    assert (0 < lnx l * lnz l) by (apply Z.mul_pos_pos; lia).
    assert (0 <= qz * lnx l) by (apply Z.mul_nonneg_nonneg; lia).
    rewrite cdiv_nonneg by lia. cbn [bind]. rewrite D1.
    rewrite cdiv_nonneg by lia. cbn [bind]. rewrite D2.
    unfold round_down. f_equal. f_equal. fold qx. ring.
Qed.

(** outside the model: exception; inside but between two layers: table read out of range *)
Lemma c2i_outside g c : ~ inside g c -> coordinate2index g c = Throw.
Proof.
  intros H. unfold inside in H. destruct c as [X Y Z]; simpl in H. unfold coordinate2index, assert.
  destruct (X <? gNX g) eqn:E1; [cbn [bind]|reflexivity].
  destruct (Y <? gNY g) eqn:E2; [cbn [bind]|reflexivity].
  destruct (Z <? gNZ g) eqn:E3; [cbn [bind]|reflexivity].
  destruct (X >=? 0) eqn:E4; [cbn [bind]|reflexivity].
  destruct (Y >=? 0) eqn:E5; [cbn [bind]|reflexivity].
  destruct (Z >=? 0) eqn:E6; [cbn [bind]|reflexivity]. lia.
Qed.

Lemma c2i_gap g c : wf g -> inside g c ->
  (forall l acc, at_layer (layers g) l acc -> ~ (lstart l <= cy c <= lend l)) -> coordinate2index g c = UB.
Proof.
  intros (Hn&Hs&Hw) H HY. unfold inside in H. destruct c as [X Y Z]; simpl in *. unfold coordinate2index, assert.
  destruct (X <? gNX g) eqn:E1; [cbn [bind]|lia].
  destruct (Y <? gNY g) eqn:E2; [cbn [bind]|lia].
  destruct (Z <? gNZ g) eqn:E3; [cbn [bind]|lia].
  destruct (X >=? 0) eqn:E4; [cbn [bind]|lia].
  destruct (Y >=? 0) eqn:E5; [cbn [bind]|lia].
  destruct (Z >=? 0) eqn:E6; [cbn [bind]|lia].
  now rewrite Hn, (find_y_gap _ _ _ _ _ _ _ Hw HY).
Qed.

(* ---------------------------------------------------------------- *)
(** ** Regular grid *)

Lemma mk_regular_ok nx ny nz : 0 < nx -> 0 < ny -> 0 < nz ->
  mk_regular nx ny nz = Ok (mkG nx ny nz 1 (nx * ny * nz) [mkL 1 0 (ny - 1) 0 nx ny nz (nx * ny * nz)] [-1; ny - 1]).
Proof.
  intros. unfold mk_regular, init_regular, fresh, assert; simpl.
  destruct (0 <? nx) eqn:E1; [|lia]. destruct (0 <? ny) eqn:E2; [|lia]. destruct (0 <? nz) eqn:E3; [|lia]. reflexivity.
Qed.

Lemma mk_regular_inv nx ny nz g : mk_regular nx ny nz = Ok g -> 0 < nx /\ 0 < ny /\ 0 < nz.
Proof.
  unfold mk_regular, init_regular, fresh, assert; simpl.
  destruct (0 <? nx) eqn:E1; [|discriminate]. destruct (0 <? ny) eqn:E2; [|discriminate].
  destruct (0 <? nz) eqn:E3; [|discriminate]. lia.
Qed.

Lemma mk_regular_wf nx ny nz g : mk_regular nx ny nz = Ok g ->
  wf g /\ gNX g = nx /\ gNY g = ny /\ gNZ g = nz /\ nGridpoints g = nx * ny * nz /\
  layers g = [mkL 1 0 (ny - 1) 0 nx ny nz (nx * ny * nz)].
Proof.
  intros H. pose proof (mk_regular_inv _ _ _ _ H) as (Hx&Hy&Hz). rewrite mk_regular_ok in H by lia.
  injection H as <-. unfold wf; simpl. repeat split; simpl; auto; try lia.
Qed.

Lemma regular_bijection nx ny nz g : mk_regular nx ny nz = Ok g ->
  (forall i, 0 <= i < nx * ny * nz -> exists c, index2coordinate g i = Ok c /\
       (0 <= cx c < nx /\ 0 <= cy c < ny /\ 0 <= cz c < nz) /\ coordinate2index g c = Ok i) /\
  (forall c, 0 <= cx c < nx /\ 0 <= cy c < ny /\ 0 <= cz c < nz ->
       exists i, coordinate2index g c = Ok i /\ 0 <= i < nx * ny * nz /\ index2coordinate g i = Ok c) /\
  (forall c, ~ (0 <= cx c < nx /\ 0 <= cy c < ny /\ 0 <= cz c < nz) -> coordinate2index g c = Throw).
Proof.
  intros H. destruct (mk_regular_wf _ _ _ _ H) as (Hw&E1&E2&E3&E4&E5). subst nx ny nz. rewrite <- E4. repeat split.
  - intros i Hi. destruct (i2c_wf g i Hw Hi) as (c&Ha&Hb&Hc). exists c; auto.
  - intros c Hc.
    destruct (c2i_wf g c (mkL 1 0 (gNY g - 1) 0 (gNX g) (gNY g) (gNZ g) (gNX g * gNY g * gNZ g)) 0 Hw Hc) as (i&Ha&Hb&Hd).
    + rewrite E5. constructor.
    + simpl. lia.
    + exists i. repeat split; auto; try lia. rewrite Hd. unfold round_down; simpl.
      rewrite !Z.div_1_r. destruct c; simpl. f_equal. f_equal; lia.
  - intros c Hc. apply c2i_outside. exact Hc.
Qed.

Lemma regular_formula nx ny nz g x y z : mk_regular nx ny nz = Ok g ->
  0 <= x < nx -> 0 <= y < ny -> 0 <= z < nz -> coordinate2index g (mkC x y z) = Ok (x + z * nx + y * nx * nz).
Proof.
  intros H Hx Hy Hz. rewrite mk_regular_ok in H by lia. injection H as <-.
  unfold coordinate2index, assert; cbn [gNX gNY gNZ numLayers layers find_y lend lstart].
  destruct (x <? nx) eqn:E1; [cbn [bind]|lia].
  destruct (y <? ny) eqn:E2; [cbn [bind]|lia].
  destruct (z <? nz) eqn:E3; [cbn [bind]|lia].
  destruct (x >=? 0) eqn:E4; [cbn [bind]|lia].
  destruct (y >=? 0) eqn:E5; [cbn [bind]|lia].
  destruct (z >=? 0) eqn:E6; [cbn [bind]|lia].
  destruct ((y <=? ny - 1) && true) eqn:E7; [|lia]. cbn [bind ldh lnx lnz lstart].
  rewrite Z.sub_0_r, !cdiv_nonneg by lia. cbn [bind]. rewrite !Z.div_1_r. f_equal. ring.
Qed.

(* ---------------------------------------------------------------- *)
(** ** Variable grid: construction *)

Lemma quot_fix N d c : N = Z.quot N d * d + 1 + c <-> Z.rem N d = 1 + c.
Proof.
  pose proof (Z.quot_rem' N d) as H. generalize dependent (Z.quot N d). generalize (Z.rem N d).
  intros r q H. split; intros; lia.
Qed.

Lemma reduceN_sound fuel d N r : reduceN fuel d N = Ok r ->
  r <= N /\ Z.rem r d = 1 + Z.quot d 2 /\ forall k, r < k <= N -> Z.rem k d <> 1 + Z.quot d 2.
Proof.
  revert N; induction fuel as [|f IH]; simpl; intros N H; [discriminate|].
  destruct (Z.eqb_spec N (Z.quot N d * d + 1 + Z.quot d 2)) as [E|E].
  - injection H as <-. split; [lia|]. split; [now apply quot_fix|]. intros k Hk; lia.
  - destruct (IH _ H) as (H1&H2&H3). split; [lia|]. split; [assumption|].
    intros k Hk. destruct (Z.eq_dec k N) as [->|Hne]; [|apply H3; lia].
    intros HH; apply E; now apply quot_fix.
Qed.

Lemma reduceN_terminates d N : 3 <= d -> 1 + Z.quot d 2 <= N -> exists r, reduceN (Z.to_nat d) d N = Ok r.
Proof.
  intros Hd HN.
  assert (Hq : 0 <= Z.quot d 2 /\ 1 + Z.quot d 2 < d).
  { rewrite Z.quot_div_nonneg by lia. pose proof (Z.div_mod d 2). pose proof (Z.mod_pos_bound d 2). lia. }
  (* the answer *)
  set (r := (N - (1 + Z.quot d 2)) / d * d + (1 + Z.quot d 2)).
  assert (Hr : r <= N < r + d).
  { unfold r. pose proof (Z.div_mod (N - (1 + Z.quot d 2)) d). pose proof (Z.mod_pos_bound (N - (1 + Z.quot d 2)) d). lia. }
  assert (Hr0 : 0 <= (N - (1 + Z.quot d 2)) / d) by (apply Z.div_pos; lia).
  assert (Hfix : r = Z.quot r d * d + 1 + Z.quot d 2).
  { assert (Z.quot r d = (N - (1 + Z.quot d 2)) / d).
    { rewrite Z.quot_div_nonneg by (unfold r; nia). symmetry. apply Z.div_unique with (r := 1 + Z.quot d 2); unfold r; lia. }
    rewrite H. unfold r. lia. }
  assert (G : forall fuel M, r <= M -> M - r < Z.of_nat fuel -> exists r', reduceN fuel d M = Ok r').
  { induction fuel as [|f IH]; intros M H1 H2; [lia|]. simpl.
    destruct (M =? Z.quot M d * d + 1 + Z.quot d 2) eqn:E; [eauto|].
    apply IH; [|lia]. destruct (Z.eq_dec M r) as [->|]; lia. }
  apply G; lia.
Qed.

Lemma reduceN_more_fuel d fuel fuel' N r : (fuel <= fuel')%nat -> reduceN fuel d N = Ok r -> reduceN fuel' d N = Ok r.
Proof.
  revert fuel' N; induction fuel as [|f IH]; intros fuel' N Hle H; simpl in H; [discriminate|].
  destruct fuel' as [|f']; [lia|]. simpl. destruct (N =? _); auto. apply IH; auto; lia.
Qed.

Lemma reduceN_diverges d N fuel : 3 <= d -> N < 1 + Z.quot d 2 -> reduceN fuel d N = Fuel.
Proof.
  intros Hd. revert N; induction fuel as [|f IH]; intros N HN; simpl; [reflexivity|].
  destruct (N =? Z.quot N d * d + 1 + Z.quot d 2) eqn:E; [|apply IH; lia]. exfalso.
  assert (Hq : 0 <= Z.quot d 2).
  { apply Z.quot_pos; lia. }
  destruct (Z_lt_le_dec N 0) as [Hn|Hn].
  - apply Z.eqb_eq, quot_fix in E. pose proof (Z.rem_nonpos N d ltac:(lia) ltac:(lia)). lia.
  - rewrite (Z.quot_small N d) in E; [lia|]. split; auto.
    rewrite Z.quot_div_nonneg in HN by lia. pose proof (Z.div_mod d 2). pose proof (Z.mod_pos_bound d 2). lia.
Qed.

Lemma align_sound fuel base d i r : align fuel base d i = Ok r ->
  r <= i /\ Z.rem (r - base) d = 0 /\ forall k, r < k <= i -> Z.rem (k - base) d <> 0.
Proof.
  revert i; induction fuel as [|f IH]; simpl; intros i H; [discriminate|].
  destruct (Z.eqb_spec (Z.rem (i - base) d) 0) as [E|E].
  - injection H as <-. split; [lia|]. split; [assumption|]. intros k Hk; lia.
  - destruct (IH _ H) as (H1&H2&H3). split; [lia|]. split; [assumption|].
    intros k Hk. destruct (Z.eq_dec k i) as [->|]; [assumption|apply H3; lia].
Qed.

Lemma rem_0_divide a d : d <> 0 -> (Z.rem a d = 0 <-> (d | a)).
Proof. intros. apply Z.rem_divide. auto. Qed.

Lemma align_gap fuel base d i r : 0 < d -> align fuel base d i = Ok r -> i - d < r.
Proof.
  intros Hd H. destruct (align_sound _ _ _ _ _ H) as (H1&H2&H3).
  destruct (Z_lt_le_dec (i - d) r) as [|Hle]; auto. exfalso.
  apply (H3 (r + d)); [lia|]. apply rem_0_divide; [lia|]. apply rem_0_divide in H2; [|lia].
  replace (r + d - base) with ((r - base) + d) by ring. apply Z.divide_add_r; auto. apply Z.divide_refl.
Qed.

Lemma align_terminates fuel base d i : 0 < d -> d <= Z.of_nat fuel -> exists r, align fuel base d i = Ok r.
Proof.
  intros Hd Hf.
  set (r := (i - base) / d * d + base).
  assert (Hr : r <= i < r + d).
  { unfold r. pose proof (Z.div_mod (i - base) d). pose proof (Z.mod_pos_bound (i - base) d). lia. }
  assert (Hfix : Z.rem (r - base) d = 0).
  { unfold r. replace ((i - base) / d * d + base - base) with ((i - base) / d * d) by ring.
    apply Z.rem_mul. lia. }
  assert (G : forall fuel M, r <= M -> M - r < Z.of_nat fuel -> exists r', align fuel base d M = Ok r').
  { induction fuel0 as [|f IH]; intros M H1 H2; [lia|]. simpl.
    destruct (Z.eqb_spec (Z.rem (M - base) d) 0) as [E|E]; [eauto|].
    apply IH; [|lia]. destruct (Z.eq_dec M r) as [->|]; [contradiction|lia]. }
  apply G; lia.
Qed.

Lemma align_more_fuel base d fuel fuel' i r : (fuel <= fuel')%nat -> align fuel base d i = Ok r -> align fuel' base d i = Ok r.
Proof.
  revert fuel' i; induction fuel as [|f IH]; intros fuel' i Hle H; simpl in H; [discriminate|].
  destruct fuel' as [|f']; [lia|]. simpl. destruct (Z.rem _ _ =? 0); auto. apply IH; auto; lia.
Qed.

(** Staggered vertical derivatives on layered grids. *)
From Verif Require Import Base M_Grid S_Grid L_Grid L_Grid2 L_Grid3 L_GridP M_Deriv S_Deriv S_DerivVar L_Deriv L_Deriv2 M_Inter S_Inter L_DerivVar L_DerivVar2 L_DerivVar3 L_DerivVar4 L_Fd L_Fd2 L_Inter.
Open Scope Z_scope.

(** ** The loop *)
Lemma stag_row_ok NY h lookup (X Y : Z -> Z) coef colf (w : Z -> Q) : forall n j,
  (forall i, j <= i < j + Z.of_nat n -> 0 <= Y i < NY -> lookup (X i) (Y i) = Ok (colf i) /\ coef i = Ok (w i)) ->
  stag_row n NY h lookup X Y coef j =
    Ok (map (fun i => (colf i, (w i / h)%Q)) (filter (fun i => (Y i >=? 0) && (Y i <? NY)) (zseq j n))).
Proof.
  induction n as [|n IH]; intros j H; [reflexivity|]. cbn [stag_row zseq filter].
  rewrite (IH (j + 1)) by (intros; apply H; lia).
  destruct ((Y j >=? 0) && (Y j <? NY)) eqn:E.
  - destruct (H j ltac:(lia) ltac:(lia)) as (A&B). rewrite A. cbn [bind]. rewrite B. cbn [bind]. reflexivity.
  - reflexivity.
Qed.

Lemma filter_ext_in' {A} (f f' : A -> bool) l : (forall x, In x l -> f x = f' x) -> filter f l = filter f' l.
Proof.
  induction l as [|a l IH]; intros H; [reflexivity|]. cbn. rewrite (H a) by now left. rewrite IH by (intros; apply H; now right). reflexivity.
Qed.

Lemma zseq_in s n x : In x (zseq s n) <-> s <= x < s + Z.of_nat n.
Proof.
  revert s; induction n as [|n IH]; intros s; cbn [zseq In]; [lia|]. rewrite IH. lia.
Qed.

Lemma forall2_map {A B} (P : A -> B -> Prop) (f : A -> B) l : (forall x, In x l -> P x (f x)) -> Forall2 P l (map f l).
Proof. induction l as [|a l IH]; intros H; [constructor|]. cbn. constructor; [apply H; now left|]. apply IH. intros; apply H; now right. Qed.

Lemma stag_row_cut NY h lookup (X Y : Z -> Z) coef (w : Z -> Q) m s p (col : Z -> Z -> Prop) : 0 <= p ->
  (forall j, 0 <= j < p -> 2 * Y j = m + s * (2 * j - (p - 1))) ->
  (forall j, 0 <= j < p -> 0 <= Y j < NY -> (exists k, lookup (X j) (Y j) = Ok k /\ col k (Y j)) /\ coef j = Ok (w j)) ->
  exists row, stag_row (Z.to_nat p) NY h lookup X Y coef 0 = Ok row /\ cut_row m s p NY h w col row.
Proof.
  intros Hp HY H. set (colf := fun j => match lookup (X j) (Y j) with Ok k => k | _ => 0 end).
  assert (C : forall j, 0 <= j < p -> 0 <= Y j < NY -> lookup (X j) (Y j) = Ok (colf j) /\ col (colf j) (Y j)).
  { intros j Hj Hr. destruct (H j Hj Hr) as ((k&E&K)&_). unfold colf. rewrite E. auto. }
  rewrite (stag_row_ok NY h lookup X Y coef colf w).
  2:{ intros i Hi Hr. split; [apply C; lia|apply H; lia]. }
  eexists. split; [reflexivity|]. unfold cut_row.
  rewrite (filter_ext_in' (fun i => (Y i >=? 0) && (Y i <? NY)) (fun j => let t := m + s * (2 * j - (p - 1)) in (0 <=? t) && (t <? 2 * NY))).
  2:{ intros j Hj. apply zseq_in in Hj. cbv zeta. rewrite <- (HY j) by lia. lia. }
  apply forall2_map. intros j Hj. apply filter_In in Hj as (Hj&Hf). apply zseq_in in Hj. cbv zeta in Hf. rewrite <- (HY j) in Hf by lia.
  exists (Y j). split; [apply HY; lia|]. split; [cbn [fst]; apply C; lia|reflexivity].
Qed.

Lemma cut_sum m s p N h w (col : Z -> Z -> Prop) row f F (pos : Z -> Z) : 0 <= p -> cut_row m s p N h w col row ->
  (forall j, 2 * pos j = m + s * (2 * j - (p - 1))) -> (forall k Y, col k Y -> (f k == F Y)%Q) ->
  (apply_row row f == qsum_to p (fun j => w j / h * restrict N F (pos j)))%Q.
Proof.
  intros Hp H Hpos Hf. unfold cut_row, qsum_to in *. revert row H. generalize (zseq 0 (Z.to_nat p)). induction l as [|j l IH]; intros row H; cbn [filter] in H.
  - inversion H. reflexivity.
  - cbv zeta in H. rewrite <- Hpos in H. cbn [map qsum fold_right]. unfold restrict at 1.
    replace ((0 <=? 2 * pos j) && (2 * pos j <? 2 * N)) with ((0 <=? pos j) && (pos j <? N)) in H by lia.
    destruct ((0 <=? pos j) && (pos j <? N)).
    + inversion H as [|? e ? row' (Y&E1&E2&E3) H']; subst. unfold apply_row. cbn [map qsum fold_right]. fold (qsum (map (fun e => (snd e * f (fst e))%Q) row')). change (qsum (map (fun e => (snd e * f (fst e))%Q) row')) with (apply_row row' f).
      rewrite (IH row' H'), E3, (Hf _ _ E2). rewrite <- Hpos in E1. replace Y with (pos j) by lia. reflexivity.
    + rewrite (IH row H). unfold qsum. ring.
Qed.

(** the coefficients of the free surface and their sum *)
Definition fs_w (p Qy n : Z) : Q := if p >=? 1 + Qy + n then (stencil_at p n - stencil_at p (p - 1 - Qy - n))%Q else stencil_at p n.
Lemma fs_coef_ok p y d n : In p [2; 4; 6; 8; 10; 12] -> 0 <= y -> 1 <= d -> 0 <= n < p -> fs_coef p y d n = Ok (fs_w p (2 * y / d) n).
Proof.
  intros Hp Hy Hd Hn. unfold fs_coef. rewrite fdcoef_ok by assumption. cbn [bind]. rewrite cdiv_nonneg by lia. cbn [bind]. unfold fs_w.
  assert (0 <= 2 * y / d) by (apply Z.div_pos; lia). destruct (Z.geb_spec p (1 + 2 * y / d + n)); [|reflexivity].
  rewrite fdcoef_ok by (auto; lia). reflexivity.
Qed.
Lemma fs_w_eq p Qy n : 0 <= Qy -> 0 <= n < p -> (fs_w p Qy n == stencil_at p n - stencil_at p (p - 1 - Qy - n))%Q.
Proof.
  intros HQ Hn. unfold fs_w. destruct (Z.geb_spec p (1 + Qy + n)); [reflexivity|]. rewrite (stencil_at_out p (p - 1 - Qy - n)) by lia. ring.
Qed.

Lemma qsum_ext p F F' : (forall j, 0 <= j < p -> (F j == F' j)%Q) -> (qsum_to p F == qsum_to p F')%Q.
Proof. intros H. change (qs 0 (Z.to_nat p) F == qs 0 (Z.to_nat p) F')%Q. apply qs_ext. intros; apply H; lia. Qed.
Lemma qsum_minus p F F' : (qsum_to p (fun j => F j - F' j) == qsum_to p F - qsum_to p F')%Q.
Proof.
  unfold qsum_to. induction (zseq 0 (Z.to_nat p)) as [|x l IH]; [reflexivity|]. cbn [map qsum fold_right]. unfold qsum in IH. rewrite IH. ring.
Qed.

Lemma image_sum k d y N h F : 1 <= k -> 1 <= d -> 0 <= y -> ((d | y) \/ d * k <= y) ->
  (qsum_to (2 * k) (fun n => fs_w (2 * k) (2 * y / d) n / h * restrict N F (y + d * (n - k))) ==
   qsum_to (2 * k) (fun n => stencil_at (2 * k) n / h * odd_about d N F (y + d * (n - k))))%Q.
Proof.
  intros Hk Hd Hy Hc. set (Qy := 2 * y / d). assert (HQ : 0 <= Qy) by (apply Z.div_pos; lia).
  rewrite (qsum_ext _ _ (fun n => stencil_at (2 * k) n / h * restrict N F (y + d * (n - k)) - stencil_at (2 * k) (2 * k - 1 - Qy - n) / h * restrict N F (y + d * (n - k)))%Q).
  2:{ intros n Hn. rewrite fs_w_eq by lia. unfold Qdiv. ring. }
  rewrite (qsum_ext (2 * k) (fun n => stencil_at (2 * k) n / h * odd_about d N F (y + d * (n - k)))%Q
     (fun n => stencil_at (2 * k) n / h * restrict N F (y + d * (n - k)) - stencil_at (2 * k) n / h * restrict N F (- d - (y + d * (n - k))))%Q).
  2:{ intros n Hn. unfold odd_about. ring. }
  rewrite !qsum_minus. apply Qplus_comp; [reflexivity|]. apply Qopp_comp.
  assert (Z1 : d * k <= y -> (forall n, 0 <= n < 2 * k -> (stencil_at (2 * k) (2 * k - 1 - Qy - n) == 0)%Q) /\
                             (forall n, 0 <= n < 2 * k -> (restrict N F (- d - (y + d * (n - k))) == 0)%Q)).
  { intros H. assert (2 * k <= Qy) by (apply Z.div_le_lower_bound; lia). split; intros n Hn.
    - apply stencil_at_out. lia.
    - unfold restrict. assert (0 <= d * n) by (apply Z.mul_nonneg_nonneg; lia). replace (d * (n - k)) with (d * n - d * k) by ring.
      replace (0 <=? - d - (y + (d * n - d * k))) with false by lia. reflexivity. }
  destruct (Z_le_gt_dec (d * k) y) as [H|H].
  - destruct (Z1 H) as (A&B). apply qsum_ext. intros n Hn. rewrite A, B by assumption. unfold Qdiv. ring.
  - destruct Hc as [(u&Hu)|]; [|lia]. assert (EQ : Qy = 2 * u) by (unfold Qy; rewrite Hu, Z.mul_assoc, Z.div_mul; lia).
    change (qs 0 (Z.to_nat (2 * k)) (fun n => stencil_at (2 * k) (2 * k - 1 - Qy - n) / h * restrict N F (y + d * (n - k)))%Q ==
            qs 0 (Z.to_nat (2 * k)) (fun n => stencil_at (2 * k) n / h * restrict N F (- d - (y + d * (n - k))))%Q)%Q.
    rewrite (reindex (fun i => stencil_at (2 * k) i / h)%Q (fun n => restrict N F (y + d * (n - k))) (2 * k - 1 - Qy)).
    + apply qs_ext. intros n Hn. replace (y + d * (2 * k - 1 - Qy - n - k)) with (- d - (y + d * (n - k))); [reflexivity|]. rewrite EQ, Hu. ring.
    + lia.
    + intros n Hn. rewrite stencil_at_out by lia. unfold Qdiv. ring.
    + intros n Hn Hneg. unfold restrict. replace (0 <=? y + d * (2 * k - 1 - Qy - n - k)) with false; [reflexivity|].
      symmetry. apply Z.leb_gt. rewrite Hu. replace (u * d + d * (2 * k - 1 - Qy - n - k)) with (d * (u + (2 * k - 1 - Qy - n) - k)) by ring.
      assert (u < k) by nia. apply Z.mul_pos_neg; lia.
Qed.

(** ** Interfaces *)
Lemma transition_last : forall ls its y, length its = length ls -> ~ In y (removelast its) ->
  (forall k l, nth_error ls k = Some l -> nth_error ls (S k) = None -> ltrans l = 0) -> transition_from (length ls) its ls y 0 = Ok 0.
Proof.
  induction ls as [|l ls IH]; intros its y Hl Hn Ht; [reflexivity|]. destruct its as [|i its]; [discriminate|]. cbn [length transition_from].
  destruct ls as [|l2 ls].
  - destruct its; [|discriminate]. destruct (y =? i); cbn; [|reflexivity]. rewrite (Ht 0%nat l); reflexivity.
  - destruct its as [|i2 its]; [discriminate|]. change (removelast (i :: i2 :: its)) with (i :: removelast (i2 :: its)) in Hn.
    replace (y =? i) with false by (symmetry; apply Z.eqb_neq; intros ->; apply Hn; now left). cbn [tl].
    apply IH; [cbn in Hl |- *; lia|intros H; apply Hn; now right|]. intros k l0 A B. apply (Ht (S k) l0); assumption.
Qed.
Lemma on_iface_some n : forall its y acc, (n <= length its)%nat -> exists b, on_iface n its y acc = Ok b.
Proof.
  induction n as [|n IH]; intros its y acc Hl; [eexists; reflexivity|]. destruct its as [|i its]; [cbn in Hl; lia|]. cbn [on_iface]. apply IH. cbn in Hl; lia.
Qed.

Section Layered.
Variables (g : grid) (itf : list Z).
Hypothesis L : layered g itf.
Hypothesis Nd : NoDup itf.
Hypothesis Ratio : forall k la lb, nth_error (layers g) k = Some la -> nth_error (layers g) (S k) = Some lb ->
  ldh la = ldh lb \/ ldh la = 3 * ldh lb \/ ldh lb = 3 * ldh la.

Lemma iface_not y t : t <> 0 -> ~ In y (removelast itf) -> iface_is g y t = Ok false.
Proof.
  intros Ht Hn. unfold iface_is, getTransition, locatedOnInterface. rewrite (lay_num g itf L), (lay_if g itf L).
  destruct (on_iface_some (length (layers g)) (-1 :: itf) y false) as (b&E). { cbn [length]. rewrite (lay_len g itf L). lia. }
  rewrite E. cbn [bind]. destruct b; [|reflexivity]. cbn [negb tl].
  rewrite transition_last; [cbn [bind]; f_equal; lia|apply (lay_len g itf L)|exact Hn|].
  intros k l Hk Hs. rewrite (lay_trans g itf L k l Hk), Hs. reflexivity.
Qed.

Lemma iface_at k y la lb t : nth_error itf k = Some y -> nth_error (layers g) k = Some la -> nth_error (layers g) (S k) = Some lb ->
  iface_is g y t = Ok (Z.sgn (ldh lb - ldh la) =? t).
Proof.
  intros Hk Ha Hb. assert (Hu : forall k', nth_error itf k' = Some y -> k' = k).
  { intros k' H. eapply (proj1 (NoDup_nth_error itf) Nd); [apply nth_error_Some; congruence|congruence]. }
  destruct (iface_trans g itf L k y la lb Hk Hu Ha Hb) as (A&B&_). unfold iface_is. rewrite A. cbn [bind]. rewrite B. reflexivity.
Qed.

(** [stored Y e]: row [Y] belongs to a layer with spacing [e] *)
Definition stored (Y e : Z) : Prop := exists l, In l (layers g) /\ lstart l <= Y <= lend l /\ ldh l = e /\ (e | Y - lstart l).

Section Off.
Variables (j : nat) (l : layer) (y : Z).
Hypothesis Hj : nth_error (layers g) j = Some l.
Hypothesis Hy : lstart l <= y <= lend l.
Hypothesis Hoff : ~ In y (removelast itf).
Hypothesis Hdy : (ldh l | y - lstart l).
Let d := ldh l.

Lemma in_l Y : lstart l <= Y <= lend l -> (d | Y - y) -> stored Y d.
Proof.
  intros H D. exists l. split; [eapply nth_error_In; eauto|]. split; [exact H|]. split; [reflexivity|].
  replace (Y - lstart l) with (Y - y + (y - lstart l)) by ring. now apply Z.divide_add_r.
Qed.

Lemma down Y : y <= Y < gNY g -> (d | Y - y) -> Y - y <= distToInterface g y ->
  exists e b, stored Y e /\ iface_is g Y (-1) = Ok b /\ if b : bool then d = 3 * e else e = d.
Proof.
  intros HY DY HD. pose proof (layer_pos g itf L l (nth_error_In _ _ Hj)) as Hd. fold d in Hd. destruct (lay_dist g itf L y) as (_&D&_).
  destruct (in_dec Z.eq_dec Y (removelast itf)) as [Hin|Hout].
  - destruct (nth_removelast itf Y Hin) as (k&Hk&Hlen). rewrite (lay_len g itf L) in Hlen.
    assert (Hkj : (j <= k)%nat).
    { destruct (le_lt_dec j k) as [|Hlt]; [assumption|exfalso].
      destruct (above g itf L j l y Hj Hy Hoff Hdy) as [(H0&_)|(j'&la&i0&Ej&_&Hi0&_&_&B&_)]; [lia|].
      pose proof (lay_sorted g itf L k j' Y i0 Hk Hi0 ltac:(lia)). fold d in B. lia. }
    destruct (below g itf L j l y Hj Hy Hoff Hdy) as [(Hn&_)|(lb&i1&Hb&Hi1&Hint&Di&Bi&R)].
    { apply nth_error_None in Hn. lia. }
    pose proof (lay_sorted g itf L j k i1 Y Hi1 Hk Hkj). specialize (D i1 Hint). fold d in Bi. assert (Y = i1) by lia. subst Y.
    rewrite (iface_at j i1 l lb (-1) Hi1 Hj Hb).
    destruct (lay_pair g itf L j l lb Hj Hb) as (i1'&E1&P). assert (i1' = i1) by congruence. subst i1'. fold d in P |- *.
    destruct (lay_rows g itf L lb (nth_error_In _ _ Hb)) as (A1&A2&A3).
    destruct (Ratio j l lb Hj Hb) as [Er|[Er|Er]]; fold d in Er.
    + exists d, false. split; [|split; [f_equal; lia|reflexivity]]. exists lb. split; [eapply nth_error_In; eauto|]. replace (d <? ldh lb) with false in P by lia.
      split; [lia|]. split; [auto|]. rewrite (proj2 P), Z.sub_diag. apply Z.divide_0_r.
    + exists (ldh lb), true. split; [|split; [f_equal; lia|lia]]. exists lb. split; [eapply nth_error_In; eauto|]. replace (d <? ldh lb) with false in P by lia.
      split; [lia|]. split; [auto|]. rewrite (proj2 P), Z.sub_diag. apply Z.divide_0_r.
    + exists d, false. replace (d <? ldh lb) with true in P by lia. split; [|split; [f_equal; lia|reflexivity]]. apply in_l; [lia|exact DY].
  - exists d, false. split; [|split; [apply iface_not; [lia|exact Hout]|reflexivity]]. apply in_l; [|exact DY].
    destruct (below g itf L j l y Hj Hy Hoff Hdy) as [(Hn&He)|(lb&i1&Hb&Hi1&Hint&Di&Bi&R)]; [lia|]. specialize (D i1 Hint). fold d in Di, Bi, R.
    assert (Y <> i1) by (intros ->; tauto). destruct R as [R|(R&_)]; [lia|].
    assert (Y <= i1 - d); [|lia]. destruct DY as (u&Hu). destruct Di as (v&Hv). assert (u < v) by (clear -Hu Hv H HD D Bi HY Hd; nia). clear -Hu Hv H0 Hd. nia.
Qed.

Lemma up Y : 0 <= Y <= y -> (d | Y - y) -> y - Y <= distToInterface g y ->
  exists e b, stored Y e /\ iface_is g Y 1 = Ok b /\ if b : bool then d = 3 * e else e = d.
Proof.
  intros HY DY HD. pose proof (layer_pos g itf L l (nth_error_In _ _ Hj)) as Hd. fold d in Hd. destruct (lay_dist g itf L y) as (_&D&_).
  destruct (in_dec Z.eq_dec Y (removelast itf)) as [Hin|Hout].
  - destruct (nth_removelast itf Y Hin) as (k&Hk&Hlen). rewrite (lay_len g itf L) in Hlen.
    assert (Hkj : (k < j)%nat).
    { destruct (le_lt_dec j k) as [Hle|]; [exfalso|assumption].
      destruct (below g itf L j l y Hj Hy Hoff Hdy) as [(Hn&_)|(lb&i1&Hb&Hi1&Hint&Di&Bi&R)]; [apply nth_error_None in Hn; lia|].
      pose proof (lay_sorted g itf L j k i1 Y Hi1 Hk Hle). fold d in Bi. lia. }
    destruct (above g itf L j l y Hj Hy Hoff Hdy) as [(Hn&_)|(j'&la&i0&Ej&Ha&Hi0&Hint&Di&Bi&R)]; [lia|].
    pose proof (lay_sorted g itf L k j' Y i0 Hk Hi0 ltac:(lia)). specialize (D i0 Hint). fold d in Bi. assert (Y = i0) by lia. subst Y. pose proof Hj as Hj'. rewrite Ej in Hj'.
    rewrite (iface_at j' i0 la l 1 Hi0 Ha Hj').
    destruct (lay_pair g itf L j' la l Ha Hj') as (i1'&E1&P). assert (i1' = i0) by congruence. subst i1'. fold d in P |- *.
    destruct (lay_rows g itf L la (nth_error_In _ _ Ha)) as (A1&A2&A3).
    destruct (Ratio j' la l Ha Hj') as [Er|[Er|Er]]; fold d in Er.
    + exists d, false. replace (ldh la <? d) with false in P by lia. split; [|split; [f_equal; lia|reflexivity]]. apply in_l; [lia|exact DY].
    + exists d, false. replace (ldh la <? d) with false in P by lia. split; [|split; [f_equal; lia|reflexivity]]. apply in_l; [lia|exact DY].
    + exists (ldh la), true. split; [|split; [f_equal; lia|lia]]. exists la. split; [eapply nth_error_In; eauto|]. replace (ldh la <? d) with true in P by lia.
      split; [lia|]. split; [auto|]. rewrite <- (proj1 P). exact A3.
  - exists d, false. split; [|split; [apply iface_not; [lia|exact Hout]|reflexivity]]. apply in_l; [|exact DY].
    destruct (above g itf L j l y Hj Hy Hoff Hdy) as [(Hn&He)|(j'&la&i0&Ej&Ha&Hi0&Hint&Di&Bi&R)]; [lia|]. specialize (D i0 Hint). fold d in Di, Bi, R.
    assert (Y <> i0) by (intros ->; tauto). destruct R as [R|(R&_)]; [lia|].
    assert (i0 + d <= Y); [|lia]. destruct DY as (u&Hu). destruct Di as (v&Hv). assert (- v < u) by (clear -Hu Hv H HD D Bi HY Hd; nia). clear -Hu Hv H0 Hd. nia.
Qed.
End Off.

(** ** Columns on one staggered line *)
Variables (a : axis) (i : Z) (c : coord).
Hypothesis Hi : 0 <= i < nGridpoints g.
Hypothesis Hc : index2coordinate g i = Ok c.
Hypothesis Hed : forall l, In l (layers g) -> edge (extent a g) (ldh l).
Definition line (d : Z) (kk Y : Z) : Prop :=
  0 <= kk < nGridpoints g /\ exists X e, index2coordinate g kk = Ok (moved a c X Y) /\ row_spacing g Y e /\ 2 * X + e = 2 * along a c + d.
Definition across : Z := match a with AX => cz c | AZ => cx c end.

Lemma line_col Y e X d : stored Y e -> 0 <= X < extent a g -> (e | X) -> (e | across) -> 2 * X + e = 2 * along a c + d ->
  exists kk, coordinate2index g (moved a c X Y) = Ok kk /\ line d kk Y.
Proof.
  intros (l&Hl&HY&El&DY) HX DX DA E. subst e. destruct (lay_point g itf L i c Hi Hc) as (Px&_&Pz&_).
  assert (exists kk, coordinate2index g (moved a c X Y) = Ok kk /\ 0 <= kk < nGridpoints g /\ index2coordinate g kk = Ok (moved a c X Y)) as (kk&A&B&C).
  { unfold moved, across, extent in *. destruct a; apply (grid_colr g itf L _ _ _ l); auto. }
  exists kk. split; [exact A|]. split; [exact B|]. exists X, (ldh l). split; [exact C|]. split; [|exact E]. exists l. auto.
Qed.

Lemma third d e : d = 3 * e -> Z.quot d 3 = e.
Proof. intros ->. rewrite Z.mul_comm. apply Z.quot_mul. lia. Qed.

Lemma room d x N : edge N d -> 1 <= d -> (d | x) -> 0 <= x < N -> forall e, d = 3 * e -> x < N - e /\ x + e < N.
Proof.
  intros (M&HM&HN) Hd (u&Hu) Hx e He. assert (u <= M); [|nia]. destruct (Z_le_gt_dec u M); [assumption|exfalso].
  assert ((M + 1) * d <= u * d) by (apply Z.mul_le_mono_nonneg_r; lia). lia.
Qed.

Section OffRows.
Variables (j : nat) (l : layer) (orders : list Z) (useVar : bool) (DH : Q) (p : Z).
Hypothesis Hj : nth_error (layers g) j = Some l.
Hypothesis Hy : lstart l <= cy c <= lend l.
Hypothesis Hoff : ~ In (cy c) (removelast itf).
Hypothesis Hp : In p [2; 4; 6; 8; 10; 12].
Hypothesis Ho : configured orders useVar j p.
Let d := ldh l.
Let y := cy c.
Let q := capped p (distToInterface g y) d.

Lemma off_pos : 1 <= d /\ 0 <= along a c < extent a g /\ (d | along a c) /\ (d | across) /\ 0 <= y < gNY g /\ (d | y - lstart l).
Proof.
  destruct (point_div g itf L i c l Hi Hc (nth_error_In _ _ Hj) Hy) as (Dx&Dy&Dz). destruct (lay_point g itf L i c Hi Hc) as (Px&Py&Pz&_).
  pose proof (layer_pos g itf L l (nth_error_In _ _ Hj)). unfold along, extent, across, d, y. destruct a; auto 10.
Qed.

(** rows of the reduced stencil that lie in the model are no farther than the nearest interface *)
Lemma off_reach t Y : (d * t <= d * (q / 2)) -> 0 <= Y < gNY g -> Y - y <= d * t -> y - Y <= d * t -> Y - y <= distToInterface g y /\ y - Y <= distToInterface g y.
Proof.
  intros Ht HY H1 H2. destruct off_pos as (Hd&_&_&_&Py&Dy).
  destruct (dist_lower g itf L j l y Hj Hy Hoff Dy) as [H|H]; fold d in H; [|lia].
  pose proof (capped_reach g itf L j l y Hj p Hp H) as Hr. fold d q in Hr. lia.
Qed.

Lemma off_inner Y : 0 <= Y < gNY g -> (d | Y - y) -> Y - y < distToInterface g y -> y - Y < distToInterface g y -> stored Y d.
Proof.
  intros HY DY H1 H2. destruct off_pos as (Hd&_&_&_&Py&Dy).
  assert (Hn : ~ In Y (removelast itf)). { intros H. destruct (lay_dist g itf L y) as (_&D&_). specialize (D Y H). lia. }
  destruct (Z_le_gt_dec y Y).
  - destruct (down j l y Hj Hy Hoff Dy Y) as (e&b&S&I&E); [lia|exact DY|lia|]. rewrite (iface_not Y (-1)) in I by (auto; lia). injection I as <-. now subst e.
  - destruct (up j l y Hj Hy Hoff Dy Y) as (e&b&S&I&E); [lia|exact DY|lia|]. rewrite (iface_not Y 1) in I by (auto; lia). injection I as <-. now subst e.
Qed.

Lemma off_strict t Y : t + 1 <= q / 2 -> 0 <= Y < gNY g -> Y - y <= d * t -> y - Y <= d * t -> Y - y < distToInterface g y /\ y - Y < distToInterface g y.
Proof.
  intros Ht HY H1 H2. destruct off_pos as (Hd&_&_&_&Py&Dy).
  destruct (dist_lower g itf L j l y Hj Hy Hoff Dy) as [H|H]; fold d in H; [|lia].
  pose proof (capped_reach g itf L j l y Hj p Hp H) as Hr. fold d q in Hr. assert (d * (t + 1) <= d * (q / 2)) by (apply Z.mul_le_mono_nonneg_l; lia). lia.
Qed.

Lemma itf_lt Y : In Y (removelast itf) -> Y < gNY g.
Proof.
  intros H. destruct (nth_removelast itf Y H) as (k&Hk&Hlen). rewrite (lay_len g itf L) in Hlen.
  destruct (nth_error (layers g) k) as [la|] eqn:Ha; [|apply nth_error_None in Ha; lia].
  destruct (nth_error (layers g) (S k)) as [lb|] eqn:Hb; [|apply nth_error_None in Hb; lia].
  destruct (lay_pair g itf L k la lb Ha Hb) as (i0&E&R). assert (i0 = Y) by congruence. subst i0.
  destruct (lay_rows g itf L la (nth_error_In _ _ Ha)) as (R1&R1'&_). destruct (lay_rows g itf L lb (nth_error_In _ _ Hb)) as (R2&R2'&_).
  destruct (ldh la <? ldh lb); lia.
Qed.
Lemma itf_ge Y : In Y (removelast itf) -> 0 <= Y.
Proof.
  intros H. destruct (nth_removelast itf Y H) as (k&Hk&Hlen). rewrite (lay_len g itf L) in Hlen.
  destruct (nth_error (layers g) k) as [la|] eqn:Ha; [|apply nth_error_None in Ha; lia].
  destruct (nth_error (layers g) (S k)) as [lb|] eqn:Hb; [|apply nth_error_None in Hb; lia].
  exact (iface_nonneg g itf L k Y la lb Hk Ha Hb).
Qed.

Lemma off_order : order_idx orders useVar (Z.of_nat j) = Ok p /\ order_at orders useVar (Z.of_nat j) = Ok p.
Proof.
  split; [|exact (configured_ok _ _ _ _ Ho)]. unfold order_idx, configured in *. destruct useVar; [now apply vget_nat|]. exact (vget_nat orders 0 p Ho).
Qed.

(** the end row of the forward stencil and its move *)
Lemma off_end : let Y := y + q / 2 * d in exists b, iface_is g Y (-1) = Ok b /\
  let m := if (b && (along a c <? extent a g - Z.quot d 3))%bool then Z.quot d 3 else 0 in
  (0 <= Y < gNY g -> exists kk, coordinate2index g (moved a c (along a c + m) Y) = Ok kk /\ line d kk Y).
Proof.
  intros Y. destruct off_pos as (Hd&Pa&Da&Dc&Py&Dy). destruct (Z_lt_le_dec Y (gNY g)) as [H|H].
  2:{ exists false. split; [apply iface_not; [lia|]; intros I; apply itf_lt in I; lia|]. cbv zeta. lia. }
  destruct (reduce_ok g itf L j l y Hj Hy Hoff Dy p Hp) as (_&R2). fold d q in R2. destruct (supported_even q R2) as (k&Ek&Hk).
  assert (E2 : q / 2 = k) by (rewrite Ek, Z.mul_comm, Z.div_mul; lia).
  assert (HYy : Y - y = d * k) by (unfold Y; rewrite E2; ring). assert (0 <= d * k) by (apply Z.mul_nonneg_nonneg; lia).
  destruct (off_reach k Y) as (HD&_); [rewrite E2; lia|lia|lia|lia|].
  destruct (down j l y Hj Hy Hoff Dy Y) as (e&b&S&I&E); [lia|exists k; fold d; rewrite HYy; ring|exact HD|]. exists b. split; [exact I|]. cbv zeta. intros _.
  destruct b; cbn [andb].
  - fold d in E. pose proof (Hed l (nth_error_In _ _ Hj)) as He. fold d in He. destruct (room d (along a c) (extent a g) He Hd Da Pa e E) as (G1&G2).
    assert (Ded : (e | d)) by (exists 3; lia).
    rewrite (third d e E). replace (along a c <? extent a g - e) with true by lia.
    apply (line_col Y e); [exact S|lia|apply Z.divide_add_r; [now apply (Z.divide_trans _ d)|apply Z.divide_refl]|now apply (Z.divide_trans _ d)|lia].
  - fold d in E. subst e. apply (line_col Y d); [exact S|lia|rewrite Z.add_0_r; exact Da|exact Dc|lia].
Qed.

Lemma off_start : let Y := y - q / 2 * d in exists b, iface_is g Y 1 = Ok b /\
  let m := if (b && (along a c <? extent a g - Z.quot d 3))%bool then Z.quot d 3 else 0 in
  (0 <= Y < gNY g -> exists kk, coordinate2index g (moved a c (along a c + m) Y) = Ok kk /\ line d kk Y).
Proof.
  intros Y. destruct off_pos as (Hd&Pa&Da&Dc&Py&Dy). destruct (Z_lt_le_dec Y 0) as [H|H].
  { exists false. split; [apply iface_not; [lia|]; intros I; apply itf_ge in I; lia|]. cbv zeta. lia. }
  destruct (reduce_ok g itf L j l y Hj Hy Hoff Dy p Hp) as (_&R2). fold d q in R2. destruct (supported_even q R2) as (k&Ek&Hk).
  assert (E2 : q / 2 = k) by (rewrite Ek, Z.mul_comm, Z.div_mul; lia).
  assert (HYy : y - Y = d * k) by (unfold Y; rewrite E2; ring). assert (0 <= d * k) by (apply Z.mul_nonneg_nonneg; lia).
  destruct (off_reach k Y) as (_&HD); [rewrite E2; lia|lia|lia|lia|].
  destruct (up j l y Hj Hy Hoff Dy Y) as (e&b&S&I&E); [lia|exists (- k); fold d; replace (Y - y) with (- (y - Y)) by ring; rewrite HYy; ring|exact HD|].
  exists b. split; [exact I|]. cbv zeta. intros _.
  destruct b; cbn [andb].
  - fold d in E. pose proof (Hed l (nth_error_In _ _ Hj)) as He. fold d in He. destruct (room d (along a c) (extent a g) He Hd Da Pa e E) as (G1&G2).
    assert (Ded : (e | d)) by (exists 3; lia).
    rewrite (third d e E). replace (along a c <? extent a g - e) with true by lia.
    apply (line_col Y e); [exact S|lia|apply Z.divide_add_r; [now apply (Z.divide_trans _ d)|apply Z.divide_refl]|now apply (Z.divide_trans _ d)|lia].
  - fold d in E. subst e. apply (line_col Y d); [exact S|lia|rewrite Z.add_0_r; exact Da|exact Dc|lia].
Qed.

Lemma off_mid Y t : t + 1 <= q / 2 -> 0 <= Y < gNY g -> (d | Y - y) -> Y - y <= d * t -> y - Y <= d * t ->
  exists kk, coordinate2index g (moved a c (along a c) Y) = Ok kk /\ line d kk Y.
Proof.
  intros Ht HY DY H1 H2. destruct off_pos as (Hd&Pa&Da&Dc&Py&Dy). destruct (off_strict t Y Ht HY H1 H2) as (S1&S2).
  apply (line_col Y d); auto. apply off_inner; auto.
Qed.

Lemma off_dyf : exists row, calcDyfStaggered a g orders useVar DH i = Ok row /\
  cut_row (2 * y + d) d q (gNY g) (DH * inject_Z d) (stencil_at q) (line d) row.
Proof.
  destruct off_pos as (Hd&Pa&Da&Dc&Py&Dy).
  destruct (reduce_ok g itf L j l y Hj Hy Hoff Dy p Hp) as (R1&R2). fold d q in R1, R2.
  unfold calcDyfStaggered. rewrite Hc. cbn [bind]. fold y. rewrite (lay_getLayer g itf L j l y Hj Hy Hoff). cbn [bind].
  rewrite (proj1 off_order). cbn [bind]. rewrite R1. cbn [bind]. rewrite !(iface_not y) by (auto; lia). cbn [bind].
  rewrite (vget_nat _ _ _ Hj). cbn [bind andb]. fold d.
  destruct (supported_even q R2) as (k&Ek&Hk). assert (E2 : q / 2 = k) by (rewrite Ek, Z.mul_comm, Z.div_mul; lia).
  assert (Eq : Z.quot q 2 = k) by (rewrite Ek; apply quot2). rewrite Eq.
  destruct off_end as (b&I&Hend). cbv zeta in Hend. rewrite E2 in *. rewrite I. cbn [bind].
  set (m := if (b && (along a c <? extent a g - Z.quot d 3))%bool then Z.quot d 3 else 0) in *. clearbody m.
  apply stag_row_cut; [lia|intros n Hn; rewrite Ek; ring|]. intros n Hn HY. split; [|now apply fdcoef_ok].
  destruct (Z.eqb_spec n (q - 1)) as [->|Hne].
  - replace (if q - 1 =? 1 then 0 else 0) with 0 by (now destruct (q - 1 =? 1)). rewrite Z.sub_0_r.
    replace (y + d * (q - 1 - k + 1)) with (y + k * d) in * by (rewrite Ek; ring). now apply Hend.
  - replace (if n =? 1 then 0 else 0) with 0 by (now destruct (n =? 1)). rewrite Z.sub_0_r, Z.add_0_r.
    apply (off_mid _ (k - 1)); [lia|exact HY|exists (n - k + 1); ring| |].
    + replace (y + d * (n - k + 1) - y) with (d * (n - k + 1)) by ring. apply Z.mul_le_mono_nonneg_l; lia.
    + replace (y - (y + d * (n - k + 1))) with (d * (k - 1 - n)) by ring. apply Z.mul_le_mono_nonneg_l; lia.
Qed.

(** the backward rows, with any weights *)
Lemma off_back w coef : (forall n, 0 <= n < q -> coef n = Ok (w n)) -> exists m0 row, stag_move a g c q d = Ok m0 /\ stag_corrs g y (Z.of_nat j) = Ok (0, 0) /\
  stag_row (Z.to_nat q) (gNY g) (DH * inject_Z d) (fun v Y => coordinate2index g (moved a c v Y))
    (fun n => along a c + (if n =? 0 then m0 else 0)) (fun n => y + d * (n - Z.quot q 2) + (if n =? 0 then 0 else if n =? 1 then 0 else 0)) coef 0 = Ok row /\
  cut_row (2 * y - d) d q (gNY g) (DH * inject_Z d) w (line d) row.
Proof.
  intros Hw. destruct off_pos as (Hd&Pa&Da&Dc&Py&Dy).
  destruct (reduce_ok g itf L j l y Hj Hy Hoff Dy p Hp) as (R1&R2). fold d q in R1, R2.
  destruct (supported_even q R2) as (k&Ek&Hk). assert (E2 : q / 2 = k) by (rewrite Ek, Z.mul_comm, Z.div_mul; lia).
  assert (Eq : Z.quot q 2 = k) by (rewrite Ek; apply quot2).
  destruct off_start as (b&I&Hst). cbv zeta in Hst. rewrite E2 in *.
  set (m := if (b && (along a c <? extent a g - Z.quot d 3))%bool then Z.quot d 3 else 0) in *.
  assert (M : stag_move a g c q d = Ok m).
  { unfold stag_move. rewrite Eq. fold y. rewrite I. cbn [bind]. rewrite (iface_not y) by (auto; lia). cbn [bind andb]. fold m. now rewrite Z.sub_0_r. }
  assert (Co : stag_corrs g y (Z.of_nat j) = Ok (0, 0)).
  { unfold stag_corrs, stag_corr. replace (locatedOnInterface g y) with (Ok false) by (symmetry; eapply off_onif; eauto). reflexivity. }
  exists m. rewrite Eq.
  destruct (stag_row_cut (gNY g) (DH * inject_Z d) (fun v Y => coordinate2index g (moved a c v Y)) (fun n => along a c + (if n =? 0 then m else 0))
     (fun n => y + d * (n - k) + (if n =? 0 then 0 else if n =? 1 then 0 else 0)) coef w (2 * y - d) d q (line d)) as (row&Er&Hr); [lia| | |].
  - intros n Hn. replace (if n =? 0 then 0 else if n =? 1 then 0 else 0) with 0 by (destruct (n =? 0); [reflexivity|now destruct (n =? 1)]). rewrite Ek. ring.
  - intros n Hn. replace (if n =? 0 then 0 else if n =? 1 then 0 else 0) with 0 by (destruct (n =? 0); [reflexivity|now destruct (n =? 1)]). rewrite Z.add_0_r. intros HY.
    split; [|now apply Hw]. destruct (Z.eqb_spec n 0) as [->|Hne].
    + replace (y + d * (0 - k)) with (y - k * d) in * by ring. now apply Hst.
    + rewrite Z.add_0_r. apply (off_mid _ (k - 1)); [lia|exact HY|exists (n - k); ring| |].
      * replace (y + d * (n - k) - y) with (d * (n - k)) by ring. apply Z.mul_le_mono_nonneg_l; lia.
      * replace (y - (y + d * (n - k))) with (d * (k - n)) by ring. apply Z.mul_le_mono_nonneg_l; lia.
  - exists row. auto.
Qed.

Lemma off_dyb : exists row, calcDybStaggered a g orders useVar DH i = Ok row /\
  cut_row (2 * y - d) d q (gNY g) (DH * inject_Z d) (stencil_at q) (line d) row.
Proof.
  destruct off_pos as (Hd&Pa&Da&Dc&Py&Dy).
  destruct (reduce_ok g itf L j l y Hj Hy Hoff Dy p Hp) as (R1&R2). fold d q in R1, R2.
  destruct (off_back (stencil_at q) (fdcoef q)) as (m0&row&M&Co&Er&Hr); [intros; now apply fdcoef_ok|].
  exists row. split; [|exact Hr]. unfold calcDybStaggered. rewrite Hc. cbn [bind]. fold y. rewrite (lay_getLayer g itf L j l y Hj Hy Hoff). cbn [bind].
  rewrite (vget_nat _ _ _ Hj). cbn [bind]. fold d.
  rewrite (proj1 off_order). cbn [bind]. rewrite R1. cbn [bind]. rewrite M. cbn [bind]. rewrite Co. cbn [bind]. exact Er.
Qed.

(** rows below the first layer have no images *)
Lemma off_deep : (d | y) \/ d * (q / 2) <= y.
Proof.
  destruct off_pos as (Hd&Pa&Da&Dc&Py&Dy).
  destruct (above g itf L j l y Hj Hy Hoff Dy) as [(_&H0)|(j'&la&i0&Ej&Ha&Hi0&Hint&Di&Bi&R)].
  - left. rewrite H0, Z.sub_0_r in Dy. exact Dy.
  - right. destruct (lay_dist g itf L y) as (_&D&_). specialize (D i0 Hint). pose proof (itf_ge i0 Hint) as Hge.
    destruct (dist_lower g itf L j l y Hj Hy Hoff Dy) as [H|H]; fold d in H; [|fold d in Bi; lia].
    pose proof (capped_reach g itf L j l y Hj p Hp H) as Hr. fold d q in Hr. fold d in Bi. lia.
Qed.

Lemma off_image w0 (col : Z -> Z -> Prop) row f F : (forall n, 0 <= n < q -> w0 n = fs_w q (2 * y / d) n) ->
  cut_row (2 * y - d) d q (gNY g) (DH * inject_Z d) w0 col row -> (forall k Y, col k Y -> (f k == F Y)%Q) ->
  (apply_row row f == qsum_to q (fun n => stencil_at q n / (DH * inject_Z d) * odd_about d (gNY g) F (y + d * (n - q / 2))))%Q.
Proof.
  intros Hw Hr Hf. destruct off_pos as (Hd&Pa&Da&Dc&Py&Dy).
  destruct (reduce_ok g itf L j l y Hj Hy Hoff Dy p Hp) as (R1&R2). fold d q in R1, R2.
  destruct (supported_even q R2) as (k&Ek&Hk). assert (E2 : q / 2 = k) by (rewrite Ek, Z.mul_comm, Z.div_mul; lia).
  pose proof off_deep as HD. rewrite E2 in *.
  assert (Hq0 : 0 <= q) by lia.
  rewrite (cut_sum _ _ _ _ _ _ _ _ f F (fun n => y + d * (n - k)) Hq0 Hr); [|intros n; rewrite Ek; ring|exact Hf].
  rewrite (qsum_ext q _ (fun n => fs_w q (2 * y / d) n / (DH * inject_Z d) * restrict (gNY g) F (y + d * (n - k)))%Q) by (intros n Hn; rewrite Hw by assumption; reflexivity).
  rewrite Ek. apply image_sum; auto; lia.
Qed.

Lemma off_fs : exists row, calcDybStaggeredFreeSurface a g orders useVar true DH i = Ok row /\
  forall f F, (forall k Y, line d k Y -> (f k == F Y)%Q) ->
    (apply_row row f == qsum_to q (fun n => stencil_at q n / (DH * inject_Z d) * odd_about d (gNY g) F (y + d * (n - q / 2))))%Q.
Proof.
  destruct off_pos as (Hd&Pa&Da&Dc&Py&Dy).
  destruct (reduce_ok g itf L j l y Hj Hy Hoff Dy p Hp) as (R1&R2). fold d q in R1, R2.
  destruct (off_back (fs_w q (2 * y / d)) (fs_coef q y d)) as (m0&row&M&Co&Er&Hr); [intros; apply fs_coef_ok; auto; lia|].
  exists row. split.
  - unfold calcDybStaggeredFreeSurface. rewrite Hc. cbn [bind]. fold y. rewrite (lay_getLayer g itf L j l y Hj Hy Hoff). cbn [bind].
    rewrite (vget_nat _ _ _ Hj). cbn [bind]. fold d.
    rewrite (proj2 off_order). cbn [bind]. rewrite R1. cbn [bind]. rewrite M. cbn [bind]. rewrite Co. cbn [bind]. exact Er.
  - intros f F Hf. eapply off_image; eauto.
Qed.

Lemma off_fsv : exists row, calcDybFreeSurfaceVar g orders useVar true DH i = Ok row /\
  forall f F, (forall k Y, index2coordinate g k = Ok (mkC (cx c) Y (cz c)) -> (f k == F Y)%Q) ->
    (apply_row row f == qsum_to q (fun n => stencil_at q n / (DH * inject_Z d) * odd_about d (gNY g) F (y + d * (n - q / 2))))%Q.
Proof.
  destruct off_pos as (Hd&Pa&Da&Dc&Py&Dy).
  destruct (reduce_ok g itf L j l y Hj Hy Hoff Dy p Hp) as (R1&R2). fold d q in R1, R2.
  destruct (supported_even q R2) as (k&Ek&Hk). assert (E2 : q / 2 = k) by (rewrite Ek, Z.mul_comm, Z.div_mul; lia).
  assert (Eq : Z.quot q 2 = k) by (rewrite Ek; apply quot2).
  assert (Co : stag_corrs g y (Z.of_nat j) = Ok (0, 0)).
  { unfold stag_corrs, stag_corr. replace (locatedOnInterface g y) with (Ok false) by (symmetry; eapply off_onif; eauto). reflexivity. }
  destruct (point_div g itf L i c l Hi Hc (nth_error_In _ _ Hj) Hy) as (Dx&_&Dz). destruct (lay_point g itf L i c Hi Hc) as (Px&_&Pz&_).
  destruct (stag_row_cut (gNY g) (DH * inject_Z d) (fun (_ : Z) Y => coordinate2index g (mkC (cx c) Y (cz c))) (fun _ => cx c)
     (fun n => y + d * (n - k) + (if n =? 0 then 0 else if n =? 1 then 0 else 0)) (fs_coef q y d) (fs_w q (2 * y / d)) (2 * y - d) d q
     (fun kk Y => index2coordinate g kk = Ok (mkC (cx c) Y (cz c)))) as (row&Er&Hr); [lia| | |].
  - intros n Hn. replace (if n =? 0 then 0 else if n =? 1 then 0 else 0) with 0 by (destruct (n =? 0); [reflexivity|now destruct (n =? 1)]). rewrite Ek. ring.
  - intros n Hn. replace (if n =? 0 then 0 else if n =? 1 then 0 else 0) with 0 by (destruct (n =? 0); [reflexivity|now destruct (n =? 1)]). rewrite Z.add_0_r. intros HY.
    split; [|apply fs_coef_ok; auto; lia].
    assert (B1 : y + d * (n - k) - y <= d * k) by (replace (y + d * (n - k) - y) with (d * (n - k)) by ring; apply Z.mul_le_mono_nonneg_l; lia).
    assert (B2 : y - (y + d * (n - k)) <= d * k) by (replace (y - (y + d * (n - k))) with (d * (k - n)) by ring; apply Z.mul_le_mono_nonneg_l; lia).
    destruct (off_reach k (y + d * (n - k))) as (H1&H2); [rewrite E2; lia|exact HY|exact B1|exact B2|].
    apply (Ycol g itf L j l y Hj Hy Hoff Dy (cx c) (cz c) (distToInterface g y)); auto; [lia|exists (n - k); fold d; ring|lia].
  - exists row. split.
    + unfold calcDybFreeSurfaceVar. rewrite Hc. cbn [bind]. fold y. rewrite (lay_getLayer g itf L j l y Hj Hy Hoff). cbn [bind].
      rewrite (vget_nat _ _ _ Hj). cbn [bind]. fold d.
      rewrite (proj2 off_order). cbn [bind]. rewrite R1. cbn [bind]. rewrite Co. cbn [bind]. rewrite Eq. exact Er.
    + intros f F Hf. eapply off_image; eauto.
Qed.
End OffRows.

(** ** On an interface *)
Lemma stag_row_two NY h lookup X Y coef k0 k1 w0 w1 : 0 <= Y 0 < NY -> 0 <= Y 1 < NY ->
  lookup (X 0) (Y 0) = Ok k0 -> lookup (X 1) (Y 1) = Ok k1 -> coef 0 = Ok w0 -> coef 1 = Ok w1 ->
  stag_row (Z.to_nat 2) NY h lookup X Y coef 0 = Ok [(k0, (w0 / h)%Q); (k1, (w1 / h)%Q)].
Proof.
  intros H0 H1 L0 L1 C0 C1. change (Z.to_nat 2) with 2%nat. cbn [stag_row]. change (0 + 1) with 1.
  replace ((Y 0 >=? 0) && (Y 0 <? NY)) with true by lia. replace ((Y 1 >=? 0) && (Y 1 <? NY)) with true by lia.
  rewrite L0. cbn [bind]. rewrite C0. cbn [bind]. rewrite L1. cbn [bind]. rewrite C1. reflexivity.
Qed.

Lemma stag_two_at NY h lookup X Y coef X0 Y0 X1 Y1 k0 k1 w0 w1 : X 0 = X0 -> Y 0 = Y0 -> X 1 = X1 -> Y 1 = Y1 -> 0 <= Y0 < NY -> 0 <= Y1 < NY ->
  lookup X0 Y0 = Ok k0 -> lookup X1 Y1 = Ok k1 -> coef 0 = Ok w0 -> coef 1 = Ok w1 ->
  stag_row (Z.to_nat 2) NY h lookup X Y coef 0 = Ok [(k0, (w0 / h)%Q); (k1, (w1 / h)%Q)].
Proof. intros <- <- <- <-. apply stag_row_two. Qed.

Section OnRows.
Variables (k : nat) (la lb : layer) (orders : list Z) (useVar : bool) (DH : Q) (p : Z).
Hypothesis Hk : nth_error itf k = Some (cy c).
Hypothesis Ha : nth_error (layers g) k = Some la.
Hypothesis Hb : nth_error (layers g) (S k) = Some lb.
Hypothesis Hp : In p [2; 4; 6; 8; 10; 12].
Hypothesis Ho : configured orders useVar (if ldh la <? ldh lb then S k else k) p.
Let y := cy c.
Let da := ldh la.
Let db := ldh lb.
Let s := Z.max da db.
Let d := Z.min da db.

Lemma on_uniq : forall k', nth_error itf k' = Some (cy c) -> k' = k.
Proof. intros k' H. eapply (proj1 (NoDup_nth_error itf) Nd); [apply nth_error_Some; congruence|congruence]. Qed.

Lemma on_ratio : 1 <= da /\ 1 <= db /\ ((da < db /\ db = 3 * da) \/ (db < da /\ da = 3 * db) \/ da = db).
Proof.
  pose proof (layer_pos g itf L la (nth_error_In _ _ Ha)). pose proof (layer_pos g itf L lb (nth_error_In _ _ Hb)). fold da in H. fold db in H0.
  destruct (Ratio k la lb Ha Hb) as [E|[E|E]]; fold da db in E; lia.
Qed.

Lemma on_rows : (if da <? db then lend la = y /\ lstart lb = y + db else lend la = y - da /\ lstart lb = y) /\
  0 <= lstart la <= lend la /\ 0 <= lstart lb <= lend lb /\ lend lb < gNY g /\ (da | lend la - lstart la) /\ (db | lend lb - lstart lb).
Proof.
  destruct (lay_pair g itf L k la lb Ha Hb) as (i0&E&R). assert (i0 = y) by (unfold y; congruence). subst i0. split; [exact R|].
  destruct (lay_rows g itf L lb (nth_error_In _ _ Hb)) as (RB1&RB2&RB3). destruct (lay_rows g itf L la (nth_error_In _ _ Ha)) as (RA1&RA2&RA3). auto 10.
Qed.

Lemma in_la Y : lstart la <= Y <= lend la -> (da | lend la - Y) -> stored Y da.
Proof.
  intros H D. destruct on_rows as (_&_&_&_&D'&_). exists la. split; [eapply nth_error_In; eauto|]. split; [exact H|]. split; [reflexivity|].
  replace (Y - lstart la) with (lend la - lstart la - (lend la - Y)) by ring. now apply Z.divide_sub_r.
Qed.
Lemma in_lb Y : lstart lb <= Y <= lend lb -> (db | Y - lstart lb) -> stored Y db.
Proof. intros H D. exists lb. split; [eapply nth_error_In; eauto|]. auto. Qed.

Lemma on_stored : stored y d.
Proof.
  destruct on_rows as (R&A&B&_). destruct on_ratio as (P1&P2&_). unfold d. destruct (Z.ltb_spec da db).
  - rewrite Z.min_l by lia. apply in_la; [lia|]. replace (lend la - y) with 0 by lia. apply Z.divide_0_r.
  - rewrite Z.min_r by lia. apply in_lb; [lia|]. replace (y - lstart lb) with 0 by lia. apply Z.divide_0_r.
Qed.

Lemma on_div : (d | along a c) /\ (d | across) /\ 0 <= along a c < extent a g.
Proof.
  destruct on_stored as (l&Hl&HY&El&_). destruct (point_div g itf L i c l Hi Hc Hl HY) as (Dx&_&Dz). destruct (lay_point g itf L i c Hi Hc) as (Px&Py&Pz&_).
  rewrite El in *. unfold along, across, extent. destruct a; auto.
Qed.

(** a row of the lower layer is no interface to a finer layer, one of the upper layer no interface from a finer layer *)
Lemma lb_plain Y : y < Y -> Y <= lend lb -> iface_is g Y (-1) = Ok false.
Proof.
  intros H1 H2. destruct (in_dec Z.eq_dec Y (removelast itf)) as [Hin|Hout]; [|apply iface_not; [lia|exact Hout]].
  destruct (nth_removelast itf Y Hin) as (k'&Hk'&Hlen). rewrite (lay_len g itf L) in Hlen.
  destruct (le_lt_dec k' k) as [Hle|Hlt]. { pose proof (lay_sorted g itf L k' k Y (cy c) Hk' Hk Hle). fold y in H. lia. }
  destruct (nth_error (layers g) (S (S k))) as [lc|] eqn:Ec; [|apply nth_error_None in Ec; lia].
  destruct (lay_pair g itf L (S k) lb lc Hb Ec) as (i1&E1&R). pose proof (lay_sorted g itf L (S k) k' i1 Y E1 Hk' ltac:(lia)).
  destruct on_ratio as (P1&P2&_). unfold db in P2. destruct (Z.ltb_spec (ldh lb) (ldh lc)); [|lia].
  assert (Y = i1) by lia. subst Y. rewrite (iface_at (S k) i1 lb lc (-1) E1 Hb Ec). f_equal. lia.
Qed.
Lemma la_plain Y : lstart la <= Y -> Y < y -> iface_is g Y 1 = Ok false.
Proof.
  intros H1 H2. destruct (in_dec Z.eq_dec Y (removelast itf)) as [Hin|Hout]; [|apply iface_not; [lia|exact Hout]].
  destruct (nth_removelast itf Y Hin) as (k'&Hk'&Hlen). rewrite (lay_len g itf L) in Hlen.
  destruct (le_lt_dec k k') as [Hle|Hlt]. { pose proof (lay_sorted g itf L k k' (cy c) Y Hk Hk' Hle). fold y in H. lia. }
  destruct k as [|k1] eqn:Ek; [lia|]. assert (Hk1 : exists lz, nth_error (layers g) k1 = Some lz).
  { destruct (nth_error (layers g) k1) eqn:E; [eauto|]. apply nth_error_None in E. assert (S k1 < length (layers g))%nat by (apply nth_error_Some; congruence). lia. }
  destruct Hk1 as (lz&Hz).
  destruct (lay_pair g itf L k1 lz la Hz Ha) as (i1&E1&R). pose proof (lay_sorted g itf L k' k1 Y i1 Hk' E1 ltac:(lia)).
  pose proof (layer_pos g itf L la (nth_error_In _ _ Ha)). destruct (Z.ltb_spec (ldh lz) (ldh la)); [lia|].
  assert (Y = i1) by lia. subst Y. rewrite (iface_at k1 i1 lz la 1 E1 Hz Ha). f_equal. lia.
Qed.

Let r := if da <? db then S k else k.
Lemma on_lr : exists lr, nth_error (layers g) r = Some lr /\ ldh lr = s.
Proof. unfold r, s, da, db. destruct (Z.ltb_spec (ldh la) (ldh lb)); [exists lb|exists la]; split; auto; lia. Qed.
Lemma on_orders : order_idx orders useVar (Z.of_nat r) = Ok p /\ order_at orders useVar (Z.of_nat r) = Ok p.
Proof.
  split; [|exact (configured_ok _ _ _ _ Ho)]. unfold order_idx, configured, r, da, db in *. destruct useVar; [now apply vget_nat|]. exact (vget_nat orders 0 p Ho).
Qed.
Lemma on_two : reduce_order true g y (Z.of_nat r) p = Ok 2.
Proof. destruct on_lr as (lr&Hlr&_). exact (on_reduce g itf L i c Hi Hc 0%nat p k la lb Hk on_uniq Ha Hb lr Hlr). Qed.
Lemma on_layer : getLayer g y = Ok (Z.of_nat r).
Proof. exact (iface_layer g itf L k (cy c) la lb Hk on_uniq Ha Hb). Qed.

(** the point is a staggered point of the coarser grid *)
Hypothesis Hco : (s | along a c - d) /\ (s | across).
Hypothesis Hne : da <> db.

Lemma co_room : d <= along a c /\ s = 3 * d /\ (s | along a c - d).
Proof.
  destruct on_ratio as (P1&P2&P3). destruct on_div as (_&_&B). assert (s = 3 * d) by (unfold s, d; lia). split; [|tauto].
  destruct Hco as ((u&Hu)&_). assert (1 <= d) by (unfold d; lia). destruct (Z_lt_le_dec u 0); [exfalso|nia]. assert (u * s <= -1 * s) by nia. lia.
Qed.
End OnRows.

Section OnBoth.
Variables (k : nat) (la lb : layer) (orders : list Z) (useVar : bool) (DH : Q) (p : Z).
Hypothesis Hk : nth_error itf k = Some (cy c).
Hypothesis Ha : nth_error (layers g) k = Some la.
Hypothesis Hb : nth_error (layers g) (S k) = Some lb.
Hypothesis Hp : In p [2; 4; 6; 8; 10; 12].
Hypothesis Ho : configured orders useVar (if ldh la <? ldh lb then S k else k) p.
Let y := cy c.
Let da := ldh la.
Let db := ldh lb.
Let s := Z.max da db.
Let d := Z.min da db.
Hypothesis Hco : da <> db -> (s | along a c - d) /\ (s | across).

Lemma on_dyf : y + db <= lend lb -> exists row, calcDyfStaggered a g orders useVar DH i = Ok row /\
  central_row (2 * y + db) db 2 (DH * inject_Z db) stencil_at (line d) row.
Proof.
  intros Hend. destruct (on_ratio k la lb Ha Hb) as (P1&P2&P3). fold da db in P1, P2, P3.
  destruct (on_rows k la lb Hk Ha Hb) as (R&RA&RB&RN&DA&DB). fold da db y in R, DA, DB.
  destruct (on_div k la lb Hk Ha Hb) as (D1&D2&B). fold da db d in D1, D2.
  pose proof (on_stored k la lb Hk Ha Hb) as S0. fold da db y d in S0.
  destruct (lay_point g itf L i c Hi Hc) as (_&Py&_). fold y in Py.
  destruct (line_col y d (along a c) d S0 B D1 D2 eq_refl) as (k0&E0&K0).
  set (m := if da <? db then d else 0). set (r := if da <? db then S k else k).
  assert (HL : getLayer g y = Ok (Z.of_nat r)) by exact (on_layer k la lb Hk Ha Hb).
  assert (HO : order_idx orders useVar (Z.of_nat r) = Ok p) by exact (proj1 (on_orders k la lb orders useVar p Ho)).
  assert (H2 : reduce_order true g y (Z.of_nat r) p = Ok 2) by exact (on_two k la lb orders useVar p Hk Ha Hb Ho).
  assert (C1 : exists k1, coordinate2index g (moved a c (along a c - m) (y + db)) = Ok k1 /\ line d k1 (y + db)).
  { assert (S1 : stored (y + db) db). { apply (in_lb k lb Hb). { destruct (da <? db); lia. } fold db. destruct (da <? db); destruct R as (_&->); [rewrite Z.sub_diag; apply Z.divide_0_r|exists 1; ring]. }
    unfold m. destruct (Z.ltb_spec da db) as [H|H].
    - destruct (co_room k la lb Hk Ha Hb (Hco ltac:(lia)) ltac:(fold da db; lia)) as (C1&C2&C3). fold da db s d in C1, C2, C3.
      destruct (Hco ltac:(lia)) as (_&C4). assert (db = s) by (unfold s; lia).
      apply (line_col (y + db) db); [exact S1|unfold d in *; lia|congruence|congruence|lia].
    - rewrite Z.sub_0_r. apply (line_col (y + db) db); [exact S1|exact B| | |]; unfold d in *; rewrite Z.min_r in * by lia; auto. }
  destruct C1 as (k1&E1&K1).
  set (h := (DH * inject_Z db)%Q). exists [(k0, (stencil_at 2 0 / h)%Q); (k1, (stencil_at 2 1 / h)%Q)]. split.
  - unfold calcDyfStaggered. rewrite Hc. cbn [bind]. fold y. rewrite HL. cbn [bind]. rewrite HO. cbn [bind]. rewrite H2. cbn [bind].
    rewrite !(iface_at k y la lb _ Hk Ha Hb). cbn [bind]. fold da db.
    assert (V : vget (layers g) (if Z.sgn (db - da) =? -1 then Z.of_nat r + 1 else Z.of_nat r) = Ok (if da =? db then la else lb)).
    { unfold r. destruct (Z.ltb_spec da db); [|destruct (Z.ltb_spec db da)].
      - replace (Z.sgn (db - da) =? -1) with false by lia. replace (da =? db) with false by lia. now apply vget_nat.
      - replace (Z.sgn (db - da) =? -1) with true by lia. replace (da =? db) with false by lia. replace (Z.of_nat k + 1) with (Z.of_nat (S k)) by lia. now apply vget_nat.
      - replace (Z.sgn (db - da) =? -1) with false by lia. replace (da =? db) with true by lia. now apply vget_nat. }
    rewrite V. cbn [bind].
    assert (Ed : ldh (if da =? db then la else lb) = db). { destruct (Z.eqb_spec da db); [fold da; lia|reflexivity]. }
    rewrite Ed. change (Z.quot 2 2) with 1. rewrite (lb_plain k la lb Hk Ha Hb (y + 1 * db)) by (fold y; lia). cbn [bind andb].
    assert (M : (if (Z.sgn (db - da) =? 1) && (along a c >=? Z.quot db 3) then Z.quot db 3 else 0) = m).
    { unfold m. destruct (Z.ltb_spec da db) as [H|H].
      - destruct (co_room k la lb Hk Ha Hb (Hco ltac:(lia)) ltac:(fold da db; lia)) as (C1&C2&C3). fold da db s d in C1, C2, C3.
        assert (Eq : Z.quot db 3 = d) by (apply third; unfold d; lia). rewrite Eq. replace (Z.sgn (db - da) =? 1) with true by lia. replace (along a c >=? d) with true by lia. reflexivity.
      - replace (Z.sgn (db - da) =? 1) with false by lia. reflexivity. }
    rewrite M. fold h.
    apply (stag_two_at _ _ _ _ _ _ (along a c) y (along a c - m) (y + db)); cbn beta; change (0 =? 1) with false; change (1 =? 1) with true; change (0 =? 2 - 1) with false; change (1 =? 2 - 1) with true; cbv iota; auto; try ring; try lia.
  - split; [reflexivity|]. intros n kk v Hn. destruct n as [|[|n]]; [| |destruct n; discriminate]; cbn [nth_error] in Hn.
    + assert (Hn1 : k0 = kk /\ (stencil_at 2 0 / h)%Q = v) by (split; congruence). destruct Hn1 as (<-&<-). exists y. split; [change (Z.of_nat 0) with 0; lia|]. split; [exact K0|reflexivity].
    + assert (Hn1 : k1 = kk /\ (stencil_at 2 1 / h)%Q = v) by (split; congruence). destruct Hn1 as (<-&<-). exists (y + db). split; [change (Z.of_nat 1) with 1; lia|]. split; [exact K1|reflexivity].
Qed.

Lemma on_corrs : stag_corrs g y (Z.of_nat (if da <? db then S k else k)) = Ok (if da <? db then da else 0, if db <? da then db else 0).
Proof.
  destruct (on_ratio k la lb Ha Hb) as (P1&P2&P3). fold da db in P1, P2, P3.
  assert (OT : locatedOnInterface g y = Ok true /\ getTransition g y = Ok (Z.sgn (db - da)) /\ distToInterface g y <= 0) by exact (iface_trans g itf L k y la lb Hk (on_uniq k Hk) Ha Hb).
  destruct OT as (O&T&_).
  unfold stag_corrs, stag_corr. rewrite O. cbn [bind negb]. rewrite T. cbn [bind].
  change (0 =? 0) with true. change (0 =? 1) with false. change (1 =? 0) with false. change (1 =? 1) with true. cbn [andb].
  destruct (Z.ltb_spec da db); [|destruct (Z.ltb_spec db da)].
  - replace (Z.sgn (db - da) =? 1) with true by lia. replace (Z.sgn (db - da) =? -1) with false by lia.
    replace (Z.of_nat (S k) - 1) with (Z.of_nat k) by lia. rewrite (vget_nat _ _ _ Ha). cbn [bind]. replace (db <? da) with false by lia. fold da. do 2 f_equal; lia.
  - replace (Z.sgn (db - da) =? 1) with false by lia. replace (Z.sgn (db - da) =? -1) with true by lia.
    replace (Z.of_nat k + 1) with (Z.of_nat (S k)) by lia. rewrite (vget_nat _ _ _ Hb). cbn [bind]. reflexivity.
  - replace (Z.sgn (db - da) =? 1) with false by lia. replace (Z.sgn (db - da) =? -1) with false by lia. reflexivity.
Qed.

(** the backward rows on an interface, for any coefficients *)
Lemma on_back coef w0 w1 : s <= y -> (da < db -> lstart la <= y - 2 * da /\ ~ In (y - 3 * da) (removelast itf)) -> (db < da -> y + db <= lend lb) ->
  coef 0 = Ok w0 -> coef 1 = Ok w1 ->
  exists m0 k0 k1 Y0 Y1, stag_move a g c 2 s = Ok m0 /\ Y0 < y <= Y1 /\
  2 * Y0 + da = 2 * y - s /\ 2 * Y1 + db = 2 * y + s /\ line d k0 Y0 /\ line d k1 Y1 /\
  stag_row (Z.to_nat 2) (gNY g) (DH * inject_Z s) (fun v Y => coordinate2index g (moved a c v Y))
    (fun j => along a c + (if j =? 0 then m0 else 0))
    (fun j => y + s * (j - Z.quot 2 2) + (if j =? 0 then (if da <? db then da else 0) else if j =? 1 then (if db <? da then db else 0) else 0)) coef 0
  = Ok [(k0, (w0 / (DH * inject_Z s))%Q); (k1, (w1 / (DH * inject_Z s))%Q)].
Proof.
  intros Hys Hfc Hcf W0 W1. destruct (on_ratio k la lb Ha Hb) as (P1&P2&P3). fold da db in P1, P2, P3.
  destruct (on_rows k la lb Hk Ha Hb) as (R&RA&RB&RN&DA&DB). fold da db y in R, DA, DB.
  destruct (on_div k la lb Hk Ha Hb) as (D1&D2&B). fold da db d in D1, D2.
  pose proof (on_stored k la lb Hk Ha Hb) as S0. fold da db y d in S0.
  destruct (lay_point g itf L i c Hi Hc) as (_&Py&_). fold y in Py.
  destruct (line_col y d (along a c) d S0 B D1 D2 eq_refl) as (ky&Ey&Ky).
  assert (IY : forall t, iface_is g y t = Ok (Z.sgn (db - da) =? t)) by (intros t; exact (iface_at k y la lb t Hk Ha Hb)).
  unfold stag_move. change (Z.quot 2 2) with 1. rewrite Z.mul_1_l. fold y. rewrite IY.
  destruct (Z.ltb_spec da db) as [H|H].
  - destruct (Hfc H) as (F1&F2). assert (Es : s = 3 * da) by (unfold s; lia). assert (Ed : d = da) by (unfold d; lia).
    assert (S1 : stored (y - 2 * da) da). { apply (in_la k la lb Hk Ha Hb); [lia|]. fold da. destruct R as (->&_). exists 2. ring. }
    destruct (line_col (y - 2 * da) da (along a c) d S1 B) as (k0&E0&K0); [congruence|congruence|lia|].
    exists 0, k0, ky, (y - 2 * da), y. rewrite (iface_not (y - s) 1) by (try rewrite Es; auto; lia). cbn [bind].
    replace (Z.sgn (db - da) =? -1) with false by lia. cbn [andb]. split; [reflexivity|]. split; [lia|]. split; [lia|]. split; [lia|]. split; [exact K0|]. split; [exact Ky|].
    apply (stag_two_at _ _ _ _ _ _ (along a c) (y - 2 * da) (along a c) y); cbn beta; change (0 =? 0) with true; change (1 =? 0) with false; change (1 =? 1) with true; cbv iota; auto; try lia.
    replace (db <? da) with false by lia. lia.
  - assert (Es : s = da) by (unfold s; lia). assert (Ed : d = db) by (unfold d; lia). destruct R as (R1&R2).
    assert (S1 : stored (y - da) da). { apply (in_la k la lb Hk Ha Hb); [lia|]. fold da. rewrite R1. exists 0. ring. }
    assert (I1 : iface_is g (y - s) 1 = Ok false) by (apply (la_plain k la lb orders useVar p Hk Ha Hb Ho); fold y; lia). rewrite I1. cbn [bind andb].
    destruct (Z.ltb_spec db da) as [H'|H'].
    + destruct (co_room k la lb Hk Ha Hb (Hco ltac:(lia)) ltac:(fold da db; lia)) as (C1&C2&C3). fold da db s d in C1, C2, C3.
      destruct (Hco ltac:(lia)) as (_&C4). specialize (Hcf H').
      assert (S2 : stored (y + db) db). { apply (in_lb k lb Hb); [lia|]. fold db. rewrite R2. exists 1. ring. }
      destruct (line_col (y - da) da (along a c - d) d S1) as (k0&E0&K0); [lia|congruence|congruence|lia|].
      destruct (line_col (y + db) db (along a c) d S2 B) as (k1&E1&K1); [congruence|congruence|lia|].
      exists (- d), k0, k1, (y - da), (y + db). rewrite (third s d C2). replace (Z.sgn (db - da) =? -1) with true by lia. replace (along a c >=? d) with true by lia. cbn [andb].
      split; [reflexivity|]. split; [lia|]. split; [lia|]. split; [lia|]. split; [exact K0|]. split; [exact K1|].
      apply (stag_two_at _ _ _ _ _ _ (along a c - d) (y - da) (along a c) (y + db)); cbn beta; change (0 =? 0) with true; change (1 =? 0) with false; change (1 =? 1) with true; cbv iota; auto; try lia.
    + destruct (line_col (y - da) da (along a c) d S1 B) as (k0&E0&K0); [replace da with d by lia; auto|replace da with d by lia; auto|lia|].
      exists 0, k0, ky, (y - da), y. replace (Z.sgn (db - da) =? -1) with false by lia. cbn [andb].
      split; [reflexivity|]. split; [lia|]. split; [lia|]. split; [lia|]. split; [exact K0|]. split; [exact Ky|].
      apply (stag_two_at _ _ _ _ _ _ (along a c) (y - da) (along a c) y); cbn beta; change (0 =? 0) with true; change (1 =? 0) with false; change (1 =? 1) with true; cbv iota; auto; try lia.
Qed.

(** levels of the staggered points: [S] is twice the depth of the point half a cell below row [Y] *)
Definition level kk (S : Z) : Prop := exists Y h, S = 2 * Y + h /\ line d kk Y /\ ((Y < y /\ h = da) \/ (y <= Y /\ h = db)).

Lemma on_central k0 k1 Y0 Y1 w0 w1 : Y0 < y <= Y1 -> 2 * Y0 + da = 2 * y - s -> 2 * Y1 + db = 2 * y + s -> line d k0 Y0 -> line d k1 Y1 ->
  (w0 == stencil_at 2 0)%Q -> (w1 == stencil_at 2 1)%Q ->
  central_row (4 * y) (2 * s) 2 (DH * inject_Z s) stencil_at level [(k0, (w0 / (DH * inject_Z s))%Q); (k1, (w1 / (DH * inject_Z s))%Q)].
Proof.
  intros HY L0 L1 K0 K1 W0 W1. set (h := (DH * inject_Z s)%Q). split; [reflexivity|]. intros n kk v Hn. destruct n as [|[|n]]; [| |destruct n; discriminate]; cbn [nth_error] in Hn.
  - assert (Hn1 : k0 = kk /\ (w0 / h)%Q = v) by (split; congruence). destruct Hn1 as (<-&<-). exists (2 * Y0 + da). change (Z.of_nat 0) with 0. split; [lia|].
    split; [exists Y0, da; split; [reflexivity|]; split; [exact K0|left; lia]|]. now rewrite W0.
  - assert (Hn1 : k1 = kk /\ (w1 / h)%Q = v) by (split; congruence). destruct Hn1 as (<-&<-). exists (2 * Y1 + db). change (Z.of_nat 1) with 1. split; [lia|].
    split; [exists Y1, db; split; [reflexivity|]; split; [exact K1|right; lia]|]. now rewrite W1.
Qed.

Lemma on_dyb : s <= y -> (da < db -> lstart la <= y - 2 * da /\ ~ In (y - 3 * da) (removelast itf)) -> (db < da -> y + db <= lend lb) ->
  exists row, calcDybStaggered a g orders useVar DH i = Ok row /\ central_row (4 * y) (2 * s) 2 (DH * inject_Z s) stencil_at level row.
Proof.
  intros Hys Hfc Hcf. set (r := if da <? db then S k else k).
  assert (HL : getLayer g y = Ok (Z.of_nat r)) by exact (on_layer k la lb Hk Ha Hb).
  assert (HO : order_idx orders useVar (Z.of_nat r) = Ok p) by exact (proj1 (on_orders k la lb orders useVar p Ho)).
  assert (H2 : reduce_order true g y (Z.of_nat r) p = Ok 2) by exact (on_two k la lb orders useVar p Hk Ha Hb Ho).
  destruct (on_lr k la lb orders useVar p Ha Hb Ho) as (lr&Hlr&Elr). fold da db r s in Hlr, Elr.
  destruct (on_back (fdcoef 2) (stencil_at 2 0) (stencil_at 2 1) Hys Hfc Hcf) as (m0&k0&k1&Y0&Y1&M&HY&L0&L1&K0&K1&E).
  { reflexivity. } { reflexivity. }
  eexists. split; [|apply on_central with (Y0 := Y0) (Y1 := Y1) (k0 := k0) (k1 := k1) (w0 := stencil_at 2 0) (w1 := stencil_at 2 1); auto; reflexivity].
  unfold calcDybStaggered. rewrite Hc. cbn [bind]. fold y. rewrite HL. cbn [bind]. rewrite (vget_nat _ _ _ Hlr). cbn [bind].
  rewrite HO. cbn [bind]. rewrite H2. cbn [bind]. rewrite Elr, M. cbn [bind]. unfold r. rewrite on_corrs. cbn [bind]. exact E.
Qed.

Lemma on_fs : s <= y -> (da < db -> lstart la <= y - 2 * da /\ ~ In (y - 3 * da) (removelast itf)) -> (db < da -> y + db <= lend lb) ->
  exists row, calcDybStaggeredFreeSurface a g orders useVar true DH i = Ok row /\ central_row (4 * y) (2 * s) 2 (DH * inject_Z s) stencil_at level row.
Proof.
  intros Hys Hfc Hcf. set (r := if da <? db then S k else k).
  destruct (on_ratio k la lb Ha Hb) as (P1&P2&P3). fold da db in P1, P2, P3.
  assert (HL : getLayer g y = Ok (Z.of_nat r)) by exact (on_layer k la lb Hk Ha Hb).
  assert (HO : order_at orders useVar (Z.of_nat r) = Ok p) by exact (proj2 (on_orders k la lb orders useVar p Ho)).
  assert (H2 : reduce_order true g y (Z.of_nat r) p = Ok 2) by exact (on_two k la lb orders useVar p Hk Ha Hb Ho).
  destruct (on_lr k la lb orders useVar p Ha Hb Ho) as (lr&Hlr&Elr). fold da db r s in Hlr, Elr.
  assert (Ps : 1 <= s) by (unfold s; lia). assert (Q2 : 2 <= 2 * y / s) by (apply Z.div_le_lower_bound; lia).
  destruct (on_back (fs_coef 2 y s) (fs_w 2 (2 * y / s) 0) (fs_w 2 (2 * y / s) 1) Hys Hfc Hcf) as (m0&k0&k1&Y0&Y1&M&HY&L0&L1&K0&K1&E).
  { apply fs_coef_ok; simpl; auto; lia. } { apply fs_coef_ok; simpl; auto; lia. }
  eexists. split; [|apply on_central with (Y0 := Y0) (Y1 := Y1) (k0 := k0) (k1 := k1) (w0 := fs_w 2 (2 * y / s) 0) (w1 := fs_w 2 (2 * y / s) 1); auto].
  - unfold calcDybStaggeredFreeSurface. rewrite Hc. cbn [bind]. fold y. rewrite HL. cbn [bind]. rewrite (vget_nat _ _ _ Hlr). cbn [bind].
    rewrite HO. cbn [bind]. rewrite H2. cbn [bind]. rewrite Elr, M. cbn [bind]. unfold r. rewrite on_corrs. cbn [bind]. exact E.
  - rewrite fs_w_eq by lia. rewrite (stencil_at_out 2 (2 - 1 - 2 * y / s - 0)) by lia. ring.
  - rewrite fs_w_eq by lia. rewrite (stencil_at_out 2 (2 - 1 - 2 * y / s - 1)) by lia. ring.
Qed.
End OnBoth.
End Layered.

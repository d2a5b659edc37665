(** Lemmas for the graph of the partitioners. *)
From Verif Require Import Base M_Grid M_Deriv S_Deriv L_Fd L_Fd2 L_Deriv L_Deriv2 M_Graph S_Graph.
From Coq Require Import Lqa.
Open Scope Z_scope.

Lemma mentry_entry row k : (mentry row k == entry row k)%Q.
Proof.
  unfold entry, qsum. induction row as [|e r IH]; [reflexivity|]. cbn [mentry fold_right map]. fold (mentry r k).
  destruct (fst e =? k); rewrite IH; [reflexivity|]. ring.
Qed.
Lemma mentry_app a b k : (mentry (a ++ b) k == mentry a k + mentry b k)%Q.
Proof.
  induction a as [|e r IH]; [change (mentry b k == 0 + mentry b k)%Q; ring|]. cbn [mentry fold_right app]. fold (mentry (r ++ b) k) (mentry r k).
  destruct (fst e =? k); rewrite IH; ring.
Qed.
Lemma mentry_none row k : ~ In k (map fst row) -> (mentry row k == 0)%Q.
Proof.
  induction row as [|e r IH]; [reflexivity|]. cbn [mentry fold_right map In]. fold (mentry r k). intros H.
  destruct (Z.eqb_spec (fst e) k) as [E|E]; [exfalso; tauto|]. apply IH. tauto.
Qed.

(** The coefficient of the larger point's row never equals that of the smaller point's row. *)
Definition kchk (k1 k2 m : Z) : bool :=
  (negb ((m <=? k1) || (m + 1 <=? k2)) || negb (Qeq_bool (stencil_at (2 * k1) (k1 - m)) (stencil_at (2 * k2) (k2 + m)))) &&
  (negb ((m <=? k1) || (m =? 1)) || negb (Qeq_bool (stencil_at (2 * k1) (k1 - m)) (stencil_at 2 m))).
Lemma kchk_all : forallb (fun k1 => forallb (fun k2 => forallb (kchk k1 k2) (zseq 1 7)) (zseq 1 6)) (zseq 1 6) = true.
Proof. vm_compute. reflexivity. Qed.
Lemma in_zseq_iff n : forall a x, In x (zseq a n) <-> a <= x < a + Z.of_nat n.
Proof. induction n as [|n IH]; intros a x; cbn [zseq In]; [lia|]. rewrite IH. lia. Qed.
Lemma kchk_ok k1 k2 m : 1 <= k1 <= 6 -> 1 <= k2 <= 6 -> 1 <= m ->
  (m <= k1 \/ m + 1 <= k2 -> ~ (stencil_at (2 * k1) (k1 - m) == stencil_at (2 * k2) (k2 + m))%Q) /\
  (m <= k1 \/ m = 1 -> ~ (stencil_at (2 * k1) (k1 - m) == stencil_at 2 m)%Q).
Proof.
  intros H1 H2 H3. destruct (Z_le_gt_dec m 7) as [L|L]; [|split; lia].
  pose proof kchk_all as E. rewrite forallb_forall in E. specialize (E k1 ltac:(apply in_zseq_iff; lia)).
  rewrite forallb_forall in E. specialize (E k2 ltac:(apply in_zseq_iff; lia)).
  rewrite forallb_forall in E. specialize (E m ltac:(apply in_zseq_iff; lia)). unfold kchk in E.
  apply andb_prop in E. destruct E as [E F]. split; intros H Q; apply Qeq_bool_iff in Q.
  - rewrite Q in E. lia.
  - rewrite Q in F. lia.
Qed.

(** One line of points. *)
Section Line.
Variables (N p : Z) (h : Q) (colf : Z -> Z) (a b : Z) (ra rb : list (Z * Q)).
Hypothesis Hp : In p [2; 4; 6; 8; 10; 12].
Hypothesis Hh : ~ (h == 0)%Q.
Hypothesis Hinj : forall X X', 0 <= X < N -> 0 <= X' < N -> colf X = colf X' -> X = X'.
Hypothesis Ha : 0 <= a.
Hypothesis Hab : a < b.
Hypothesis Hb : b < N.
Hypothesis Ra : backward_row N h colf stencil_at p a ra.
Hypothesis Rb : backward_row N h colf stencil_at p b rb.

Lemma in_row q x0 row X : is_row N h colf stencil_at q x0 row -> 0 <= q -> 0 <= X < N ->
  (In (colf X) (map fst row) <-> x0 <= X < x0 + q).
Proof using Hinj.
  clear - Hinj. intros (H1&H2&->&_) Hq HX. rewrite map_map. cbn [fst]. rewrite in_map_iff. split.
  - intros (j & E & Hj). apply in_zseq_iff in Hj. apply Hinj in E; lia.
  - intros H. exists (X - x0). split; [f_equal; lia|]. apply in_zseq_iff. lia.
Qed.

Lemma line_edge : (~ (mentry rb (colf a) - mentry ra (colf b) == 0)%Q <-> neighbours p N a b) /\
  (neighbours p N a b <-> In (colf a) (map fst rb) \/ In (colf b) (map fst ra)).
Proof using All.
  destruct Ra as (ka & xa & A1 & A2 & A3 & A4 & A5). destruct Rb as (kb & xb & B1 & B2 & B3 & B4 & B5).
  assert (P : exists P, p = 2 * P /\ 1 <= P <= 6) by (simpl in Hp; destruct Hp as [E|[E|[E|[E|[E|[E|[]]]]]]]; subst p; [exists 1|exists 2|exists 3|exists 4|exists 5|exists 6]; lia).
  destruct P as (P & EP & HP).
  destruct (B4 ltac:(lia)) as [-> B7]. clear B4 B5.
  assert (KB : b - kb >= 0 /\ b + kb <= N) by (destruct B3 as (Q1 & Q2 & _); lia).
  rewrite !mentry_entry, (entry_is_row _ _ _ _ _ _ a B3), (entry_is_row _ _ _ _ _ _ b A3) by (auto; lia).
  rewrite (in_row _ _ _ a B3), (in_row _ _ _ b A3) by lia.
  assert (D : forall u v, (u / h - v / h == 0)%Q <-> (u == v)%Q).
  { intros u v. split; intros E.
    - assert (E' : (u == (u / h - v / h) * h + v)%Q) by (field; assumption). rewrite E in E'. rewrite E'. ring.
    - rewrite E. ring. }
  rewrite D. set (m := b - a). replace (a - (b - kb)) with (kb - m) by lia.
  assert (NB : neighbours p N a b <-> (m <= kb \/ (0 < a /\ m + 1 <= ka) \/ (a = 0 /\ m = 1))).
  { unfold neighbours. cbn zeta. replace (Z.abs (a - b)) with m by lia. rewrite Z.min_l by lia. split.
    - intros (_ & [(Q1 & Q2)|(Q1 & Q2 & Q3)]).
      + left. apply B7; lia.
      + right. left. split; [lia|]. destruct (A4 ltac:(lia)) as [_ A7]. apply A7; lia.
    - intros [Q|[(Q0 & Q)|(Q0 & Q)]]; (split; [lia|]).
      + left. lia.
      + right. destruct (A4 Q0) as [-> A7]. destruct A3 as (T1 & T2 & _). lia.
      + left. lia. }
  rewrite NB. destruct (Z.eq_dec a 0) as [Z0|NZ].
  - destruct (A5 Z0) as [-> ->]. destruct (kchk_ok kb 1 m ltac:(lia) ltac:(lia) ltac:(lia)) as [_ K].
    replace (b - 0) with m by lia. change (2 * 1) with 2. split; [|lia]. split; [|intros Q; apply K; lia].
    intros Q. destruct (Z_le_gt_dec m kb); [lia|]. destruct (Z.eq_dec m 1); [lia|]. exfalso. apply Q.
    unfold stencil_at. replace ((0 <=? kb - m) && (kb - m <? 2 * kb))%bool with false by lia.
    replace ((0 <=? m) && (m <? 2))%bool with false by lia. reflexivity.
  - destruct (A4 ltac:(lia)) as [-> A7]. destruct (kchk_ok kb ka m ltac:(lia) ltac:(lia) ltac:(lia)) as [K _].
    replace (b - (a - ka)) with (ka + m) by lia. split; [|lia]. split; [|intros Q; apply K; lia].
    intros Q. destruct (Z_le_gt_dec m kb); [lia|]. destruct (Z_le_gt_dec (m + 1) ka); [lia|]. exfalso. apply Q.
    unfold stencil_at. replace ((0 <=? kb - m) && (kb - m <? 2 * kb))%bool with false by lia.
    replace ((0 <=? ka + m) && (ka + m <? 2 * ka))%bool with false by lia. reflexivity.
Qed.
End Line.

Lemma reg_inj nx nz x y z x' y' z' : 0 <= x < nx -> 0 <= x' < nx -> 0 <= z < nz -> 0 <= z' < nz ->
  reg_index nx nz x y z = reg_index nx nz x' y' z' -> x = x' /\ y = y' /\ z = z'.
Proof.
  unfold reg_index. intros H1 H2 H3 H4 E.
  assert (E' : (z + y * nz) * nx + x = (z' + y' * nz) * nx + x') by nia.
  assert (z + y * nz = z' + y' * nz) by nia. assert (y = y') by nia. subst y'. nia.
Qed.

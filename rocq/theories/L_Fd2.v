(** Consistency, adjointness, coarse layers, image method. *)
From Coq Require Import Qabs Lqa.
From Verif Require Import Base M_Grid L_Grid M_Deriv S_Deriv L_Deriv L_Deriv2 L_Fd.
Open Scope Q_scope.

Lemma apply_row_map {A} (l : list A) (c : A -> Z) (v : A -> Q) f :
  apply_row (map (fun a => (c a, v a)) l) f = qsum (map (fun a => v a * f (c a)) l).
Proof. unfold apply_row. rewrite map_map. reflexivity. Qed.
Lemma apply_row_app a b f : apply_row (a ++ b) f == apply_row a f + apply_row b f.
Proof. unfold apply_row. rewrite map_app. induction (map _ a) as [|u l IH]; simpl; [lra|]. rewrite IH. lra. Qed.

(** ** Linear fields *)
Lemma is_row_linear N h colf q x0 row f a b : supported q -> ~ h == 0 -> is_row N h colf stencil_at q x0 row ->
  (forall X, (0 <= X < N)%Z -> f (colf X) == a + b * (inject_Z X * h)) ->
  apply_row row f == b * qs 0 (Z.to_nat q) (fun j => stencil_at q j * inject_Z j).
Proof.
  intros Hq Hh (H1&H2&->&_) Hf. rewrite apply_row_map. change (qsum (map ?F (zseq 0 ?n))) with (qs 0 n F).
  transitivity (qs 0 (Z.to_nat q) (fun j => (a / h + b * inject_Z x0) * stencil_at q j + b * (stencil_at q j * inject_Z j))).
  - apply qs_ext. intros k Hk. rewrite Hf by lia. rewrite inject_Z_plus. field. assumption.
  - rewrite qs_plus, !qs_scal, moment0 by assumption. ring.
Qed.

Lemma fwd_supported N h colf p x row : supported p -> forward_row N h colf stencil_at p x row ->
  exists q x0, supported q /\ (q <= p)%Z /\ is_row N h colf stencil_at q x0 row.
Proof.
  intros Hp (k&x0&H1&H2&H3&_). destruct (supported_even p Hp) as (k'&->&Hk'). exists (2 * k)%Z, x0. split; [apply even_supported; lia|]. split; [lia|exact H3].
Qed.
Lemma bwd_supported N h colf p x row : supported p -> backward_row N h colf stencil_at p x row ->
  exists q x0, supported q /\ (q <= p)%Z /\ is_row N h colf stencil_at q x0 row.
Proof.
  intros Hp (k&x0&H1&H2&H3&_). destruct (supported_even p Hp) as (k'&->&Hk'). exists (2 * k)%Z, x0. split; [apply even_supported; lia|]. split; [lia|exact H3].
Qed.
Lemma le8_exact p q : exact_order p -> supported q -> (q <= p)%Z -> exact_order q.
Proof. unfold exact_order, supported; simpl. lia. Qed.

Definition eps1 : Q := 3 # 10000000000000000.
Definition consistent_row (N : Z) (h : Q) (colf : Z -> Z) (p : Z) (row : list (Z * Q)) : Prop :=
  forall f a b, (forall X, (0 <= X < N)%Z -> f (colf X) == a + b * (inject_Z X * h)) ->
   (b == 0 -> apply_row row f == 0) /\ (exact_order p -> apply_row row f == b) /\ Qabs (apply_row row f - b) <= eps1 * Qabs b.

Lemma row_consistent N h colf p row : ~ h == 0 ->
  (exists q x0, supported q /\ (q <= p)%Z /\ is_row N h colf stencil_at q x0 row) -> consistent_row N h colf p row.
Proof.
  intros Hh (q&x0&Hq&Hle&Hr) f a b Hf. rewrite (is_row_linear _ _ _ _ _ _ _ _ _ Hq Hh Hr Hf). repeat split.
  - intros ->. ring.
  - intros He. rewrite (moment1_exact q (le8_exact _ _ He Hq Hle)). ring.
  - setoid_replace (b * qs 0 (Z.to_nat q) (fun j => stencil_at q j * inject_Z j) - b) with
      ((qs 0 (Z.to_nat q) (fun j => stencil_at q j * inject_Z j) - 1) * b) by ring.
    rewrite Qabs_Qmult. apply Qmult_le_compat_r; [apply moment1_near; assumption|apply Qabs_nonneg].
Qed.

(** ** Adjointness *)
Lemma Db_explicit p N h i k : supported p ->
  Db_stencil p N h i k == if (on_line N i && on_line N k)%bool then stencil_at p (k - i + p / 2) / h else 0.
Proof.
  intros Hp. unfold Db_stencil, Df_stencil. rewrite andb_comm. destruct (on_line N i && on_line N k)%bool; [|lra].
  destruct (supported_even p Hp) as (m&->&Hm). rewrite quot2.
  replace (i - k + m - 1)%Z with (2 * m - 1 - (k - i + m))%Z by lia. rewrite stencil_antisym by assumption.
  replace (2 * m / 2)%Z with m by (rewrite Z.mul_comm, Z.div_mul; lia). unfold Qdiv. ring.
Qed.

Lemma summation_by_parts p N n h u v : 
  qs 0 n (fun i => u i * qs 0 n (fun k => Df_stencil p N h i k * v k)) ==
  - qs 0 n (fun k => v k * qs 0 n (fun i => Db_stencil p N h k i * u i)).
Proof.
  transitivity (qs 0 n (fun i => qs 0 n (fun k => u i * Df_stencil p N h i k * v k))).
  { apply qs_ext. intros i _. rewrite <- qs_scal. apply qs_ext. intros. ring. }
  rewrite qs_swap. rewrite <- qs_opp. apply qs_ext. intros k _.
  setoid_replace (- (v k * qs 0 n (fun i => Db_stencil p N h k i * u i))) with (- v k * qs 0 n (fun i => Db_stencil p N h k i * u i)) by ring.
  rewrite <- qs_scal. apply qs_ext. intros i _. unfold Db_stencil. ring.
Qed.

Lemma qs_support G n m s a : (a <= s)%Z -> (s + Z.of_nat n <= a + Z.of_nat m)%Z ->
  (forall k, (a <= k < a + Z.of_nat m)%Z -> ~ (s <= k < s + Z.of_nat n)%Z -> G k == 0) -> qs a m G == qs s n G.
Proof.
  intros H1 H2 H3. replace m with (Z.to_nat (s - a) + (n + (m - n - Z.to_nat (s - a))))%nat by lia.
  rewrite qs_split, qs_split. replace (a + Z.of_nat (Z.to_nat (s - a)))%Z with s by lia.
  rewrite (qs_zero (Z.to_nat (s - a))). 2:{ intros k Hk. apply H3; lia. }
  rewrite (qs_zero (m - n - Z.to_nat (s - a))). 2:{ intros k Hk. apply H3; lia. } ring.
Qed.

Lemma entry_is_row N h colf q x0 row X : is_row N h colf stencil_at q x0 row -> (0 <= X < N)%Z -> (0 <= q)%Z ->
  (forall X X', (0 <= X < N)%Z -> (0 <= X' < N)%Z -> colf X = colf X' -> X = X') ->
  entry row (colf X) == stencil_at q (X - x0) / h.
Proof.
  intros (H1&H2&->&_) HX Hq Hinj. unfold entry. rewrite map_map. cbn [fst snd].
  change (qsum (map ?F (zseq 0 ?n))) with (qs 0 n F).
  destruct (Z_lt_le_dec (X - x0) 0) as [Hl|Hl]; [|destruct (Z_lt_le_dec (X - x0) q) as [Hr|Hr]].
  - rewrite qs_zero. { unfold stencil_at. replace ((0 <=? X - x0) && (X - x0 <? q))%bool with false by lia. unfold Qdiv; ring. }
    intros k Hk. destruct (Z.eqb_spec (colf (x0 + k)%Z) (colf X)) as [E|E]; [|reflexivity]. apply Hinj in E; lia.
  - etransitivity; [apply (qs_support _ 1 _ (X - x0)%Z 0); try lia; intros k Hk Hn; destruct (Z.eqb_spec (colf (x0 + k)%Z) (colf X)) as [E|E]; [apply Hinj in E; lia|reflexivity]|].
    rewrite (qs_S _ 0), qs_0. replace (x0 + (X - x0))%Z with X by lia. rewrite Z.eqb_refl. ring.
  - rewrite qs_zero. { unfold stencil_at. replace ((0 <=? X - x0) && (X - x0 <? q))%bool with false by lia. unfold Qdiv; ring. }
    intros k Hk. destruct (Z.eqb_spec (colf (x0 + k)%Z) (colf X)) as [E|E]; [|reflexivity]. apply Hinj in E; lia.
Qed.

(** interior sparse rows are the rows of the stencil matrices *)
Lemma fwd_row_interior N h colf p x row X : supported p -> forward_row N h colf stencil_at p x row ->
  (forall X X', (0 <= X < N)%Z -> (0 <= X' < N)%Z -> colf X = colf X' -> X = X') ->
  (p / 2 - 1 <= x < N - p / 2)%Z -> (0 <= X < N)%Z -> entry row (colf X) == Df_stencil p N h x X.
Proof.
  intros Hp (k&x0&H1&H2&H3&H4&H5) Hinj Hx HX. destruct (supported_even p Hp) as (m&->&Hm).
  replace (2 * m / 2)%Z with m in Hx by (rewrite Z.mul_comm, Z.div_mul; lia).
  destruct (H4 ltac:(lia)) as [-> H7]. specialize (H7 m ltac:(lia) ltac:(lia) ltac:(lia)). assert (k = m) by lia. subst k.
  rewrite (entry_is_row _ _ _ _ _ _ _ H3) by (auto; lia). unfold Df_stencil, on_line.
  replace ((0 <=? x) && (x <? N) && ((0 <=? X) && (X <? N)))%bool with true by lia. rewrite quot2.
  replace (X - (x - m + 1))%Z with (X - x + m - 1)%Z by lia. reflexivity.
Qed.
Lemma bwd_row_interior N h colf p x row X : supported p -> backward_row N h colf stencil_at p x row ->
  (forall X X', (0 <= X < N)%Z -> (0 <= X' < N)%Z -> colf X = colf X' -> X = X') ->
  (p / 2 <= x <= N - p / 2)%Z -> (0 <= X < N)%Z -> (x < N)%Z -> entry row (colf X) == Db_stencil p N h x X.
Proof.
  intros Hp (k&x0&H1&H2&H3&H4&H5) Hinj Hx HX HxN. rewrite Db_explicit by assumption. destruct (supported_even p Hp) as (m&->&Hm).
  replace (2 * m / 2)%Z with m in * by (rewrite Z.mul_comm, Z.div_mul; lia).
  destruct (H4 ltac:(lia)) as [-> H7]. specialize (H7 m ltac:(lia) ltac:(lia) ltac:(lia)). assert (k = m) by lia. subst k.
  rewrite (entry_is_row _ _ _ _ _ _ _ H3) by (auto; lia). unfold on_line.
  replace ((0 <=? x) && (x <? N) && ((0 <=? X) && (X <? N)))%bool with true by lia.
  replace (X - (x - m))%Z with (X - x + m)%Z by lia. reflexivity.
Qed.

(** the corner entries of the sparse matrices *)
Lemma fwd_corner N h colf p row : (2 <= N)%Z -> supported p -> forward_row N h colf stencil_at p 0 row ->
  (forall X X', (0 <= X < N)%Z -> (0 <= X' < N)%Z -> colf X = colf X' -> X = X') -> entry row (colf 0%Z) == - (1) / h.
Proof.
  intros HN Hp (k&x0&H1&H2&H3&H4&H5) Hinj. destruct (H4 ltac:(lia)) as [-> _]. pose proof H3 as (H6&H7&_).
  assert (k = 1%Z) by lia. subst k. rewrite (entry_is_row _ _ _ _ _ _ _ H3) by (auto; lia). reflexivity.
Qed.
Lemma bwd_corner N h colf p row : (2 <= N)%Z -> supported p -> backward_row N h colf stencil_at p 0 row ->
  (forall X X', (0 <= X < N)%Z -> (0 <= X' < N)%Z -> colf X = colf X' -> X = X') -> entry row (colf 0%Z) == - (1) / h.
Proof.
  intros HN Hp (k&x0&H1&H2&H3&H4&H5) Hinj. destruct (H5 eq_refl) as [-> ->].
  rewrite (entry_is_row _ _ _ _ _ _ _ H3) by (auto; lia). reflexivity.
Qed.

(** ** Coarse layers *)
Lemma row_fwd_empty fuel dh sh N h col p : (3 <= dh)%Z -> (sh <= 0)%Z -> supported p -> (4 <= p)%Z -> (2 <= fuel)%nat ->
  row_fwd fuel dh sh N h col 0 p 0 [] = Ok [].
Proof.
  intros Hd Hs Hp H4 Hf. destruct (supported_even p Hp) as (k&->&Hk). destruct fuel as [|[|f]]; [lia|lia|].
  assert (E : (sh + dh * (- k + 1) <= - (3 * (k - 1)))%Z).
  { assert (3 * (k - 1) <= dh * (k - 1))%Z by (apply Z.mul_le_mono_nonneg_r; lia). lia. }
  cbn [row_fwd]. replace (0 <? 2 * k)%Z with true by lia. cbn [negb]. rewrite quot2n.
  replace (0 + sh + dh * (- k + 1) <? 0)%Z with true by lia.
  replace (0 <? 2 * k + 2 * (0 + sh + dh * (- k + 1)))%Z with false by lia. reflexivity.
Qed.

Lemma coarse_empty fuel g orders useVar DH idx c layer l p b : (2 <= fuel)%nat ->
  index2coordinate g idx = Ok c -> cx c = 0%Z -> getLayer g (cy c) = Ok layer -> vget (layers g) layer = Ok l -> (3 <= ldh l)%Z ->
  order_at orders useVar layer = Ok p -> supported p -> (4 <= p)%Z -> locatedOnInterface g (cy c) = Ok b ->
  calcDxf fuel g orders useVar DH idx = Ok [].
Proof.
  intros Hf E1 E2 E3 E4 Hd E5 Hp H4 E6. unfold calcDxf. rewrite E1. cbn [bind]. rewrite E3. cbn [bind]. rewrite E4. cbn [bind].
  rewrite E5. cbn [bind]. rewrite E6. cbn [bind]. rewrite E2. apply row_fwd_empty; auto.
  destruct b; [|lia]. pose proof (Z.quot_pos (ldh l) 3 ltac:(lia) ltac:(lia)). lia.
Qed.

(** ** Image method *)
Lemma reindex (s g : Z -> Q) K n : (K < Z.of_nat n)%Z -> (forall i, ~ (0 <= i < Z.of_nat n)%Z -> s i == 0) ->
  (forall i, (0 <= i < Z.of_nat n)%Z -> (K - i < 0)%Z -> g (K - i)%Z == 0) ->
  qs 0 n (fun j => s (K - j)%Z * g j) == qs 0 n (fun i => s i * g (K - i)%Z).
Proof.
  intros HK Hs Hg. set (g' j := if ((0 <=? j) && (j <? Z.of_nat n))%bool then g j else 0).
  set (A := (Z.of_nat n + Z.abs K)%Z). set (m := Z.to_nat (K + 2 * A + 1)).
  assert (E1 : qs 0 n (fun j => s (K - j)%Z * g j) == qs (- A) m (fun j => s (K - j)%Z * g' j)).
  { symmetry. etransitivity; [apply (qs_support _ n m 0 (- A)); try (unfold m, A; lia); intros k Hk Hn; unfold g';
      replace ((0 <=? k) && (k <? Z.of_nat n))%bool with false by lia; ring|].
    apply qs_ext. intros k Hk. unfold g'. replace ((0 <=? k) && (k <? Z.of_nat n))%bool with true by lia. reflexivity. }
  assert (E2 : qs 0 n (fun i => s i * g (K - i)%Z) == qs (- A) m (fun j => s j * g' (K - j)%Z)).
  { symmetry. etransitivity; [apply (qs_support _ n m 0 (- A)); try (unfold m, A; lia); intros k Hk Hn; rewrite Hs by lia; ring|].
    apply qs_ext. intros k Hk. unfold g'. destruct (Z_lt_le_dec (K - k) 0).
    - replace ((0 <=? K - k) && (K - k <? Z.of_nat n))%bool with false by lia. rewrite (Hg k) by lia. reflexivity.
    - replace ((0 <=? K - k) && (K - k <? Z.of_nat n))%bool with true by lia. reflexivity. }
  rewrite E1, E2. rewrite <- (qs_rev m (- A) (fun j => s j * g' (K - j)%Z)). apply qs_ext. intros k Hk.
  replace (2 * - A + Z.of_nat m - 1 - k)%Z with (K - k)%Z by (unfold m, A; lia). replace (K - (K - k))%Z with k by lia. reflexivity.
Qed.

Lemma stencil_at_out p i : ~ (0 <= i < p)%Z -> stencil_at p i == 0.
Proof. intros H. unfold stencil_at. replace ((0 <=? i) && (i <? p))%bool with false by lia. reflexivity. Qed.

(** the image term *)
Lemma fs_image NY h base o y k f : (1 <= k)%Z -> (0 <= y)%Z -> (base = 2 /\ o = 1 \/ base = 1 /\ o = 0)%Z ->
  qs 0 (Z.to_nat (2 * k)) (fun j => stencil_at (2 * k) (2 * k - base - 2 * y - j) / h * restrict NY f (y + j - k + o)) ==
  qs 0 (Z.to_nat (2 * k)) (fun j => stencil_at (2 * k) j / h * restrict NY f (o - 1 - (y + j - k + o))).
Proof.
  intros Hk Hy Hb. rewrite (reindex (fun i => stencil_at (2 * k) i / h) (fun j => restrict NY f (y + j - k + o))%Z (2 * k - base - 2 * y)%Z).
  - apply qs_ext. intros i Hi. replace (y + (2 * k - base - 2 * y - i) - k + o)%Z with (o - 1 - (y + i - k + o))%Z by lia. reflexivity.
  - lia.
  - intros i Hi. rewrite stencil_at_out by lia. unfold Qdiv. ring.
  - intros i Hi Hn. unfold restrict. replace ((0 <=? _) && _)%bool with false by lia. reflexivity.
Qed.

Lemma stencil_row_sum NY h p t f : (0 <= p)%Z -> 
  qs 0 (Z.to_nat NY) (fun Y => stencil_at p (Y - t) / h * f Y) == qs 0 (Z.to_nat p) (fun j => stencil_at p j / h * restrict NY f (j + t)).
Proof.
  intros Hp. set (A := (Z.abs t + Z.abs NY + p)%Z). set (m := Z.to_nat (3 * A + 3)).
  rewrite <- (qs_support (fun j => stencil_at p j / h * restrict NY f (j + t)) (Z.to_nat p) m 0 (- A - t)).
  2,3: unfold m, A; lia. 2:{ intros k Hk Hn. rewrite stencil_at_out by lia. unfold Qdiv. ring. }
  transitivity (qs (- A) m (fun Y => stencil_at p (Y - t) / h * restrict NY f Y)).
  - symmetry. etransitivity; [apply (qs_support _ (Z.to_nat NY) m 0 (- A)); try (unfold m, A; lia); intros k Hk Hn; unfold restrict;
      replace ((0 <=? k) && (k <? NY))%bool with false by lia; unfold Qdiv; ring|].
    apply qs_ext. intros k Hk. unfold restrict. replace ((0 <=? k) && (k <? NY))%bool with true by lia. reflexivity.
  - replace (- A)%Z with (- A - t + t)%Z at 1 by lia. rewrite <- qs_shift. apply qs_ext. intros k Hk.
    replace (k + t - t)%Z with k by lia. reflexivity.
Qed.
Section FS0.
Variables (NY : Z) (h : Q) (colf : Z -> Z).
Definition fs_entry (base o : Z) (hybrid : bool) (y k j : Z) : list (Z * Q) :=
  let Y := (y + 1 * (j - k + o))%Z in let d := stencil_at (2 * k) (2 * k - base - 2 * y - j) in
  if ((0 <=? Y) && (Y <? NY))%bool then
    if negb hybrid then [(colf Y, (stencil_at (2 * k) j - d) / h)] else if Qeq_bool d 0 then [] else [(colf Y, - d / h)]
  else [].

Definition F (f : Z -> Q) (Y : Z) : Q := f (colf Y).
Lemma fs_apply_full base o y k f n : forall j,
  apply_row (flat_map (fs_entry base o false y k) (zseq j n)) f ==
  qs j n (fun j => (stencil_at (2 * k) j - stencil_at (2 * k) (2 * k - base - 2 * y - j)) / h * restrict NY (F f) (y + j - k + o)).
Proof.
  induction n as [|n IH]; intros j; [reflexivity|]. cbn [zseq flat_map]. rewrite apply_row_app, IH, qs_S.
  apply Qplus_comp; [|reflexivity]. unfold fs_entry, restrict, F. cbn [negb].
  replace (y + 1 * (j - k + o))%Z with (y + j - k + o)%Z by lia.
  destruct ((0 <=? y + j - k + o) && (y + j - k + o <? NY))%bool; unfold apply_row; cbn [map qsum fold_right fst snd]; ring.
Qed.
Lemma fs_apply_hyb base o y k f n : forall j,
  apply_row (flat_map (fs_entry base o true y k) (zseq j n)) f ==
  qs j n (fun j => - stencil_at (2 * k) (2 * k - base - 2 * y - j) / h * restrict NY (F f) (y + j - k + o)).
Proof.
  induction n as [|n IH]; intros j; [reflexivity|]. cbn [zseq flat_map]. rewrite apply_row_app, IH, qs_S.
  apply Qplus_comp; [|reflexivity]. unfold fs_entry, restrict, F. cbn [negb].
  replace (y + 1 * (j - k + o))%Z with (y + j - k + o)%Z by lia.
  destruct ((0 <=? y + j - k + o) && (y + j - k + o <? NY))%bool; [|unfold apply_row; cbn [map qsum fold_right]; ring].
  destruct (Qeq_bool _ 0) eqn:E; unfold apply_row; cbn [map qsum fold_right fst snd]; [|ring].
  apply Qeq_bool_iff in E. rewrite E. unfold Qdiv. ring.
Qed.

End FS0.

Section FS.
Variables (NY : Z) (h : Q) (col : Z -> res Z) (colf : Z -> Z).
Hypothesis Hcol : forall Y, (0 <= Y < NY)%Z -> col Y = Ok (colf Y).
Notation fs_entry := (fs_entry NY h colf).
Lemma row_fs_spec base o hybrid y k : (1 <= base)%Z -> (0 <= y)%Z -> (1 <= k <= 6)%Z -> forall n j, (0 <= j)%Z -> (j + Z.of_nat n = 2 * k)%Z ->
  row_fs n base o hybrid 1 NY h col y (2 * k) j = Ok (flat_map (fs_entry base o hybrid y k) (zseq j n)).
Proof.
  intros Hb Hy Hk. induction n as [|n IH]; intros j Hj Hn; [reflexivity|]. cbn [row_fs zseq flat_map].
  rewrite fdcoef_ok by (try apply even_supported; lia). cbn [bind]. unfold cdiv at 1. cbn [Z.eqb Pos.eqb bind]. rewrite Z.quot_1_r, quot2.
  assert (D : (if (2 * k >=? base + 2 * y + j)%Z then fdcoef (2 * k) (2 * k - base - 2 * y - j) else Ok 0%Q) =
              Ok (stencil_at (2 * k) (2 * k - base - 2 * y - j))).
  { destruct (2 * k >=? base + 2 * y + j)%Z eqn:E.
    - apply fdcoef_ok; [apply even_supported; lia|lia].
    - unfold stencil_at. replace ((0 <=? 2 * k - base - 2 * y - j) && (2 * k - base - 2 * y - j <? 2 * k))%bool with false by lia. reflexivity. }
  rewrite D. cbn [bind]. rewrite IH by lia. cbn [bind].
  match goal with |- _ = Ok (?a ++ _) => set (ent := a); assert (Ee : ent = fs_entry base o hybrid y k j) by reflexivity end.
  clearbody ent. unfold fs_entry in Ee. cbv zeta in Ee. subst ent. rewrite Z.geb_leb.
  destruct ((0 <=? y + 1 * (j - k + o)) && (y + 1 * (j - k + o) <? NY))%bool eqn:E; [|reflexivity].
  rewrite Hcol by lia. reflexivity.
Qed.

End FS.

Section RegFS.
Variables (nx ny nz : Z) (g : grid) (p : Z) (rest : list Z) (useVar : bool) (DH : Q) (x y z : Z).
Hypotheses (Hg : mk_regular nx ny nz = Ok g) (Hp : supported p) (Hx : (0 <= x < nx)%Z) (Hy : (0 <= y < ny)%Z) (Hz : (0 <= z < nz)%Z).
Let h := DH * inject_Z 1.
Let colf Y := reg_index nx nz x Y z.

Ltac start := destruct (regular_sizes _ _ _ _ Hg) as (Ex&Ey&Ez); destruct (regular_layer0 _ _ _ _ Hg) as (l&El&E1);
  rewrite (regular_i2c _ _ _ _ _ _ _ Hg Hx Hy Hz); cbn [bind cx cy cz]; rewrite (regular_getLayer _ _ _ _ _ Hg Hy);
  cbn [bind].

Lemma reg_DyfFS hybrid : exists row, calcDyfFreeSurface g (p :: rest) useVar false hybrid DH (reg_index nx nz x y z) = Ok row /\
  row = flat_map (fs_entry ny h colf 2 1 hybrid y (p / 2)) (zseq 0 (Z.to_nat p)).
Proof.
  unfold calcDyfFreeSurface. start. rewrite (regular_onif _ _ _ _ y Hg) by lia. cbn [bind andb]. rewrite El. cbn [bind].
  rewrite reg_order. cbn [bind reduce_order]. rewrite E1, Ey. eexists; split; [|reflexivity].
  destruct (supported_even p Hp) as (k&->&Hk). replace (2 * k / 2)%Z with k by (rewrite Z.mul_comm, Z.div_mul; lia).
  apply row_fs_spec; try lia. intros Y HY. apply (regular_formula _ _ _ _ _ _ _ Hg); auto.
Qed.
Lemma reg_DybFS hybrid : exists row, calcDybFreeSurface g (p :: rest) useVar hybrid DH (reg_index nx nz x y z) = Ok row /\
  row = flat_map (fs_entry ny h colf 1 0 hybrid y (p / 2)) (zseq 0 (Z.to_nat p)).
Proof.
  unfold calcDybFreeSurface. start. rewrite El. cbn [bind].
  rewrite reg_order. cbn [bind]. rewrite E1, Ey. eexists; split; [|reflexivity].
  destruct (supported_even p Hp) as (k&->&Hk). replace (2 * k / 2)%Z with k by (rewrite Z.mul_comm, Z.div_mul; lia).
  apply row_fs_spec; try lia. intros Y HY. apply (regular_formula _ _ _ _ _ _ _ Hg); auto.
Qed.

Lemma fs_full_sum base o f : (base = 2 /\ o = 1 \/ base = 1 /\ o = 0)%Z ->
  apply_row (flat_map (fs_entry ny h colf base o false y (p / 2)) (zseq 0 (Z.to_nat p))) f ==
  qs 0 (Z.to_nat p) (fun j => stencil_at p j / h * (restrict ny (fun Y => f (colf Y)) (y + j - p / 2 + o) -
     restrict ny (fun Y => f (colf Y)) (o - 1 - (y + j - p / 2 + o)))).
Proof.
  intros Hb. rewrite fs_apply_full. destruct (supported_even p Hp) as (k&->&Hk).
  replace (2 * k / 2)%Z with k by (rewrite Z.mul_comm, Z.div_mul; lia).
  pose proof (fs_image ny h base o y k (F colf f) ltac:(lia) ltac:(lia) Hb) as I.
  transitivity (qs 0 (Z.to_nat (2 * k)) (fun j => stencil_at (2 * k) j / h * restrict ny (F colf f) (y + j - k + o)) +
    - qs 0 (Z.to_nat (2 * k)) (fun j => stencil_at (2 * k) (2 * k - base - 2 * y - j) / h * restrict ny (F colf f) (y + j - k + o))).
  - rewrite <- qs_opp, <- qs_plus. apply qs_ext. intros. unfold Qdiv. ring.
  - rewrite I. rewrite <- qs_opp, <- qs_plus. apply qs_ext. intros. unfold F, Qdiv. ring.
Qed.
Lemma fs_hyb_sum base o f : (base = 2 /\ o = 1 \/ base = 1 /\ o = 0)%Z ->
  qs 0 (Z.to_nat ny) (fun Y => stencil_at p (Y - (y - p / 2 + o)) / h * f (colf Y)) +
  apply_row (flat_map (fs_entry ny h colf base o true y (p / 2)) (zseq 0 (Z.to_nat p))) f ==
  qs 0 (Z.to_nat p) (fun j => stencil_at p j / h * (restrict ny (fun Y => f (colf Y)) (y + j - p / 2 + o) -
     restrict ny (fun Y => f (colf Y)) (o - 1 - (y + j - p / 2 + o)))).
Proof.
  intros Hb. rewrite (stencil_row_sum ny h p (y - p / 2 + o)%Z (fun Y => f (colf Y))) by (destruct (supported_even p Hp); lia).
  rewrite fs_apply_hyb. destruct (supported_even p Hp) as (k&->&Hk).
  replace (2 * k / 2)%Z with k by (rewrite Z.mul_comm, Z.div_mul; lia).
  pose proof (fs_image ny h base o y k (F colf f) ltac:(lia) ltac:(lia) Hb) as I.
  transitivity (qs 0 (Z.to_nat (2 * k)) (fun j => stencil_at (2 * k) j / h * restrict ny (F colf f) (y + j - k + o)) +
    - qs 0 (Z.to_nat (2 * k)) (fun j => stencil_at (2 * k) (2 * k - base - 2 * y - j) / h * restrict ny (F colf f) (y + j - k + o))).
  - rewrite <- qs_opp. apply Qplus_comp; apply qs_ext; intros.
    + replace (k0 + (y - k + o))%Z with (y + k0 - k + o)%Z by lia. reflexivity.
    + unfold Qdiv. ring.
  - rewrite I. rewrite <- qs_opp, <- qs_plus. apply qs_ext. intros. unfold F, Qdiv. ring.
Qed.

Lemma Df_row f : qs 0 (Z.to_nat ny) (fun Y => Df_stencil p ny h y Y * f (colf Y)) ==
  qs 0 (Z.to_nat ny) (fun Y => stencil_at p (Y - (y - p / 2 + 1)) / h * f (colf Y)).
Proof.
  apply qs_ext. intros k Hk. unfold Df_stencil, on_line. replace (_ && _)%bool with true by lia.
  destruct (supported_even p Hp) as (m&->&Hm). rewrite quot2. replace (2 * m / 2)%Z with m by (rewrite Z.mul_comm, Z.div_mul; lia).
  replace (k - y + m - 1)%Z with (k - (y - m + 1))%Z by lia. reflexivity.
Qed.
Lemma Db_row f : qs 0 (Z.to_nat ny) (fun Y => Db_stencil p ny h y Y * f (colf Y)) ==
  qs 0 (Z.to_nat ny) (fun Y => stencil_at p (Y - (y - p / 2 + 0)) / h * f (colf Y)).
Proof.
  apply qs_ext. intros k Hk. rewrite Db_explicit by assumption. unfold on_line. replace ((0 <=? y) && _ && _)%bool with true by lia.
  replace (k - y + p / 2)%Z with (k - (y - p / 2 + 0))%Z by lia. reflexivity.
Qed.

Lemma reg_DyfFS_image : exists row rowh,
  calcDyfFreeSurface g (p :: rest) useVar false false DH (reg_index nx nz x y z) = Ok row /\
  calcDyfFreeSurface g (p :: rest) useVar false true DH (reg_index nx nz x y z) = Ok rowh /\
  forall f, let D := qs 0 (Z.to_nat p) (fun j => stencil_at p j / h * odd_full ny (fun Y => f (colf Y)) (y + j - p / 2 + 1)) in
    apply_row row f == D /\
    qs 0 (Z.to_nat ny) (fun Y => Df_stencil p ny h y Y * f (colf Y)) + apply_row rowh f == D.
Proof.
  destruct (reg_DyfFS false) as (r1&E1&R1). destruct (reg_DyfFS true) as (r2&E2&R2). exists r1, r2. split; [exact E1|]. split; [exact E2|].
  intros f. subst r1 r2. split.
  - rewrite fs_full_sum by lia. apply qs_ext. intros. unfold odd_full. reflexivity.
  - rewrite Df_row, fs_hyb_sum by lia. apply qs_ext. intros. unfold odd_full. reflexivity.
Qed.
Lemma reg_DybFS_image : exists row rowh,
  calcDybFreeSurface g (p :: rest) useVar false DH (reg_index nx nz x y z) = Ok row /\
  calcDybFreeSurface g (p :: rest) useVar true DH (reg_index nx nz x y z) = Ok rowh /\
  forall f, let D := qs 0 (Z.to_nat p) (fun j => stencil_at p j / h * odd_half ny (fun Y => f (colf Y)) (y + j - p / 2)) in
    apply_row row f == D /\
    qs 0 (Z.to_nat ny) (fun Y => Db_stencil p ny h y Y * f (colf Y)) + apply_row rowh f == D.
Proof.
  destruct (reg_DybFS false) as (r1&E1&R1). destruct (reg_DybFS true) as (r2&E2&R2). exists r1, r2. split; [exact E1|]. split; [exact E2|].
  intros f. subst r1 r2. split.
  - rewrite fs_full_sum by lia. apply qs_ext. intros. unfold odd_half. rewrite Z.add_0_r. reflexivity.
  - rewrite Db_row, fs_hyb_sum by lia. apply qs_ext. intros. unfold odd_half. rewrite Z.add_0_r. reflexivity.
Qed.
End RegFS.

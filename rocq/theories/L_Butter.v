(** Lemmas about polynomials over the complex numbers and the Butterworth polynomial. *)
From Coq Require Import Reals Lra Lia Ring.
From Verif Require Import Base M_Seis M_Common L_Common M_Fft L_Fft S_Butter M_Butter.
Open Scope Z_scope.
Local Notation length := List.length.

(** ** Products and powers *)
Lemma cprod_ext n f g : (forall k, (k < n)%nat -> f k = g k) -> cprod n f = cprod n g.
Proof. induction n as [|n IH]; intros H; [reflexivity|]. cbn. rewrite IH by (intros; apply H; lia). rewrite H by lia. reflexivity. Qed.
Lemma cprod_shift n f : cprod (S n) f = Cmul (f 0%nat) (cprod n (fun k => f (S k))).
Proof. induction n as [|n IH]; [cbn; ring|]. cbn [cprod] in *. rewrite IH. ring. Qed.
Lemma cprod_mul n f g : cprod n (fun k => Cmul (f k) (g k)) = Cmul (cprod n f) (cprod n g).
Proof. induction n as [|n IH]; cbn; [ring|]. rewrite IH. ring. Qed.
Lemma cprod_add n m f : cprod (n + m) f = Cmul (cprod n f) (cprod m (fun k => f (n + k)%nat)).
Proof.
  induction m as [|m IH]; [rewrite Nat.add_0_r; cbn; ring|]. rewrite Nat.add_succ_r. cbn. rewrite IH. ring.
Qed.
Lemma power_Cpow z n : power z n = Cpow z n.
Proof. unfold power. induction n as [|n IH]; [reflexivity|]. cbn. rewrite IH. ring. Qed.
Lemma power_S z n : power z (S n) = Cmul z (power z n).
Proof. unfold power. cbn. ring. Qed.
Lemma csum_shift n f : csum (S n) f = Cadd (f 0%nat) (csum n (fun k => f (S k))).
Proof. induction n as [|n IH]; [cbn; ring|]. cbn [csum] in *. rewrite IH. ring. Qed.
(** pairing the first with the last factor *)
Lemma cprod_pairs m f : cprod (2 * m) f = cprod m (fun k => Cmul (f k) (f (2 * m - 1 - k)%nat)).
Proof.
  revert f. induction m as [|m IH]; intros f; [reflexivity|].
  transitivity (Cmul (f 0%nat) (Cmul (cprod (2 * m) (fun k => f (S k))) (f (S (2 * m))))).
  - replace (2 * S m)%nat with (S (S (2 * m))) by lia. rewrite cprod_shift. reflexivity.
  - rewrite (IH (fun k => f (S k))). rewrite cprod_shift. replace (2 * S m - 1 - 0)%nat with (S (2 * m)) by lia.
    rewrite (cprod_ext m (fun k => Cmul (f (S k)) (f (2 * S m - 1 - S k)%nat)) (fun k => Cmul (f (S k)) (f (S (2 * m - 1 - k))%nat))).
    + ring.
    + intros k Hk. do 2 f_equal. lia.
Qed.
Lemma cprod_pairs_odd m f : cprod (2 * m + 1) f = Cmul (cprod m (fun k => Cmul (f k) (f (2 * m - k)%nat))) (f m).
Proof.
  revert f. induction m as [|m IH]; intros f; [reflexivity|].
  transitivity (Cmul (f 0%nat) (Cmul (cprod (2 * m + 1) (fun k => f (S k))) (f (S (2 * m + 1))))).
  - replace (2 * S m + 1)%nat with (S (S (2 * m + 1))) by lia. rewrite cprod_shift. reflexivity.
  - rewrite (IH (fun k => f (S k))). rewrite cprod_shift. replace (2 * S m - 0)%nat with (S (2 * m + 1)) by lia.
    rewrite (cprod_ext m (fun k => Cmul (f (S k)) (f (2 * S m - S k)%nat)) (fun k => Cmul (f (S k)) (f (S (2 * m - k))%nat))).
    + ring.
    + intros k Hk. do 2 f_equal. lia.
Qed.
Lemma cprod_zero n f : cprod n f = C0 -> exists k, (k < n)%nat /\ f k = C0.
Proof.
  induction n as [|n IH]; cbn; intros E.
  - unfold C1, C0 in E. injection E as E. lra.
  - assert (D : {f n = C0} + {f n <> C0}).
    { destruct (f n) as [a b]. destruct (Req_EM_T a 0) as [->|N]; [destruct (Req_EM_T b 0) as [->|N]; [left; reflexivity|]|];
        right; intros X; injection X; contradiction. }
    destruct D as [D|D]; [exists n; split; [lia|exact D]|].
    destruct IH as (k & Hk & E'); [|exists k; split; [lia|exact E']].
    apply (C_integral (f n)); [|exact D]. rewrite <- E. ring.
Qed.

(** ** Polynomials as lists of complex coefficients *)
Fixpoint horner (p : list C) (z : C) : C := match p with [] => C0 | c :: p => Cadd c (Cmul z (horner p z)) end.
Lemma horner_csum p z : csum (length p) (fun k => Cmul (nth k p C0) (power z k)) = horner p z.
Proof.
  induction p as [|c p IH]; [reflexivity|]. cbn [length]. rewrite csum_shift. cbn [nth horner].
  rewrite <- IH, <- csum_mul. unfold power at 1. cbn [cprod].
  rewrite (csum_ext (length p) (fun k => Cmul (nth k p C0) (power z (S k))) (fun k => Cmul z (Cmul (nth k p C0) (power z k)))).
  - ring.
  - intros k _. rewrite power_S. ring.
Qed.
Lemma pval_horner p z : pval p z = horner (map Creal p) z.
Proof.
  rewrite <- horner_csum. unfold pval. rewrite map_length. apply csum_ext. intros k Hk. f_equal.
  change C0 with (Creal 0). rewrite map_nth. reflexivity.
Qed.
Lemma horner_zeros p n z : horner (p ++ repeat C0 n) z = horner p z.
Proof.
  induction p as [|c p IH]; cbn.
  - induction n as [|n IH]; cbn; [reflexivity|]. rewrite IH. ring.
  - rewrite IH. reflexivity.
Qed.
Fixpoint padd (a b : list C) : list C :=
  match a, b with [], _ => b | _, [] => a | x :: a, y :: b => Cadd x y :: padd a b end.
Lemma horner_padd a b z : horner (padd a b) z = Cadd (horner a z) (horner b z).
Proof.
  revert b. induction a as [|x a IH]; intros [|y b]; cbn; try ring. rewrite IH. ring.
Qed.
Lemma padd_length a b : length (padd a b) = Nat.max (length a) (length b).
Proof. revert b. induction a as [|x a IH]; intros [|y b]; cbn; try lia. rewrite IH. lia. Qed.
Lemma horner_map a p z : horner (map (Cmul a) p) z = Cmul a (horner p z).
Proof. induction p as [|c p IH]; cbn; [ring|]. rewrite IH. ring. Qed.

(** division by a linear factor *)
Lemma padd_last a b d : (length b < length a)%nat -> last (padd a b) d = last a d.
Proof.
  revert b. induction a as [|x a IH]; intros [|y b] H; cbn [length] in *; try lia; [reflexivity|].
  cbn [padd]. specialize (IH b ltac:(lia)). destruct a as [|x' a]; cbn [length] in *; [lia|].
  change (last (Cadd x y :: padd (x' :: a) b) d = last (x' :: a) d). rewrite <- IH. destruct b; reflexivity.
Qed.
Lemma divide r p d : (1 <= length p)%nat -> exists q, length q = (length p - 1)%nat /\
  ((2 <= length p)%nat -> last q d = last p d) /\
  forall z, Csub (horner p z) (horner p r) = Cmul (Csub z r) (horner q z).
Proof.
  induction p as [|c p IH]; cbn [length]; intros H; [lia|]. destruct p as [|c' p].
  - exists []. split; [reflexivity|]. split; [cbn; lia|]. intros z. cbn. ring.
  - destruct IH as (q & Lq & Aq & Eq); [cbn; lia|]. exists (padd (c' :: p) (map (Cmul r) q)).
    cbn [length] in *. split; [rewrite padd_length, map_length; cbn [length]; lia|]. split.
    + intros _. rewrite padd_last by (rewrite map_length; cbn [length]; lia). reflexivity.
    + intros z. rewrite horner_padd, horner_map. specialize (Eq z).
      change (horner (c :: c' :: p) z) with (Cadd c (Cmul z (horner (c' :: p) z))).
      change (horner (c :: c' :: p) r) with (Cadd c (Cmul r (horner (c' :: p) r))).
      set (hz := horner (c' :: p) z) in *. set (hr := horner (c' :: p) r) in *.
      transitivity (Cadd (Cmul (Csub z r) hz) (Cmul r (Csub hz hr))); [ring|]. rewrite Eq. ring.
Qed.
Fixpoint linears (rs : list C) (z : C) : C := match rs with [] => C1 | r :: rs => Cmul (Csub z r) (linears rs z) end.
Lemma Csub_0 a b : Csub a b = C0 -> a = b.
Proof. intros E. transitivity (Cadd (Csub a b) b); [ring|]. rewrite E. ring. Qed.
Lemma roots_product rs : NoDup rs -> forall p, length p = S (length rs) -> last p C0 = C1 ->
  (forall r, In r rs -> horner p r = C0) -> forall z, horner p z = linears rs z.
Proof.
  intros ND. induction ND as [|r rs NI ND IH]; intros p Lp Ap HR z.
  - destruct p as [|c [|? ?]]; cbn in Lp; try lia. cbn in Ap. subst. cbn. ring.
  - destruct (divide r p C0) as (q & Lq & Aq & Eq); [lia|]. cbn [length linears] in *.
    assert (E0 : forall z, horner p z = Cmul (Csub z r) (horner q z)).
    { intros w. rewrite <- Eq. rewrite (HR r) by (left; reflexivity). ring. }
    rewrite E0. f_equal. apply IH; [lia|rewrite Aq by lia; exact Ap|].
    intros r' Hr'. apply (C_integral (Csub r' r)).
    + rewrite <- E0. apply HR. right. exact Hr'.
    + intros X. apply Csub_0 in X. subst. contradiction.
Qed.
Lemma linears_app a b z : linears (a ++ b) z = Cmul (linears a z) (linears b z).
Proof. induction a as [|r a IH]; cbn; [ring|]. rewrite IH. ring. Qed.
Lemma linears_map (f : nat -> C) n z : linears (map f (seq 0 n)) z = cprod n (fun k => Csub z (f k)).
Proof.
  induction n as [|n IH]; [reflexivity|]. rewrite seq_S, map_app, linears_app, IH. cbn. ring.
Qed.

(** ** The roots of x^n = -1 *)
Lemma cis_mult t n : power (cis t) n = cis (INR n * t).
Proof.
  induction n as [|n IH]; [cbn; rewrite Rmult_0_l, cis_0; reflexivity|]. rewrite power_S, IH, S_INR, <- cis_add. f_equal. ring.
Qed.
Lemma cis_inj a b : (- PI < a <= PI)%R -> (- PI < b <= PI)%R -> cis a = cis b -> a = b.
Proof.
  intros HA HB E. destruct (Req_dec a b) as [|N]; [assumption|]. exfalso.
  apply (cis_one_not (a - b)); [lra|lra|].
  replace (a - b)%R with (a + - b)%R by ring. rewrite cis_add, E, <- cis_add. replace (b + - b)%R with 0%R by ring. apply cis_0.
Qed.
Lemma cis_PI k : cis (INR (2 * k + 1) * PI) = Copp C1.
Proof.
  rewrite plus_INR, mult_INR. replace ((INR 2 * INR k + INR 1) * PI)%R with (PI + 2 * PI * INR k)%R by (cbn; ring).
  rewrite cis_add, cis_nat. unfold cis. rewrite cos_PI, sin_PI. unfold Cmul, Copp, C1. cbn. f_equal; ring.
Qed.
Lemma horner_unit n z : horner (C1 :: repeat C0 n ++ [C1]) z = Cadd C1 (power z (S n)).
Proof.
  cbn [horner]. f_equal. rewrite power_S. f_equal. induction n as [|n IH]; [cbn; ring|].
  cbn [repeat app horner]. rewrite IH, power_S. ring.
Qed.
Definition angle (n k : nat) : R := (INR (2 * k + 1) * PI / (2 * INR n))%R.
Lemma angle_range n k : (k < n)%nat -> (0 < angle n k < PI)%R.
Proof.
  intros H. unfold angle. pose proof PI_RGT_0. assert (0 < INR n)%R by (apply lt_0_INR; lia).
  assert (A : (INR (2 * k + 1) <= 2 * INR n - 1)%R).
  { replace (2 * INR n - 1)%R with (INR (2 * n - 1)) by (rewrite minus_INR, mult_INR by lia; cbn; ring). apply le_INR. lia. }
  assert (P : (0 < INR (2 * k + 1))%R) by (apply lt_0_INR; lia). split.
  - apply Rdiv_lt_0_compat; [|lra]. apply Rmult_lt_0_compat; lra.
  - apply (Rmult_lt_reg_r (2 * INR n)); [lra|]. unfold Rdiv. rewrite Rmult_assoc, Rinv_l, Rmult_1_r by lra.
    rewrite (Rmult_comm PI). apply Rmult_lt_compat_r; lra.
Qed.
Lemma angle_inj n k l : (0 < n)%nat -> angle n k = angle n l -> k = l.
Proof.
  intros H E. unfold angle in E. pose proof PI_RGT_0. assert (0 < INR n)%R by (apply lt_0_INR; lia).
  assert (I : INR (2 * k + 1) = INR (2 * l + 1)).
  { apply (Rmult_eq_reg_r (PI / (2 * INR n))); [|apply Rgt_not_eq, Rdiv_lt_0_compat; lra].
    unfold Rdiv in *. rewrite <- !Rmult_assoc. exact E. }
  apply INR_eq in I. lia.
Qed.
Lemma unit_factor n x : (0 < n)%nat ->
  Cadd C1 (power x (2 * n)) = cprod n (fun k => Cmul (Csub x (cis (angle n k))) (Csub x (cis (- angle n k)))).
Proof.
  intros H. set (rs := map (fun k => cis (angle n k)) (seq 0 n) ++ map (fun k => cis (- angle n k)) (seq 0 n)).
  assert (PN : (0 < INR n)%R) by (apply lt_0_INR; lia). pose proof PI_RGT_0 as HPI.
  assert (ND : NoDup rs).
  { assert (X : rs = map cis (map (angle n) (seq 0 n) ++ map (fun k => - angle n k)%R (seq 0 n))).
    { unfold rs. rewrite map_app, !map_map. reflexivity. }
    rewrite X. clear X.
    assert (R1 : forall a, In a (map (angle n) (seq 0 n) ++ map (fun k => - angle n k)%R (seq 0 n)) -> (- PI < a <= PI)%R).
    { intros a Ha. apply in_app_or in Ha. destruct Ha as [Ha|Ha]; apply in_map_iff in Ha; destruct Ha as (k & <- & Hk);
        apply in_seq in Hk; pose proof (angle_range n k ltac:(lia)); lra. }
    assert (N1 : NoDup (map (angle n) (seq 0 n) ++ map (fun k => - angle n k)%R (seq 0 n))).
    { assert (APP : forall (l m : list R), NoDup l -> NoDup m -> (forall a, In a l -> In a m -> False) -> NoDup (l ++ m)).
      { intros l m NL NM D. induction NL as [|a l NI NL IH]; [exact NM|]. cbn. constructor.
        - rewrite in_app_iff. intros [I|I]; [contradiction|]. apply (D a); [left; reflexivity|exact I].
        - apply IH. intros b Hb. apply D. right. exact Hb. }
      assert (INJ : forall (f : nat -> R) l, (forall a b, In a l -> In b l -> f a = f b -> a = b) -> NoDup l -> NoDup (map f l)).
      { intros f l F NL. induction NL as [|a l NI NL IH]; cbn; constructor.
        - intros I. apply in_map_iff in I. destruct I as (b & E & I). apply F in E; [subst; contradiction|right; exact I|left; reflexivity].
        - apply IH. intros. apply F; [right|right|]; assumption. }
      apply APP.
      - apply INJ; [|apply seq_NoDup]. intros a b _ _. apply angle_inj. exact H.
      - apply INJ; [|apply seq_NoDup]. intros a b _ _ E. apply (angle_inj n); [exact H|lra].
      - intros a Ha Hb. apply in_map_iff in Ha, Hb. destruct Ha as (k & <- & Hk), Hb as (l & E & Hl).
        apply in_seq in Hk, Hl. pose proof (angle_range n k ltac:(lia)). pose proof (angle_range n l ltac:(lia)). lra. }
    revert R1 N1. generalize (map (angle n) (seq 0 n) ++ map (fun k => - angle n k)%R (seq 0 n)). intros l R1 N1.
    induction N1 as [|a l NI NL IH]; cbn; constructor.
    - intros I. apply in_map_iff in I. destruct I as (b & E & I). apply cis_inj in E; [subst; contradiction| |]; apply R1; cbn; auto.
    - apply IH. intros b Hb. apply R1. right. exact Hb. }
  assert (P : (2 * n)%nat = S (2 * n - 1)) by lia. rewrite P. rewrite <- horner_unit.
  rewrite (roots_product rs ND).
  - unfold rs. rewrite linears_app, !linears_map, <- cprod_mul. reflexivity.
  - unfold rs. cbn [length]. rewrite !app_length, !map_length, !seq_length, repeat_length. cbn. lia.
  - rewrite app_comm_cons. apply last_last.
  - intros r Hr. rewrite horner_unit, <- P.
    assert (X : power r (2 * n) = Copp C1); [|rewrite X; ring].
    unfold rs in Hr. apply in_app_or in Hr. destruct Hr as [Hr|Hr]; apply in_map_iff in Hr; destruct Hr as (k & <- & _); rewrite cis_mult.
    + rewrite <- (cis_PI k). f_equal. unfold angle. rewrite (mult_INR 2 n). change (INR 2) with 2%R. field. lra.
    + replace (INR (2 * n) * - angle n k)%R with (- (INR (2 * k + 1) * PI))%R.
      * rewrite cis_opp. pose proof (cis_PI k) as E. set (a := (INR (2 * k + 1) * PI)%R) in *. clearbody a. unfold cis in E. injection E as E1 E2. rewrite E1, E2. unfold Copp, C1. cbn. f_equal. ring.
      * unfold angle. rewrite (mult_INR 2 n). change (INR 2) with 2%R. field. lra.
Qed.

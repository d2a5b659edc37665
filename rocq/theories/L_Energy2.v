(** Energy balance and energy norm of the elastic and viscoelastic schemes. *)
From Coq Require Import QArith Qreals Reals Lra.
From Verif Require Import M_Grid M_Deriv S_Deriv L_Deriv L_Deriv2 M_Prog M_Solvers M_Env S_Solver S_Step S_Check S_Energy L_Prog L_Lin L_Src L_Surface L_Leap L_Leap2 L_Diff L_Energy.
Open Scope R_scope.
Open Scope list_scope.

Ltac geo H := destruct H as [(-> & ->)|[(-> & ->)|(-> & ->)]].
Ltac geo_cbn := lazy beta iota zeta delta [normals shears filter has existsb axis_eqb orb andb negb fst snd length sum_axes Rsum map fold_right INR].

Lemma sqp x : 0 <= x * x.
Proof. nra. Qed.
(** Hooke's law and stress power for a velocity gradient [G]. *)
Section tensors.
Variables (axes comps : list axis).
Hypothesis Hg : geometry axes comps.
Definition law (P : Z -> R) (M : tensor) (G : tensor) : tensor := fun a b i =>
  (if axis_eqb a b then (P i - 2 * M a b i) * sum_axes axes (fun d => G d d i) else 0) + M a b i * (G a b i + G b a i).
Definition power (S G : tensor) (i : Z) : R :=
  sum_axes (normals axes comps) (fun a => S a a i * G a a i) +
  Rsum (map (fun ab => S (fst ab) (snd ab) i * (G (fst ab) (snd ab) i + G (snd ab) (fst ab) i)) (shears axes comps)).
(** moduli for which the complementary energy is positive *)
Definition good (P : Z -> R) (M : tensor) (i : Z) : Prop :=
  (normals axes comps <> [] -> 0 < M AX AX i /\ 0 < INR (length (normals axes comps)) * (P i - 2 * M AX AX i) + 2 * M AX AX i) /\
  (forall ab, In ab (shears axes comps) -> 0 < M (fst ab) (snd ab) i).
Definition diag (M : tensor) : Prop := forall a i, M a a i = M AX AX i.
Notation compl := (compl axes comps).

Lemma compl_law P M G T i : diag M -> good P M i -> compl P M (law P M G) T i = power T G i.
Proof.
  intros HD (H1 & H2). unfold S_Energy.compl, power, law.
  geo Hg.
  - assert (N : normals [AX; AY] [AX; AY] <> []) by discriminate. destruct (H1 N) as (M0 & M1).
    pose proof (H2 (AX, AY) (or_introl eq_refl)) as M2. revert M0 M1 M2. geo_cbn. rewrite ?(HD AY i). intros M0 M1 M2. field. repeat split; lra.
  - assert (N : normals [AX; AY; AZ] [AX; AY; AZ] <> []) by discriminate. destruct (H1 N) as (M0 & M1).
    pose proof (H2 (AX, AY) (or_introl eq_refl)) as M2. pose proof (H2 (AX, AZ) (or_intror (or_introl eq_refl))) as M3.
    pose proof (H2 (AY, AZ) (or_intror (or_intror (or_introl eq_refl)))) as M4. revert M0 M1 M2 M3 M4. geo_cbn. rewrite ?(HD AY i), ?(HD AZ i). intros. field. repeat split; lra.
  - pose proof (H2 (AX, AZ) (or_introl eq_refl)) as M3.
    pose proof (H2 (AY, AZ) (or_intror (or_introl eq_refl))) as M4. revert M3 M4. geo_cbn. intros. unfold Rdiv.
    generalize (/ (2 * M AX AX i)). generalize (/ (0 * (P i - 2 * M AX AX i) + 2 * M AX AX i)). intros. field. split; lra.
Qed.
Ltac forms := unfold S_Energy.compl, power, law; unfold Rdiv; geo Hg; geo_cbn;
  repeat match goal with |- context [/ ?x] => generalize (/ x); intro end.
Lemma compl_diff P M S T i : compl P M T T i - compl P M S S i = compl P M (fun a b j => T a b j - S a b j) (fun a b j => S a b j + T a b j) i.
Proof. forms; ring. Qed.
Lemma compl_comb P M S H t i : compl P M (fun a b j => S a b j + t * H a b j) (fun a b j => S a b j + t * H a b j) i =
  compl P M S S i + 2 * t * compl P M H S i + t * t * compl P M H H i.
Proof. forms; ring. Qed.
Lemma compl_sub P M S H T r i : compl P M (fun a b j => S a b j - r * H a b j) T i = compl P M S T i - r * compl P M H T i.
Proof. forms; ring. Qed.
Lemma compl_ext P M S S' T T' i : (forall a b, S a b i = S' a b i) -> (forall a b, T a b i = T' a b i) -> compl P M S T i = compl P M S' T' i.
Proof. intros HS HT. unfold S_Energy.compl. geo Hg; geo_cbn; rewrite ?HS, ?HT; reflexivity. Qed.
(** only the components that occur matter *)
Definition occurs (a b : axis) : Prop := has axes a && has comps b || has axes b && has comps a = true.
Lemma compl_ext' P M S S' T T' i : (forall a b, occurs a b -> S a b i = S' a b i) -> (forall a b, occurs a b -> T a b i = T' a b i) -> compl P M S T i = compl P M S' T' i.
Proof.
  intros HS HT. unfold S_Energy.compl, occurs in *. geo Hg; geo_cbn; rewrite ?HS, ?HT by reflexivity; reflexivity.
Qed.
Lemma power_ext S S' G i : (forall a b, occurs a b -> S a b i = S' a b i) -> power S G i = power S' G i.
Proof. intros HS. unfold power, occurs in *. geo Hg; geo_cbn; rewrite ?HS by reflexivity; reflexivity. Qed.
Lemma compl_pos P M S i : good P M i -> 0 <= compl P M S S i.
Proof.
  intros (H1 & H2). unfold S_Energy.compl.
  apply Rplus_le_le_0_compat.
  - assert (Q : forall mu la n s2 s1, 0 < mu -> 0 < n * la + 2 * mu -> 0 < n -> s1 * s1 <= n * s2 -> 0 <= s2 -> 0 <= (s2 - la / (n * la + 2 * mu) * (s1 * s1)) / (2 * mu)).
    { intros mu la n s2 s1 Hm Hl Hn Hs H0. apply Rle_mult_inv_pos; [|lra].
      assert (E : s2 - la / (n * la + 2 * mu) * (s1 * s1) = ((n * la + 2 * mu) * s2 - la * (s1 * s1)) / (n * la + 2 * mu)) by (field; lra).
      rewrite E. apply Rle_mult_inv_pos; [|exact Hl]. destruct (Rle_dec 0 la) as [Hla|Hla].
      - assert (0 <= la * (n * s2 - s1 * s1)) by (apply Rmult_le_pos; lra). assert (0 <= mu * s2) by (apply Rmult_le_pos; lra). nra.
      - assert (0 <= (n * la + 2 * mu) * s2) by (apply Rmult_le_pos; lra). assert (0 <= (- la) * (s1 * s1)) by (apply Rmult_le_pos; nra). nra. }
    geo Hg.
    + destruct (H1 ltac:(discriminate)) as (M0 & M1). apply Q; try assumption; geo_cbn; [lra|pose proof (Rle_0_sqr (S AX AX i - S AY AY i)); unfold Rsqr in *; nra|nra].
    + destruct (H1 ltac:(discriminate)) as (M0 & M1). apply Q; try assumption; geo_cbn.
      * lra.
      * pose proof (Rle_0_sqr (S AX AX i - S AY AY i)). pose proof (Rle_0_sqr (S AX AX i - S AZ AZ i)). pose proof (Rle_0_sqr (S AY AY i - S AZ AZ i)). unfold Rsqr in *. nra.
      * nra.
    + geo_cbn. unfold Rdiv. generalize (/ (0 * (P i - 2 * M AX AX i) + 2 * M AX AX i)). intros r. replace (0 - (P i - 2 * M AX AX i) * r * (0 * 0)) with 0 by ring. lra.
  - apply Rsum_map_pos. intros ab Hab. apply sq_div, H2, Hab.
Qed.
Lemma power_add S T G i : power (fun a b j => S a b j + T a b j) G i = power S G i + power T G i.
Proof. forms; ring. Qed.
Lemma power_mul w S G i : power (fun a b j => w * S a b j) G i = w * power S G i.
Proof. forms; ring. Qed.
Lemma power_0 G i : power (fun _ _ _ => 0) G i = 0.
Proof. forms; ring. Qed.
Lemma power_sum {T} (l : list T) (S : T -> tensor) G i : power (fun a b j => Rsum (map (fun t => S t a b j) l)) G i = Rsum (map (fun t => power (S t) G i) l).
Proof.
  induction l as [|t l IH]; cbn [map]; [apply power_0|]. change (Rsum (?x :: ?y)) with (x + Rsum y). rewrite <- IH.
  exact (power_add (S t) (fun a b j => Rsum (map (fun t => S t a b j) l)) G i).
Qed.
(** the law with the largest moduli bounds the power *)
Lemma power_law P M G i la0 mu0 : diag M -> 0 <= la0 -> 0 <= mu0 -> P i - 2 * M AX AX i <= la0 -> M AX AX i <= mu0 -> (forall ab, In ab (shears axes comps) -> M (fst ab) (snd ab) i <= mu0) ->
  (forall a d, has axes d && has comps a = false -> G a d i = 0) ->
  power (law P M G) G i <= sum_axes comps (fun a => sum_axes axes (fun d => 
    (if axis_eqb a d then INR (length (normals axes comps)) * la0 + 2 * mu0 else if has axes a then 2 * mu0 else mu0) * (G a d i * G a d i))).
Proof.
  intros HD L0 M0 HL Hm Hs HG. unfold power, law. geo Hg.
  - pose proof (Hs (AX, AY) (or_introl eq_refl)) as S1. revert HL Hm S1. geo_cbn. rewrite ?(HD AY i).
    generalize (G AX AX i) (G AX AY i) (G AY AX i) (G AY AY i) (P i) (M AX AX i) (M AX AY i). clear - L0 M0. intros xx xy yx yy P m s HL Hm S1.
    assert ((P - 2 * m) * ((xx + yy) * (xx + yy)) <= la0 * ((xx + yy) * (xx + yy))) by (apply Rmult_le_compat_r; [repeat apply Rplus_le_le_0_compat; apply sqp|assumption]).
    assert (m * (xx * xx + yy * yy) <= mu0 * (xx * xx + yy * yy)) by (apply Rmult_le_compat_r; [repeat apply Rplus_le_le_0_compat; apply sqp|assumption]).
    assert (s * ((xy + yx) * (xy + yx)) <= mu0 * ((xy + yx) * (xy + yx))) by (apply Rmult_le_compat_r; [repeat apply Rplus_le_le_0_compat; apply sqp|assumption]).
    assert (mu0 * ((xy + yx) * (xy + yx)) <= 2 * mu0 * (xy * xy + yx * yx)) by (rewrite (Rmult_comm 2 mu0), Rmult_assoc; apply Rmult_le_compat_l; [exact M0|pose proof (Rle_0_sqr (xy - yx)); unfold Rsqr in *; nra]).
    assert (la0 * ((xx + yy) * (xx + yy)) <= la0 * (2 * (xx * xx + yy * yy))) by (apply Rmult_le_compat_l; [exact L0|pose proof (Rle_0_sqr (xx - yy)); unfold Rsqr in *; nra]). nra.
  - pose proof (Hs (AX, AY) (or_introl eq_refl)) as S1. pose proof (Hs (AX, AZ) (or_intror (or_introl eq_refl))) as S2. pose proof (Hs (AY, AZ) (or_intror (or_intror (or_introl eq_refl)))) as S3.
    revert HL Hm S1 S2 S3. geo_cbn. rewrite ?(HD AY i), ?(HD AZ i).
    generalize (G AX AX i) (G AX AY i) (G AX AZ i) (G AY AX i) (G AY AY i) (G AY AZ i) (G AZ AX i) (G AZ AY i) (G AZ AZ i) (P i) (M AX AX i) (M AX AY i) (M AX AZ i) (M AY AZ i).
    clear - L0 M0. intros xx xy xz yx yy yz zx zy zz P m s1 s2 s3 HL Hm S1 S2 S3.
    assert (B1 : (P - 2 * m) * ((xx + yy + zz) * (xx + yy + zz)) <= la0 * ((xx + yy + zz) * (xx + yy + zz))) by (apply Rmult_le_compat_r; [repeat apply Rplus_le_le_0_compat; apply sqp|assumption]).
    assert (B2 : m * (xx * xx + yy * yy + zz * zz) <= mu0 * (xx * xx + yy * yy + zz * zz)) by (apply Rmult_le_compat_r; [repeat apply Rplus_le_le_0_compat; apply sqp|assumption]).
    assert (B : forall s x y, s <= mu0 -> s * ((x + y) * (x + y)) <= 2 * mu0 * (x * x + y * y)).
    { intros s x y Hs. apply Rle_trans with (mu0 * ((x + y) * (x + y))); [apply Rmult_le_compat_r; [apply sqp|assumption]|]. rewrite (Rmult_comm 2 mu0), Rmult_assoc. apply Rmult_le_compat_l; [exact M0|pose proof (Rle_0_sqr (x - y)); unfold Rsqr in *; nra]. }
    pose proof (B s1 xy yx S1). pose proof (B s2 xz zx S2). pose proof (B s3 yz zy S3).
    assert (B3 : la0 * ((xx + yy + zz) * (xx + yy + zz)) <= la0 * (3 * (xx * xx + yy * yy + zz * zz))).
    { apply Rmult_le_compat_l; [exact L0|]. pose proof (Rle_0_sqr (xx - yy)). pose proof (Rle_0_sqr (xx - zz)). pose proof (Rle_0_sqr (yy - zz)). unfold Rsqr in *. nra. }
    nra.
  - pose proof (Hs (AX, AZ) (or_introl eq_refl)) as S2. pose proof (Hs (AY, AZ) (or_intror (or_introl eq_refl))) as S3.
    pose proof (HG AX AZ eq_refl) as Z1. pose proof (HG AY AZ eq_refl) as Z2.
    revert HL Hm S2 S3. geo_cbn. rewrite Z1, Z2. generalize (G AZ AX i) (G AZ AY i) (P i) (M AX AX i) (M AX AZ i) (M AY AZ i).
    clear - L0 M0. intros x y P m s2 s3 HL Hm S2 S3.
    assert (s2 * (x * x) <= mu0 * (x * x)) by (apply Rmult_le_compat_r; [repeat apply Rplus_le_le_0_compat; apply sqp|assumption]). assert (s3 * (y * y) <= mu0 * (y * y)) by (apply Rmult_le_compat_r; [repeat apply Rplus_le_le_0_compat; apply sqp|assumption]). nra.
Qed.
End tensors.

(** Taylor's formula and the error of the finite-difference quotients. *)
From Coq Require Import Reals Lra ZArith List QArith Qreals Qabs.
Import ListNotations.
From Verif Require Import Base M_Deriv S_Deriv L_Deriv L_Fd S_Solver L_Leap S_Taylor.
Open Scope R_scope.

Lemma abs_le_inv x b : Rabs x <= b -> - b <= x <= b.
Proof. intros H. pose proof (Rle_abs x). pose proof (Rle_abs (- x)). rewrite Rabs_Ropp in *. lra. Qed.

Definition tpoly (n : nat) (G : nat -> R -> R) (u : R) : R := Rsum (map (fun k => G k 0 * u ^ k / INR (fact k)) (seq 0 n)).

Lemma Rsum_app a b : Rsum (a ++ b) = Rsum a + Rsum b.
Proof. unfold Rsum. induction a as [|x a IH]; cbn [app fold_right]; [lra|]. rewrite IH. lra. Qed.
Lemma tpoly_S n G u : tpoly (S n) G u = G O 0 + Rsum (map (fun k => G (S k) 0 * u ^ (S k) / INR (fact (S k))) (seq 0 n)).
Proof. unfold tpoly. cbn [seq map]. rewrite <- seq_shift, map_map. cbn [Rsum fold_right]. unfold Rsum. cbn [pow fact]. cbn [INR]. field. Qed.

Lemma power_term_deriv a k u : derivable_pt_lim (fun u => a * u ^ (S k) / INR (fact (S k))) u (a * u ^ k / INR (fact k)).
Proof.
  assert (F0 : INR (fact k) <> 0) by apply INR_fact_neq_0. assert (S0 : INR (S k) <> 0) by (apply not_0_INR; lia).
  assert (FS : INR (fact (S k)) = INR (S k) * INR (fact k)) by (change (fact (S k)) with (S k * fact k)%nat; apply mult_INR).
  rewrite FS.
  replace (a * u ^ k / INR (fact k)) with (a / (INR (S k) * INR (fact k)) * (INR (S k) * u ^ (pred (S k)))) by (cbn [pred]; field; auto).
  assert (E : forall x, a * x ^ S k / (INR (S k) * INR (fact k)) = mult_real_fct (a / (INR (S k) * INR (fact k))) (fun y => y ^ S k) x) by (intros; unfold mult_real_fct; field; auto).
  intros eps He. destruct (derivable_pt_lim_scal (fun y => y ^ S k) (a / (INR (S k) * INR (fact k))) u _ (derivable_pt_lim_pow u (S k)) eps He) as (d & Hd).
  exists d. intros hh H1 H2. rewrite !E. apply Hd; assumption.
Qed.
Lemma sum_deriv (l : list nat) (f g : nat -> R -> R) u : (forall k, In k l -> derivable_pt_lim (f k) u (g k u)) ->
  derivable_pt_lim (fun u => Rsum (map (fun k => f k u) l)) u (Rsum (map (fun k => g k u) l)).
Proof.
  induction l as [|k l IH]; intros H; cbn [map].
  - unfold Rsum. cbn. apply (derivable_pt_lim_const 0).
  - change (Rsum (?x :: ?y)) with (x + Rsum y). apply (derivable_pt_lim_plus (f k) (fun u => Rsum (map (fun k => f k u) l))).
    + apply H. left. reflexivity.
    + apply IH. intros j Hj. apply H. right. exact Hj.
Qed.

(** Taylor's formula to the right of 0. *)
Lemma taylor_pos n : forall (G : nat -> R -> R) M t, 0 <= t ->
  (forall k u, (k < n)%nat -> 0 <= u <= t -> derivable_pt_lim (G k) u (G (S k) u)) ->
  (forall u, 0 <= u <= t -> Rabs (G n u) <= M) ->
  forall u, 0 <= u <= t -> Rabs (G O u - tpoly n G u) <= M * u ^ n / INR (fact n).
Proof.
  induction n as [|n IH]; intros G M t Ht HD HM u Hu.
  - unfold tpoly. cbn [seq map Rsum fold_right pow fact]. unfold Rsum. cbn [fold_right INR]. replace (G O u - 0) with (G O u) by lra.
    replace (M * 1 / 1) with M by field. apply HM, Hu.
  - specialize (IH (fun k => G (S k)) M t Ht ltac:(intros; apply HD; lia || assumption) HM).
    set (g := fun s => G O s - tpoly (S n) G s).
    set (g' := fun s => G 1%nat s - tpoly n (fun k => G (S k)) s).
    assert (Dg : forall s, 0 <= s <= t -> derivable_pt_lim g s (g' s)).
    { intros s Hs. unfold g, g'. apply (derivable_pt_lim_minus (G O) (tpoly (S n) G)); [apply HD; [lia|exact Hs]|].
      assert (Q : derivable_pt_lim (fun s => G O 0 + Rsum (map (fun k => G (S k) 0 * s ^ (S k) / INR (fact (S k))) (seq 0 n))) s
        (0 + Rsum (map (fun k => G (S k) 0 * s ^ k / INR (fact k)) (seq 0 n)))).
      { apply (derivable_pt_lim_plus (fun _ => G O 0)); [apply derivable_pt_lim_const|].
        apply (sum_deriv (seq 0 n) (fun k s => G (S k) 0 * s ^ (S k) / INR (fact (S k))) (fun k s => G (S k) 0 * s ^ k / INR (fact k))).
        intros k _. apply power_term_deriv. }
      rewrite Rplus_0_l in Q. intros eps He. destruct (Q eps He) as (d & Hd). exists d. intros hh H1 H2.
      rewrite !tpoly_S. apply Hd; assumption. }
    assert (g0 : g 0 = 0).
    { unfold g. rewrite tpoly_S. rewrite Rsum_map_0; [lra|]. intros k _. cbn [pow]. unfold Rdiv. ring. }
    set (B := fun s => M * s ^ (S n) / INR (fact (S n))).
    assert (DB : forall s, derivable_pt_lim B s (M * s ^ n / INR (fact n))) by (intros; apply power_term_deriv).
    assert (B0 : B 0 = 0) by (unfold B; cbn [pow]; unfold Rdiv; ring).
    destruct (Rle_lt_or_eq_dec 0 u (proj1 Hu)) as [Pu|<-].
    2:{ fold (g 0). fold (B 0). rewrite g0, B0, Rabs_R0. lra. }
    assert (LE : forall sg, sg = 1 \/ sg = -1 -> sg * g u <= B u).
    { intros sg Hsg.
      destruct (MVT_cor2 (fun s => B s - sg * g s) (fun s => M * s ^ n / INR (fact n) - sg * g' s) 0 u Pu) as (c & Ec & Hc).
      - intros s Hs. apply (derivable_pt_lim_minus B (fun s => sg * g s)); [apply DB|]. apply (derivable_pt_lim_scal g). apply Dg. lra.
      - cbv beta in Ec. rewrite B0, g0 in Ec.
        assert (Q : Rabs (g' c) <= M * c ^ n / INR (fact n)) by (apply IH; lra).
        apply abs_le_inv in Q.
        assert (0 <= M * c ^ n / INR (fact n) - sg * g' c) by (destruct Hsg as [-> | ->]; lra).
        assert (0 <= (M * c ^ n / INR (fact n) - sg * g' c) * (u - 0)) by (apply Rmult_le_pos; lra). lra. }
    fold (g u). fold (B u). apply Rabs_le. pose proof (LE 1 ltac:(auto)). pose proof (LE (-1) ltac:(auto)). lra.
Qed.

(** Taylor's formula about an inner point, in both directions. *)
Lemma taylor_bound n M a b (F : nat -> R -> R) s d :
  (forall k s, (k <= n)%nat -> a <= s <= b -> derivable_pt_lim (F k) s (F (S k) s)) ->
  (forall s, a <= s <= b -> Rabs (F (S n) s) <= M) -> a <= s <= b -> a <= s + d <= b ->
  Rabs (F O (s + d) - Rsum (map (fun k => F k s * d ^ k / INR (fact k)) (seq 0 (S n)))) <= M * Rabs d ^ (S n) / INR (fact (S n)).
Proof.
  intros HD HM Hs Hd.
  assert (SG : exists sg, (sg = 1 \/ sg = -1) /\ d = sg * Rabs d).
  { destruct (Rle_dec 0 d) as [P|P]; [exists 1; rewrite Rabs_right by lra|exists (-1); rewrite Rabs_left by lra]; split; auto; lra. }
  destruct SG as (sg & Hsg & Ed). set (r := Rabs d) in *. assert (R0 : 0 <= r) by apply Rabs_pos. clearbody r.
  assert (IN : forall u, 0 <= u <= r -> a <= s + sg * u <= b) by (intros u Hu; destruct Hsg as [-> | ->]; lra).
  assert (S1 : forall k, Rabs (sg ^ k) = 1).
  { intros k. rewrite <- RPow_abs. replace (Rabs sg) with 1; [apply pow1|]. destruct Hsg as [-> | ->]; [rewrite Rabs_R1|rewrite Rabs_left]; lra. }
  pose proof (taylor_pos (S n) (fun k u => sg ^ k * F k (s + sg * u)) M r R0) as T.
  assert (T1 : forall k u, (k < S n)%nat -> 0 <= u <= r -> derivable_pt_lim (fun u => sg ^ k * F k (s + sg * u)) u (sg ^ S k * F (S k) (s + sg * u))).
  { intros k u Hk Hu. replace (sg ^ S k * F (S k) (s + sg * u)) with (sg ^ k * (F (S k) (s + sg * u) * sg)) by (cbn [pow]; ring).
    apply (derivable_pt_lim_scal (fun u => F k (s + sg * u))).
    apply (derivable_pt_lim_comp (fun u => s + sg * u) (F k)).
    - assert (Q : derivable_pt_lim (fun u => s + sg * u) u (0 + sg * 1)).
      { apply (derivable_pt_lim_plus (fun _ => s) (fun u => sg * u)); [apply derivable_pt_lim_const|].
        apply (derivable_pt_lim_scal (fun u => u)). apply derivable_pt_lim_id. }
      replace (0 + sg * 1) with sg in Q by ring. exact Q.
    - apply HD; [lia|apply IN, Hu]. }
  assert (T2 : forall u, 0 <= u <= r -> Rabs (sg ^ S n * F (S n) (s + sg * u)) <= M).
  { intros u Hu. rewrite Rabs_mult, S1, Rmult_1_l. apply HM, IN, Hu. }
  specialize (T T1 T2 r ltac:(lra)). cbv beta in T. replace (sg ^ 0 * F O (s + sg * r)) with (F O (s + d)) in T by (rewrite Ed; cbn [pow]; ring).
  replace (Rsum (map (fun k => F k s * d ^ k / INR (fact k)) (seq 0 (S n)))) with (tpoly (S n) (fun k u => sg ^ k * F k (s + sg * u)) r); [exact T|].
  unfold tpoly. f_equal. apply map_ext. intros k. rewrite Rmult_0_r, Rplus_0_r. rewrite Ed at 1. rewrite Rpow_mult_distr. unfold Rdiv. ring.
Qed.

(** ** moments as real numbers *)
Definition rpos (p j : Z) : R := IZR (2 * j - (p - 1)) / 2.
Definition rmom (p : Z) (k : nat) : R := Rsum (map (fun j => Q2R (stencil_at p j) * rpos p j ^ k) (zseq 0 (Z.to_nat p))).

Lemma Q2R_qs n : forall s F, Q2R (qs s n F) = Rsum (map (fun j => Q2R (F j)) (zseq s n)).
Proof.
  induction n as [|n IH]; intros s F; [unfold qs, Rsum; cbn; apply RMicromega.Q2R_0|]. rewrite qs_S, Q2R_plus, IH. reflexivity.
Qed.
Lemma Q2R_Z z : Q2R (inject_Z z) = IZR z.
Proof. unfold Q2R, inject_Z. cbn [Qnum Qden]. field. Qed.
Lemma Q2R_rpos p j : Q2R (pos p j) = rpos p j.
Proof.
  unfold pos, rpos. unfold Qdiv. rewrite Q2R_mult, Q2R_Z. unfold Rdiv. f_equal. unfold Q2R, Qinv. cbn. lra.
Qed.
Lemma Q2R_pw a k : Q2R (pw a k) = Q2R a ^ k.
Proof. induction k as [|k IH]; cbn [pw pow]; [unfold Q2R; cbn; lra|]. rewrite Q2R_mult, IH. reflexivity. Qed.
Lemma rmom_moment p k : rmom p k = Q2R (moment p k).
Proof.
  unfold moment. rewrite Q2R_qs. unfold rmom. f_equal. apply map_ext. intros j. rewrite Q2R_mult, Q2R_pw, Q2R_rpos. reflexivity.
Qed.
Definition rtarget (k : nat) : R := if Nat.eqb k 1 then 1 else 0.
Lemma rtarget_target k : rtarget k = Q2R (target k).
Proof. unfold rtarget, target. destruct (Nat.eqb k 1); unfold Q2R; cbn; lra. Qed.
Lemma rmom_exact p k : exact_order p -> (Z.of_nat k <= p)%Z -> rmom p k = rtarget k.
Proof. intros. rewrite rmom_moment, rtarget_target. apply Qeq_eqR. apply moments_exact; assumption. Qed.
Lemma Q2R_abs q : Q2R (Qabs q) = Rabs (Q2R q).
Proof.
  destruct (Qlt_le_dec q 0) as [H|H].
  - rewrite (Qeq_eqR _ _ (Qabs_neg q (Qlt_le_weak _ _ H))). rewrite Q2R_opp. apply Qlt_Rlt in H. rewrite RMicromega.Q2R_0 in H. rewrite Rabs_left; lra.
  - rewrite (Qeq_eqR _ _ (Qabs_pos q H)). apply Qle_Rle in H. rewrite RMicromega.Q2R_0 in H. rewrite Rabs_right; lra.
Qed.
Lemma rmom_near p k : supported p -> (Z.of_nat k <= p)%Z -> Rabs (rmom p k - rtarget k) <= 3 / 1000000000000.
Proof.
  intros H1 H2. rewrite rmom_moment, rtarget_target. unfold Rminus. rewrite <- Q2R_opp, <- Q2R_plus, <- Q2R_abs.
  pose proof (Qle_Rle _ _ (moments_near p H1 k H2)) as H. eapply Rle_trans; [exact H|]. unfold Q2R. cbn. lra.
Qed.
Lemma rmom_0 p : supported p -> rmom p 0 = 0.
Proof.
  intros H. unfold rmom. pose proof (Qeq_eqR _ _ (moment0 p H)) as E. rewrite Q2R_qs, RMicromega.Q2R_0 in E. rewrite <- E. f_equal.
  apply map_ext. intros. cbn [pow]. ring.
Qed.

(** Absolute moment of order p+1 divided by (p+1)!. *)
Definition amom (p : Z) (k : nat) : R := Rsum (map (fun j => Rabs (Q2R (stencil_at p j)) * Rabs (rpos p j) ^ k) (zseq 0 (Z.to_nat p))).
Lemma amom_Q p k : amom p k = Q2R (qs 0 (Z.to_nat p) (fun j => Qabs (stencil_at p j) * pw (Qabs (pos p j)) k)%Q).
Proof.
  rewrite Q2R_qs. unfold amom. f_equal. apply map_ext. intros j. rewrite Q2R_mult, Q2R_pw, !Q2R_abs, Q2R_rpos. reflexivity.
Qed.
Definition fq (n : nat) : Q := inject_Z (fold_right Z.mul 1%Z (zseq 1 n)).
Definition ecq (p : Z) : Q :=
  if (p =? 2)%Z then 1 # 24 else if (p =? 4)%Z then 3 # 512 else if (p =? 6)%Z then 725 # 458752
  else if (p =? 8)%Z then 354095 # 679477248 else if (p =? 10)%Z then 1 # 5000 else 1 # 10000.
Lemma ecq_R p : Q2R (ecq p) = error_const p.
Proof.
  unfold ecq, error_const. repeat (match goal with |- context [if ?c then _ else _] => destruct c end; [unfold Q2R; cbn; lra|]).
  unfold Q2R; cbn; lra.
Qed.
Lemma fold_fact n : forall s, IZR (fold_right Z.mul 1%Z (zseq (Z.of_nat s + 1) n)) * INR (fact s) = INR (fact (s + n)).
Proof.
  induction n as [|n IH]; intros s.
  - cbn [zseq fold_right]. rewrite Nat.add_0_r. ring.
  - cbn [zseq fold_right]. rewrite mult_IZR. replace (Z.of_nat s + 1 + 1)%Z with (Z.of_nat (S s) + 1)%Z by lia.
    replace (s + S n)%nat with (S s + n)%nat by lia. rewrite <- IH. change (fact (S s)) with (S s * fact s)%nat. rewrite mult_INR.
    replace (IZR (Z.of_nat s + 1)) with (INR (S s)) by (rewrite INR_IZR_INZ; f_equal; lia). ring.
Qed.
Lemma fq_fact n : Q2R (fq n) = INR (fact n).
Proof. unfold fq. rewrite Q2R_Z. pose proof (fold_fact n 0) as H. cbn [Z.of_nat Nat.add fact INR] in H. change (0 + 1)%Z with 1%Z in H. lra. Qed.
Lemma amom_bound p : supported p -> amom p (Z.to_nat p + 1) / INR (fact (Z.to_nat p + 1)) <= error_const p.
Proof.
  intros Hp. rewrite amom_Q, <- ecq_R, <- fq_fact.
  assert (P : 0 < Q2R (fq (Z.to_nat p + 1))) by (rewrite fq_fact; apply lt_0_INR, lt_O_fact).
  apply (Rmult_le_reg_r (Q2R (fq (Z.to_nat p + 1)))); [exact P|]. unfold Rdiv. rewrite Rmult_assoc, Rinv_l, Rmult_1_r by lra.
  rewrite <- Q2R_mult. apply Qle_Rle.
  destruct Hp as [<-|[<-|[<-|[<-|[<-|[<-|[]]]]]]]; apply Qle_bool_iff; vm_compute; reflexivity.
Qed.

(** ** error of the quotient *)
Lemma Rsum_abs {T} (l : list T) f : Rabs (Rsum (map f l)) <= Rsum (map (fun x => Rabs (f x)) l).
Proof.
  unfold Rsum. induction l as [|x l IH]; cbn [map fold_right]; [rewrite Rabs_R0; lra|]. eapply Rle_trans; [apply Rabs_triang|]. lra.
Qed.
Lemma Rsum_le {T} (l : list T) f g : (forall x, In x l -> f x <= g x) -> Rsum (map f l) <= Rsum (map g l).
Proof.
  unfold Rsum. induction l as [|x l IH]; cbn [map fold_right In]; intros H; [lra|]. pose proof (H x (or_introl eq_refl)).
  assert (fold_right Rplus 0 (map f l) <= fold_right Rplus 0 (map g l)) by (apply IH; intros; apply H; auto). lra.
Qed.
Lemma pick1 n f : (1 <= n)%nat -> Rsum (map (fun k => f k * rtarget k) (seq 0 (S n))) = f 1%nat.
Proof.
  intros H. destruct n as [|n]; [lia|]. cbn [seq map]. change (Rsum (?a :: ?b :: ?l)) with (a + (b + Rsum l)). cbn [rtarget Nat.eqb].
  rewrite Rsum_map_0; [unfold rtarget; cbn; ring|]. intros k Hk. apply in_seq in Hk. unfold rtarget. destruct (Nat.eqb_spec k 1); [lia|ring].
Qed.

Lemma quotient_expand p h F a b M s : supported p -> 0 < h ->
  (forall k s, (k <= Z.to_nat p)%nat -> a <= s <= b -> derivable_pt_lim (F k) s (F (S k) s)) ->
  (forall s, a <= s <= b -> Rabs (F (S (Z.to_nat p)) s) <= M) -> a <= s - IZR (p - 1) / 2 * h -> s + IZR (p - 1) / 2 * h <= b ->
  Rabs (quotient p h (F O) s - F 1%nat s) <=
    Rsum (map (fun k => Rabs (F k s) * h ^ k / h / INR (fact k) * Rabs (rmom p k - rtarget k)) (seq 0 (S (Z.to_nat p)))) + error_const p * M * h ^ Z.to_nat p.
Proof.
  intros Hp Hh HD HM Ha Hb. set (n := Z.to_nat p) in *.
  assert (P2 : (2 <= p)%Z) by (destruct Hp as [<-|[<-|[<-|[<-|[<-|[<-|[]]]]]]]; lia).
  assert (IP : 0 <= IZR (p - 1) / 2) by (assert (0 <= IZR (p - 1)) by (apply (IZR_le 0); lia); lra).
  assert (IPh : 0 <= IZR (p - 1) / 2 * h) by (apply Rmult_le_pos; lra).
  assert (Hs : a <= s <= b) by lra.
  assert (M0 : 0 <= M) by (eapply Rle_trans; [apply Rabs_pos|apply (HM s Hs)]).
  set (T := fun j => Rsum (map (fun k => F k s * (rpos p j * h) ^ k / INR (fact k)) (seq 0 (S n)))).
  assert (TB : forall j, In j (zseq 0 n) -> Rabs (F O (s + rpos p j * h) - T j) <= M * Rabs (rpos p j) ^ (S n) * h ^ (S n) / INR (fact (S n))).
  { intros j Hj. apply zseq_In in Hj. pose proof (taylor_bound n M a b F s (rpos p j * h) HD HM Hs) as Q.
    rewrite Rabs_mult, (Rabs_right h), Rpow_mult_distr, <- Rmult_assoc in Q by lra. apply Q.
    assert (- IZR (p - 1) <= IZR (2 * j - (p - 1)) <= IZR (p - 1)).
    { rewrite <- opp_IZR. split; apply IZR_le; unfold n in Hj; lia. }
    unfold rpos. assert (- (IZR (p - 1) / 2 * h) <= IZR (2 * j - (p - 1)) / 2 * h <= IZR (p - 1) / 2 * h); [|lra].
    split; [rewrite <- Ropp_mult_distr_l_reverse|]; apply Rmult_le_compat_r; lra. }
  assert (E1 : Rsum (map (fun j => Q2R (stencil_at p j) / h * T j) (zseq 0 n)) = Rsum (map (fun k => F k s * h ^ k / h / INR (fact k) * rmom p k) (seq 0 (S n)))).
  { transitivity (Rsum (map (fun j => Rsum (map (fun k => F k s * h ^ k / h / INR (fact k) * (Q2R (stencil_at p j) * rpos p j ^ k)) (seq 0 (S n)))) (zseq 0 n))).
    - f_equal. apply map_ext. intros j. unfold T. rewrite <- Rsum_map_mul. f_equal. apply map_ext. intros k. rewrite Rpow_mult_distr. unfold Rdiv. ring.
    - rewrite Rsum_swap. f_equal. apply map_ext. intros k. unfold rmom. rewrite Rsum_map_mul. reflexivity. }
  assert (E2 : F 1%nat s = Rsum (map (fun k => F k s * h ^ k / h / INR (fact k) * rtarget k) (seq 0 (S n)))).
  { rewrite pick1 by (unfold n; lia). cbn [pow fact INR Nat.mul Nat.add]. field. lra. }
  assert (E3 : quotient p h (F O) s - F 1%nat s =
    Rsum (map (fun k => F k s * h ^ k / h / INR (fact k) * (rmom p k - rtarget k)) (seq 0 (S n))) +
    Rsum (map (fun j => Q2R (stencil_at p j) / h * (F O (s + rpos p j * h) - T j)) (zseq 0 n))).
  { rewrite E2.
    replace (Rsum (map (fun k => F k s * h ^ k / h / INR (fact k) * (rmom p k - rtarget k)) (seq 0 (S n)))) with
      (Rsum (map (fun k => F k s * h ^ k / h / INR (fact k) * rmom p k) (seq 0 (S n))) - Rsum (map (fun k => F k s * h ^ k / h / INR (fact k) * rtarget k) (seq 0 (S n)))).
    2:{ unfold Rminus. rewrite <- (Rmult_1_l (Rsum (map (fun k => _ * rtarget k) _))), <- Ropp_mult_distr_l_reverse, <- Rsum_map_mul, <- Rsum_map_add.
        f_equal. apply map_ext. intros k. ring. }
    rewrite <- E1.
    replace (quotient p h (F O) s) with (Rsum (map (fun j => Q2R (stencil_at p j) / h * T j) (zseq 0 n)) + Rsum (map (fun j => Q2R (stencil_at p j) / h * (F O (s + rpos p j * h) - T j)) (zseq 0 n))); [ring|].
    rewrite <- Rsum_map_add. unfold quotient. f_equal. apply map_ext. intros j. fold (rpos p j). ring. }
  rewrite E3. eapply Rle_trans; [apply Rabs_triang|]. apply Rplus_le_compat.
  - eapply Rle_trans; [apply Rsum_abs|]. apply Rsum_le. intros k _. rewrite Rabs_mult. apply Req_le. f_equal.
    unfold Rdiv. rewrite !Rabs_mult. rewrite (Rabs_right (h ^ k)), (Rabs_right (/ h)), (Rabs_right (/ INR (fact k))); [reflexivity| | |].
    + apply Rle_ge, Rlt_le, Rinv_0_lt_compat, lt_0_INR, lt_O_fact.
    + apply Rle_ge, Rlt_le, Rinv_0_lt_compat, Hh.
    + apply Rle_ge, Rlt_le, pow_lt, Hh.
  - eapply Rle_trans; [apply Rsum_abs|].
    eapply Rle_trans; [apply (Rsum_le _ _ (fun j => M * h ^ n / INR (fact (S n)) * (Rabs (Q2R (stencil_at p j)) * Rabs (rpos p j) ^ S n)))|].
    + intros j Hj. rewrite Rabs_mult. unfold Rdiv at 1. rewrite Rabs_mult, (Rabs_right (/ h)) by (apply Rle_ge, Rlt_le, Rinv_0_lt_compat, Hh).
      eapply Rle_trans; [apply Rmult_le_compat_l; [|apply (TB j Hj)]|].
      * apply Rmult_le_pos; [apply Rabs_pos|apply Rlt_le, Rinv_0_lt_compat, Hh].
      * apply Req_le. cbn [pow]. field. split; [apply INR_fact_neq_0|lra].
    + rewrite Rsum_map_mul. change (Rsum _) with (amom p (S n)). pose proof (amom_bound p Hp) as Q. replace (Z.to_nat p + 1)%nat with (S n) in Q by (unfold n; lia).
      replace (M * h ^ n / INR (fact (S n)) * amom p (S n)) with (amom p (S n) / INR (fact (S n)) * (M * h ^ n)) by (unfold Rdiv; ring).
      rewrite Rmult_assoc. apply Rmult_le_compat_r; [|exact Q]. apply Rmult_le_pos; [exact M0|]. apply Rlt_le, pow_lt, Hh.
Qed.

Lemma deriv_unique f x a b : derivable_pt_lim f x a -> derivable_pt_lim f x b -> a = b.
Proof. apply uniqueness_limite. Qed.
Lemma deriv_ext f g x d : (forall s, f s = g s) -> derivable_pt_lim f x d -> derivable_pt_lim g x d.
Proof. intros E H eps He. destruct (H eps He) as (dl & Hd). exists dl. intros. rewrite <- !E. auto. Qed.
Lemma quotient_ext p h f g s : (forall x, f x = g x) -> quotient p h f s = quotient p h g s.
Proof. intros E. unfold quotient. f_equal. apply map_ext. intros. rewrite E. reflexivity. Qed.

Lemma quotient_error p h f a b M s d : exact_order p -> 0 < h -> smooth_on (Z.to_nat p) M a b f ->
  a <= s - IZR (p - 1) / 2 * h -> s + IZR (p - 1) / 2 * h <= b -> derivable_pt_lim f s d ->
  Rabs (quotient p h f s - d) <= error_const p * M * h ^ Z.to_nat p.
Proof.
  intros Hp Hh (F & F0 & FD & FM) Ha Hb Hd.
  assert (P2 : (2 <= p)%Z) by (destruct Hp as [<-|[<-|[<-|[<-|[]]]]]; lia).
  assert (IP : 0 <= IZR (p - 1) / 2 * h) by (assert (0 <= IZR (p - 1)) by (apply (IZR_le 0); lia); apply Rmult_le_pos; lra).
  assert (d = F 1%nat s) as ->.
  { apply (deriv_unique f s); [exact Hd|]. apply (deriv_ext (F O)); [exact F0|]. apply FD; [lia|lra]. }
  rewrite <- (quotient_ext p h (F O) f s F0).
  eapply Rle_trans; [apply (quotient_expand p h F a b M s (exact_supported p Hp) Hh FD FM Ha Hb)|].
  rewrite Rsum_map_0; [lra|]. intros k Hk. apply in_seq in Hk. rewrite (rmom_exact p k Hp) by lia.
  replace (rtarget k - rtarget k) with 0 by ring. rewrite Rabs_R0. ring.
Qed.
Lemma quotient_error_near p h F a b M s : supported p -> 0 < h ->
  (forall k s, (k <= Z.to_nat p)%nat -> a <= s <= b -> derivable_pt_lim (F k) s (F (S k) s)) ->
  (forall s, a <= s <= b -> Rabs (F (S (Z.to_nat p)) s) <= M) -> a <= s - IZR (p - 1) / 2 * h -> s + IZR (p - 1) / 2 * h <= b ->
  Rabs (quotient p h (F O) s - F 1%nat s) <=
    error_const p * M * h ^ Z.to_nat p + 3 / 1000000000000 * Rsum (map (fun k => Rabs (F (S k) s) * h ^ k / INR (fact (S k))) (seq 0 (Z.to_nat p))).
Proof.
  intros Hp Hh FD FM Ha Hb. eapply Rle_trans; [apply (quotient_expand p h F a b M s Hp Hh FD FM Ha Hb)|].
  rewrite Rplus_comm. apply Rplus_le_compat_l. cbn [seq map]. change (Rsum (?a :: ?b)) with (a + Rsum b). rewrite rmom_0 by exact Hp.
  unfold rtarget at 1. cbn [Nat.eqb]. rewrite Rminus_0_r, Rabs_R0, Rmult_0_r, Rplus_0_l. rewrite <- seq_shift, map_map, <- Rsum_map_mul.
  apply Rsum_le. intros k Hk. apply in_seq in Hk. pose proof (rmom_near p (S k) Hp ltac:(lia)) as Q.
  assert (0 <= Rabs (F (S k) s) * h ^ k / INR (fact (S k))).
  { unfold Rdiv. apply Rmult_le_pos; [apply Rmult_le_pos; [apply Rabs_pos|apply Rlt_le, pow_lt, Hh]|]. apply Rlt_le, Rinv_0_lt_compat, lt_0_INR, lt_O_fact. }
  replace (Rabs (F (S k) s) * h ^ S k / h / INR (fact (S k))) with (Rabs (F (S k) s) * h ^ k / INR (fact (S k))).
  - rewrite (Rmult_comm (3 / _)). apply Rmult_le_compat_l; assumption.
  - cbn [pow]. field. split; [lra|apply INR_fact_neq_0].
Qed.

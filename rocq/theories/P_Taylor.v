(** C164: error of the finite differences for smooth functions. *)
From Coq Require Import Reals Lra ZArith List QArith Qreals.
Import ListNotations.
From Verif Require Import Base M_Grid M_Deriv S_Deriv L_Deriv L_Fd S_Solver L_Leap S_Taylor L_Taylor P_Deriv.
Open Scope R_scope.

(** Orders 2 to 8: the finite-difference quotient of a function with bounded derivative of order p+1 differs from the derivative
    by at most error_const p * M * h^p. *)
Theorem C164_quotient : forall p h f a b M s d, In p [2; 4; 6; 8]%Z -> 0 < h -> smooth_on (Z.to_nat p) M a b f ->
  a <= s - IZR (p - 1) / 2 * h -> s + IZR (p - 1) / 2 * h <= b -> derivable_pt_lim f s d ->
  Rabs (quotient p h f s - d) <= error_const p * M * h ^ Z.to_nat p.
Proof. exact quotient_error. Qed.
Print Assumptions C164_quotient.

(** All orders; the coefficients of orders 10 and 12 are rounded, which adds a relative error of 3e-12 of the Taylor terms. *)
Theorem C164_quotient_rounded : forall p h F a b M s, In p [2; 4; 6; 8; 10; 12]%Z -> 0 < h ->
  (forall k s, (k <= Z.to_nat p)%nat -> a <= s <= b -> derivable_pt_lim (F k) s (F (S k) s)) ->
  (forall s, a <= s <= b -> Rabs (F (S (Z.to_nat p)) s) <= M) -> a <= s - IZR (p - 1) / 2 * h -> s + IZR (p - 1) / 2 * h <= b ->
  Rabs (quotient p h (F O) s - F 1%nat s) <=
    error_const p * M * h ^ Z.to_nat p + 3 / 1000000000000 * Rsum (map (fun k => Rabs (F (S k) s) * h ^ k / INR (fact (S k))) (seq 0 (Z.to_nat p))).
Proof. exact quotient_error_near. Qed.
Print Assumptions C164_quotient_rounded.

(** ** assembled rows *)
Lemma row_quotient N h colf q x0 row field u : is_row N h colf stencil_at q x0 row -> ~ (h == 0)%Q ->
  (forall X, (0 <= X < N)%Z -> field (colf X) = u (IZR X * Q2R h)) -> 
  rapply row field = quotient q (Q2R h) u ((IZR x0 + IZR (q - 1) / 2) * Q2R h).
Proof.
  intros (H1 & H2 & -> & _) Hh Hu. unfold rapply, quotient. rewrite map_map. cbn [fst snd]. f_equal. apply map_ext_in. intros j Hj.
  apply zseq_In in Hj. rewrite Hu by lia. unfold Qdiv. rewrite Q2R_mult, Q2R_inv by exact Hh. unfold Rdiv. f_equal. f_equal.
  rewrite plus_IZR, !minus_IZR, mult_IZR. field.
Qed.
Lemma row_approx N h colf q x0 row : is_row N h colf stencil_at q x0 row -> (0 < h)%Q -> In q [2; 4; 6; 8]%Z ->
  approximates row colf N (Q2R h) q ((IZR x0 + IZR (q - 1) / 2) * Q2R h).
Proof.
  intros R Hh Hq field u M d Hu Hs Hd. assert (H0 : ~ (h == 0)%Q) by (intros E; rewrite E in Hh; inversion Hh).
  apply Qlt_Rlt in Hh. rewrite RMicromega.Q2R_0 in Hh. rewrite (row_quotient N h colf q x0 row field u R H0 Hu).
  destruct R as (R1 & R2 & _). apply (C164_quotient q (Q2R h) u 0 (IZR (N - 1) * Q2R h)); auto.
  - replace (_ - _) with (IZR x0 * Q2R h) by ring. apply Rmult_le_pos; [apply (IZR_le 0); lia|lra].
  - replace (_ + _) with ((IZR x0 + IZR (q - 1)) * Q2R h) by field. apply Rmult_le_compat_r; [lra|]. rewrite <- plus_IZR. apply IZR_le. lia.
Qed.
Lemma order_even p k : In p [2; 4; 6; 8]%Z -> (1 <= k)%Z -> (2 * k <= p)%Z -> In (2 * k)%Z [2; 4; 6; 8]%Z.
Proof.
  intros Hp H1 H2. assert (k = 1 \/ k = 2 \/ k = 3 \/ k = 4)%Z as H by (destruct Hp as [<-|[<-|[<-|[<-|[]]]]]; lia).
  destruct H as [-> |[-> |[-> | ->]]]; simpl; tauto.
Qed.
Lemma forward_approx N h colf p x row : forward_row N h colf stencil_at p x row -> (0 < h)%Q -> In p [2; 4; 6; 8]%Z ->
  ((x < N - 1)%Z -> exists k, (1 <= k)%Z /\ (2 * k <= p)%Z /\ (forall k', 2 * k' <= p -> 0 <= x - k' + 1 -> x + k' <= N - 1 -> k' <= k)%Z /\
     approximates row colf N (Q2R h) (2 * k) ((IZR x + 1 / 2) * Q2R h)) /\
  (x = (N - 1)%Z -> approximates row colf N (Q2R h) 2 ((IZR x - 1 / 2) * Q2R h)).
Proof.
  intros (k & x0 & K1 & K2 & R & A & B) Hh Hp. pose proof (order_even p k Hp K1 K2) as Hk. split; intros Hx.
  - destruct (A Hx) as [-> MX]. exists k. split; [exact K1|]. split; [exact K2|]. split; [exact MX|].
    replace ((IZR x + 1 / 2) * Q2R h) with ((IZR (x - k + 1) + IZR (2 * k - 1) / 2) * Q2R h); [apply row_approx; assumption|].
    f_equal. rewrite plus_IZR, !minus_IZR, mult_IZR. field.
  - destruct (B Hx) as [-> ->]. change (2 * 1)%Z with 2%Z in *.
    replace ((IZR x - 1 / 2) * Q2R h) with ((IZR (x - 1) + IZR (2 - 1) / 2) * Q2R h); [apply row_approx; assumption|].
    f_equal. rewrite minus_IZR. simpl. field.
Qed.
Lemma backward_approx N h colf p x row : backward_row N h colf stencil_at p x row -> (0 < h)%Q -> In p [2; 4; 6; 8]%Z ->
  ((0 < x)%Z -> exists k, (1 <= k)%Z /\ (2 * k <= p)%Z /\ (forall k', 2 * k' <= p -> 0 <= x - k' -> x + k' - 1 <= N - 1 -> k' <= k)%Z /\
     approximates row colf N (Q2R h) (2 * k) ((IZR x - 1 / 2) * Q2R h)) /\
  (x = 0%Z -> approximates row colf N (Q2R h) 2 ((IZR x + 1 / 2) * Q2R h)).
Proof.
  intros (k & x0 & K1 & K2 & R & A & B) Hh Hp. pose proof (order_even p k Hp K1 K2) as Hk. split; intros Hx.
  - destruct (A Hx) as [-> MX]. exists k. split; [exact K1|]. split; [exact K2|]. split; [exact MX|].
    replace ((IZR x - 1 / 2) * Q2R h) with ((IZR (x - k) + IZR (2 * k - 1) / 2) * Q2R h); [apply row_approx; assumption|].
    f_equal. rewrite !minus_IZR, mult_IZR. field.
  - destruct (B Hx) as [-> ->]. change (2 * 1)%Z with 2%Z in *. subst x.
    replace ((0 + 1 / 2) * Q2R h) with ((0 + IZR (2 - 1) / 2) * Q2R h); [apply row_approx; assumption|].
    f_equal.
Qed.

Lemma DH1 DH : (0 < DH)%Q -> (0 < DH * inject_Z 1)%Q /\ Q2R (DH * inject_Z 1) = Q2R DH.
Proof. intros H. assert (E : (DH * inject_Z 1 == DH)%Q) by ring. split; [rewrite E; exact H|apply Qeq_eqR, E]. Qed.

Theorem C164_rows : forall nx ny nz g p rest useVar DH x y z fuel,
  mk_regular nx ny nz = Ok g -> In p [2; 4; 6; 8]%Z -> (0 <= x < nx)%Z -> (0 <= y < ny)%Z -> (0 <= z < nz)%Z -> (15 <= Z.of_nat fuel)%Z -> (0 < DH)%Q ->
  let i := reg_index nx nz x y z in let h := Q2R DH in
  ((2 <= nx)%Z -> (exists row, calcDxf fuel g (p :: rest) useVar DH i = Ok row /\ forward_good row (fun X => reg_index nx nz X y z) nx h p x) /\
                  (exists row, calcDxb fuel g (p :: rest) useVar DH i = Ok row /\ backward_good row (fun X => reg_index nx nz X y z) nx h p x)) /\
  ((2 <= ny)%Z -> (exists row, calcDyf fuel g (p :: rest) useVar false DH i = Ok row /\ forward_good row (fun Y => reg_index nx nz x Y z) ny h p y) /\
                  (exists row, calcDyb fuel g (p :: rest) useVar false DH i = Ok row /\ backward_good row (fun Y => reg_index nx nz x Y z) ny h p y)) /\
  ((2 <= nz)%Z -> (exists row, calcDzf fuel g (p :: rest) useVar DH i = Ok row /\ forward_good row (fun Z => reg_index nx nz x y Z) nz h p z) /\
                  (exists row, calcDzb fuel g (p :: rest) useVar DH i = Ok row /\ backward_good row (fun Z => reg_index nx nz x y Z) nz h p z)).
Proof.
  intros nx ny nz g p rest useVar DH x y z fuel Hg Hp Hx Hy Hz Hf HD i h. destruct (DH1 DH HD) as (D1 & D2). unfold h, i.
  assert (Hp' : In p [2; 4; 6; 8; 10; 12]%Z) by (simpl in *; tauto).
  repeat split; intros.
  - destruct (C10_Dx_rows nx ny nz g p rest useVar DH x y z fuel) as ((r & E & R) & _); auto. exists r. split; [exact E|]. rewrite <- D2. apply forward_approx; assumption.
  - destruct (C10_Dx_rows nx ny nz g p rest useVar DH x y z fuel) as (_ & (r & E & R)); auto. exists r. split; [exact E|]. rewrite <- D2. apply backward_approx; assumption.
  - destruct (C10_Dy_rows nx ny nz g p rest useVar DH x y z fuel) as ((r & E & R) & _); auto. exists r. split; [exact E|]. rewrite <- D2. apply forward_approx; assumption.
  - destruct (C10_Dy_rows nx ny nz g p rest useVar DH x y z fuel) as (_ & (r & E & R)); auto. exists r. split; [exact E|]. rewrite <- D2. apply backward_approx; assumption.
  - destruct (C10_Dz_rows nx ny nz g p rest useVar DH x y z fuel) as ((r & E & R) & _); auto. exists r. split; [exact E|]. rewrite <- D2. apply forward_approx; assumption.
  - destruct (C10_Dz_rows nx ny nz g p rest useVar DH x y z fuel) as (_ & (r & E & R)); auto. exists r. split; [exact E|]. rewrite <- D2. apply backward_approx; assumption.
Qed.
Print Assumptions C164_rows.

(** The sine is smooth with all derivatives bounded by 1: with spacing 1/10 the quotient of order 4 of sin at 1 differs from cos 1 by
    at most 3/512/10000.  The constant is sharp for order 2: for s^3 at 0 the error is exactly error_const 2 * 6 * h^2. *)
Lemma sin_smooth n a b : smooth_on n 1 a b sin.
Proof.
  exists (fun k s => sin (s + INR k * (PI / 2))). split; [intros s; cbn [INR]; f_equal; ring|]. split.
  - intros k s _ _. rewrite S_INR. replace (s + (INR k + 1) * (PI / 2)) with (PI / 2 + (s + INR k * (PI / 2))) by ring. rewrite <- cos_sin.
    assert (Q : derivable_pt_lim (comp sin (fun s => s + INR k * (PI / 2))) s (cos (s + INR k * (PI / 2)) * (1 + 0))).
    { apply derivable_pt_lim_comp; [|apply derivable_pt_lim_sin]. apply (derivable_pt_lim_plus (fun s => s) (fun _ => INR k * (PI / 2))); [apply derivable_pt_lim_id|apply derivable_pt_lim_const]. }
    rewrite Rplus_0_r, Rmult_1_r in Q. exact Q.
  - intros s _. apply Rabs_le. apply SIN_bound.
Qed.
Example C164_ex : Rabs (quotient 4 (1 / 10) sin 1 - cos 1) <= 3 / 512 * 1 * (1 / 10) ^ 4 /\
  (forall h, 0 < h -> Rabs (quotient 2 h (fun s => s ^ 3) 0 - 0) = error_const 2 * 6 * h ^ 2).
Proof.
  split.
  - pose proof (C164_quotient 4 (1 / 10) sin 0 2 1 1 (cos 1)) as Q. unfold error_const in Q. cbn [Z.eqb Pos.eqb] in Q. apply Q.
    + simpl. tauto.
    + lra.
    + apply sin_smooth.
    + change (4 - 1)%Z with 3%Z. lra.
    + change (4 - 1)%Z with 3%Z. lra.
    + apply derivable_pt_lim_sin.
  - intros h Hh. unfold quotient, error_const. cbn [Z.eqb Pos.eqb]. change (zseq 0 (Z.to_nat 2)) with [0; 1]%Z. cbn [map]. unfold Rsum. cbn [fold_right].
    change (2 * 0 - (2 - 1))%Z with (-1)%Z. change (2 * 1 - (2 - 1))%Z with 1%Z.
    assert (S0 : (stencil_at 2 0 == -1 # 1)%Q) by (apply Qeq_bool_iff; vm_compute; reflexivity).
    assert (S1 : (stencil_at 2 1 == 1 # 1)%Q) by (apply Qeq_bool_iff; vm_compute; reflexivity).
    rewrite (Qeq_eqR _ _ S0), (Qeq_eqR _ _ S1). unfold Q2R. cbn [Qnum Qden].
    match goal with |- Rabs ?e = _ => replace e with (h ^ 2 / 4) by (field; lra) end.
    rewrite Rabs_right; [field|]. apply Rle_ge. assert (0 <= h ^ 2) by (apply pow2_ge_0). lra.
Qed.

(** Property C171: energy balance and stability of the electromagnetic solvers with Debye relaxation. *)
From Coq Require Import QArith Qreals Reals Lra FunctionalExtensionality.
From Verif Require Import M_Grid M_Deriv S_Deriv L_Deriv L_Deriv2 M_Prog M_Solvers M_Env M_Surface M_Relax S_Solver S_Step S_Check S_Energy S_Energy2 L_Prog L_Lin L_Src L_Env
  L_Surface L_Leap L_Leap2 L_Diff L_Energy L_Energy4 L_Energy5 P_Solver2 P_Check P_Step P_Energy P_EnergyEx.
Open Scope R_scope.
Open Scope list_scope.

Lemma debye_geo S axes es hs : debye_setting S axes es hs -> em_geometry axes es hs.
Proof. intros [(_ & H)|[(_ & H)|(_ & H)]]; unfold em_geometry; tauto. Qed.
Lemma debye_run (e : env R_arith) c src st S axes es hs f eps sigma tau tauS eps0 DT : debye_setting S axes es hs -> closed_box c -> uniform e -> 0 < DT ->
  (forall l, (l < c_L c)%nat -> 0 < f l) -> 0 < eps0 -> (forall a i, 0 <= eps a i) -> (forall a i, 0 <= sigma a i) -> (forall a i, 0 <= tau a i) ->
  (forall a, In a es -> viscoem_prepared e DT f (c_L c) (up a) (eps a) (sigma a) (tau a) (tauS a) eps0) ->
  (forall ty t i, injected (src ty) t i = 0) ->
  let T l := / (2 * PI * f l) in
  let epsO a i := Rmax eps0 (eps a i * (1 - tau a i) + sigma a i * tauS a i) in
  let sigmaO a i := sigma a i + eps a i * tau a i * (Rsum (map (fun l => 2 * PI * f l) (seq 0 (c_L c))) / INR (c_L c)) in
  let g a l i := eps a i * tau a i / (INR (c_L c) * T l) in
  let after n := fst (steps S c (Shot R_arith e src (fun _ => []) 0) 0 n st) in
  forall n, maxwell_step e c (after n) axes es hs epsO sigmaO (c_L c) T g DT (after (Datatypes.S n)).
Proof.
  intros HS Hc HU HD Hf H00 He Hs Ht HP H0 T epsO sigmaO g after n. destruct Hc as ((Hpml & _) & _).
  destruct (C95_debye e c src n (after n) f eps sigma tau tauS eps0 DT HU HD Hf H00 He Hs Ht) as (P1 & P2 & P3).
  destruct HS as [(ES & EA & EE & EH)|[(ES & EA & EE & EH)|(ES & EA & EE & EH)]]; rewrite EA, EE, EH in *.
  - eapply maxwell_ext; [|apply P1; intros a Ha; apply HP, has_in, Ha]. intros r i. unfold after. rewrite ES. apply run_no_source; [cbn; tauto|exact H0].
  - eapply maxwell_ext; [|apply P2; apply (HP AZ); cbn; tauto]. intros r i. unfold after. rewrite ES. apply run_no_source; [cbn; tauto|exact H0].
  - eapply maxwell_ext; [|apply P3; [intros a; apply HP; destruct a; cbn; tauto|rewrite Hpml; discriminate]]. intros r i. unfold after. rewrite ES. apply run_no_source; [cbn; tauto|exact H0].
Qed.
Lemma debye_T (f : nat -> R) l : 0 < f l -> 0 < / (2 * PI * f l).
Proof. intros H. pose proof PI_RGT_0. apply Rinv_0_lt_compat. apply Rmult_lt_0_compat; [lra|exact H]. Qed.
Lemma debye_g L (f : nat -> R) (u v : R) l : 0 < f l -> 0 <= u -> 0 <= v -> (l < L)%nat -> 0 <= u * v / (INR L * / (2 * PI * f l)).
Proof. intros H U V Hl. pose proof (debye_T f l H). apply Rle_mult_inv_pos; [apply Rmult_le_pos; assumption|]. apply Rmult_lt_0_compat; [apply lt_0_INR; lia|assumption]. Qed.
Lemma debye_sigma L (f : nat -> R) (s u v : R) : (forall l, (l < L)%nat -> 0 < f l) ->
  s + u * v * (Rsum (map (fun l => 2 * PI * f l) (seq 0 L)) / INR L) = s + Rsum (map (fun l => u * v / (INR L * / (2 * PI * f l))) (seq 0 L)).
Proof.
  intros Hf. f_equal. replace (u * v * (Rsum (map (fun l => 2 * PI * f l) (seq 0 L)) / INR L)) with (u * v / INR L * Rsum (map (fun l => 2 * PI * f l) (seq 0 L))) by (unfold Rdiv; ring).
  rewrite <- Rsum_map_mul. apply Rsum_map_ext. intros l Hl. apply in_seq in Hl. pose proof (Hf l ltac:(lia)). pose proof PI_RGT_0. assert (0 < INR L) by (apply lt_0_INR; lia). field. repeat split; lra.
Qed.

(** Magnetic energy, electric energy of the optical permittivity and energy of the polarization decrease by what the static conductivity
    and the relaxation take out. *)
Theorem C171_balance : forall (e : env R_arith) (c : cfg) (useVar hybrid : bool) (nx ny nz p : Z) (rest : list Z) (DH : Q)
    (fuel : nat) (k : R) (cv : Q -> R) (gr : grid) (src : acq R_arith) (st : state R_arith) (S : solver) (axes es hs : list axis)
    (f : nat -> R) (eps sigma tau tauS : axis -> Z -> R) (eps0 DT : R),
  @fd_matrices R_arith e c true useVar hybrid nx ny nz p rest DH fuel (fun q => Q2R q * k) cv gr -> closed_box c -> uniform e ->
  debye_setting S axes es hs -> (In AZ axes -> (2 <= nz)%Z) -> 0 < DT ->
  (forall l, (l < c_L c)%nat -> 0 < f l) -> 0 < eps0 -> (forall a i, 0 <= eps a i) -> (forall a i, 0 <= sigma a i) -> (forall a i, 0 <= tau a i) ->
  (forall a, In a es -> viscoem_prepared e DT f (c_L c) (up a) (eps a) (sigma a) (tau a) (tauS a) eps0) ->
  (forall a i, In a hs -> 0 < e_coef e (inv_mu a) i) ->
  (forall ty t i, injected (src ty) t i = 0) ->
  (forall a l i, In a es -> (l < c_L c)%nat -> eps a i * tau a i = 0 -> st (rfield a l) i = 0) ->
  let T l := / (2 * PI * f l) in
  let epsO a i := Rmax eps0 (eps a i * (1 - tau a i) + sigma a i * tauS a i) in
  let g a l i := eps a i * tau a i / (INR (c_L c) * T l) in
  let after n := fst (steps S c (Shot R_arith e src (fun _ => []) 0) 0 n st) in
  let E n := magnetic nx ny nz e hs (after n) (after (Datatypes.S n)) + electric nx ny nz es epsO (after n) +
    polarization nx ny nz es (c_L c) T g DT (after n) (after (Datatypes.S n)) in
  let ohmic n := ohmic_loss nx ny nz es sigma DT (after n) (after (Datatypes.S n)) in
  let relax n := relaxation_loss nx ny nz es (c_L c) T g DT (after n) (after (Datatypes.S (Datatypes.S n))) in
  forall n, E (Datatypes.S n) = E n - ohmic n - relax n /\ 0 <= ohmic n /\ ((forall l, (l < c_L c)%nat -> DT <= 2 * T l) -> 0 <= relax n).
Proof.
  intros e c useVar hybrid nx ny nz p rest DH fuel k cv gr src st S axes es hs f eps sigma tau tauS eps0 DT HM Hc HU HS Hz HDT Hf H00 He Hs Ht HP Hm H0 Hst T epsO g after E ohmic relax n.
  pose proof (debye_run e c src st S axes es hs f eps sigma tau tauS eps0 DT HS Hc HU HDT Hf H00 He Hs Ht HP H0) as HR. cbv zeta in HR. destruct Hc as (Hu & _).
  assert (Hax : forall a, In a axes -> ax_ok nz a) by (intros a Ha ->; apply Hz, Ha).
  assert (HT : forall l, (l < c_L c)%nat -> 0 < T l) by (intros l Hl; apply debye_T, Hf, Hl).
  assert (Hg : forall a l i, (l < c_L c)%nat -> 0 <= g a l i) by (intros a l i Hl; apply debye_g; auto).
  assert (HeO : forall a x y z, has es a = true -> inside nx ny nz x y z -> 0 < epsO a (reg_index nx nz x y z)) by (intros a x y z _ _; eapply Rlt_le_trans; [exact H00|apply Rmax_l]).
  assert (Hm' : forall a x y z, has hs a = true -> inside nx ny nz x y z -> 0 < e_coef e (inv_mu a) (reg_index nx nz x y z)) by (intros; apply Hm, has_in; assumption).
  assert (Q : forall n, still es (c_L c) g (after n)).
  { intros m. induction m as [|m IH].
    - intros a l i Ha Hl G0. apply Hst; [apply has_in, Ha|exact Hl|]. unfold g in G0. pose proof (HT l Hl). assert (0 < INR (c_L c)) by (apply lt_0_INR; lia).
      assert (X : 0 < / (INR (c_L c) * T l)) by (apply Rinv_0_lt_compat, Rmult_lt_0_compat; assumption). unfold Rdiv in G0. apply Rmult_integral in G0. destruct G0; lra.
    - exact (still_next e c axes es hs _ _ (c_L c) T g DT HT HDT _ _ (HR m) IH). }
  split; [|split].
  - exact (de_energy e c useVar hybrid nx ny nz p rest DH fuel k cv gr HM Hu axes es hs (debye_geo S axes es hs HS) Hax Hm' epsO _ sigma (c_L c) T g DT HeO HT HDT Hg
      (fun a i => debye_sigma (c_L c) f (sigma a i) (eps a i) (tau a i) Hf) (after n) (after (Datatypes.S n)) (after (Datatypes.S (Datatypes.S n))) (HR n) (HR _) (Q n)).
  - exact (ohmic_pos nx ny nz es sigma DT (after n) (after (Datatypes.S n)) ltac:(lra) (fun a x y z _ _ => Hs a _)).
  - intros H2. exact (loss_pos e nx ny nz axes es hs Hax Hm' epsO _ sigma (c_L c) T g DT HeO HT HDT Hg (fun a i => debye_sigma (c_L c) f (sigma a i) (eps a i) (tau a i) Hf) H2 (after n) (after (Datatypes.S (Datatypes.S n)))).
Qed.
Print Assumptions C171_balance.

(** Below the CFL limit of the optical velocity, and with a time step not above twice the relaxation times, all fields stay bounded. *)
Theorem C171_stable : forall (e : env R_arith) (c : cfg) (useVar hybrid : bool) (nx ny nz p : Z) (rest : list Z) (DH : Q)
    (fuel : nat) (cv : Q -> R) (gr : grid) (src : acq R_arith) (st : state R_arith) (S : solver) (axes es hs : list axis)
    (f : nat -> R) (eps sigma tau tauS : axis -> Z -> R) (eps0 DT mmax emin v : R),
  @fd_matrices R_arith e c true useVar hybrid nx ny nz p rest DH fuel (fun q => Q2R q * (DT / Q2R DH)) cv gr -> closed_box c -> uniform e ->
  debye_setting S axes es hs -> (In AZ axes -> (2 <= nz)%Z) -> supported p ->
  (forall l, (l < c_L c)%nat -> 0 < f l) -> 0 < eps0 -> (forall a i, 0 <= eps a i) -> (forall a i, 0 <= sigma a i) -> (forall a i, 0 <= tau a i) ->
  (forall a, In a es -> viscoem_prepared e DT f (c_L c) (up a) (eps a) (sigma a) (tau a) (tauS a) eps0) ->
  (forall a i, In a hs -> 0 < e_coef e (inv_mu a) i <= mmax) ->
  (forall ty t i, injected (src ty) t i = 0) ->
  (forall a l i, In a es -> (l < c_L c)%nat -> eps a i * tau a i = 0 -> st (rfield a l) i = 0) ->
  let T l := / (2 * PI * f l) in
  let epsO a i := Rmax eps0 (eps a i * (1 - tau a i) + sigma a i * tauS a i) in
  let g a l i := eps a i * tau a i / (INR (c_L c) * T l) in
  0 < emin -> (forall a i, emin <= epsO a i) -> (forall l, (l < c_L c)%nat -> DT <= 2 * T l) ->
  0 < DT -> 0 < Q2R DH -> 0 < v -> mmax / emin <= v * v -> DT < cfl_limit p (Z.of_nat (length axes)) (Q2R DH) v ->
  let after n := fst (steps S c (Shot R_arith e src (fun _ => []) 0) 0 n st) in
  let E0 := magnetic nx ny nz e hs st (after 1%nat) + electric nx ny nz es epsO st + polarization nx ny nz es (c_L c) T g DT st (after 1%nat) in
  let q := (DT / cfl_limit p (Z.of_nat (length axes)) (Q2R DH) v) * (DT / cfl_limit p (Z.of_nat (length axes)) (Q2R DH) v) in
  q < 1 /\ forall n x y z, (0 <= x < nx)%Z -> (0 <= y < ny)%Z -> (0 <= z < nz)%Z -> let i := reg_index nx nz x y z in
    (forall a, In a es -> (1 - q) * (emin * (after n (efield a) i * after n (efield a) i)) <= E0) /\
    (forall a, In a hs -> (1 - q) * (after (Datatypes.S n) (hfield a) i * after (Datatypes.S n) (hfield a) i) <= 2 * mmax * E0) /\
    (forall a l, In a es -> (l < c_L c)%nat -> T l * (after (Datatypes.S n) (rfield a l) i * after (Datatypes.S n) (rfield a l) i) <= 2 * g a l i * E0).
Proof.
  intros e c useVar hybrid nx ny nz p rest DH fuel cv gr src st S axes es hs f eps sigma tau tauS eps0 DT mmax emin v HM Hc HU HS Hz Hp Hf H00 He Hs Ht HP Hm H0 Hst T epsO g Hem0 Hem H2 HDT HDH Hv Hvb Hcfl after E0 q.
  assert (Hm1 : forall a i, In a hs -> 0 < e_coef e (inv_mu a) i) by (intros; apply Hm; assumption).
  assert (M0 : 0 < mmax) by (destruct HS as [(_ & _ & _ & E)|[(_ & _ & _ & E)|(_ & _ & _ & E)]]; [destruct (Hm AZ 0%Z)|destruct (Hm AX 0%Z)|destruct (Hm AX 0%Z)]; try lra; rewrite E; cbn; tauto).
  assert (Hn : (0 < length axes)%nat) by (destruct HS as [(_ & -> & _)|[(_ & -> & _)|(_ & -> & _)]]; cbn; lia).
  destruct (theta (length axes) p DT (Q2R DH) v (mmax / emin) Hp HDT HDH Hv Hn) as (T1 & T2).
  { split; [apply Rle_mult_inv_pos; lra|exact Hvb]. }
  { exact Hcfl. }
  fold q in T1, T2. split; [exact T2|]. intros n x y z Hx Hy Hz' i. assert (Hi : inside nx ny nz x y z) by (unfold inside; auto).
  pose proof (debye_run e c src st S axes es hs f eps sigma tau tauS eps0 DT HS Hc HU HDT Hf H00 He Hs Ht HP H0) as HR. cbv zeta in HR.
  set (E := fun n => magnetic nx ny nz e hs (after n) (after (Datatypes.S n)) + electric nx ny nz es epsO (after n) + polarization nx ny nz es (c_L c) T g DT (after n) (after (Datatypes.S n))).
  assert (HE : E n <= E0).
  { apply (mono E). intros m.
    assert (X : E (Datatypes.S m) = E m - ohmic_loss nx ny nz es sigma DT (after m) (after (Datatypes.S m)) - relaxation_loss nx ny nz es (c_L c) T g DT (after m) (after (Datatypes.S (Datatypes.S m))) /\
      0 <= ohmic_loss nx ny nz es sigma DT (after m) (after (Datatypes.S m)) /\ ((forall l, (l < c_L c)%nat -> DT <= 2 * T l) -> 0 <= relaxation_loss nx ny nz es (c_L c) T g DT (after m) (after (Datatypes.S (Datatypes.S m)))))
      by exact (C171_balance e c useVar hybrid nx ny nz p rest DH fuel (DT / Q2R DH) cv gr src st S axes es hs f eps sigma tau tauS eps0 DT HM Hc HU HS Hz HDT Hf H00 He Hs Ht HP Hm1 H0 Hst m).
    destruct X as (X1 & X2 & X3). specialize (X3 H2). lra. }
  assert (Hax : forall a, In a axes -> ax_ok nz a) by (intros a Ha ->; apply Hz, Ha). destruct Hc as (Hu & _).
  assert (HT : forall l, (l < c_L c)%nat -> 0 < T l) by (intros l Hl; apply debye_T, Hf, Hl).
  assert (Hg : forall a l i, (l < c_L c)%nat -> 0 <= g a l i) by (intros a l i' Hl; apply debye_g; auto).
  assert (G1 : forall a x y z, has hs a = true -> inside nx ny nz x y z -> 0 < e_coef e (inv_mu a) (reg_index nx nz x y z)) by (intros; apply Hm1, has_in; assumption).
  assert (G2 : forall a x y z, has hs a = true -> inside nx ny nz x y z -> e_coef e (inv_mu a) (reg_index nx nz x y z) <= mmax) by (intros; apply Hm, has_in; assumption).
  assert (G3 : forall a x y z, has es a = true -> inside nx ny nz x y z -> 0 < epsO a (reg_index nx nz x y z)) by (intros a' x' y' z' _ _; pose proof (Hem a' (reg_index nx nz x' y' z')); lra).
  assert (G4 : forall a x y z, has es a = true -> inside nx ny nz x y z -> emin <= epsO a (reg_index nx nz x y z)) by (intros; apply Hem).
  assert (Q : forall n, still es (c_L c) g (after n)).
  { intros m. induction m as [|m IH].
    - intros a l i' Ha Hl G0. apply Hst; [apply has_in, Ha|exact Hl|]. unfold g in G0. pose proof (HT l Hl). assert (0 < INR (c_L c)) by (apply lt_0_INR; lia).
      assert (X : 0 < / (INR (c_L c) * T l)) by (apply Rinv_0_lt_compat, Rmult_lt_0_compat; assumption). unfold Rdiv in G0. apply Rmult_integral in G0. destruct G0; lra.
    - exact (still_next e c axes es hs _ _ (c_L c) T g DT HT HDT _ _ (HR m) IH). }
  assert (Hq : em_th p (DT / Q2R DH) axes mmax emin <= q) by exact T1.
  destruct (de_bound e c useVar hybrid nx ny nz p rest DH fuel (DT / Q2R DH) cv gr HM Hu axes es hs (debye_geo S axes es hs HS) Hax G1 epsO _ (c_L c) T g DT G3 Hp mmax emin G2 ltac:(lra) Hem0 G4
    (after n) (after (Datatypes.S n)) (HR n) ltac:(lra)) as (B1 & B2).
  pose proof (pol_pos e nx ny nz axes es hs Hax G1 epsO _ sigma (c_L c) T g DT G3 HT HDT Hg (fun a i => debye_sigma (c_L c) f (sigma a i) (eps a i) (tau a i) Hf) H2 (after n) (after (Datatypes.S n)) (Q _) (Q _)) as PL.
  pose proof (elec_pos nx ny nz es epsO G3 (after n)) as P0.
  assert (KK : 0 <= magnetic nx ny nz e hs (after (Datatypes.S n)) (after (Datatypes.S n))).
  { unfold magnetic, sum_axes. apply Rsum_map_pos. intros a Ha. apply gpos. intros x' y' z' Hi'. apply sq_div, Hm1, Ha. }
  set (F := magnetic nx ny nz e hs (after n) (after (Datatypes.S n)) + electric nx ny nz es epsO (after n)) in *.
  assert (HF : F <= E0) by (unfold E in HE; unfold F; lra).
  assert (HL : polarization nx ny nz es (c_L c) T g DT (after n) (after (Datatypes.S n)) <= E0).
  { assert (0 <= F); [|unfold E in HE; unfold F in *; lra]. assert (0 <= (1 - em_th p (DT / Q2R DH) axes mmax emin) * electric nx ny nz es epsO (after n)) by (apply Rmult_le_pos; lra). lra. }
  pose proof (weaken _ _ _ _ Hq P0 B1) as W1. pose proof (weaken _ _ _ _ Hq KK B2) as W2. split; [|split].
  - intros a Ha. pose proof (elec_point nx ny nz es epsO G3 emin G4 (after n) a x y z Ha Hi) as PP. fold i in PP.
    apply Rle_trans with ((1 - q) * electric nx ny nz es epsO (after n)); [apply Rmult_le_compat_l; [lra|exact PP]|lra].
  - intros a Ha. pose proof (mag_point e nx ny nz hs G1 mmax G2 ltac:(lra) (after (Datatypes.S n)) a x y z Ha Hi) as KP. fold i in KP.
    apply Rle_trans with ((1 - q) * (mmax * magnetic nx ny nz e hs (after (Datatypes.S n)) (after (Datatypes.S n)))); [apply Rmult_le_compat_l; [lra|exact KP]|].
    apply (Rmult_le_compat_l mmax) in W2; [|lra]. assert (mmax * (2 * F) <= 2 * mmax * E0) by (apply (Rmult_le_compat_l mmax) in HF; lra). lra.
  - intros a l Ha Hl. pose proof (pol_point e nx ny nz axes es hs Hax G1 epsO _ sigma (c_L c) T g DT G3 HT HDT Hg (fun a i => debye_sigma (c_L c) f (sigma a i) (eps a i) (tau a i) Hf) H2
      (after n) (after (Datatypes.S n)) a l x y z Ha Hl Hi (Q _) (Q _)) as PP. fold i in PP. eapply Rle_trans; [exact PP|]. apply Rmult_le_compat_l; [pose proof (Hg a l i Hl); lra|exact HL].
Qed.
Print Assumptions C171_stable.

(** Two mechanisms of frequencies 1 and 2, static permittivity 2, tau 1/2, conductivity 1, time step 1/10. *)
Definition ex_eo : R := epsOptical 2 1 (1 / 2) 0 (1 / 2).
Definition ex_coef_d (n : nm) (_ : Z) : R :=
  let '(N x l) := n in if existsb (String.eqb x) ["CaAverageX"; "CaAverageY"; "CaAverageZ"]%string then getCa ex_eo (sigmaOptical 2 ex_f 2 1 (1 / 2)) (1 / 10)
  else if existsb (String.eqb x) ["CbAverageX"; "CbAverageY"; "CbAverageZ"]%string then getCb ex_eo (sigmaOptical 2 ex_f 2 1 (1 / 2)) (1 / 10)
  else if existsb (String.eqb x) ["CdAverageX"; "CdAverageY"; "CdAverageZ"]%string then getCd 2 ex_f 2 (1 / 2) (1 / 10) l else 1.
Definition ex_sca_d (n : nm) : R := let '(N x l) := n in if String.eqb x "Cc" then getCc ex_f (1 / 10) l else 1 / 10.
Example C171_ex : exists g e c, closed_box c /\ c_L c = 2%nat /\ uniform e /\
  @fd_matrices R_arith e c true false false 5 4 3 2 [] (1 # 2) 20 (fun q => Q2R q * (1 / 10 / Q2R (1 # 2))) Q2R g /\
  (forall a, viscoem_prepared e (1 / 10) ex_f (c_L c) (up a) (fun _ => 2) (fun _ => 1) (fun _ => 1 / 2) (fun _ => 0) (1 / 2)) /\
  (forall l, (l < c_L c)%nat -> 0 < ex_f l /\ 1 / 10 <= 2 * / (2 * PI * ex_f l)) /\ 1 <= Rmax (1 / 2) (2 * (1 - 1 / 2) + 1 * 0) /\
  (forall S axes es hs, debye_setting S axes es hs -> (forall a i, In a hs -> 0 < e_coef e (inv_mu a) i <= 1) /\ 1 / 1 <= 2 * 2 /\
     1 / 10 < cfl_limit 2 (Z.of_nat (length axes)) (Q2R (1 # 2)) 2).
Proof.
  destruct (ex_env_ok ex_coef_d ex_sca_d) as (g & e & HU & HM & EC & ES).
  exists g, e, (Cfg false false 0 false false false false 2).
  split; [repeat split; discriminate|]. split; [reflexivity|]. split; [exact HU|].
  split; [apply HM|]. clear HM HU. rewrite ?EC.
  split; [intros []; (split; [split; intros i; rewrite EC; reflexivity|intros; rewrite ES; reflexivity|intros; rewrite EC; reflexivity|rewrite ES; reflexivity])|].
  split. { intros l Hl. cbn in Hl. unfold ex_f. pose proof PI_RGT_0. pose proof PI_4. assert (0 <= INR l <= 1) by (destruct l as [|[|l]]; [cbn; lra|cbn; lra|lia]). split; [lra|].
    apply (Rmult_le_reg_r (2 * PI * (INR l + 1))); [apply Rmult_lt_0_compat; lra|]. replace (2 * / (2 * PI * (INR l + 1)) * (2 * PI * (INR l + 1))) with 2 by (field; split; lra). nra. }
  split; [eapply Rle_trans; [|apply Rmax_r]; lra|].
  pose proof (cfl_ex 2 2 fd_h_2 ltac:(lia)) as C2. pose proof (cfl_ex 2 3 fd_h_2 ltac:(lia)) as C3.
  intros S axes es hs H. split; [intros a i _; destruct a; cbn; lra|]. split; [lra|]. destruct H as [(_ & -> & _)|[(_ & -> & _)|(_ & -> & _)]]; assumption.
Qed.

(** C99 and C100 for the signals as the code generates them. *)
From Coq Require Import Reals Lra Lia.
From Verif Require Import Base M_Signal S_Signal L_Signal P_Signal.
Open Scope R_scope.

(** [v] holds one period of [wave], starting at sample floor(Tshift/DT), and [outside] elsewhere, both times AMP. *)
Definition one_period (NT : Z) (DT FC AMP Tshift : R) (wave : R -> R) (outside : R) (v : list R) : Prop :=
  exists a m, is_floor (Tshift / DT) a /\ is_floor (1 / FC / DT) m /\ (0 <= a < NT)%Z /\ Z.of_nat (length v) = NT /\
    forall i, (0 <= i < NT)%Z -> nth_error v (Z.to_nat i) = Some (AMP * if ((a <=? i) && (i <=? a + m))%Z then wave (IZR (i - a) * DT) else outside).
(** Which signal each number of the parameter file stands for. *)
Definition signal_of (shape NT : Z) (DT FC AMP Tshift : R) (v : list R) : Prop :=
  match shape with
  | 1%Z => sampled NT DT (fun t => AMP * ricker_at FC (t - (3 / 2 / FC + Tshift))) v
  | 2%Z => one_period NT DT FC AMP Tshift (sinw_at FC) 0 v
  | 3%Z => one_period NT DT FC AMP Tshift (sin3_at FC) 0 v
  | 4%Z => sampled NT DT (fun t => AMP * fgauss_at FC (t - (12 / 10 / FC + Tshift))) v
  | 5%Z => exists a, is_floor (Tshift / DT) a /\ (0 <= a < NT)%Z /\ Z.of_nat (length v) = NT /\
           forall i, (0 <= i < NT)%Z -> nth_error v (Z.to_nat i) = Some (if (i =? a)%Z then AMP else 0)
  | 6%Z => one_period NT DT FC AMP Tshift (intg_at FC) (2 / (3 * PI * FC)) v
  | 7%Z => sampled NT DT (fun t => AMP * gprmax_at FC (t - (1 / FC + Tshift))) v
  | 8%Z => exists m, 0 < m /\ (forall i, (0 <= i < NT)%Z -> Rabs (berlage_at FC (IZR i * DT - (1 / FC + Tshift))) <= m) /\
           (exists i, (0 <= i < NT)%Z /\ Rabs (berlage_at FC (IZR i * DT - (1 / FC + Tshift))) = m) /\
           sampled NT DT (fun t => AMP / m * berlage_at FC (t - (1 / FC + Tshift))) v
  | 9%Z => sampled NT DT (fun t => AMP * sine_at FC (t - Tshift)) v
  | _ => False
  end.

Lemma floor_ex x : exists a, is_floor x a.
Proof. exists (Int_part x). unfold is_floor. destruct (base_Int_part x). split; lra. Qed.

(** A synthetic signal is the one its number stands for; other numbers are rejected. *)
Theorem C100_shapes : forall shape NT DT FC AMP Tshift v, (0 < NT)%Z -> 0 < DT -> 0 < FC -> synthetic shape NT DT FC AMP Tshift = Ok (Some v) ->
  signal_of shape NT DT FC AMP Tshift v.
Proof.
  intros shape NT DT FC AMP Tshift v HN HD HF H.
  destruct (C96_formula NT DT FC AMP Tshift HN HD HF) as ((v1&E1&S1)&(v2&E2&S2)&(v3&E3&S3)&(v4&E4&S4)).
  destruct (floor_ex (Tshift / DT)) as (a&Ha). destruct (floor_ex (1 / FC / DT)) as (m&Hm).
  destruct (C97_window NT DT FC AMP Tshift a m HN HD HF Ha Hm) as (W1&W2&W3).
  assert (P : forall calc wave out, (((NT <= a)%Z -> calc NT DT FC AMP Tshift = Throw) /\ ((a < 0)%Z \/ (a + m = NT)%Z -> (a < NT)%Z -> calc NT DT FC AMP Tshift = UB) /\
    ((0 <= a < NT)%Z -> (a + m <> NT)%Z -> exists v, calc NT DT FC AMP Tshift = Ok v /\ Z.of_nat (length v) = NT /\
       forall i, (0 <= i < NT)%Z -> nth_error v (Z.to_nat i) = Some (AMP * if in_window NT a m i then wave (IZR (i - a) * DT) else out))) ->
    samples (calc NT DT FC AMP Tshift) = Ok (Some v) -> one_period NT DT FC AMP Tshift wave out v).
  { intros calc wave out (A&B&C) G. destruct (Z.le_gt_cases NT a) as [L|L]; [rewrite (A L) in G; discriminate|].
    destruct (Z.lt_ge_cases a 0) as [L0|L0]; [rewrite B in G by (auto; lia); discriminate|]. destruct (Z.eq_dec (a + m) NT) as [Q|Q]; [rewrite B in G by (auto; lia); discriminate|].
    destruct C as (w&E&L1&P); [lia|exact Q|]. rewrite E in G. injection G as <-. exists a, m. do 3 (split; [assumption || lia|]). split; [exact L1|]. exact P. }
  assert (C : (shape = 1 \/ shape = 2 \/ shape = 3 \/ shape = 4 \/ shape = 5 \/ shape = 6 \/ shape = 7 \/ shape = 8 \/ shape = 9 \/ ~ (1 <= shape <= 9))%Z) by lia.
  destruct C as [->|[->|[->|[->|[->|[->|[->|[->|[->|N]]]]]]]]]; cbn [synthetic signal_of] in *; eauto.
  - rewrite E1 in H. injection H as <-. exact S1.
  - rewrite E2 in H. injection H as <-. exact S2.
  - destruct (C97_spike NT DT FC AMP Tshift a HN HD Ha) as (A&B&C). destruct (Z.le_gt_cases NT a) as [L|L]; [rewrite (A L) in H; discriminate|].
    destruct (Z.lt_ge_cases a 0) as [L0|L0]; [rewrite (B L0) in H; discriminate|]. destruct C as (w&E&L1&Q); [lia|]. rewrite E in H. injection H as <-. exists a. auto.
  - rewrite E3 in H. injection H as <-. exact S3.
  - destruct (C96_berlage NT DT FC AMP Tshift HN HD HF) as (q&(M1&i&Hi&M2)&B0&B1). destruct (Req_dec q 0) as [->|Q]; [rewrite (B0 eq_refl) in H; discriminate|].
    destruct (B1 Q) as (w&E&S). rewrite E in H. injection H as <-. exists q. split; [|split; [exact M1|split; [exists i; auto|exact S]]].
    pose proof (Rabs_pos (berlage_at FC (IZR i * DT - (1 / FC + Tshift)))). lra.
  - rewrite E4 in H. injection H as <-. exact S4.
  - exfalso. destruct shape as [|[[[]|[]|]|[[]|[]|]|]|]; cbn in H; try discriminate H; try lia; destruct p; try discriminate H; lia.
Qed.
Print Assumptions C100_shapes.
Theorem C100_unknown : forall shape NT DT FC AMP Tshift, ~ (1 <= shape <= 9)%Z -> synthetic shape NT DT FC AMP Tshift = Throw.
Proof. intros shape NT DT FC AMP Tshift N. destruct shape as [|p|p]; try reflexivity. do 4 (destruct p as [p|p|]; try reflexivity; try lia). Qed.
Print Assumptions C100_unknown.

(** C99 on the samples that the code computes: every sample of the smooth signals is AMP times the derivative named in the property,
    taken at the time of the sample; inside its window IntgSinThree is the primitive of SinThree with value 0 at the first sample. *)
Theorem C99_generated : forall NT DT FC AMP Tshift, (0 < NT)%Z -> 0 < DT -> 0 < FC ->
  (forall v i, ricker NT DT FC AMP Tshift = Ok v -> (0 <= i < NT)%Z ->
     exists w, derivable_pt_lim (fun s => s * gauss_at FC s) (IZR i * DT - (3 / 2 / FC + Tshift)) w /\ nth_error v (Z.to_nat i) = Some (AMP * w)) /\
  (forall v i, fgaussian NT DT FC AMP Tshift = Ok v -> (0 <= i < NT)%Z ->
     exists w, derivable_pt_lim (gauss_at FC) (IZR i * DT - (12 / 10 / FC + Tshift)) (PI * FC * w) /\ nth_error v (Z.to_nat i) = Some (AMP * w)) /\
  (forall v i, ricker_gprmax NT DT FC AMP Tshift = Ok v -> (0 <= i < NT)%Z ->
     exists w, derivable_pt_lim (fun s => exp (1 / (8 * (PI * FC) ^ 2)) * exp (- 2 * (PI * FC * s) ^ 2)) (IZR i * DT - (1 / FC + Tshift)) w /\ nth_error v (Z.to_nat i) = Some (AMP * w)) /\
  (forall u v a m, sinthree NT DT FC AMP Tshift = Ok u -> intgsinthree NT DT FC AMP Tshift = Ok v -> is_floor (Tshift / DT) a -> is_floor (1 / FC / DT) m ->
     exists F, F 0 = 0 /\ forall i, (a <= i <= a + m)%Z -> (i < NT)%Z ->
       exists w, derivable_pt_lim F (IZR (i - a) * DT) w /\ nth_error u (Z.to_nat i) = Some (AMP * w) /\ nth_error v (Z.to_nat i) = Some (AMP * F (IZR (i - a) * DT))) /\
  (forall v i j, sin_signal NT DT FC AMP Tshift = Ok v -> (0 <= i < NT)%Z -> (0 <= j < NT)%Z -> (IZR j * DT = IZR i * DT + 1 / FC) ->
     nth_error v (Z.to_nat j) = nth_error v (Z.to_nat i)).
Proof.
  intros NT DT FC AMP Tshift HN HD HF. destruct (C96_formula NT DT FC AMP Tshift HN HD HF) as ((v1&E1&_&S1)&(v2&E2&_&S2)&(v3&E3&_&S3)&(v4&E4&_&S4)).
  split; [|split; [|split; [|split]]].
  - intros v i E Hi. rewrite E1 in E. injection E as <-. destruct (C99_derivative FC (IZR i * DT - (3 / 2 / FC + Tshift)) HF) as (D&_). eexists. split; [exact D|apply S1, Hi].
  - intros v i E Hi. rewrite E2 in E. injection E as <-. destruct (C99_derivative FC (IZR i * DT - (12 / 10 / FC + Tshift)) HF) as (_&D&_). eexists. split; [exact D|apply S2, Hi].
  - intros v i E Hi. rewrite E3 in E. injection E as <-. destruct (C99_derivative FC (IZR i * DT - (1 / FC + Tshift)) HF) as (_&_&D&_). eexists. split; [exact D|apply S3, Hi].
  - intros u v a m Eu Ev Ha Hm. destruct (C97_window NT DT FC AMP Tshift a m HN HD HF Ha Hm) as ((T3&U3&O3)&_&(TI&UI&OI)).
    destruct (Z.le_gt_cases NT a) as [L|L]; [rewrite (T3 L) in Eu; discriminate|]. destruct (Z.lt_ge_cases a 0) as [L0|L0]; [rewrite U3 in Eu by (auto; lia); discriminate|].
    destruct (Z.eq_dec (a + m) NT) as [Q|Q]; [rewrite U3 in Eu by (auto; lia); discriminate|].
    destruct O3 as (u'&E3'&_&P3); [lia|exact Q|]. rewrite E3' in Eu. injection Eu as <-. destruct OI as (v'&EI&_&PI'); [lia|exact Q|]. rewrite EI in Ev. injection Ev as <-.
    exists (intg_at FC). split; [apply (C99_ends FC HF)|]. intros i Hi Hn. destruct (C99_derivative FC (IZR (i - a) * DT) HF) as (_&_&_&D). eexists. split; [exact D|].
    rewrite P3, PI' by lia. unfold in_window. replace ((a <=? i) && (i <=? a + m))%Z with true by lia. split; reflexivity.
  - intros v i j E Hi Hj T. rewrite E4 in E. injection E as <-. rewrite S4, S4 by assumption. f_equal. f_equal. rewrite T.
    replace (IZR i * DT + 1 / FC - Tshift) with (IZR i * DT - Tshift + 1 / FC) by ring. apply (C99_symmetry FC _ HF).
Qed.
Print Assumptions C99_generated.
Example C99_generated_case : exists u v, sinthree 10 1 (1 / 2) 7 3 = Ok u /\ intgsinthree 10 1 (1 / 2) 7 3 = Ok v /\ is_floor (3 / 1) 3 /\ is_floor (1 / (1 / 2) / 1) 2.
Proof.
  assert (F1 : is_floor (3 / 1) 3) by (unfold is_floor; lra). assert (F2 : is_floor (1 / (1 / 2) / 1) 2) by (unfold is_floor; lra).
  destruct (C97_window 10 1 (1 / 2) 7 3 3 2 ltac:(lia) ltac:(lra) ltac:(lra) F1 F2) as ((_&_&O3)&_&(_&_&OI)).
  destruct O3 as (u&Eu&_); [lia|lia|]. destruct OI as (v&Ev&_); [lia|lia|]. exists u, v. auto.
Qed.
Example C100_shapes_case : exists v, synthetic 9 4 1 (1 / 4) 2 0 = Ok (Some v).
Proof. destruct (C96_formula 4 1 (1 / 4) 2 0 ltac:(lia) ltac:(lra) ltac:(lra)) as (_&_&_&(v&E&_)). exists v. cbn [synthetic]. rewrite E. reflexivity. Qed.

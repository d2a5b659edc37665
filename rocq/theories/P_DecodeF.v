(** C182: decoding a supershot with a gradient in the frequency domain. *)
From Coq Require Import Reals String Lra.
From Verif Require Import Base M_Acq M_Wave M_Cop M_Fft L_Fft S_Fft S_Butter M_Butter M_Common L_Common L_Butter4 P_Butter P_Butter2 M_Decode M_DecodeF S_Cop S_Decode S_DecodeF L_Cop L_Decode L_Decode2 L_Decode3 P_Decode L_DecodeF.
Open Scope Z_scope.
Local Notation length := List.length.

(** ** Parts of traces *)
Lemma at_scale NT q a r j : component_at NT q (times a r) j = (a * component_at NT q r j)%R.
Proof.
  unfold component_at. rewrite (map_ext _ (fun i => a * (sample r i * cos (2 * PI * INR q * (INR j - INR i) / INR NT)))%R) by (intros i; rewrite sample_times; ring).
  rewrite rtotal_scal. ring.
Qed.
Lemma part_scale NT q a r : part NT q (times a r) = times a (part NT q r).
Proof. unfold part, times at 2. rewrite map_map. apply map_ext. intros j. apply at_scale. Qed.
Lemma part_zero NT q k : part NT q (repeat 0%R k) = repeat 0%R NT.
Proof.
  rewrite <- (times_zero 0 k), part_scale. unfold times, part. rewrite map_map, (map_ext _ (fun _ => 0%R)) by (intros j; ring).
  clear. generalize 0%nat. induction NT as [|n IH]; intros s; [reflexivity|]. cbn [seq map repeat]. rewrite IH. reflexivity.
Qed.
(** The part of a sum of traces. *)
Lemma at_sum {A} NT q (W : A -> row) ms r j : (forall i, (i < NT)%nat -> sample r i = rtotal (map (fun m => sample (W m) i) ms)) ->
  component_at NT q r j = rtotal (map (fun m => component_at NT q (W m) j) ms).
Proof.
  intros H. unfold component_at. rewrite (rtotal_scal _ (2 / INR NT)). f_equal.
  rewrite (map_ext_in _ (fun i => rtotal (map (fun m => sample (W m) i * cos (2 * PI * INR q * (INR j - INR i) / INR NT))%R ms))).
  - apply (rtotal_swap (fun i m => sample (W m) i * cos (2 * PI * INR q * (INR j - INR i) / INR NT))%R).
  - intros i Hi. apply in_seq in Hi. rewrite H by lia. set (c := cos _). clearbody c. clear. induction ms as [|m ms IH]; cbn [map rtotal fold_right]; [ring|].
    unfold rtotal in IH. rewrite <- IH. ring.
Qed.
Lemma at_harmonic NT q m A phi j : (4 <= NT)%nat -> (0 < m)%nat -> (2 * m < NT)%nat -> (0 < q)%nat -> (2 * q < NT)%nat -> (j < NT)%nat ->
  component_at NT q (harmonic NT m A phi) j = if (m =? q)%nat then sample (harmonic NT m A phi) j else 0%R.
Proof.
  intros HN M1 M2 Q1 Q2 HJ. pose proof (comp_dot (Z.of_nat NT) q (harmonic NT m A phi) j ltac:(lia)) as E. rewrite Nat2Z.id, harmonic_length in E. rewrite <- E by reflexivity.
  replace (cdot (map Creal (harmonic NT m A phi)) (column (Z.of_nat NT) q (-1))) with (cdot (column (Z.of_nat NT) q (-1)) (map Creal (harmonic NT m A phi))).
  2:{ rewrite (cdot_csum NT), (cdot_comm_csum NT (column (Z.of_nat NT) q (-1))) by (rewrite ?column_length, ?map_length, ?harmonic_length, ?Nat2Z.id; reflexivity). reflexivity. }
  pose proof (column_dot (Z.of_nat NT) q m A phi) as CD. rewrite Nat2Z.id in CD. rewrite CD by lia. rewrite <- INR_IZR_INZ.
  destruct (Nat.eqb_spec m q) as [->|NE]; [|unfold Cmul, Cscale, C0; cbn [fst snd]; ring].
  unfold sample. rewrite harmonic_nth by exact HJ. assert (PN : INR NT <> 0%R) by (apply not_0_INR; lia).
  transitivity (A * fst (Cmul (cis (1 * (2 * PI * INR q * INR j / INR NT))) (cis phi)))%R; [unfold Cmul, Cscale, Creal, cis; cbn [fst snd]; field; exact PN|].
  rewrite <- cis_add. cbn [cis fst]. do 2 f_equal. ring.
Qed.
(** The result does not depend on a positive factor of the traces. *)
Lemma tuned_unique NT q a M o1 o2 : (0 < a)%R -> tuned NT q M o1 -> tuned NT q (map (times a) M) o2 -> o1 = o2.
Proof.
  intros Ha H1 H2. destruct o1 as [N1|], o2 as [N2|]; [| | |reflexivity].
  - destruct H1 as (c1 & P1 & E1 & B1 & r1 & x1 & R1 & X1 & A1). destruct H2 as (c2 & P2 & E2 & B2 & r2 & x2 & R2 & X2 & A2). f_equal.
    assert (E : N2 = map (fun r => times (c2 * a) (part NT q r)) M).
    { rewrite E2, map_map. apply map_ext. intros r. rewrite part_scale. unfold times. rewrite map_map. apply map_ext. intros y. ring. }
    assert (Pa : (0 < c2 * a)%R) by (apply Rmult_lt_0_compat; assumption). clear E2. set (c := (c2 * a)%R) in *. clearbody c.
    assert (K : forall b d N N' r x, (0 < b)%R -> (0 < d)%R -> N = map (fun r => times b (part NT q r)) M -> N' = map (fun r => times d (part NT q r)) M ->
       In r N -> In x r -> Rabs x = 1%R -> (forall r x, In r N' -> In x r -> (Rabs x <= 1)%R) -> (d <= b)%R).
    { intros b d N N' r x Pb Pd -> -> Hr Hx Ax HB. apply in_map_iff in Hr. destruct Hr as (s & <- & Hs). apply in_map_iff in Hx. destruct Hx as (y & <- & Hy).
      pose proof (HB (times d (part NT q s)) (d * y)%R (in_map (fun r => times d (part NT q r)) _ _ Hs) (in_map (Rmult d) _ _ Hy)) as U.
      rewrite Rabs_mult, Rabs_pos_eq in U, Ax by lra. assert (Y : (0 < Rabs y)%R).
      { destruct (Rabs_pos y) as [|Z0]; [assumption|]. rewrite <- Z0 in Ax. lra. }
      apply Rmult_le_reg_r with (Rabs y); [exact Y|]. lra. }
    assert (c = c1).
    { apply Rle_antisym.
      - exact (K c1 c N1 N2 r1 x1 P1 Pa E1 E R1 X1 A1 B2).
      - exact (K c c1 N2 N1 r2 x2 Pa P1 E E1 R2 X2 A2 B1). }
    subst c. rewrite E1, E. reflexivity.
  - exfalso. destruct H1 as (c1 & P1 & E1 & B1 & r1 & x1 & R1 & X1 & A1). cbn [tuned] in H2. rewrite E1 in R1. apply in_map_iff in R1. destruct R1 as (s & <- & Hs).
    apply in_map_iff in X1. destruct X1 as (y & <- & Hy). assert (Z0 : (a * y = 0)%R).
    { apply (H2 (times a s)); [apply in_map, Hs|]. rewrite part_scale. apply in_map, Hy. }
    assert (y = 0%R) by (apply Rmult_integral in Z0; destruct Z0; [lra|assumption]). subst y. rewrite Rmult_0_r, Rabs_R0 in A1. lra.
  - exfalso. destruct H2 as (c1 & P1 & E1 & B1 & r1 & x1 & R1 & X1 & A1). cbn [tuned] in H1. rewrite E1 in R1. apply in_map_iff in R1. destruct R1 as (s' & <- & Hs).
    apply in_map_iff in Hs. destruct Hs as (s & <- & Hs). rewrite part_scale in X1.
    apply in_map_iff in X1. destruct X1 as (y' & <- & Hy). apply in_map_iff in Hy. destruct Hy as (y & <- & Hy). rewrite (H1 s y Hs Hy), !Rmult_0_r, Rabs_R0 in A1. lra.
Qed.

(** ** C182 *)
Section Decode.
Variable seismic : bool.
Variable base : string.
Variable NT : nat.
Variable no : Z.
Variable mm : list (list Z).
Variable mv recs incr : list Z.
Variable enc : list fsrc.
Variable T DT : R.
Hypothesis HS : supershot no mm mv recs incr (map f_src enc).
Hypothesis HDT : (0 < DT)%R.
Hypothesis HNT : (4 <= NT)%nat.
Hypothesis HP : power_of_two (Z.of_nat NT).
Hypothesis HT : truncR (T / DT + 1 / 2) = Z.of_nat NT.
Hypothesis Hfc : forall m, In m (teamF no incr enc) -> (0 < f_fc (snd m))%R.

(** The number of periods of the frequency of a shot. *)
Definition tone (m : Z * fsrc) : nat := Z.to_nat (periods (Z.of_nat NT) DT (f_fc (snd m))).
(** The result of the loop for receiver type [t], where [D i] is the trace of receiver [i] in the supershot. *)
Definition run et t (D : nat -> row) o :=
  multiF seismic base NT no et mm mv recs t incr enc (map D (chosen mv recs t)) (repeat (Some ([] : mat)) (length (teamF no incr enc))) 0 o.

Lemma team_map : team no incr (map f_src enc) = map shot_of (teamF no incr enc).
Proof using.
  clear. unfold team, teamF. revert enc. induction incr as [|k l IH]; intros [|e enc]; try reflexivity. cbn [map combine filter snd].
  destruct (Z.abs (e_no (f_src e)) =? no); cbn [map]; rewrite IH; reflexivity.
Qed.
Lemma run_filtered et t D : (forall i, length (D i) = NT) -> exists o o', freqFilter T DT = Ok o /\
  run et t D o = Ok (map (fun m => filtered NT (tone m) (single_shot NT mm recs t D (shot_of m))) (teamF no incr enc),
    if et =? 3 then map (fun m => (file_of seismic base mm t (shot_of m), filtered NT (tone m) (single_shot NT mm recs t D (shot_of m)))) (teamF no incr enc) else [], o').
Proof using HS HDT HNT HP HT Hfc.
  intros HD. destruct (filter_init_ok DT (Z.of_nat NT) ltac:(lra) ltac:(lia)) as (f & E). unfold freqFilter. rewrite HT, E. cbn [bind].
  destruct (multiF_decode seismic base NT no mm mv recs (su_matrix _ _ _ _ _ _ HS) (su_len _ _ _ _ _ _ HS) f
     (fun fc M => filtered NT (Z.to_nat (periods (Z.of_nat NT) DT fc)) M)) with (t := t) (D := D) (et := et) (incr := incr) (enc := enc) (predec := @nil (option mat)) (cd := 0) (L0 := @None (list C * list C))
     as (L1 & R); try assumption; try reflexivity.
  - intros fc L0 M F HM. pose proof (filter_shot DT (Z.of_nat NT) f fc L0 M HDT ltac:(lia) HP E F) as Q. rewrite Nat2Z.id in Q. apply Q, HM.
  - pose proof (su_lines _ _ _ _ _ _ HS) as Q. rewrite map_length in Q. exact Q.
  - intros m Hm. split; [|apply Hfc, Hm]. apply (su_fits _ _ _ _ _ _ HS). rewrite team_map. apply in_map, Hm.
  - eexists. eexists. split; [reflexivity|]. unfold run. cbn [app] in R. rewrite R. do 2 f_equal. f_equal.
    + apply map_ext. intros m. rewrite decoded_single. reflexivity.
    + destruct (et =? 3); [|reflexivity]. apply map_ext. intros m. rewrite decoded_single. reflexivity.
Qed.
Lemma forall2_map {A B} (P : A -> B -> Prop) g l : (forall x, In x l -> P x (g x)) -> Forall2 P l (map g l).
Proof using. clear. induction l as [|x l IH]; intros H; cbn; constructor; [apply H; left; reflexivity|apply IH; intros y Hy; apply H; right; exact Hy]. Qed.

(** Every shot gets the part of its own traces that has its frequency, with the sign of the shot and with the largest
    magnitude 1; with encode type 1 of decode (3 here) these matrices are written under the number and the type. *)
Theorem C182_decode et t D : (forall i, length (D i) = NT) -> exists o outs fs o', freqFilter T DT = Ok o /\ run et t D o = Ok (outs, fs, o') /\
  Forall2 (fun m out => tuned NT (tone m) (single_shot NT mm recs t D (shot_of m)) out) (teamF no incr enc) outs /\
  fs = (if et =? 3 then combine (map (fun m => shot_file base seismic (nth 0 (mark_row mm (fst m)) 0) t) (teamF no incr enc)) outs else []).
Proof using HS HDT HNT HP HT Hfc.
  intros HD. destruct (run_filtered et t D HD) as (o & o' & E1 & E2). exists o. do 3 eexists. split; [exact E1|]. split; [exact E2|]. split.
  - apply forall2_map. intros m _. apply filtered_tuned.
  - destruct (et =? 3); [|reflexivity]. clear. induction (teamF no incr enc) as [|m l IH]; [reflexivity|]. cbn [map combine]. rewrite IH. reflexivity.
Qed.
(** So the amplitude of the supershot is lost: a positive factor of its traces changes nothing. *)
Theorem C182_amplitude et t D a : (0 < a)%R -> (forall i, length (D i) = NT) -> exists o r, freqFilter T DT = Ok o /\
  run et t D o = Ok r /\ run et t (fun i => times a (D i)) o = Ok r.
Proof using HS HDT HNT HP HT Hfc.
  intros Ha HD. destruct (run_filtered et t D HD) as (o & o' & E1 & E2).
  destruct (run_filtered et t (fun i => times a (D i))) as (o2 & o2' & F1 & F2); [intros i; rewrite times_len; apply HD|].
  rewrite E1 in F1. injection F1 as <-. exists o.
  assert (EQ : forall m, filtered NT (tone m) (single_shot NT mm recs t (fun i => times a (D i)) (shot_of m)) = filtered NT (tone m) (single_shot NT mm recs t D (shot_of m))).
  { intros m. symmetry. apply (tuned_unique NT (tone m) a (single_shot NT mm recs t D (shot_of m))); [exact Ha|apply filtered_tuned|].
    replace (map (times a) (single_shot NT mm recs t D (shot_of m))) with (single_shot NT mm recs t (fun i => times a (D i)) (shot_of m)); [apply filtered_tuned|].
    unfold single_shot, own_traces, zmat. rewrite map_app, map_map, map_repeat, times_zero. f_equal. apply map_ext. intros i. unfold times. rewrite !map_map. apply map_ext. intros x. ring. }
  rewrite (map_ext _ _ EQ) in F2.
  rewrite (map_ext (fun m => (file_of seismic base mm t (shot_of m), filtered NT (tone m) (single_shot NT mm recs t (fun i => times a (D i)) (shot_of m))))
                   (fun m => (file_of seismic base mm t (shot_of m), filtered NT (tone m) (single_shot NT mm recs t D (shot_of m))))) in F2 by (intros m; rewrite EQ; reflexivity).
  assert (OO : o' = o2').
  { clear - E2 F2. unfold run in *. revert E2 F2.
    assert (G : forall inc en A d1 d2 c1 w r1 f1 p1 r2 f2 p2, multiF seismic base NT no et mm mv recs t inc en (map D A) d1 c1 w = Ok (r1, f1, p1) ->
       multiF seismic base NT no et mm mv recs t inc en (map (fun i => times a (D i)) A) d2 c1 w = Ok (r2, f2, p2) -> p1 = p2).
    { induction inc as [|k inc IH]; intros en A d1 d2 c1 w r1 f1 p1 r2 f2 p2 H1 H2; cbn [multiF] in *; [congruence|]. destruct en as [|e en]; [discriminate|].
      destruct (Z.abs (e_no (f_src e)) =? no); [|eapply IH; eassumption].
      destruct (getRow mm k) as [r| | |]; cbn [bind] in *; try discriminate. destruct (vget r 0) as [sn| | |]; cbn [bind] in *; try discriminate.
      destruct (decode_rows t (cells (tl mv) recs (tl r)) (map D A) _ 0 0) as [s1| | |]; cbn [bind] in H1; try discriminate.
      destruct (decode_rows t (cells (tl mv) recs (tl r)) (map (fun i => times a (D i)) A) _ 0 0) as [s2| | |]; cbn [bind] in H2; try discriminate.
      destruct (obj_calc w _ _ 1 (f_fc e) 0) as [w'| | |]; cbn [bind] in *; try discriminate.
      destruct (obj_applyMat w' (negate _ s1)) as [x1| | |]; cbn [bind] in H1; try discriminate. destruct (obj_applyMat w' (negate _ s2)) as [x2| | |]; cbn [bind] in H2; try discriminate.
      destruct (vset d1 c1 x1) as [y1| | |]; cbn [bind] in H1; try discriminate. destruct (vset d2 c1 x2) as [y2| | |]; cbn [bind] in H2; try discriminate.
      destruct (multiF _ _ _ _ _ _ _ _ _ inc en (map D A) _ _ _) as [[[u1 v1] q1]| | |] eqn:K1; cbn [bind] in H1; try discriminate.
      destruct (multiF _ _ _ _ _ _ _ _ _ inc en (map (fun i => times a (D i)) A) _ _ _) as [[[u2 v2] q2]| | |] eqn:K2; cbn [bind] in H2; try discriminate.
      injection H1 as <- <- <-. injection H2 as <- <- <-. eapply IH; eassumption. }
    intros E2 F2. eapply G; eassumption. }
  subst o2'. eexists. split; [exact E1|]. split; [exact E2|exact F2].
Qed.
(** Shots with different frequencies are separated: if the traces of the supershot are sums of one harmonic per shot, each
    with the frequency of its shot, then every shot gets its own harmonics, with its sign and a common factor. *)
Theorem C182_separate et t D (amp phase : Z * fsrc -> nat -> R) : (forall i, length (D i) = NT) ->
  NoDup (map tone (teamF no incr enc)) -> (forall m, In m (teamF no incr enc) -> (2 * tone m < NT)%nat) ->
  (forall i j, (j < NT)%nat -> sample (D i) j = rtotal (map (fun m => sample (harmonic NT (tone m) (amp m i) (phase m i)) j) (teamF no incr enc))) ->
  exists o outs fs o', freqFilter T DT = Ok o /\ run et t D o = Ok (outs, fs, o') /\
  Forall2 (fun m out => match out with
    | None => forall i x, In i (chosen (mark_row mm (fst m)) recs t) -> In x (harmonic NT (tone m) (amp m i) (phase m i)) -> x = 0%R
    | Some N => exists c, (0 < c)%R /\ N = (map (fun i => times (c * sg (f_src (snd m))) (harmonic NT (tone m) (amp m i) (phase m i))) (chosen (mark_row mm (fst m)) recs t) ++
                                        zmat (others mm recs t (shot_of m)) NT)%list
    end) (teamF no incr enc) outs.
Proof using HS HDT HNT HP HT Hfc.
  intros HD HN HQ HW. destruct (C182_decode et t D HD) as (o & outs & fs & o' & E1 & E2 & E3 & _). exists o, outs, fs, o'. split; [exact E1|]. split; [exact E2|].
  assert (PT : forall m i, In m (teamF no incr enc) -> part NT (tone m) (D i) = harmonic NT (tone m) (amp m i) (phase m i)).
  { intros m i Hm. apply row_ext with NT; [unfold part; rewrite map_length, seq_length; reflexivity|apply harmonic_length|]. intros j Hj.
    unfold part. rewrite (sample_map _ NT j Hj). rewrite (at_sum NT (tone m) (fun p => harmonic NT (tone p) (amp p i) (phase p i)) (teamF no incr enc)) by (intros; apply HW; assumption).
    assert (TP : forall p, In p (teamF no incr enc) -> (0 < tone p)%nat).
    { intros p Hp. unfold tone. pose proof (periods_pos (Z.of_nat NT) DT (f_fc (snd p)) ltac:(lia) HDT (Hfc p Hp)). lia. }
    rewrite (map_ext_in _ (fun p => if (tone p =? tone m)%nat then sample (harmonic NT (tone p) (amp p i) (phase p i)) j else 0%R)).
    2:{ intros p Hp. apply at_harmonic; auto. }
    clear - HN Hm. induction (teamF no incr enc) as [|p l IH]; [destruct Hm|]. cbn [map rtotal fold_right] in *. apply NoDup_cons_iff in HN. destruct HN as [Hn HN].
    destruct Hm as [->|Hm].
    - rewrite Nat.eqb_refl. rewrite (map_ext_in _ (fun _ => 0%R)); [fold (rtotal (map (fun _ : Z * fsrc => 0%R) l)); rewrite rtotal_zero; ring|].
      intros p Hp. destruct (Nat.eqb_spec (tone p) (tone m)) as [E|]; [|reflexivity]. exfalso. apply Hn. rewrite <- E. apply in_map, Hp.
    - destruct (Nat.eqb_spec (tone p) (tone m)) as [E|]; [exfalso; apply Hn; rewrite E; apply in_map, Hm|]. unfold rtotal in IH. rewrite IH by assumption. ring. }
  assert (GO : forall l outs, (forall m, In m l -> In m (teamF no incr enc)) -> Forall2 (fun m out => tuned NT (tone m) (single_shot NT mm recs t D (shot_of m)) out) l outs ->
    Forall2 (fun m out => match out with
    | None => forall i x, In i (chosen (mark_row mm (fst m)) recs t) -> In x (harmonic NT (tone m) (amp m i) (phase m i)) -> x = 0%R
    | Some N => exists c, (0 < c)%R /\ N = (map (fun i => times (c * sg (f_src (snd m))) (harmonic NT (tone m) (amp m i) (phase m i))) (chosen (mark_row mm (fst m)) recs t) ++
                                        zmat (others mm recs t (shot_of m)) NT)%list
    end) l outs).
  { intros l0 outs0 IN0 F. induction F as [|m out l0 outs0 H F IHF]; constructor; [|apply IHF; intros; apply IN0; right; assumption].
    pose proof (IN0 m (or_introl eq_refl)) as Hm. destruct out as [N|]; cbn [tuned] in H.
    - destruct H as (c & Pc & EN & _). exists c. split; [exact Pc|]. rewrite EN. unfold single_shot, own_traces, zmat. rewrite map_app, map_map, map_repeat, part_zero, times_zero. f_equal.
      apply map_ext. intros i. rewrite part_scale, PT by exact Hm. cbn [shot_of snd]. unfold times. rewrite map_map. apply map_ext. intros x. ring.
    - intros i x Hi Hx. assert (X : (sg (f_src (snd m)) * x = 0)%R).
      { apply (H (times (sg (f_src (snd m))) (D i))).
        - unfold single_shot, own_traces. apply in_or_app. left. apply (in_map (fun i => times (sg (snd (shot_of m))) (D i))), Hi.
        - rewrite part_scale, PT by exact Hm. apply (in_map (Rmult _)), Hx. }
      pose proof (sg_sq (f_src (snd m))) as S2. apply Rmult_integral in X. destruct X as [X|X]; [rewrite X in S2; lra|exact X]. }
  exact (GO _ _ (fun m H => H) E3).
Qed.
End Decode.

(** The hypotheses of C182: two shots of opposite sign with 1 and 2 periods, which share a receiver; each of them gets its
    own harmonic (the second with amplitude 5 and its sign) although the traces hold both. *)
Definition ex_enc : list fsrc := [mkFs (mkE 7 1) (1 / 8); mkFs (mkE (-7) (-1)) (2 / 8)].
Definition ex_amp (m : Z * fsrc) (i : nat) : R := if fst m =? 0 then 3%R else 5%R.
Definition ex_D (i : nat) : row := map (fun j => 3 * cos (2 * PI * INR 1 * INR j / INR 8 + 0) + 5 * cos (2 * PI * INR 2 * INR j / INR 8 + 0))%R (seq 0 8).
Lemma ex_tone1 e : tone 8 1 (0, mkFs e (1 / 8)) = 1%nat.
Proof. unfold tone. cbn [snd f_fc]. change (Z.of_nat 8) with 8. rewrite periods8. reflexivity. Qed.
Lemma ex_tone2 e : tone 8 1 (1, mkFs e (2 / 8)) = 2%nat.
Proof. unfold tone. cbn [snd f_fc]. change (Z.of_nat 8) with 8. unfold periods. replace (ceilR _) with 2; [reflexivity|]. symmetry. apply ceilR_unique. lra. Qed.
Example C182_ex : exists o c1 c2 fs o', freqFilter 8 1 = Ok o /\ (0 < c1)%R /\ (0 < c2)%R /\
  run true "s" 8 7 [[5; 1; 1; 0]; [6; 0; 1; 1]] [7; 1; 1; 1] [1; 1; 1] [0; 1] ex_enc 3 1 ex_D o =
  Ok ([Some [times c1 (harmonic 8 1 3 0); times c1 (harmonic 8 1 3 0)]; Some [times (c2 * -1) (harmonic 8 2 5 0); times (c2 * -1) (harmonic 8 2 5 0)]], fs, o').
Proof.
  destruct (C182_separate true "s" 8 7 [[5; 1; 1; 0]; [6; 0; 1; 1]] [7; 1; 1; 1] [1; 1; 1] [0; 1] ex_enc 8 1) with (et := 3) (t := 1) (D := ex_D) (amp := ex_amp) (phase := fun (_ : Z * fsrc) (_ : nat) => 0%R)
    as (o & outs & fs & o' & E1 & E2 & E3).
  - exact shared_super.
  - lra.
  - lia.
  - exists 3. split; [lia|reflexivity].
  - unfold truncR. destruct (Rle_dec 0 (8 / 1 + 1 / 2)) as [|N]; [|exfalso; apply N; lra]. symmetry. unfold Int_part.
    rewrite <- (tech_up (8 / 1 + 1 / 2) 9); [reflexivity|lra|lra].
  - intros m [<-|[<-|[]]]; cbn; lra.
  - intros i. unfold ex_D. rewrite map_length, seq_length. reflexivity.
  - cbn [teamF ex_enc combine filter snd f_src e_no Z.abs Z.eqb Pos.eqb map]. rewrite ex_tone1, ex_tone2. repeat constructor; cbn; intuition lia.
  - intros m [<-|[<-|[]]]; rewrite ?ex_tone1, ?ex_tone2; lia.
  - intros i j Hj. cbn [teamF ex_enc combine filter snd f_src e_no Z.abs Z.eqb Pos.eqb map rtotal fold_right]. rewrite ex_tone1, ex_tone2.
    unfold sample. rewrite !harmonic_nth by exact Hj. unfold ex_D. rewrite (map_seq_nth (fun j => 3 * cos (2 * PI * INR 1 * INR j / INR 8 + 0) + 5 * cos (2 * PI * INR 2 * INR j / INR 8 + 0))%R) by exact Hj.
    unfold ex_amp. cbn [fst Z.eqb]. ring.
  - cbn [teamF ex_enc combine filter snd f_src e_no Z.abs Z.eqb Pos.eqb] in E3. inversion E3 as [|x1 y1 l1 k1 H1 H2]; subst. inversion H2 as [|x2 y2 l2 k2 H3 H4]; subst. inversion H4; subst.
    rewrite ex_tone1 in H1. rewrite ex_tone2 in H3.
    assert (Z1 : forall m A, (0 < A)%R -> In A (harmonic 8 m A 0)).
    { intros m A HA. unfold harmonic. change (seq 0 8) with (0%nat :: seq 1 7). cbn [map]. left. change (INR 0) with 0%R.
      replace (2 * PI * INR m * 0 / INR 8 + 0)%R with 0%R by (unfold Rdiv; ring). rewrite cos_0. ring. }
    destruct y1 as [N1|]; [|exfalso; pose proof (H1 0%nat 3%R (or_introl eq_refl) (Z1 1%nat 3%R ltac:(lra))); lra].
    destruct y2 as [N2|]; [|exfalso; pose proof (H3 1%nat 5%R (or_introl eq_refl) (Z1 2%nat 5%R ltac:(lra))); lra].
    destruct H1 as (c1 & P1 & ->). destruct H3 as (c2 & P2 & ->). exists o, c1, c2, fs, o'. split; [exact E1|]. split; [exact P1|]. split; [exact P2|].
    rewrite E2. cbn [snd f_src]. unfold ex_amp. cbn [fst Z.eqb].
    replace (sg (mkE 7 1)) with 1%R by (unfold sg; cbn [e_amp]; destruct (Rlt_dec 1 0); [lra|reflexivity]).
    replace (sg (mkE (-7) (-1))) with (-1)%R by (unfold sg; cbn [e_amp]; destruct (Rlt_dec (-1) 0); [reflexivity|lra]).
    rewrite Rmult_1_r. reflexivity.
Qed.

Print Assumptions C182_decode.
Print Assumptions C182_amplitude.
Print Assumptions C182_separate.

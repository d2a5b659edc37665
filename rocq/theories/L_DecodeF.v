(** Proofs about decoding with a gradient in the frequency domain. *)
From Coq Require Import Reals String Lra.
From Verif Require Import Base M_Acq M_Wave M_Cop M_Fft L_Fft S_Fft S_Butter M_Butter M_Common L_Common L_Butter4 P_Butter P_Butter2 M_Decode M_DecodeF S_Cop S_Decode S_DecodeF L_Cop L_Decode L_Decode2 L_Decode3.
Open Scope Z_scope.
Local Notation length := List.length.

(** ** The filter of one shot *)
Lemma comp_dot nt q (r : row) j : 0 < nt -> length r = Z.to_nat nt ->
  fst (Cmul (Cscale (2 / IZR nt) (cdot (map Creal r) (column nt q (-1)))) (cis (1 * (2 * PI * INR q * INR j / IZR nt)))) = component_at (Z.to_nat nt) q r j.
Proof.
  intros HN HL. assert (EL : IZR nt = INR (Z.to_nat nt)) by (rewrite INR_IZR_INZ, Z2Nat.id by lia; reflexivity).
  set (L := Z.to_nat nt) in *. rewrite EL. rewrite (cdot_csum L) by (rewrite ?map_length, ?column_length; unfold L; auto).
  set (c := cis (1 * (2 * PI * INR q * INR j / INR L))). set (S := csum L _).
  transitivity (fst (Cmul (Cmul (Creal (2 / INR L)) c) S)); [unfold Cmul, Cscale, Creal; cbn [fst snd]; ring|].
  unfold S. rewrite <- csum_mul, fst_csum. unfold component_at. rewrite <- rtotal_scal. unfold rtotal. f_equal. apply map_ext_in. intros k Hk. apply in_seq in Hk.
  change C0 with (Creal 0) at 1. rewrite map_nth. unfold column. fold L.
  rewrite (map_seq_nth (fun j => cis (-1 * (2 * PI * INR q * INR j / IZR nt)))) by lia. rewrite EL. unfold sample.
  transitivity (2 / INR L * (nth k r 0%R * fst (Cmul c (cis (-1 * (2 * PI * INR q * INR k / INR L))))))%R; [unfold Cmul, Creal; cbn [fst snd]; ring|].
  unfold c. rewrite <- cis_add. unfold cis at 1. cbn [fst]. do 3 f_equal. unfold Rdiv. ring.
Qed.
Lemma max_spec l : (forall x, In x l -> (x <= fold_right Rmax 0 l)%R) /\ (0 <= fold_right Rmax 0 l)%R /\ (fold_right Rmax 0%R l <> 0%R -> In (fold_right Rmax 0%R l) l).
Proof.
  induction l as [|y l (I1 & I2 & I3)]; cbn [fold_right]; [split; [contradiction|split; [lra|congruence]]|]. split; [|split].
  - intros x [->|Hx]; [apply Rmax_l|]. eapply Rle_trans; [apply I1; exact Hx|apply Rmax_r].
  - eapply Rle_trans; [exact I2|apply Rmax_r].
  - destruct (Rle_dec y (fold_right Rmax 0%R l)) as [Q|Q]; [rewrite Rmax_right by exact Q|rewrite Rmax_left by lra]; intros H; [right; apply I3; exact H|left; reflexivity].
Qed.
(** The matrix that the filter returns. *)
Definition filtered (NT q : nat) (M : mat) : option mat :=
  let m := map (part NT q) M in
  if Req_EM_T (maxNorm m) 0 then None else Some (map (map (fun x => 1 / maxNorm m * x)%R) m).
Lemma filtered_tuned NT q M : tuned NT q M (filtered NT q M).
Proof.
  unfold filtered. set (m := map (part NT q) M). destruct (max_spec (map Rabs (concat m))) as (U1 & U2 & U3). fold (maxNorm m) in U1, U2, U3.
  assert (B : forall r x, In r m -> In x r -> (Rabs x <= maxNorm m)%R).
  { intros r x Hr Hx. apply U1, in_map, in_concat. exists r. split; assumption. }
  destruct (Req_EM_T (maxNorm m) 0) as [E|E]; cbn [tuned].
  - intros r x Hr Hx. pose proof (B (part NT q r) x (in_map _ _ _ Hr) Hx) as X. rewrite E in X. pose proof (Rabs_pos x).
    destruct (Req_dec x 0) as [|N]; [assumption|]. apply Rabs_pos_lt in N. lra.
  - assert (P : (0 < maxNorm m)%R) by lra. assert (P' : (0 < 1 / maxNorm m)%R) by (apply Rdiv_lt_0_compat; lra).
    exists (1 / maxNorm m)%R. split; [exact P'|]. split; [unfold m; rewrite map_map; reflexivity|]. split.
    + intros r x Hr Hx. apply in_map_iff in Hr. destruct Hr as (s & <- & Hs). apply in_map_iff in Hx. destruct Hx as (y & <- & Hy).
      rewrite Rabs_mult, (Rabs_pos_eq (1 / maxNorm m)) by lra. replace 1%R with (1 / maxNorm m * maxNorm m)%R at 2 by (field; exact E).
      apply Rmult_le_compat_l; [lra|]. apply (B s y Hs Hy).
    + apply U3 in E as X. apply in_map_iff in X. destruct X as (y & Ey & Hy). apply in_concat in Hy. destruct Hy as (s & Hs & Hy).
      exists (map (fun x => 1 / maxNorm m * x)%R s), (1 / maxNorm m * y)%R. split; [apply in_map, Hs|]. split; [apply (in_map (fun x => 1 / maxNorm m * x)%R), Hy|].
      rewrite Rabs_mult, (Rabs_pos_eq (1 / maxNorm m)), Ey by lra. field. exact E.
Qed.
Lemma filter_shot dt nt f fc L0 (M : mat) : (0 < dt)%R -> 4 <= nt -> power_of_two nt -> filter_init dt nt = Ok f -> (0 < fc)%R ->
  (forall r, In r M -> length r = Z.to_nat nt) ->
  exists L1, obj_calc (mkFobj f L0) (list_ascii_of_string "ideal") (list_ascii_of_string "bp") 1 fc 0 = Ok (mkFobj f L1) /\
    obj_applyMat (mkFobj f L1) M = Ok (filtered (Z.to_nat nt) (Z.to_nat (periods nt dt fc)) M).
Proof.
  intros HD HN HP HI HF HM. destruct (full_filter dt nt f [] HP HN HI) as (_ & _ & _ & FD & FC & FL & FZ).
  rewrite calc_ideal by (reflexivity || assumption). rewrite (ideal1 dt nt) by (assumption || lia). eexists. split; [reflexivity|].
  set (q := Z.to_nat (periods nt dt fc)). unfold obj_applyMat. cbn [matL M_Butter.base]. rewrite FL, FZ, column_length.
  assert (A1 : forallb (fun r => Z.of_nat (length r) + 0 =? nt) M = true) by (apply forallb_forall; intros r Hr; rewrite HM by exact Hr; lia).
  assert (A2 : forallb (fun r => (length r =? Z.to_nat nt)%nat) M = true) by (apply forallb_forall; intros r Hr; apply Nat.eqb_eq, HM, Hr).
  rewrite A1, A2. cbn [negb]. unfold filtered.
  match goal with |- context [maxNorm ?X] => assert (EM : X = map (part (Z.to_nat nt) q) M) end.
  { apply map_ext_in. intros r Hr. unfold part. unfold column at 2. rewrite map_map. apply map_ext. intros j. apply comp_dot; [lia|apply HM, Hr]. }
  rewrite EM. destruct (Req_EM_T _ 0); reflexivity.
Qed.

(** ** The loop *)
Section Loop.
Variable seismic : bool.
Variable base : string.
Variable NT : nat.
Variable no : Z.
Variable mm : list (list Z).
Variable mv recs : list Z.
Let n := length recs.
Hypothesis Hmm : mark_matrix n mm.
Hypothesis Hmv : length mv = S n.
Variable f : filt.
Variable G : R -> mat -> option mat.
Hypothesis HG : forall fc L0 M, (0 < fc)%R -> (forall r, In r M -> length r = NT) ->
  exists L1, obj_calc (mkFobj f L0) (list_ascii_of_string "ideal") (list_ascii_of_string "bp") 1 fc 0 = Ok (mkFobj f L1) /\ obj_applyMat (mkFobj f L1) M = Ok (G fc M).

Lemma multiF_decode t (D : nat -> row) et : (forall i, length (D i) = NT) -> forall incr enc, length enc = length incr ->
  (forall m, In m (teamF no incr enc) -> fits mm mv recs (shot_of m) /\ (0 < f_fc (snd m))%R) ->
  forall (predec : list (option mat)) cd L0, cd = Z.of_nat (length predec) ->
  exists L1, multiF seismic base NT no et mm mv recs t incr enc (map D (chosen mv recs t)) (predec ++ repeat (Some ([] : mat)) (length (teamF no incr enc)))%list cd (mkFobj f L0)
  = Ok ((predec ++ map (fun m => G (f_fc (snd m)) (decoded NT mm recs t D (shot_of m))) (teamF no incr enc))%list,
        if et =? 3 then map (fun m => (file_of seismic base mm t (shot_of m), G (f_fc (snd m)) (decoded NT mm recs t D (shot_of m)))) (teamF no incr enc) else [],
        mkFobj f L1).
Proof using Hmm Hmv HG.
  intros HD. induction incr as [|k incr IH]; intros [|e enc] Hl Hf predec cd L0 Hcd; try discriminate Hl.
  - exists L0. cbn. rewrite !app_nil_r. destruct (et =? 3); reflexivity.
  - cbn [multiF]. unfold teamF in *. cbn [combine filter snd] in *. destruct (Z.abs (e_no (f_src e)) =? no) eqn:E.
    + destruct (Hf (k, e) (or_introl eq_refl)) as [F Hfc]. destruct F as [Hk Hsub]. cbn [shot_of fst snd] in *.
      rewrite (getRow_ok mm k []) by exact Hk. cbn [bind]. fold (mark_row mm k).
      pose proof (Hmm _ (row_in mm k Hk)) as [L _].
      rewrite (vget_at (mark_row mm k) 0 0) by lia. cbn [bind]. change (Z.to_nat 0) with 0%nat.
      rewrite (cells_of mm mv recs Hmm Hmv) by exact Hk. rewrite <- (filter_sup mv recs t). fold n.
      pose proof (decode_rows_spec (fun i => nth i (tl mv) 0) (fun i => nth i recs 0) (fun i => nth i (tl (mark_row mm k)) 0) t D (seq 0 n) [] []
                 (zmat (Z.to_nat (zsum (tl (mark_row mm k)))) NT) 0 0 eq_refl eq_refl) as Q. cbn [app] in Q. rewrite Q; clear Q.
      2:{ unfold n. rewrite (filter_sh mv (mark_row mm k) recs t Hsub). unfold zmat. rewrite repeat_length.
          apply (chosen_le n); [apply (row_mm mm recs Hmm), Hk|reflexivity]. }
      cbn [bind length repeat]. unfold n. rewrite !(filter_sh mv (mark_row mm k) recs t Hsub).
      assert (ED : negate (flip (f_src e)) (map D (chosen (mark_row mm k) recs t) ++
                     skipn (length (chosen (mark_row mm k) recs t)) (zmat (Z.to_nat (zsum (tl (mark_row mm k)))) NT))%list = decoded NT mm recs t D (k, f_src e)).
      { rewrite negate_rows. unfold zmat. rewrite repeat_skip, map_app, map_repeat, map_map, times_zero.
        fold (num_recs (mark_row mm k)). rewrite (num_recs_all n) by (apply (row_mm mm recs Hmm), Hk). reflexivity. }
      rewrite ED.
      destruct (HG (f_fc e) L0 (decoded NT mm recs t D (k, f_src e)) Hfc) as (L1 & C1 & C2).
      { intros r Hr. unfold decoded in Hr. apply in_app_or in Hr. destruct Hr as [Hr|Hr].
        - unfold own_traces in Hr. apply in_map_iff in Hr. destruct Hr as (i & <- & _). unfold times. rewrite map_length. apply HD.
        - unfold zmat in Hr. apply repeat_spec in Hr. rewrite Hr. apply repeat_length. }
      rewrite C1. cbn [bind]. rewrite C2. cbn [bind].
      rewrite vset_upd by (rewrite app_length; cbn [length]; lia). cbn [bind].
      rewrite Hcd, Nat2Z.id, upd_at_app. set (x := G (f_fc e) (decoded NT mm recs t D (k, f_src e))). set (l := filter _ (combine incr enc)).
      replace (predec ++ x :: repeat (Some ([] : mat)) (length l))%list with ((predec ++ [x]) ++ repeat (Some ([] : mat)) (length l))%list
        by (rewrite <- app_assoc; reflexivity).
      rewrite filter_sup.
      destruct (IH enc ltac:(cbn in Hl; lia) (fun m Hm => Hf m (or_intror Hm)) (predec ++ [x])%list (Z.of_nat (length predec) + 1) L1) as (L2 & E2).
      { rewrite app_length; cbn [length]; lia. }
      fold l in E2. rewrite E2. exists L2. cbn [bind map]. rewrite <- app_assoc. rewrite comp_name_eq. cbn [snd shot_of fst]. unfold file_of at 2, shot_file at 1. cbn [fst].
      destruct (et =? 3); reflexivity.
    + apply IH; [cbn in Hl; lia|exact Hf|exact Hcd].
Qed.
End Loop.

(** C183: supershots of common offset data with a gradient in the frequency domain. *)
From Coq Require Import Reals String Lra Sorted.
From Verif Require Import Base M_Acq M_Wave M_Cop M_Fft L_Fft S_Fft S_Butter M_Butter M_Common L_Common L_Butter4 P_Butter P_Butter2 M_Decode M_DecodeF S_Cop S_Decode S_DecodeF L_Cop L_Decode L_Decode2 L_Decode3 L_Decode4 P_Decode L_DecodeF P_DecodeF.
Open Scope Z_scope.
Local Notation length := List.length.

(** ** The filter of one trace *)
Lemma filter_row dt nt f fc L0 : (0 < dt)%R -> 4 <= nt -> power_of_two nt -> filter_init dt nt = Ok f -> (0 < fc)%R ->
  exists L1, obj_calc (mkFobj f L0) (list_ascii_of_string "ideal") (list_ascii_of_string "bp") 1 fc 0 = Ok (mkFobj f L1) /\
    forall r : row, length r = Z.to_nat nt -> obj_apply (mkFobj f L1) r = Ok (times (1 / 2) (part (Z.to_nat nt) (Z.to_nat (periods nt dt fc)) r)).
Proof.
  intros HD HN HP HI HF. destruct (full_filter dt nt f [] HP HN HI) as (_ & _ & _ & FD & FC & FL & FZ). destruct (FD ltac:(lra)) as (D1 & D2 & D3).
  rewrite calc_ideal by (reflexivity || assumption). rewrite (ideal1 dt nt) by (assumption || lia). eexists. split; [reflexivity|].
  intros r HM. set (q := Z.to_nat (periods nt dt fc)). unfold obj_apply. cbn [matL M_Butter.base]. rewrite FL, FZ, D3, column_length.
  replace (negb (Z.of_nat (length r) + 0 =? nt)) with false by lia. rewrite HM, Nat.eqb_refl. cbn [negb]. f_equal.
  assert (PN : (IZR nt <> 0)%R) by (apply Rgt_not_eq, IZR_lt; lia).
  unfold times, part. rewrite map_map. unfold column at 2. rewrite map_map. apply map_ext. intros j. rewrite <- (comp_dot nt q r j) by (lia || exact HM).
  replace (cdot (column nt q (-1)) (map Creal r)) with (cdot (map Creal r) (column nt q (-1))).
  2:{ rewrite (cdot_comm_csum (Z.to_nat nt) (column nt q (-1))), (cdot_csum (Z.to_nat nt) (column nt q (-1))) by (rewrite ?column_length, ?map_length; auto). reflexivity. }
  unfold Cmul, Cscale. cbn [fst snd]. field. exact PN.
Qed.
(** Taking the part twice. *)
Lemma part_part NT q r : (4 <= NT)%nat -> (0 < q)%nat -> (2 * q < NT)%nat -> part NT q (part NT q r) = part NT q r.
Proof.
  intros HN Q1 Q2. assert (PN : INR NT <> 0%R) by (apply not_0_INR; lia).
  set (W := fun i => times (2 / INR NT * sample r i) (harmonic NT q 1 (- (2 * PI * INR q * INR i / INR NT)))).
  assert (S : forall j, (j < NT)%nat -> sample (part NT q r) j = rtotal (map (fun i => sample (W i) j) (seq 0 NT))).
  { intros j Hj. unfold part. rewrite (sample_map _ NT j Hj). unfold component_at. rewrite <- rtotal_scal. f_equal. apply map_ext. intros i. unfold W. rewrite sample_times.
    assert (EH : sample (harmonic NT q 1 (- (2 * PI * INR q * INR i / INR NT))) j = cos (2 * PI * INR q * (INR j - INR i) / INR NT)).
    { unfold sample. rewrite harmonic_nth by exact Hj. rewrite Rmult_1_l. f_equal. unfold Rdiv. ring. }
    rewrite EH. ring. }
  apply row_ext with NT; [unfold part; rewrite map_length, seq_length; reflexivity|unfold part; rewrite map_length, seq_length; reflexivity|]. intros j Hj.
  rewrite S by exact Hj. unfold part at 1. rewrite (sample_map _ NT j Hj). rewrite (at_sum NT q W (seq 0 NT)) by exact S. f_equal. apply map_ext. intros i.
  unfold W. rewrite at_scale, sample_times, at_harmonic, Nat.eqb_refl by assumption. reflexivity.
Qed.

(** ** The loops *)
Section Loop.
Variable disk : string -> option mat.
Variable seismic : bool.
Variable base : string.
Variable NT : nat.
Variable no : Z.
Variable mm : list (list Z).
Variable mv recs : list Z.
Let n := length recs.
Hypothesis Hn : length mm = n.
Hypothesis Hmm : mark_matrix n mm.
Hypothesis Hmv : length mv = S n.
Hypothesis Hdiag : diagonal mm.
Variable f : filt.
Variable G : R -> row -> row.
Hypothesis HG : forall fc L0, (0 < fc)%R ->
  exists L1, obj_calc (mkFobj f L0) (list_ascii_of_string "ideal") (list_ascii_of_string "bp") 1 fc 0 = Ok (mkFobj f L1) /\ forall r : row, length r = NT -> obj_apply (mkFobj f L1) r = Ok (G fc r).
Definition place (m : Z * fsrc) : nat := Z.to_nat (fst m).
Definition gone (m : Z * fsrc) (r : row) : row := G (f_fc (snd m)) (times (sg (f_src (snd m))) r).

Lemma commonF_decode t (D : Z * fsrc -> row) et : et = 2 \/ et = 3 -> (forall i, length (D i) = NT) -> forall incr enc, length enc = length incr -> (forall m, In m (combine incr enc) -> tidy no mv recs (shot_of m)) ->
  (forall m, In m (teamF no incr enc) -> (0 < f_fc (snd m))%R) ->
  forall (pre : mat) (predec extra : list mat) (s : row) ce cd L0, ce = Z.of_nat (length pre) -> cd = Z.of_nat (length predec) ->
  exists L1, commonF seismic base no et mm mv recs disk t incr enc (pre ++ map (fun m => D m) (of_typeF recs t (teamF no incr enc)))%list
    (predec ++ repeat ([] : mat) (length (of_typeF recs t (teamF no incr enc))) ++ extra)%list [s] ce cd (mkFobj f L0)
  = Ok ((pre ++ map (fun m => D m) (of_typeF recs t (teamF no incr enc)))%list,
        (predec ++ map (fun m => [gone m (D m)]) (of_typeF recs t (teamF no incr enc)) ++ extra)%list, mkFobj f L1).
Proof using Hn Hmm Hmv Hdiag HG.
  intros Het HD. induction incr as [|k incr IH]; intros [|e enc] Hl Ht Hf pre predec extra s ce cd L0 Hce Hcd; try discriminate Hl; [exists L0; reflexivity|].
  destruct (mine_eq no mv recs Hmv k (f_src e) t (Ht (k, e) (or_introl eq_refl))) as (x & ty & E1 & E2 & E3). cbn [commonF]. rewrite E1. cbn [bind]. rewrite E2. cbn [bind].
  replace (et <=? 1) with false by (destruct Het; subst; reflexivity). rewrite E3.
  unfold of_typeF, teamF in *. cbn [combine filter snd] in *.
  destruct (Z.abs (e_no (f_src e)) =? no) eqn:E; cbn [andb filter fst]; [change (nth (own (k, f_src e)) recs 0) with (nth (Z.to_nat k) recs 0); destruct (nth (Z.to_nat k) recs 0 =? t)|].
  - destruct (diag_row mm recs Hn Hmm Hdiag k (proj1 (Ht (k, e) (or_introl eq_refl)))) as (R1 & y & R2 & R3). rewrite R1. cbn [bind]. rewrite R2. cbn [bind]. rewrite R3.
    cbn [map]. rewrite (getRow_app pre _ _ ce Hce). cbn [bind]. destruct (HG (f_fc e) L0 (Hf (k, e) (or_introl eq_refl))) as (L1 & C1 & C2). rewrite C1. cbn [bind].
    unfold signed. rewrite flip_row. rewrite C2 by (rewrite times_len; apply HD). cbn [bind]. rewrite (updRow_app _ [] [] s 0 eq_refl). cbn [bind app].
    cbn [length repeat app]. rewrite vset_upd by (rewrite app_length; cbn [length]; lia). cbn [bind]. rewrite Hcd, Nat2Z.id, upd_at_app.
    change (G (f_fc e) (times (sg (f_src e)) (D (k, e)))) with (gone (k, e) (D (k, e))).
    set (L := filter _ (filter _ (combine incr enc))) in *.
    replace (pre ++ D (k, e) :: map (fun m => D m) L)%list with ((pre ++ [D (k, e)]) ++ map (fun m => D m) L)%list by (rewrite <- app_assoc; reflexivity).
    unfold L.
    destruct (IH enc ltac:(cbn in Hl; lia) (fun m Hm => Ht m (or_intror Hm)) (fun m Hm => Hf m (or_intror Hm)) (pre ++ [D (k, e)])%list (predec ++ [[gone (k, e) (D (k, e))] : mat])%list extra
                  (gone (k, e) (D (k, e))) (ce + 1) (Z.of_nat (length predec) + 1) L1 ltac:(rewrite app_length; cbn [length]; lia) ltac:(rewrite app_length; cbn [length]; lia)) as (L2 & Q).
    exists L2. rewrite <- !(app_assoc predec) in Q. etransitivity; [exact Q|]. rewrite <- app_assoc. reflexivity.
  - apply IH; [cbn in Hl; lia|intros m Hm; apply Ht; right; exact Hm|intros m Hm; apply Hf; right; exact Hm|exact Hce|exact Hcd].
  - apply IH; [cbn in Hl; lia|intros m Hm; apply Ht; right; exact Hm|exact Hf|exact Hce|exact Hcd].
Qed.
Lemma commonF_encode t (T : Z * fsrc -> row) file : disk (base ++ "." ++ component seismic (Z.to_nat (t - 1)))%string = Some file -> (forall m, length (T m) = NT) ->
  forall incr enc, length enc = length incr -> (forall m, In m (combine incr enc) -> tidy no mv recs (shot_of m)) ->
  (forall m, In m (teamF no incr enc) -> (0 < f_fc (snd m))%R /\ getRow file (fst m) = Ok (T m)) ->
  forall (pre : mat) dec s F ce cd L0, ce = Z.of_nat (length pre) ->
  exists L1, commonF seismic base no 1 mm mv recs disk t incr enc (pre ++ map F (of_typeF recs t (teamF no incr enc)))%list dec s ce cd (mkFobj f L0)
  = Ok ((pre ++ map (fun m => radd (F m) (gone m (T m))) (of_typeF recs t (teamF no incr enc)))%list, dec, mkFobj f L1).
Proof using Hn Hmm Hmv Hdiag HG.
  intros Hfile HT. induction incr as [|k incr IH]; intros [|e enc] Hl Ht Hf pre dec s F ce cd L0 Hce; try discriminate Hl; [exists L0; reflexivity|].
  destruct (mine_eq no mv recs Hmv k (f_src e) t (Ht (k, e) (or_introl eq_refl))) as (x & ty & E1 & E2 & E3). cbn [commonF]. rewrite E1. cbn [bind]. rewrite E2. cbn [bind].
  change (1 <=? 1) with true. change (1 =? 1) with true. cbv iota. rewrite E3.
  unfold of_typeF, teamF in *. cbn [combine filter snd] in *.
  destruct (Z.abs (e_no (f_src e)) =? no) eqn:E; cbn [andb filter fst]; [change (nth (own (k, f_src e)) recs 0) with (nth (Z.to_nat k) recs 0); destruct (nth (Z.to_nat k) recs 0 =? t)|].
  - rewrite comp_name_eq, Hfile. destruct (Hf (k, e) (or_introl eq_refl)) as [Pf Q]. cbn [fst snd] in Q, Pf.
    assert (Es : (r <- getRow file k ;; Ok [r]) = Ok [T (k, e)]) by (unfold row in *; rewrite Q; reflexivity).
    rewrite Es. cbn [bind].
    destruct (diag_row mm recs Hn Hmm Hdiag k (proj1 (Ht (k, e) (or_introl eq_refl)))) as (R1 & y & R2 & R3). rewrite R1. cbn [bind]. rewrite R2. cbn [bind]. rewrite R3.
    change (getRow [T (k, e)] 0) with (Ok (T (k, e))). cbn [bind map]. destruct (HG (f_fc e) L0 Pf) as (L1 & C1 & C2). rewrite C1. cbn [bind].
    unfold signed. rewrite flip_row. rewrite C2 by (rewrite times_len; apply HT). cbn [bind]. rewrite (updRow_app _ pre _ _ ce Hce). cbn [bind].
    change (G (f_fc e) (times (sg (f_src e)) (T (k, e)))) with (gone (k, e) (T (k, e))).
    set (L := filter _ (filter _ (combine incr enc))) in *.
    replace (pre ++ radd (F (k, e)) (gone (k, e) (T (k, e))) :: map F L)%list with ((pre ++ [radd (F (k, e)) (gone (k, e) (T (k, e)))]) ++ map F L)%list by (rewrite <- app_assoc; reflexivity).
    unfold L. destruct (IH enc ltac:(cbn in Hl; lia) (fun m Hm => Ht m (or_intror Hm)) (fun m Hm => Hf m (or_intror Hm)) (pre ++ [radd (F (k, e)) (gone (k, e) (T (k, e)))])%list dec [T (k, e)] F (ce + 1) (cd + 1) L1) as (L2 & K).
    + rewrite app_length. cbn [length]. lia.
    + exists L2. etransitivity; [exact K|]. rewrite <- app_assoc. reflexivity.
  - apply IH; [cbn in Hl; lia|intros m Hm; apply Ht; right; exact Hm|intros m Hm; apply Hf; right; exact Hm|exact Hce].
  - apply IH; [cbn in Hl; lia|intros m Hm; apply Ht; right; exact Hm|exact Hf|exact Hce].
Qed.
End Loop.

(** ** C183 *)
Section Supershot.
Variable disk : string -> option mat.
Variable seismic : bool.
Variable base : string.
Variable NT : nat.
Variable no : Z.
Variable mm : list (list Z).
Variable mv recs incr : list Z.
Variable enc : list fsrc.
Variable T DT : R.
Hypothesis HS : supershot no mm mv recs incr (map f_src enc).
Hypothesis Hn : length mm = length recs.
Hypothesis Hdiag : diagonal mm.
Hypothesis Hinc : StronglySorted Z.lt incr.
Hypothesis HDT : (0 < DT)%R.
Hypothesis HNT : (4 <= NT)%nat.
Hypothesis HP : power_of_two (Z.of_nat NT).
Hypothesis HT : truncR (T / DT + 1 / 2) = Z.of_nat NT.
Hypothesis Hfc : forall m, In m (teamF no incr enc) -> (0 < f_fc (snd m))%R.
(** The shots of the supershot that record type [t]. *)
Let shots t := of_typeF recs t (teamF no incr enc).
(** The loop for receiver type [t] (encode type [et]). *)
Definition runC et t (data : mat) dec o := commonF seismic base no et mm mv recs disk t incr enc data dec (zmat 1 NT) 0 0 o.

Lemma shots_chosen t : map place (shots t) = chosen mv recs t.
Proof using HS Hn Hdiag Hinc.
  rewrite <- (own_chosen no mm mv recs incr (map f_src enc) HS Hn Hdiag Hinc t). unfold shots. rewrite (team_map no incr enc). generalize (teamF no incr enc). intros l.
  induction l as [|m l IH]; [reflexivity|]. unfold of_type, of_typeF in *. cbn [map filter shot_of fst]. destruct (nth (Z.to_nat (fst m)) recs 0 =? t); cbn [map]; rewrite IH; reflexivity.
Qed.
Lemma shots_tidy m : In m (combine incr enc) -> tidy no mv recs (shot_of m).
Proof using HS Hn Hdiag Hinc.
  intros H. apply (all_tidy no mm mv recs incr (map f_src enc) HS Hn Hdiag Hinc). clear - H. revert enc H. induction incr as [|k l IH]; intros [|e en] H; try (destruct H; fail).
  destruct H as [<-|H]; [left; reflexivity|right; apply IH, H].
Qed.
Lemma shots_len : length enc = length incr.
Proof using HS. pose proof (su_lines _ _ _ _ _ _ HS) as Q. rewrite map_length in Q. exact Q. Qed.
Lemma filter_exists : exists f, freqFilter T DT = Ok (mkFobj f None) /\ forall fc L0, (0 < fc)%R ->
  exists L1, obj_calc (mkFobj f L0) (list_ascii_of_string "ideal") (list_ascii_of_string "bp") 1 fc 0 = Ok (mkFobj f L1) /\
    forall r : row, length r = NT -> obj_apply (mkFobj f L1) r = Ok (times (1 / 2) (part NT (Z.to_nat (periods (Z.of_nat NT) DT fc)) r)).
Proof using HDT HNT HP HT.
  clear - HDT HNT HP HT. destruct (filter_init_ok DT (Z.of_nat NT) ltac:(lra) ltac:(lia)) as (f & E). exists f. unfold freqFilter. rewrite HT, E. split; [reflexivity|].
  intros fc L0 F. pose proof (filter_row DT (Z.of_nat NT) f fc L0 HDT ltac:(lia) HP E F) as Q. rewrite Nat2Z.id in Q. exact Q.
Qed.
Lemma gone_part m r : gone (fun fc r => times (1 / 2) (part NT (Z.to_nat (periods (Z.of_nat NT) DT fc)) r)) m r = times (sg (f_src (snd m)) / 2) (part NT (tone NT DT m) r).
Proof using. clear. unfold gone, tone. rewrite part_scale. unfold times. rewrite map_map. apply map_ext. intros x. field. Qed.
Lemma part_len q r : length (part NT q r) = NT.
Proof using. clear. unfold part. rewrite map_length, seq_length. reflexivity. Qed.
Lemma extra_split t : (repeat ([] : mat) (length (teamF no incr enc)) = [] ++ repeat ([] : mat) (length (shots t)) ++ repeat ([] : mat) (length (teamF no incr enc) - length (shots t)))%list.
Proof using.
  clear. cbn [app]. rewrite <- repeat_app. f_equal. unfold shots, of_typeF. generalize (teamF no incr enc). intros l. induction l as [|m l IH]; [reflexivity|].
  cbn [filter length]. destruct (nth _ recs 0 =? t); cbn [length]; lia.
Qed.
Lemma decode_any et t (D : Z * fsrc -> row) o : et = 2 \/ et = 3 -> (forall m, length (D m) = NT) -> freqFilter T DT = Ok o -> forall L0, exists o',
  runC et t (map D (shots t)) (repeat ([] : mat) (length (teamF no incr enc))) (mkFobj (M_Butter.base o) L0) =
  Ok (map D (shots t), (map (fun m => [times (sg (f_src (snd m)) / 2) (part NT (tone NT DT m) (D m))]) (shots t) ++ repeat ([] : mat) (length (teamF no incr enc) - length (shots t)))%list, o').
Proof using HS Hn Hdiag Hinc HDT HNT HP HT Hfc.
  intros Het HD HO L0. destruct filter_exists as (f & E & HG). rewrite E in HO. injection HO as <-. cbn [M_Butter.base].
  destruct (commonF_decode disk seismic base NT no mm mv recs Hn (su_matrix _ _ _ _ _ _ HS) (su_len _ _ _ _ _ _ HS) Hdiag f _ HG t D et Het HD incr enc shots_len shots_tidy Hfc
    [] [] (repeat ([] : mat) (length (teamF no incr enc) - length (shots t))) (repeat 0%R NT) 0 0 L0 eq_refl eq_refl) as (L1 & R).
  eexists. unfold runC. rewrite (extra_split t). unfold shots in *. cbn [app] in R |- *. unfold zmat. cbn [repeat]. etransitivity; [exact R|]. do 3 f_equal. f_equal. apply map_ext. intros m. rewrite gone_part. reflexivity.
Qed.
(** Decoding: every shot gets half the part of its trace that has its frequency, with its sign; no scaling. *)
Theorem C183_decode et t (D : nat -> row) : et = 2 \/ et = 3 -> (forall i, length (D i) = NT) -> exists o o', freqFilter T DT = Ok o /\
  runC et t (map D (chosen mv recs t)) (repeat ([] : mat) (length (teamF no incr enc))) o =
  Ok (map D (chosen mv recs t), (map (fun m => [times (sg (f_src (snd m)) / 2) (part NT (tone NT DT m) (D (place m)))]) (of_typeF recs t (teamF no incr enc)) ++
        repeat ([] : mat) (length (teamF no incr enc) - length (of_typeF recs t (teamF no incr enc))))%list, o').
Proof using HS Hn Hdiag Hinc HDT HNT HP HT Hfc.
  intros Het HD. destruct filter_exists as (f & E & HG). exists (mkFobj f None). destruct (decode_any et t (fun m => D (place m)) (mkFobj f None) Het (fun m => HD _) E None) as (o' & R). exists o'. split; [exact E|].
  rewrite <- shots_chosen, map_map. exact R.
Qed.
(** Encoding from the file of the profile: the seismogram is made of half the parts of the traces, with the signs. *)
Theorem C183_encode t (P : nat -> row) dec : (forall i, length (P i) = NT) ->
  disk (base ++ "." ++ component seismic (Z.to_nat (t - 1)))%string = Some (map P (seq 0 (length mm))) -> exists o o', freqFilter T DT = Ok o /\
  runC 1 t (map (fun _ => repeat 0%R NT) (chosen mv recs t)) dec o =
  Ok (map (fun m => times (sg (f_src (snd m)) / 2) (part NT (tone NT DT m) (P (place m)))) (of_typeF recs t (teamF no incr enc)), dec, mkFobj (M_Butter.base o) o').
Proof using HS Hn Hdiag Hinc HDT HNT HP HT Hfc.
  intros HD Hfile. destruct filter_exists as (f & E & HG). exists (mkFobj f None).
  destruct (commonF_encode disk seismic base NT no mm mv recs Hn (su_matrix _ _ _ _ _ _ HS) (su_len _ _ _ _ _ _ HS) Hdiag f _ HG t (fun m => P (place m)) _ Hfile (fun m => HD _) incr enc shots_len shots_tidy) with
    (pre := @nil row) (dec := dec) (s := zmat 1 NT) (F := fun _ : Z * fsrc => (repeat 0%R NT : row)) (ce := 0) (cd := 0) (L0 := @None (list C * list C)) as (L1 & R); [|reflexivity|].
  - intros m Hm. split; [apply Hfc, Hm|]. pose proof (proj1 (filter_In _ _ _) Hm) as [Hc _]. destruct m as [k e].
    pose proof (su_rows _ _ _ _ _ _ HS k (in_combine_l _ _ _ _ Hc)) as Rk. cbn [fst]. rewrite (getRow_ok _ _ (P 0%nat)) by (rewrite map_length, seq_length; exact Rk). rewrite map_nth, seq_nth by lia. reflexivity.
  - exists L1. split; [exact E|]. cbn [M_Butter.base]. unfold runC. rewrite <- shots_chosen, map_map. cbn [app] in R. etransitivity; [exact R|]. do 3 f_equal. apply map_ext. intros m. rewrite gone_part.
    set (w := times _ _). assert (LW : length w = NT) by (unfold w; rewrite times_len; apply part_len). clearbody w. clear - LW.
    apply row_ext with NT; [rewrite radd_len by (rewrite repeat_length; auto); apply repeat_length|exact LW|].
    intros j Hj. unfold sample. rewrite radd_nth by (rewrite repeat_length; auto). rewrite nth_repeat. ring.
Qed.
(** Encoding from the file and decoding again: every shot gets a quarter of the part of its own trace. *)
Theorem C183_again et t (P : nat -> row) dec : et = 2 \/ et = 3 -> (forall i, length (P i) = NT) ->
  (forall m, In m (teamF no incr enc) -> (2 * tone NT DT m < NT)%nat) ->
  disk (base ++ "." ++ component seismic (Z.to_nat (t - 1)))%string = Some (map P (seq 0 (length mm))) -> exists o data d o1 o2, freqFilter T DT = Ok o /\
  runC 1 t (map (fun _ => repeat 0%R NT) (chosen mv recs t)) dec o = Ok (data, d, o1) /\
  runC et t data (repeat ([] : mat) (length (teamF no incr enc))) o =
  Ok (data, (map (fun m => [times (1 / 4) (part NT (tone NT DT m) (P (place m)))]) (of_typeF recs t (teamF no incr enc)) ++
        repeat ([] : mat) (length (teamF no incr enc) - length (of_typeF recs t (teamF no incr enc))))%list, o2).
Proof using HS Hn Hdiag Hinc HDT HNT HP HT Hfc.
  intros Het HD HQ Hfile. destruct (C183_encode t P dec HD Hfile) as (o & o1 & E & R1). exists o.
  destruct (decode_any et t (fun m => times (sg (f_src (snd m)) / 2) (part NT (tone NT DT m) (P (place m)))) o Het (fun m => eq_trans (times_len _ _) (part_len _ _)) E (matL o)) as (o2 & R2).
  do 3 eexists. exists o2. split; [exact E|]. split; [exact R1|]. destruct o as [b l]. cbn [M_Butter.base matL] in R2. etransitivity; [exact R2|]. do 3 f_equal. f_equal.
  apply map_ext_in. intros m Hm. apply filter_In in Hm. destruct Hm as [Hm _].
  assert (TP : (0 < tone NT DT m)%nat) by (unfold tone; pose proof (periods_pos (Z.of_nat NT) DT (f_fc (snd m)) ltac:(lia) HDT (Hfc m Hm)); lia).
  rewrite part_scale, part_part by (assumption || apply HQ, Hm). f_equal. unfold times. rewrite map_map. apply map_ext. intros x.
  pose proof (sg_sq (f_src (snd m))) as S2. transitivity (sg (f_src (snd m)) * sg (f_src (snd m)) / 4 * x)%R; [field|rewrite S2; field].
Qed.
End Supershot.

(** The hypotheses of C183: two shots of opposite sign with 1 and 2 periods.  The traces come back with a quarter of their
    amplitude. *)
Definition ex_P (i : nat) : row := match i with O => harmonic 8 1 3 0 | _ => harmonic 8 2 5 0 end.
Lemma part_own m A : (0 < m)%nat -> (2 * m < 8)%nat -> part 8 m (harmonic 8 m A 0) = harmonic 8 m A 0.
Proof.
  intros H1 H2. apply row_ext with 8%nat; [reflexivity|reflexivity|]. intros j Hj. unfold part. rewrite (sample_map _ 8 j Hj), at_harmonic, Nat.eqb_refl by (assumption || lia). reflexivity.
Qed.
Example C183_ex : exists o data d o1 o2, freqFilter 8 1 = Ok o /\
  runC (fun _ => Some [ex_P 0; ex_P 1]) true "s" 8 7 [[5; 1; 0]; [6; 0; 1]] [7; 1; 1] [1; 1] [0; 1] ex_enc 1 1 [repeat 0%R 8; repeat 0%R 8] [] o = Ok (data, d, o1) /\
  runC (fun _ => None) true "s" 8 7 [[5; 1; 0]; [6; 0; 1]] [7; 1; 1] [1; 1] [0; 1] ex_enc 2 1 data [[]; []] o =
  Ok (data, [[times (1 / 4) (harmonic 8 1 3 0)]; [times (1 / 4) (harmonic 8 2 5 0)]], o2).
Proof.
  destruct (C183_again (fun _ => Some [ex_P 0; ex_P 1]) true "s" 8 7 [[5; 1; 0]; [6; 0; 1]] [7; 1; 1] [1; 1] [0; 1] ex_enc 8 1) with (et := 2) (t := 1) (P := ex_P) (dec := @nil mat)
    as (o & data & d & o1 & o2 & E1 & E2 & E3).
  - constructor.
    + intros r [<-|[<-|[]]]; (split; [reflexivity|]); intros [|[|i]] H; cbn in *; auto; lia.
    + split; [reflexivity|]. intros [|[|i]] H; cbn in H; [| |lia]; (split; [intros _|reflexivity]).
      * exists 0, (mkE 7 1). split; [left; reflexivity|reflexivity].
      * exists 1, (mkE (-7) (-1)). split; [right; left; reflexivity|reflexivity].
    + reflexivity.
    + intros k [<-|[<-|[]]]; cbn; lia.
    + intros t [<-|[<-|[]]]; lia.
  - reflexivity.
  - intros [|[|k]] [|[|i]] H1 H2; cbn in H1, H2; try lia; cbn; split; intros X; try reflexivity; try discriminate X.
  - repeat constructor.
  - lra.
  - lia.
  - exists 3. split; [lia|reflexivity].
  - rewrite truncR_nonneg by lra. apply int_part_unique. change (IZR (Z.of_nat 8)) with 8%R. lra.
  - intros m [<-|[<-|[]]]; cbn; lra.
  - left. reflexivity.
  - intros [|i]; apply harmonic_length.
  - intros m [<-|[<-|[]]]; rewrite ?ex_tone1, ?ex_tone2; lia.
  - reflexivity.
  - exists o, data, d, o1, o2. split; [exact E1|]. split; [exact E2|].
    cbn [teamF of_typeF ex_enc combine filter snd fst f_src e_no Z.abs Z.eqb Pos.eqb map length Nat.sub repeat app] in E3.
    change (nth (Z.to_nat 0) [1; 1] 0 =? 1) with true in E3. change (nth (Z.to_nat 1) [1; 1] 0 =? 1) with true in E3. cbn [map length Nat.sub repeat app] in E3. rewrite ex_tone1, ex_tone2 in E3.
    change (ex_P (place (0, mkFs (mkE 7 1) (1 / 8)))) with (harmonic 8 1 3 0) in E3. change (ex_P (place (1, mkFs (mkE (-7) (-1)) (2 / 8)))) with (harmonic 8 2 5 0) in E3.
    rewrite !part_own in E3 by lia. exact E3.
Qed.

Print Assumptions C183_decode.
Print Assumptions C183_encode.
Print Assumptions C183_again.

(** Median filters: C50 and C85. *)
From Coq Require Import Reals Lra Lia.
From Verif Require Import Base M_Median S_Median L_Median L_Median2.
Open Scope Z_scope.

(** ** C50: every pixel of the result is the median of the window around it; the image is continued by its nearest
    pixels (fillType 1) or by zeros. *)
Theorem C50_median : forall image NX NY ksize fillType,
  1 <= NX -> 1 <= NY -> Z.of_nat (length image) = NX * NY -> 1 <= ksize -> Z.odd ksize = true ->
  exists out, medianfilter2D image NX NY ksize fillType = Ok out /\ Z.of_nat (length out) = NX * NY /\
  forall y x, 0 <= y < NY -> 0 <= x < NX ->
    Z.of_nat (length (window2D image NX NY (fillType =? 1) ((ksize - 1) / 2) y x)) = ksize * ksize /\
    is_median (nth (Z.to_nat (y * NX + x)) out 0%R) (window2D image NX NY (fillType =? 1) ((ksize - 1) / 2) y x).
Proof.
  intros image NX NY ksize fillType HX HY HI HK HO. apply Z.odd_spec in HO. destruct HO as (b & ->).
  replace ((2 * b + 1 - 1) / 2) with b by (replace (2 * b + 1 - 1) with (b * 2) by lia; symmetry; apply Z.div_mul; lia).
  destruct (median2D_ok image NX NY b fillType HX HY ltac:(lia) HI) as (out & E & L & M). exists out. split; [exact E|]. split; [exact L|].
  intros y x Hy Hx. split; [|apply M; assumption]. unfold window2D. rewrite map_length, prod_length, !zseq_len. lia.
Qed.
Print Assumptions C50_median.
(** The median of an odd number of values is unique, so the property fixes the result. *)
Theorem C50_unique : forall v v' w, is_median v w -> is_median v' w -> v = v'.
Proof.
  assert (G : forall v v' w, is_median v w -> is_median v' w -> ~ (v < v')%R).
  { intros v v' w (_ & _ & A) (_ & B & _) L. unfold smaller, larger in *.
    assert (C : (length w <= length (filter (fun x => if Rlt_dec v x then true else false) w) + length (filter (fun x => if Rlt_dec x v' then true else false) w))%nat).
    { clear A B. induction w as [|x w IH]; [cbn; lia|]. cbn [filter]. destruct (Rlt_dec v x), (Rlt_dec x v'); cbn [length]; try lia. lra. }
    lia. }
  intros v v' w A B. destruct (Rtotal_order v v') as [L|[E|L]]; [exfalso; exact (G v v' w A B L)|exact E|exfalso; exact (G v' v w B A L)].
Qed.
Print Assumptions C50_unique.
Example C50_example : is_median 2 [5; 1; 2]%R /\ window2D [1; 2; 3; 4]%R 2 2 true 1 0 0 = [1; 1; 2; 1; 1; 2; 3; 3; 4]%R /\
  window2D [1; 2; 3; 4]%R 2 2 false 1 0 0 = [0; 0; 0; 0; 1; 2; 0; 3; 4]%R.
Proof.
  split; [|split; reflexivity]. unfold is_median, smaller, larger. cbn. split; [auto|].
  destruct (Rlt_dec 5 2); [lra|]. destruct (Rlt_dec 1 2); [|lra]. destruct (Rlt_dec 2 2); [lra|].
  destruct (Rlt_dec 2 5); [|lra]. destruct (Rlt_dec 2 1); [lra|]. cbn. lia.
Qed.

(** ** C85: the 1D filter takes the median of five samples, whatever its kernel size. *)
Theorem C85_median : forall signal ksize, (2 <= length signal)%nat ->
  exists out, medianfilter1D signal ksize = Ok out /\ length out = length signal /\
  forall i, 0 <= i < Z.of_nat (length signal) -> is_median (nth (Z.to_nat i) out 0%R) (window1D signal i).
Proof.
  intros signal ksize HL. unfold medianfilter1D. set (NX := Z.of_nat (length signal)). assert (HN : 2 <= NX) by (unfold NX; lia).
  replace (NX <? 1) with false by lia. replace (NX =? 1) with false by lia.
  set (sg := fun i => nth (Z.to_nat i) signal 0%R).
  assert (RD : forall i, 0 <= i < NX -> rd NX (ofList signal) i = Ok (sg i)).
  { intros i Hi. apply rd_ok; [exact Hi|]. apply ofList_ok. exact Hi. }
  destruct (copy_ok (NX + 4) 2 NX (fun _ k => rd NX (ofList signal) k) sg fresh) as (m1 & E1 & M1); try lia.
  { intros k m' Hk _. apply RD. exact Hk. }
  rewrite E1. cbn [bind].
  assert (E2 : exists m2, for_to 0 2 (fun i ext => a <- rd NX (ofList signal) (1 - i) ;; ext <- wr (NX + 4) ext i a ;;
      b <- rd NX (ofList signal) (NX - 1 - i) ;; wr (NX + 4) ext (NX + 2 + i) b) m1 = Ok m2 /\
      forall e, 0 <= e < NX + 4 -> m2 e = Some (sg (mirror NX (e - 2)))).
  { unfold for_to. change (Z.to_nat (2 - 0)) with 2%nat. cbn [loop]. change (0 + 1) with 1.
    rewrite !RD by lia. cbn [bind]. rewrite wr_ok by lia. cbn [bind]. rewrite wr_ok by lia. cbn [bind].
    rewrite wr_ok by lia. cbn [bind]. rewrite wr_ok by lia. cbn [bind]. eexists. split; [reflexivity|].
    intros e He. unfold upd. unfold mirror.
    destruct (Z.eqb_spec e (NX + 2 + 1)); [replace (e - 2 <? 0) with false by lia; replace (e - 2 <? NX) with false by lia; do 2 f_equal; lia|].
    destruct (Z.eqb_spec e 1); [replace (e - 2 <? 0) with true by lia; do 2 f_equal; lia|].
    destruct (Z.eqb_spec e (NX + 2 + 0)); [replace (e - 2 <? 0) with false by lia; replace (e - 2 <? NX) with false by lia; do 2 f_equal; lia|].
    destruct (Z.eqb_spec e 0); [replace (e - 2 <? 0) with true by lia; do 2 f_equal; lia|].
    rewrite M1. replace ((2 <=? e) && (e <? 2 + NX)) with true by lia. replace (e - 2 <? 0) with false by lia. replace (e - 2 <? NX) with true by lia. reflexivity. }
  destruct E2 as (m2 & E2 & M2). rewrite E2. cbn [bind]. unfold filter1D.
  set (med := fun i => nth 2 (order_first (window1D signal i) 3) 0%R).
  match goal with |- context [for_to 2 ?h ?f fresh] => destruct (for_inv f (fun k m => forall i, 0 <= i < k - 2 -> m i = Some (med i)) 2 h fresh) as (m3 & E3 & M3) end.
  - lia.
  - intros i Hi. lia.
  - intros k m Hk I.
    assert (C : collect (fun j => rd (NX + 4) m2 (k - 2 + j)) (zseq 0 5) = Ok (window1D signal (k - 2))).
    { rewrite (collect_ok _ (fun j => sg (mirror NX (k - 2 + j - 2)))).
      - f_equal. unfold window1D. fold NX. cbn [zseq map]. unfold sg. repeat (apply f_equal2; [do 3 f_equal; lia|]). reflexivity.
      - intros j Hj. apply In_zseq in Hj. apply rd_ok; [lia|]. apply M2. lia. }
    rewrite C. cbn [bind]. rewrite wr_ok by lia. eexists. split; [reflexivity|]. intros i Hi. unfold upd.
    destruct (Z.eqb_spec i (k - 2)) as [->|N]; [reflexivity|]. apply I. lia.
  - rewrite E3. cbn [bind]. rewrite (collect_ok _ med).
    + eexists. split; [reflexivity|]. split; [rewrite map_length, zseq_len; reflexivity|]. intros i Hi.
      rewrite (nth_indep _ 0%R (med 0)) by (rewrite map_length, zseq_len; lia). rewrite (map_nth med). rewrite zseq_nth0 by lia.
      rewrite Z2Nat.id by lia. unfold med. apply (order_median _ 2). reflexivity.
    + intros i Hi. apply In_zseq in Hi. apply rd_ok; [lia|]. apply M3. lia.
Qed.
Theorem C85_single : forall x ksize, medianfilter1D [x] ksize = Ok [x].
Proof. reflexivity. Qed.
Theorem C85_size_ignored : forall signal ksize ksize', medianfilter1D signal ksize = medianfilter1D signal ksize'.
Proof. reflexivity. Qed.
Print Assumptions C85_median.
Print Assumptions C85_single.
Print Assumptions C85_size_ignored.
Example C85_example : window1D [1; 2; 3]%R 0 = [2; 1; 1; 2; 3]%R /\ window1D [1; 2; 3]%R 2 = [1; 2; 3; 3; 2]%R.
Proof. split; reflexivity. Qed.

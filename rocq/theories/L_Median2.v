(** The extended image and the filters. *)
From Coq Require Import Reals Lra Lia Permutation.
From Verif Require Import Base M_Median S_Median L_Median.
Open Scope Z_scope.

Section Extension.
Variable image : list R.
Variables NX NY b fillType : Z.
Hypothesis HX : 1 <= NX.
Hypothesis HY : 1 <= NY.
Hypothesis Hb : 0 <= b.
Hypothesis HI : Z.of_nat (length image) = NX * NY.
Let W := NX + 2 * b.
Let H := NY + 2 * b.
Let size := W * H.
Variable nearest : bool.
Hypothesis HN : nearest = (fillType =? 1).
Let pix (y x : Z) := pixel image NX NY nearest y x.

Lemma img_read i k : 0 <= i < NY -> 0 <= k < NX -> rd (Z.of_nat (length image)) (ofList image) (NX * i + k) = Ok (pix i k).
Proof.
  intros Hi Hk. pose proof (row_bound NX NY i k Hk Hi) as B. apply rd_ok; [lia|]. rewrite ofList_ok by lia. f_equal.
  unfold pix, pixel, clamp. replace (Z.max 0 (Z.min (NY - 1) i)) with i by lia. replace (Z.max 0 (Z.min (NX - 1) k)) with k by lia.
  replace ((0 <=? i) && (i <? NY) && (0 <=? k) && (k <? NX)) with true by lia. rewrite (Z.mul_comm i NX). destruct nearest; reflexivity.
Qed.
Lemma pix_nearest y x : nearest = true -> pix y x = pix (clamp NY y) (clamp NX x).
Proof.
  intros E. unfold pix, pixel. rewrite E. unfold clamp.
  replace (Z.max 0 (Z.min (NY - 1) (Z.max 0 (Z.min (NY - 1) y)))) with (Z.max 0 (Z.min (NY - 1) y)) by lia.
  replace (Z.max 0 (Z.min (NX - 1) (Z.max 0 (Z.min (NX - 1) x)))) with (Z.max 0 (Z.min (NX - 1) x)) by lia. reflexivity.
Qed.
Lemma pix_zero y x : nearest = false -> ~ (0 <= y < NY /\ 0 <= x < NX) -> pix y x = 0%R.
Proof.
  intros E N. unfold pix, pixel. rewrite E. replace ((0 <=? y) && (y <? NY) && (0 <=? x) && (x <? NX)) with false by lia. reflexivity.
Qed.
Lemma pos_bound r c : 0 <= c < W -> 0 <= r < H -> 0 <= W * r + c < size.
Proof. apply row_bound. Qed.

(** one row of the image with its left and right extension *)
Lemma extend_row i m : 0 <= i < NY ->
  exists m', (ext <- copy size (W * (i + b) + b) NX (fun _ k => rd (Z.of_nat (length image)) (ofList image) (NX * i + k)) m ;;
    if fillType =? 1 then
      for_to 0 b (fun j ext =>
        a <- rd (Z.of_nat (length image)) (ofList image) (NX * i) ;;
        ext <- wr size ext (W * (i + b) + j) a ;;
        b' <- rd (Z.of_nat (length image)) (ofList image) (NX * (i + 1) - 1) ;;
        wr size ext (W * (i + b + 1) - j - 1) b') ext
    else
      for_to 0 b (fun j ext =>
        ext <- wr size ext (W * (i + b) + j) 0%R ;;
        wr size ext (W * (i + b + 1) - j - 1) 0%R) ext) = Ok m' /\
  (forall c, 0 <= c < W -> m' (W * (i + b) + c) = Some (pix i (c - b))) /\
  (forall r c, r <> i -> 0 <= c < W -> m' (W * (r + b) + c) = m (W * (r + b) + c)).
Proof.
  intros Hi. pose proof (pos_bound (i + b) 0 ltac:(unfold W; lia) ltac:(unfold H; lia)) as B0.
  pose proof (pos_bound (i + b) (W - 1) ltac:(unfold W; lia) ltac:(unfold H; lia)) as B1.
  destruct (copy_ok size (W * (i + b) + b) NX (fun _ k => rd (Z.of_nat (length image)) (ofList image) (NX * i + k)) (fun k => pix i k) m) as (m1 & E1 & M1).
  { lia. } { lia. } { unfold W in *. lia. } { intros k m' Hk _. apply img_read; lia. }
  rewrite E1. cbn [bind].
  (* values written on the left and on the right *)
  assert (F : exists lv rv,
    (forall c, 0 <= c < b -> pix i (c - b) = lv) /\ (forall c, NX + b <= c < W -> pix i (c - b) = rv) /\
    (if fillType =? 1 then
      for_to 0 b (fun j ext =>
        a <- rd (Z.of_nat (length image)) (ofList image) (NX * i) ;;
        ext <- wr size ext (W * (i + b) + j) a ;;
        b' <- rd (Z.of_nat (length image)) (ofList image) (NX * (i + 1) - 1) ;;
        wr size ext (W * (i + b + 1) - j - 1) b') m1
    else
      for_to 0 b (fun j ext =>
        ext <- wr size ext (W * (i + b) + j) 0%R ;;
        wr size ext (W * (i + b + 1) - j - 1) 0%R) m1)
    = for_to 0 b (fun j ext =>
        ext <- wr size ext (W * (i + b) + j) lv ;;
        wr size ext (W * (i + b + 1) - j - 1) rv) m1).
  { assert (FT : (fillType =? 1) = true \/ (fillType =? 1) = false) by (destruct (fillType =? 1); [left|right]; reflexivity).
    destruct FT as [FT|FT]; rewrite FT; pose proof (eq_trans HN FT) as NT.
    - exists (pix i 0), (pix i (NX - 1)). split; [|split].
      + intros c Hc. rewrite (pix_nearest i (c - b) NT). f_equal; unfold clamp; lia.
      + intros c Hc. rewrite (pix_nearest i (c - b) NT). f_equal; unfold clamp, W in *; lia.
      + assert (R0 : rd (Z.of_nat (length image)) (ofList image) (NX * i) = Ok (pix i 0)).
        { replace (NX * i) with (NX * i + 0) by lia. apply img_read; lia. }
        assert (R1 : rd (Z.of_nat (length image)) (ofList image) (NX * (i + 1) - 1) = Ok (pix i (NX - 1))).
        { replace (NX * (i + 1) - 1) with (NX * i + (NX - 1)) by lia. apply img_read; lia. }
        rewrite R0, R1. reflexivity.
    - exists 0%R, 0%R. split; [|split].
      + intros c Hc. apply (pix_zero _ _ NT). lia.
      + intros c Hc. apply (pix_zero _ _ NT). lia.
      + reflexivity. }
  destruct F as (lv & rv & FL & FR & FE). rewrite FE. clear FE.
  destruct (for_inv (fun j ext => ext <- wr size ext (W * (i + b) + j) lv ;; wr size ext (W * (i + b + 1) - j - 1) rv)
    (fun j m2 => forall r c, 0 <= c < W -> m2 (W * (r + b) + c) =
       if (r =? i) && (c <? j) then Some lv else if (r =? i) && (W - j <=? c) then Some rv else m1 (W * (r + b) + c)) 0 b m1 Hb) as (m2 & E2 & M2).
  - intros r c Hc. replace (c <? 0) with false by lia. replace (W - 0 <=? c) with false by lia. rewrite !andb_false_r. reflexivity.
  - intros j m2 Hj I. rewrite wr_ok by (unfold W in *; lia). cbn [bind].
    replace (W * (i + b + 1) - j - 1) with (W * (i + b) + (W - 1 - j)) by lia. rewrite wr_ok by (unfold W in *; lia).
    eexists. split; [reflexivity|]. intros r c Hc. unfold upd. rewrite I by exact Hc.
    destruct (Z.eqb_spec (W * (r + b) + c) (W * (i + b) + (W - 1 - j))) as [Q|Q].
    + apply row_unique in Q; [|lia|unfold W; lia]. replace (r =? i) with true by lia. replace (c <? j + 1) with false by (unfold W in *; lia).
      replace (W - (j + 1) <=? c) with true by lia. reflexivity.
    + destruct (Z.eqb_spec (W * (r + b) + c) (W * (i + b) + j)) as [Q'|Q'].
      * apply row_unique in Q'; [|lia|unfold W; lia]. replace (r =? i) with true by lia. replace (c <? j + 1) with true by lia. reflexivity.
      * destruct (Z.eqb_spec r i) as [->|N]; cbn [andb]; [|reflexivity].
        assert (c <> j) by (intros ->; apply Q'; reflexivity). assert (c <> W - 1 - j) by (intros ->; apply Q; reflexivity).
        destruct (Z.ltb_spec c j); [replace (c <? j + 1) with true by lia; reflexivity|]. replace (c <? j + 1) with false by lia.
        destruct (Z.leb_spec (W - j) c); [replace (W - (j + 1) <=? c) with true by lia|replace (W - (j + 1) <=? c) with false by lia]; reflexivity.
  - exists m2. split; [exact E2|]. split.
    + intros c Hc. rewrite M2 by exact Hc. rewrite Z.eqb_refl. cbn [andb].
      destruct (Z.ltb_spec c b); [rewrite FL by lia; reflexivity|]. destruct (Z.leb_spec (W - b) c); [rewrite FR by (unfold W in *; lia); reflexivity|].
      rewrite M1. replace ((W * (i + b) + b <=? W * (i + b) + c) && (W * (i + b) + c <? W * (i + b) + b + NX)) with true by (unfold W in *; lia).
      do 2 f_equal. lia.
    + intros r c N Hc. rewrite M2 by exact Hc. replace (r =? i) with false by lia. cbn [andb]. rewrite M1.
      destruct ((W * (i + b) + b <=? W * (r + b) + c) && (W * (r + b) + c <? W * (i + b) + b + NX)) eqn:B; [|reflexivity]. exfalso.
      assert (Q : W * (r + b) + c = W * (i + b) + (W * (r + b) + c - W * (i + b))) by lia.
      apply row_unique in Q; [lia|lia|unfold W in *; lia].
Qed.

Lemma extend2D_ok : exists m, extend2D image NX NY b fillType = Ok m /\
  forall r c, 0 <= r < H -> 0 <= c < W -> m (W * r + c) = Some (pix (r - b) (c - b)).
Proof.
  unfold extend2D. fold W H size.
  destruct (for_inv (fun i ext =>
    ext <- copy size (W * (i + b) + b) NX (fun _ k => rd (Z.of_nat (length image)) (ofList image) (NX * i + k)) ext ;;
    if fillType =? 1 then
      for_to 0 b (fun j ext =>
        a <- rd (Z.of_nat (length image)) (ofList image) (NX * i) ;;
        ext <- wr size ext (W * (i + b) + j) a ;;
        b0 <- rd (Z.of_nat (length image)) (ofList image) (NX * (i + 1) - 1) ;;
        wr size ext (W * (i + b + 1) - j - 1) b0) ext
    else
      for_to 0 b (fun j ext =>
        ext <- wr size ext (W * (i + b) + j) 0%R ;;
        wr size ext (W * (i + b + 1) - j - 1) 0%R) ext)
    (fun i m => forall r c, 0 <= r < i -> 0 <= c < W -> m (W * (r + b) + c) = Some (pix r (c - b))) 0 NY fresh) as (m1 & E1 & M1).
  { lia. }
  { intros r c Hr. lia. }
  { intros i m Hi I. destruct (extend_row i m Hi) as (m' & E & A & B). exists m'. split; [exact E|].
    intros r c Hr Hc. destruct (Z.eq_dec r i) as [->|N]; [apply A; exact Hc|]. rewrite B by assumption. apply I; lia. }
  rewrite E1. cbn [bind].
  match goal with |- context [for_to 0 b ?f m1] => destruct (for_inv f
    (fun j m => forall r c, 0 <= r -> (r < j \/ b <= r < NY + b + j) -> 0 <= c < W -> m (W * r + c) = Some (pix (r - b) (c - b))) 0 b m1 Hb) as (m2 & E2 & M2) end.
  - intros r c Hr A Hc. replace r with (r - b + b) at 1 by lia. apply M1; lia.
  - intros j m Hj I. assert (FT : (fillType =? 1) = true \/ (fillType =? 1) = false) by (destruct (fillType =? 1); [left|right]; reflexivity).
    destruct FT as [FT|FT]; rewrite FT; pose proof (eq_trans HN FT) as NT.
    + pose proof (pos_bound j 0 ltac:(unfold W; lia) ltac:(unfold H; lia)). pose proof (pos_bound j (W - 1) ltac:(unfold W; lia) ltac:(unfold H; lia)).
      destruct (copy_ok size (W * j) W (fun m k => rd size m (W * b + k)) (fun k => pix 0 (k - b)) m) as (m3 & E3 & M3).
      { unfold W; lia. } { lia. } { lia. }
      { intros k m' Hk Q. apply rd_ok; [apply pos_bound; [exact Hk|unfold H; lia]|]. rewrite Q.
        - rewrite I; [|lia|lia|exact Hk]. do 2 f_equal. lia.
        - intros B. assert (X : W * b + k = W * j + (W * b + k - W * j)) by lia. apply row_unique in X; lia. }
      rewrite E3. cbn [bind].
      pose proof (pos_bound (NY + b + j) 0 ltac:(unfold W; lia) ltac:(unfold H; lia)). pose proof (pos_bound (NY + b + j) (W - 1) ltac:(unfold W; lia) ltac:(unfold H; lia)).
      assert (P3 : forall r c, 0 <= c < W -> m3 (W * r + c) = if r =? j then Some (pix 0 (c - b)) else m (W * r + c)).
      { intros r c Hc. rewrite M3. destruct (Z.eqb_spec r j) as [->|N].
        - replace ((W * j <=? W * j + c) && (W * j + c <? W * j + W)) with true by lia. do 3 f_equal. lia.
        - destruct ((W * j <=? W * r + c) && (W * r + c <? W * j + W)) eqn:B; [|reflexivity]. exfalso.
          assert (X : W * r + c = W * j + (W * r + c - W * j)) by lia. apply row_unique in X; lia. }
      destruct (copy_ok size (W * (NY + b + j)) W (fun m k => rd size m (W * (NY + b - 1) + k)) (fun k => pix (NY - 1) (k - b)) m3) as (m4 & E4 & M4).
      { unfold W; lia. } { lia. } { lia. }
      { intros k m' Hk Q. apply rd_ok; [apply pos_bound; [exact Hk|unfold H; lia]|]. rewrite Q.
        - rewrite P3 by exact Hk. replace (NY + b - 1 =? j) with false by lia. rewrite I; [|lia|lia|exact Hk]. do 2 f_equal. lia.
        - intros B. assert (X : W * (NY + b - 1) + k = W * (NY + b + j) + (W * (NY + b - 1) + k - W * (NY + b + j))) by lia. apply row_unique in X; lia. }
      exists m4. split; [exact E4|]. intros r c Hr A Hc. rewrite M4.
      destruct (Z.eq_dec r (NY + b + j)) as [->|N].
      * replace ((W * (NY + b + j) <=? W * (NY + b + j) + c) && (W * (NY + b + j) + c <? W * (NY + b + j) + W)) with true by lia.
        f_equal. rewrite (pix_nearest (NY - 1) _ NT), (pix_nearest (NY + b + j - b) _ NT). f_equal; [unfold clamp; lia|f_equal; lia].
      * destruct ((W * (NY + b + j) <=? W * r + c) && (W * r + c <? W * (NY + b + j) + W)) eqn:B.
        { exfalso. assert (X : W * r + c = W * (NY + b + j) + (W * r + c - W * (NY + b + j))) by lia. apply row_unique in X; lia. }
        rewrite P3 by exact Hc. destruct (Z.eqb_spec r j) as [->|N2].
        -- f_equal. rewrite (pix_nearest 0 _ NT), (pix_nearest (j - b) _ NT). f_equal. unfold clamp. lia.
        -- apply I; lia.
    + destruct (for_inv (fun i ext => ext <- wr size ext (W * j + i) 0%R ;; wr size ext (W * (NY + b + j) + i) 0%R)
        (fun i m' => forall r c, 0 <= c < W -> m' (W * r + c) = if ((r =? j) || (r =? NY + b + j)) && (c <? i) then Some 0%R else m (W * r + c)) 0 W m) as (m3 & E3 & M3).
      { unfold W; lia. }
      { intros r c Hc. replace (c <? 0) with false by lia. rewrite andb_false_r. reflexivity. }
      { intros i m' Hi I'. rewrite wr_ok by (apply pos_bound; unfold H; lia). cbn [bind]. rewrite wr_ok by (apply pos_bound; unfold H; lia).
        eexists. split; [reflexivity|]. intros r c Hc. unfold upd. rewrite I' by exact Hc.
        destruct (Z.eqb_spec (W * r + c) (W * (NY + b + j) + i)) as [Q|Q].
        - apply row_unique in Q; [|lia|lia]. replace (((r =? j) || (r =? NY + b + j)) && (c <? i + 1)) with true by lia. reflexivity.
        - destruct (Z.eqb_spec (W * r + c) (W * j + i)) as [Q'|Q'].
          + apply row_unique in Q'; [|lia|lia]. replace (((r =? j) || (r =? NY + b + j)) && (c <? i + 1)) with true by lia. reflexivity.
          + destruct (Z.eqb_spec r j) as [->|N1]; cbn [orb andb].
            * assert (c <> i) by (intros ->; apply Q'; reflexivity). destruct (Z.ltb_spec c i); [replace (c <? i + 1) with true by lia|replace (c <? i + 1) with false by lia]; reflexivity.
            * destruct (Z.eqb_spec r (NY + b + j)) as [->|N2]; cbn [andb]; [|reflexivity].
              assert (c <> i) by (intros ->; apply Q; reflexivity). destruct (Z.ltb_spec c i); [replace (c <? i + 1) with true by lia|replace (c <? i + 1) with false by lia]; reflexivity. }
      exists m3. split; [exact E3|]. intros r c Hr A Hc. rewrite M3 by exact Hc.
      destruct (Z.eqb_spec r j) as [->|N1]; cbn [orb andb].
      * replace (c <? W) with true by lia. rewrite (pix_zero _ _ NT) by lia. reflexivity.
      * destruct (Z.eqb_spec r (NY + b + j)) as [->|N2]; cbn [andb].
        -- replace (c <? W) with true by lia. rewrite (pix_zero _ _ NT) by lia. reflexivity.
        -- apply I; lia.
  - exists m2. split; [exact E2|]. intros r c Hr Hc. apply M2; [lia|unfold H in Hr; lia|exact Hc].
Qed.
End Extension.

Lemma list_prod_map {A B A' B'} (f : A -> A') (g : B -> B') la lb :
  list_prod (map f la) (map g lb) = map (fun p => (f (fst p), g (snd p))) (list_prod la lb).
Proof.
  induction la as [|a la IH]; [reflexivity|]. cbn [list_prod map]. rewrite map_app, IH. f_equal. rewrite !map_map. reflexivity.
Qed.

Lemma median2D_ok image NX NY b fillType : 1 <= NX -> 1 <= NY -> 0 <= b -> Z.of_nat (length image) = NX * NY ->
  exists out, medianfilter2D image NX NY (2 * b + 1) fillType = Ok out /\ Z.of_nat (length out) = NX * NY /\
  forall y x, 0 <= y < NY -> 0 <= x < NX -> is_median (nth (Z.to_nat (y * NX + x)) out 0%R) (window2D image NX NY (fillType =? 1) b y x).
Proof.
  intros HX HY Hb HI. unfold medianfilter2D. replace ((NX <? 1) || (NY <? 1)) with false by lia.
  assert (KB : Z.quot (2 * b + 1 - 1) 2 = b) by (rewrite Z.quot_div_nonneg by lia; replace (2 * b + 1 - 1) with (b * 2) by lia; apply Z.div_mul; lia).
  rewrite KB. destruct (extend2D_ok image NX NY b fillType HX HY Hb HI _ eq_refl) as (ext & E & M). rewrite E. cbn [bind].
  unfold filter2D. rewrite KB. set (W := NX + 2 * b) in *. set (H := NY + 2 * b) in *.
  set (med := fun y x => nth (Z.to_nat (Z.quot ((2 * b + 1) * (2 * b + 1) - 1) 2))
     (order_first (window2D image NX NY (fillType =? 1) b y x) (Z.to_nat (Z.quot ((2 * b + 1) * (2 * b + 1) + 1) 2))) 0%R).
  assert (K1 : Z.quot ((2 * b + 1) * (2 * b + 1) - 1) 2 = 2 * b * b + 2 * b).
  { assert (P : 0 <= b * b) by (apply Z.mul_nonneg_nonneg; lia). rewrite Z.quot_div_nonneg by lia.
    replace ((2 * b + 1) * (2 * b + 1) - 1) with ((2 * b * b + 2 * b) * 2) by ring. apply Z.div_mul; lia. }
  assert (K2 : Z.quot ((2 * b + 1) * (2 * b + 1) + 1) 2 = 2 * b * b + 2 * b + 1).
  { assert (P : 0 <= b * b) by (apply Z.mul_nonneg_nonneg; lia). rewrite Z.quot_div_nonneg by lia.
    replace ((2 * b + 1) * (2 * b + 1) + 1) with ((2 * b * b + 2 * b + 1) * 2) by ring. apply Z.div_mul; lia. }
  assert (LW : forall y x, Z.of_nat (length (window2D image NX NY (fillType =? 1) b y x)) = (2 * b + 1) * (2 * b + 1)).
  { intros y x. unfold window2D. rewrite map_length, prod_length, !zseq_len. lia. }
  (* one pixel *)
  assert (STEP : forall y x (result : mem), 0 <= y < NY -> 0 <= x < NX ->
     (window <- collect (fun p : Z * Z => rd (W * H) ext (fst p * W + snd p))
         (list_prod (zseq (y + b - b) (Z.to_nat (2 * b + 1))) (zseq (x + b - b) (Z.to_nat (2 * b + 1)))) ;;
      if negb (Z.of_nat (length window) =? (2 * b + 1) * (2 * b + 1)) then UB else
      wr (NX * NY) result ((y + b - b) * (W - 2 * b) + (x + b) - b)
        (nth (Z.to_nat (Z.quot ((2 * b + 1) * (2 * b + 1) - 1) 2))
           (order_first window (Z.to_nat (Z.quot ((2 * b + 1) * (2 * b + 1) + 1) 2))) 0%R))
     = Ok (upd result (y * NX + x) (med y x))).
  { intros y x result Hy Hx.
    assert (C : collect (fun p : Z * Z => rd (W * H) ext (fst p * W + snd p))
         (list_prod (zseq (y + b - b) (Z.to_nat (2 * b + 1))) (zseq (x + b - b) (Z.to_nat (2 * b + 1)))) = Ok (window2D image NX NY (fillType =? 1) b y x)).
    { replace (y + b - b) with (- b + (y + b)) by lia. replace (x + b - b) with (- b + (x + b)) by lia. rewrite !zseq_shift, list_prod_map.
      unfold window2D. set (l := list_prod _ _).
      assert (G : forall p, In p l -> -b <= fst p <= b /\ -b <= snd p <= b).
      { intros [p q] P. apply in_prod_iff in P. rewrite !In_zseq in P. cbn. lia. }
      clearbody l. rewrite <- (map_map (fun p => (y + b + fst p, x + b + snd p)) (fun p => pixel image NX NY (fillType =? 1) (fst p - b) (snd p - b))) || idtac.
      erewrite (collect_ok _ (fun p => pixel image NX NY (fillType =? 1) (fst p - b) (snd p - b))).
      - f_equal. rewrite map_map. apply map_ext. intros p. cbn [fst snd]. f_equal; lia.
      - intros p P. apply in_map_iff in P. destruct P as (q & <- & Q). specialize (G q Q). cbn [fst snd].
        rewrite (Z.mul_comm _ W). apply rd_ok; [apply row_bound; unfold W, H; lia|]. apply M; unfold W, H; lia. }
    rewrite C. cbn [bind]. rewrite LW, Z.eqb_refl. cbn [negb].
    replace ((y + b - b) * (W - 2 * b) + (x + b) - b) with (y * NX + x) by (unfold W; ring).
    apply wr_ok. rewrite (Z.mul_comm y NX). apply row_bound; assumption. }
  match goal with |- context [for_to b (H - b) ?f fresh] => destruct (for_inv f
     (fun iY m => forall y x, 0 <= y < iY - b -> 0 <= x < NX -> m (y * NX + x) = Some (med y x)) b (H - b) fresh) as (m1 & E1 & M1) end.
  - unfold H. lia.
  - intros y x Hy. lia.
  - intros iY m HiY I.
    match goal with |- context [for_to b (W - b) ?f m] => destruct (for_inv f
      (fun iX m' => (forall x, 0 <= x < iX - b -> m' ((iY - b) * NX + x) = Some (med (iY - b) x)) /\
         forall y x, 0 <= y < iY - b -> 0 <= x < NX -> m' (y * NX + x) = Some (med y x)) b (W - b) m) as (m' & E' & M1' & M2') end.
    + unfold W. lia.
    + split; [intros x Hx; lia|exact I].
    + intros iX m' HiX [I1 I2].
      pose proof (STEP (iY - b) (iX - b) m' ltac:(unfold H in *; lia) ltac:(unfold W in *; lia)) as S.
      replace (iY - b + b) with iY in S by lia. replace (iX - b + b) with iX in S by lia.
      replace ((iY - b) * (W - 2 * b) + iX - b) with ((iY - b) * (W - 2 * b) + iX - b) in S by lia.
      eexists. split; [exact S|]. split.
      * intros x Hx. unfold upd. destruct (Z.eqb_spec ((iY - b) * NX + x) ((iY - b) * NX + (iX - b))) as [Q|Q].
        -- replace x with (iX - b) by lia. reflexivity.
        -- apply I1. lia.
      * intros y x Hy Hx. unfold upd. destruct (Z.eqb_spec (y * NX + x) ((iY - b) * NX + (iX - b))) as [Q|Q].
        -- exfalso. rewrite (Z.mul_comm y), (Z.mul_comm (iY - b)) in Q. apply row_unique in Q; unfold W in *; lia.
        -- apply I2; assumption.
    + exists m'. split; [exact E'|]. intros y x Hy Hx. destruct (Z.eq_dec y (iY - b)) as [->|N].
      * apply M1'. unfold W. lia.
      * apply M2'; lia.
  - rewrite E1. cbn [bind]. assert (PN : 0 <= NX * NY) by (apply Z.mul_nonneg_nonneg; lia).
    assert (ROW : forall q, 0 <= q < NX * NY -> exists y x, 0 <= y < NY /\ 0 <= x < NX /\ q = y * NX + x).
    { intros q Hq. exists (q / NX), (q mod NX). pose proof (Z.mod_pos_bound q NX ltac:(lia)). pose proof (Z.div_mod q NX ltac:(lia)).
      split; [split; [apply Z.div_pos; lia|apply Z.div_lt_upper_bound; lia]|]. split; [lia|lia]. }
    rewrite (collect_ok _ (fun q => match m1 q with Some v => v | None => 0%R end)).
    + eexists. split; [reflexivity|]. split; [rewrite map_length, zseq_len; lia|]. intros y x Hy Hx.
      assert (Q : 0 <= y * NX + x < NX * NY) by (rewrite (Z.mul_comm y NX); apply row_bound; assumption).
      set (g := fun q => _). rewrite (nth_indep _ 0%R (g 0)) by (rewrite map_length, zseq_len; lia). rewrite (map_nth g).
      rewrite zseq_nth0 by lia. rewrite Z2Nat.id by lia. unfold g. rewrite M1 by (unfold H; lia). unfold med. rewrite K1, K2.
      assert (P : 0 <= b * b) by (apply Z.mul_nonneg_nonneg; lia).
      replace (Z.to_nat (2 * b * b + 2 * b + 1)) with (Z.to_nat (2 * b * b + 2 * b) + 1)%nat by lia. apply order_median.
      specialize (LW y x). lia.
    + intros q Hq. apply In_zseq in Hq. destruct (ROW q ltac:(lia)) as (y & x & Hy & Hx & ->).
      rewrite (rd_ok _ _ _ (med y x)); [|lia|apply M1; unfold H; lia]. rewrite M1 by (unfold H; lia). reflexivity.
Qed.

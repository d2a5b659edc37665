(** Lemmas for the comparison of seismograms. *)
From Coq Require Import Reals Lra.
From Verif Require Import Base M_Common M_Model M_ModelEM M_Wave M_Compare S_Compare.
Open Scope R_scope.

(** ** Numbers *)
Lemma zip_nums : forall a b, length a = length b ->
  zipR fsub (map Num a) (map Num b) = Ok (map Num (map (fun p => fst p - snd p) (combine a b))).
Proof.
  induction a as [|x a IH]; intros [|y b] H; try discriminate; [reflexivity|].
  cbn in *. rewrite IH by lia. reflexivity.
Qed.
Lemma combine_app : forall A B (a1 a2 : list A) (b1 b2 : list B), length a1 = length b1 ->
  combine (a1 ++ a2) (b1 ++ b2) = combine a1 b1 ++ combine a2 b2.
Proof. intros A B a1. induction a1 as [|x a1 IH]; intros a2 [|y b1] b2 H; try discriminate; [reflexivity|]. cbn in *. f_equal. apply IH. lia. Qed.
Lemma minusRows_nums : forall n a b, length a = length b -> (forall t, In t a -> length t = n) -> (forall t, In t b -> length t = n) ->
  exists d, minusRows (map (map Num) a) (map (map Num) b) = Ok (map (map Num) d) /\
            concat d = map (fun p => fst p - snd p) (combine (concat a) (concat b)).
Proof.
  intros n a. induction a as [|x a IH]; intros [|y b] H Ha Hb; try discriminate.
  - now exists [].
  - destruct (IH b) as [d [E D]]; [cbn in H; lia|intros; apply Ha; now right|intros; apply Hb; now right|].
    assert (L : length x = length y) by (rewrite Ha by (now left); rewrite Hb by (now left); reflexivity).
    exists (map (fun p => fst p - snd p) (combine x y) :: d). split.
    + cbn [map minusRows]. rewrite zip_nums by exact L. cbn [bind]. rewrite E. reflexivity.
    + cbn [concat]. rewrite D, combine_app by exact L. now rewrite map_app.
Qed.
Lemma concat_nums : forall (d : list (list R)), concat (map (map Num) d) = map Num (concat d).
Proof. intro d. now rewrite concat_map. Qed.
Lemma squares_nums : forall l a, fold_left (fun a x => fadd a (fmul x x)) (map Num l) (Num a) = Num (a + rsum (map (fun x => x ^ 2) l)).
Proof.
  induction l as [|x l IH]; intro a; cbn [map fold_left rsum fold_right].
  - f_equal. lra.
  - cbn [fadd fmul]. rewrite IH. unfold rsum. f_equal. ring.
Qed.
Lemma squares_nonneg : forall l, 0 <= rsum (map (fun x => x ^ 2) l).
Proof. induction l as [|x l IH]; cbn; [lra|]. assert (0 <= x * x) by nra. unfold rsum in IH. cbn in IH. nra. Qed.
Lemma l2_nums : forall n d, l2Norm (mkS n (map (map Num) d)) = Num (sqrt (rsum (map (fun x => x ^ 2) (concat d)))).
Proof.
  intros n d. unfold l2Norm. cbn [traces]. rewrite concat_nums, squares_nums. cbn [fsqrt].
  rewrite Rplus_0_l. destruct (Rlt_dec _ 0) as [H|H]; [|reflexivity]. exfalso. pose proof (squares_nonneg (concat d)). lra.
Qed.
Lemma max_nums : forall l m, exists M, fold_left (fun m x => if flt m (fabs x) then fabs x else m) (map Num l) (Num m) = Num M /\
  m <= M /\ (forall x, In x l -> Rabs x <= M) /\ (M = m \/ exists x, In x l /\ Rabs x = M).
Proof.
  induction l as [|x l IH]; intro m.
  - exists m. cbn. repeat split; try lra; auto; contradiction.
  - cbn [map fold_left fabs flt]. destruct (Rlt_dec m (Rabs x)) as [H|H].
    + destruct (IH (Rabs x)) as [M [E [A [B C]]]]. exists M. split; [exact E|]. split; [lra|]. split.
      * intros y [<-|Hy]; auto.
      * right. destruct C as [->|[y [Hy C]]]; [exists x; cbn; auto|exists y; cbn; auto].
    + destruct (IH m) as [M [E [A [B C]]]]. exists M. split; [exact E|]. split; [lra|]. split.
      * intros y [<-|Hy]; auto. lra.
      * destruct C as [->|[y [Hy C]]]; [auto|right; exists y; cbn; auto].
Qed.
Lemma maxNorm_nums : forall n d, exists M, maxNorm (mkS n (map (map Num) d)) = Num M /\ 0 <= M /\
  (forall x, In x (concat d) -> Rabs x <= M) /\ (M = 0 \/ exists x, In x (concat d) /\ Rabs x = M).
Proof.
  intros n d. unfold maxNorm, fmaxnorm. cbn [traces]. rewrite concat_nums. apply max_nums.
Qed.

(** One pass and all passes on numbers. *)
Definition extends (l : list pair) (m M : R) : Prop :=
  m <= M /\ (forall x, sample_of l x -> Rabs x <= M) /\ (M = m \/ exists x, sample_of l x /\ Rabs x = M).
Lemma pass_nums : forall c s t m d, shaped c -> 0 <= m ->
  exists M, onePass (mkT s t (Num m) (Num d)) (fst (loaded c)) (snd (loaded c)) =
    Ok (mkT (s + Z.of_nat (samples c)) (t + Z.of_nat (length (reference c))) (Num M) (Num (d + distance c))) /\ extends [c] m M.
Proof.
  intros c s t m d [L [HT HR]] Hm0. unfold onePass, loaded, data. cbn [fst snd].
  destruct (maxNorm_nums (Z.of_nat (samples c)) (tested c)) as [MT [ET [T0 [TA TB]]]].
  destruct (maxNorm_nums (Z.of_nat (samples c)) (reference c)) as [MR [ER [R0 [RA RB]]]].
  rewrite ET, ER. cbn [maxAmp misfitSum numSamples numTraces ncols]. unfold minus, nrows. cbn [ncols traces].
  rewrite Z.eqb_refl. cbn [assert bind].
  destruct (minusRows_nums (samples c) (tested c) (reference c) L HT HR) as [dd [E D]]. rewrite E. cbn [bind].
  rewrite l2_nums, D, map_map. rewrite map_length. cbn [fadd].
  fold (both c). change (sqrt (rsum (map (fun x => (fst x - snd x) ^ 2) (both c)))) with (distance c).
  cbn [flt].
  assert (G : exists M, (if flt (if if Rlt_dec m MR then true else false then Num MR else Num m) (Num MT) then Num MT
       else if if Rlt_dec m MR then true else false then Num MR else Num m) = Num M /\ (m <= M /\ MR <= M /\ MT <= M) /\ (M = m \/ M = MR /\ m < MR \/ M = MT /\ m < MT)).
  { destruct (Rlt_dec m MR) as [H|H]; cbn [flt]; [destruct (Rlt_dec MR MT) as [H2|H2]|destruct (Rlt_dec m MT) as [H2|H2]];
      eexists; (split; [reflexivity|]); split; try lra; auto. }
  destruct G as [M [EM [[M1 [M2 M3]] MC]]].
  exists M. split.
  - f_equal. f_equal. exact EM.
  - split; [exact M1|]. split.
    + intros x [c' [[<-|[]] [H|H]]]; [apply TA in H|apply RA in H]; lra.
    + destruct MC as [->|[[-> Hm]|[-> Hm]]]; [now left| |].
      * destruct RB as [->|[x [Hx Q]]]; [exfalso; lra|right; exists x; split; [exists c; cbn; auto|exact Q]].
      * destruct TB as [->|[x [Hx Q]]]; [exfalso; lra|right; exists x; split; [exists c; cbn; auto|exact Q]].
Qed.
Lemma passes_nums : forall l s t m d, (forall c, In c l -> shaped c) -> 0 <= m ->
  exists M s' t', passes (mkT s t (Num m) (Num d)) (map loaded l) = Ok (mkT s' t' (Num M) (Num (d + total_distance l))) /\
    extends l m M /\ IZR s' = IZR s + sum_samples l /\ IZR t' = IZR t + sum_traces l.
Proof.
  induction l as [|c l IH]; intros s t m d H Hm.
  - exists m, s, t. unfold total_distance, sum_samples, sum_traces, rsum. cbn [map passes fold_right].
    rewrite !Rplus_0_r. split; [reflexivity|]. split; [|auto]. split; [lra|]. split; [|now left]. intros x [c [[] _]].
  - destruct (pass_nums c s t m d (H c (or_introl eq_refl)) Hm) as [M1 [E1 [A1 [A2 A3]]]].
    destruct (IH (s + Z.of_nat (samples c))%Z (t + Z.of_nat (length (reference c)))%Z M1 (d + distance c)) as [M [s' [t' [E [[B1 [B2 B3]] [C1 C2]]]]]];
      [intros; apply H; now right|exact (Rle_trans _ _ _ Hm A1)|].
    exists M, s', t'. split; [|split; [|split]].
    + cbn [map passes]. destruct (loaded c) as [x y] eqn:Q. cbn [fst snd] in E1. rewrite E1. cbn [bind]. rewrite E.
      replace (d + total_distance (c :: l)) with (d + distance c + total_distance l); [reflexivity|].
      unfold total_distance, rsum. cbn [map fold_right]. ring.
    + split; [lra|]. split.
      * intros x [c' [[<-|Hc] Hx]]; [|apply B2; exists c'; auto]. assert (Rabs x <= M1) by (apply A2; exists c; cbn; auto). lra.
      * destruct B3 as [->|[x [[c' [Hc Hx]] Q]]]; [|right; exists x; split; [exists c'; cbn; auto|exact Q]].
        destruct A3 as [->|[x [[c' [[<-|[]] Hx]] Q]]]; [now left|right; exists x; split; [exists c; cbn; auto|exact Q]].
    + rewrite C1, plus_IZR, <- INR_IZR_INZ. unfold sum_samples, rsum. cbn. lra.
    + rewrite C2, plus_IZR, <- INR_IZR_INZ. unfold sum_traces, rsum. cbn. lra.
Qed.

Lemma rsum_nonneg : forall A (f : A -> R) l, (forall x, In x l -> 0 <= f x) -> 0 <= rsum (map f l).
Proof.
  intros A f l. induction l as [|x l IH]; intro H; cbn; [lra|]. pose proof (H x (or_introl eq_refl)).
  assert (0 <= rsum (map f l)) by (apply IH; intros; apply H; now right). unfold rsum in *. lra.
Qed.
Lemma rsum_in : forall A (f : A -> R) l x, (forall x, In x l -> 0 <= f x) -> In x l -> f x <= rsum (map f l).
Proof.
  intros A f l x. induction l as [|y l IH]; intros H Hx; [destruct Hx|]. destruct Hx as [<-|Hx]; cbn.
  - assert (0 <= rsum (map f l)) by (apply rsum_nonneg; intros; apply H; now right). unfold rsum in *. lra.
  - pose proof (H y (or_introl eq_refl)). assert (f x <= rsum (map f l)) by (apply IH; auto; intros; apply H; now right).
    unfold rsum in *. lra.
Qed.
Lemma distance_nonneg : forall c, 0 <= distance c.
Proof. intro c. apply sqrt_pos. Qed.
(** Every difference is below the distance. *)
Lemma distance_bound : forall c x y, In (x, y) (both c) -> Rabs (x - y) <= distance c.
Proof.
  intros c x y H. unfold distance. rewrite <- sqrt_Rsqr_abs. apply sqrt_le_1_alt.
  pose proof (rsum_in _ (fun p : R * R => (fst p - snd p) ^ 2) (both c) (x, y)) as Q. cbn [fst snd] in Q.
  unfold Rsqr. replace ((x - y) * (x - y)) with ((x - y) ^ 2) by ring. apply Q; [|exact H].
  intros p _. replace ((fst p - snd p) ^ 2) with (Rsqr (fst p - snd p)) by (unfold Rsqr; ring). apply Rle_0_sqr.
Qed.
Lemma total_bound : forall l c, In c l -> distance c <= total_distance l.
Proof. intros l c H. apply (rsum_in _ distance l c); auto. intros. apply distance_nonneg. Qed.
(** The distance vanishes when there is no amplitude or no data. *)
Lemma zero_distance : forall c, (forall x y, In (x, y) (both c) -> x = y) -> distance c = 0.
Proof.
  intros c H. unfold distance. replace (rsum _) with 0; [apply sqrt_0|].
  revert H. generalize (both c). induction l as [|[x y] l IH]; intro H; [reflexivity|].
  unfold rsum. cbn [map fold_right fst snd]. fold (rsum (map (fun p : R * R => (fst p - snd p) ^ 2) l)). rewrite <- IH.
  - rewrite (H x y) by (now left). ring.
  - intros; apply H; now right.
Qed.
Lemma zero_total : forall l, (forall c, In c l -> forall x y, In (x, y) (both c) -> x = y) -> total_distance l = 0.
Proof.
  induction l as [|c l IH]; intro H; [reflexivity|]. unfold total_distance, rsum. cbn.
  rewrite zero_distance by (apply H; now left). unfold total_distance, rsum in IH. rewrite IH; [lra|]. intros; eapply H; eauto. now right.
Qed.
Lemma both_in : forall c x y, In (x, y) (both c) -> In x (concat (tested c)) /\ In y (concat (reference c)).
Proof. intros c x y H. split; [eapply in_combine_l|eapply in_combine_r]; exact H. Qed.
Lemma no_samples : forall n (m : list (list R)), (forall t, In t m -> length t = n) -> (n = 0%nat \/ m = []) -> concat m = [].
Proof.
  intros n m H [->| ->]; [|reflexivity]. induction m as [|t m IH]; [reflexivity|]. cbn.
  rewrite IH by (intros; apply H; now right). specialize (H t (or_introl eq_refl)). now destruct t.
Qed.

(** ** Infinities and not-a-number *)
Definition finite (x : fpv) : Prop := exists r, x = Num r.
(** The difference was lost: not-a-number, or infinite together with the largest amplitude. *)
Definition lost (a : totals) : Prop := misfitSum a = NaN \/ misfitSum a = PInf /\ maxAmp a = PInf.
Definition upward (x : fpv) : Prop := match x with Num r => 0 <= r | MInf => False | _ => True end.
Lemma square_up : forall x, upward (fmul x x).
Proof. intros [r| | |]; cbn; auto. nra. Qed.
Lemma add_up : forall a b, upward a -> upward b -> upward (fadd a b).
Proof. intros [r| | |] [q| | |]; cbn; try tauto. lra. Qed.
Lemma squares_up : forall l a, upward a -> upward (fold_left (fun a x => fadd a (fmul x x)) l a).
Proof. induction l as [|x l IH]; intros a H; cbn; [exact H|]. apply IH, add_up, square_up. exact H. Qed.
Lemma sqrt_up : forall a, upward a -> upward (fsqrt a).
Proof. intros [r| | |]; cbn; auto. intro H. destruct (Rlt_dec r 0); cbn; auto. apply sqrt_pos. Qed.
Lemma l2_up : forall s, upward (l2Norm s).
Proof. intro s. apply sqrt_up, squares_up. cbn. lra. Qed.
Definition broken (x : fpv) : Prop := x = PInf \/ x = NaN.
Lemma squares_keep : forall l a, broken a -> broken (fold_left (fun a x => fadd a (fmul x x)) l a).
Proof.
  induction l as [|x l IH]; intros a H; cbn; [exact H|]. apply IH. pose proof (square_up x) as U.
  destruct H as [-> | ->]; destruct (fmul x x); cbn in *; unfold broken; auto; contradiction.
Qed.
Lemma squares_nan : forall l, fold_left (fun a x => fadd a (fmul x x)) l NaN = NaN.
Proof. induction l as [|x l IH]; cbn; auto. Qed.
Lemma add_nan_r : forall a, fadd a NaN = NaN.
Proof. now intros []. Qed.
Lemma squares_hit : forall l a x, upward a -> In x l -> ~ finite x -> broken (fold_left (fun a x => fadd a (fmul x x)) l a).
Proof.
  induction l as [|y l IH]; intros a x U Hx N; [destruct Hx|]. cbn. destruct Hx as [->|Hx].
  - apply squares_keep. destruct x as [r| | |]; [exfalso; apply N; now exists r|..]; destruct a; cbn in *; unfold broken; auto; contradiction.
  - apply (IH _ x); auto. apply add_up; auto. apply square_up.
Qed.
Lemma squares_hit_nan : forall l a, In NaN l -> fold_left (fun a x => fadd a (fmul x x)) l a = NaN.
Proof.
  induction l as [|y l IH]; intros a Hx; [destruct Hx|]. cbn. destruct Hx as [->|Hx]; [|auto].
  cbn. rewrite add_nan_r. apply squares_nan.
Qed.
Lemma max_keep : forall l, fold_left (fun m x => if flt m (fabs x) then fabs x else m) l PInf = PInf.
Proof. induction l as [|x l IH]; cbn; auto. destruct x; cbn; auto. Qed.
Lemma max_hit : forall l m, In PInf l \/ In MInf l -> m = PInf \/ (exists r, m = Num r) ->
  fold_left (fun m x => if flt m (fabs x) then fabs x else m) l m = PInf.
Proof.
  induction l as [|x l IH]; intros m H Hm; [destruct H as [[]|[]]|].
  destruct Hm as [->|[r ->]]; [apply max_keep|]. cbn [fold_left].
  assert (D : (x = PInf \/ x = MInf) \/ (In PInf l \/ In MInf l)) by (cbn in H; intuition auto).
  destruct D as [[-> | ->]|D]; [apply max_keep|apply max_keep|]. apply IH; auto.
  destruct x as [q| | |]; cbn; auto; try (destruct (Rlt_dec r (Rabs q))); right; eauto.
Qed.
Definition regular (m : fpv) : Prop := m = PInf \/ exists r, m = Num r.
Lemma max_regular : forall l m, regular m -> regular (fold_left (fun m x => if flt m (fabs x) then fabs x else m) l m).
Proof.
  induction l as [|x l IH]; intros m H; [exact H|]. cbn. apply IH.
  destruct H as [->|[r ->]]; destruct x as [q| | |]; cbn; unfold regular; eauto. destruct (Rlt_dec r (Rabs q)); eauto.
Qed.
Lemma pick_regular : forall a b, regular a -> regular b -> regular (if flt a b then b else a).
Proof. intros a b Ha Hb. destruct (flt a b); auto. Qed.
Lemma pick_inf : forall a b, regular a -> regular b -> a = PInf \/ b = PInf -> (if flt a b then b else a) = PInf.
Proof. intros a b [->|[r ->]] [->|[q ->]] [H|H]; try discriminate; cbn; auto. Qed.

(** Sample-wise difference of two rows of the same length. *)
Lemma zip_length : forall a b d, zipR fsub a b = Ok d -> length a = length b.
Proof.
  induction a as [|x a IH]; intros [|y b] d H; try discriminate; auto. cbn in *.
  destruct (zipR fsub a b) eqn:E; try discriminate. f_equal. eapply IH; eauto.
Qed.
Lemma zip_hit : forall a b d x, zipR fsub a b = Ok d -> (forall y, In y b -> finite y) -> In x a -> ~ finite x -> In x d.
Proof.
  induction a as [|z a IH]; intros [|y b] d x H F Hx N; try discriminate; [destruct Hx|]. cbn in H.
  destruct (zipR fsub a b) eqn:E; try discriminate. injection H as <-. destruct Hx as [->|Hx].
  - left. destruct (F y (or_introl eq_refl)) as [r ->]. destruct x as [q| | |]; try reflexivity. exfalso. apply N. now exists q.
  - right. eapply IH; eauto. intros; apply F; now right.
Qed.
Lemma minus_hit : forall a b d x, minusRows a b = Ok d -> (forall y, In y (concat b) -> finite y) -> In x (concat a) -> ~ finite x ->
  In x (concat d).
Proof.
  induction a as [|r a IH]; intros [|q b] d x H F Hx N; try discriminate; [destruct Hx|]. cbn in H.
  destruct (zipR fsub r q) eqn:E; try discriminate. cbn in H. destruct (minusRows a b) eqn:E2; try discriminate. injection H as <-.
  cbn in Hx. apply in_app_iff in Hx. cbn. apply in_app_iff. destruct Hx as [Hx|Hx].
  - left. eapply zip_hit; eauto. intros y Hy. apply F. cbn. apply in_app_iff. auto.
  - right. eapply IH; eauto. intros y Hy. apply F. cbn. apply in_app_iff. auto.
Qed.

Lemma pass_regular : forall a t r a', onePass a t r = Ok a' -> regular (maxAmp a) -> regular (maxAmp a').
Proof.
  intros a t r a' H Hr. unfold onePass in H. destruct (minus t r); try discriminate. injection H as <-. cbn [maxAmp].
  assert (Z0 : regular (Num 0)) by (right; eauto).
  repeat apply pick_regular; auto; unfold maxNorm, fmaxnorm; apply max_regular; auto.
Qed.
Lemma pass_lost : forall a t r a', onePass a t r = Ok a' -> regular (maxAmp a) -> lost a -> lost a'.
Proof.
  intros a t r a' H Hr L. unfold onePass in H. destruct (minus t r) as [d| | |]; try discriminate. injection H as <-.
  assert (Z0 : regular (Num 0)) by (right; eauto).
  unfold lost in *. cbn [misfitSum maxAmp]. pose proof (l2_up d) as U.
  destruct L as [->|[-> Hm]]; [left; reflexivity|]. destruct (l2Norm d); cbn in *; auto; try contradiction; right; (split; [reflexivity|]);
    apply pick_inf; try (unfold maxNorm, fmaxnorm; apply max_regular; exact Z0); try apply pick_regular; auto;
    try (unfold maxNorm, fmaxnorm; apply max_regular; exact Z0); left; apply pick_inf; auto; unfold maxNorm, fmaxnorm; apply max_regular; exact Z0.
Qed.
Lemma pass_hit : forall a t r a' x, onePass a t r = Ok a' -> regular (maxAmp a) -> upward (misfitSum a) ->
  (forall y, In y (concat (traces r)) -> finite y) -> In x (concat (traces t)) -> ~ finite x -> lost a'.
Proof.
  intros a t r a' x H Hr Hu F Hx N. unfold onePass in H. unfold minus in H.
  destruct (assert (ncols t =? ncols r)%Z); try discriminate. cbn [bind] in H.
  destruct (minusRows (traces t) (traces r)) as [d| | |] eqn:E; try discriminate. cbn [bind] in H. injection H as <-.
  pose proof (minus_hit _ _ _ _ E F Hx N) as Hd. assert (Z0 : upward (Num 0)) by (cbn; lra).
  assert (ZR : regular (Num 0)) by (right; eauto).
  unfold lost. cbn [misfitSum maxAmp]. unfold l2Norm. cbn [traces].
  destruct (squares_hit (concat d) (Num 0) x Z0 Hd N) as [Q|Q]; rewrite Q; cbn [fsqrt]; [|left; apply add_nan_r].
  destruct x as [q| | |]; [exfalso; apply N; now exists q| | |].
  3:{ rewrite squares_hit_nan in Q by exact Hd. discriminate. }
  all: assert (M : maxNorm t = PInf) by (unfold maxNorm, fmaxnorm; apply max_hit; eauto).
  all: destruct (misfitSum a); cbn in *; auto; try contradiction; right; (split; [reflexivity|]); rewrite M;
    apply pick_inf; auto; try (now left); apply pick_regular; auto; unfold maxNorm, fmaxnorm; apply max_regular; auto.
Qed.
Lemma pass_up : forall a t r a', onePass a t r = Ok a' -> upward (misfitSum a) -> upward (misfitSum a').
Proof.
  intros a t r a' H U. unfold onePass in H. destruct (minus t r) as [d| | |]; try discriminate. injection H as <-. cbn [misfitSum].
  apply add_up; auto. apply l2_up.
Qed.
Lemma passes_lost : forall l a a', passes a l = Ok a' -> regular (maxAmp a) -> lost a -> lost a'.
Proof.
  induction l as [|[t r] l IH]; intros a a' H R L; cbn in H; [now injection H as <-|].
  destruct (onePass a t r) as [a1| | |] eqn:E; try discriminate. cbn in H.
  eapply IH; eauto. eapply pass_regular; eauto. eapply pass_lost; eauto.
Qed.
Lemma passes_hit : forall l a a' t r x, passes a l = Ok a' -> regular (maxAmp a) -> upward (misfitSum a) -> In (t, r) l ->
  (forall y, In y (concat (traces r)) -> finite y) -> In x (concat (traces t)) -> ~ finite x -> lost a'.
Proof.
  induction l as [|[t0 r0] l IH]; intros a a' t r x H R U I F Hx N; [destruct I|]. cbn in H.
  destruct (onePass a t0 r0) as [a1| | |] eqn:E; try discriminate. cbn in H. destruct I as [I|I].
  - injection I as -> ->. eapply passes_lost; eauto. eapply pass_regular; eauto. eapply pass_hit; eauto.
  - eapply IH; eauto. eapply pass_regular; eauto. eapply pass_up; eauto.
Qed.
Lemma lost_accepted : forall a, lost a ->
  flt (Num (5 / 10000000)) (fquot (misfitSum a) (fmul (fmul (maxAmp a) (Num (IZR (numSamples a)))) (Num (IZR (numTraces a))))) = false.
Proof.
  intros a [->|[-> ->]]; [reflexivity|]. cbn [fmul]. unfold fscale.
  destruct (Req_EM_T _ 0); [reflexivity|]. destruct (Rlt_dec 0 _); cbn [fmul fneg]; unfold fscale; destruct (Req_EM_T _ 0); try reflexivity;
    destruct (Rlt_dec 0 _); reflexivity.
Qed.

(** Lemmas about the median filters. *)
From Coq Require Import Reals Lra Lia Permutation.
From Verif Require Import Base M_Median S_Median.
Open Scope Z_scope.

(** ** Partial ordering *)
Lemma put_length w i v : (i < length w)%nat -> length (put w i v) = length w.
Proof. intros H. unfold put. rewrite app_length, firstn_length. cbn [length]. rewrite skipn_length. lia. Qed.
Lemma nth_firstn_lt {A} (w : list A) i k d : (k < i)%nat -> nth k (firstn i w) d = nth k w d.
Proof. revert w k. induction i as [|i IH]; intros w k H; [lia|]. destruct w as [|x w]; [destruct k; reflexivity|]. destruct k as [|k]; [reflexivity|]. cbn. apply IH. lia. Qed.
Lemma nth_skipn' {A} (w : list A) i k d : nth k (skipn i w) d = nth (i + k) w d.
Proof. revert w. induction i as [|i IH]; intros w; [reflexivity|]. destruct w as [|x w]; [destruct k; reflexivity|]. cbn. apply IH. Qed.
Lemma put_nth w i v k d : (i < length w)%nat -> nth k (put w i v) d = if Nat.eq_dec k i then v else nth k w d.
Proof.
  intros H. unfold put. destruct (lt_eq_lt_dec k i) as [[L|E]|G].
  - rewrite app_nth1 by (rewrite firstn_length; lia). rewrite nth_firstn_lt by exact L. destruct (Nat.eq_dec k i); [lia|reflexivity].
  - subst k. rewrite app_nth2 by (rewrite firstn_length; lia). rewrite firstn_length. replace (i - Nat.min i (length w))%nat with 0%nat by lia.
    destruct (Nat.eq_dec i i); [reflexivity|contradiction].
  - rewrite app_nth2 by (rewrite firstn_length; lia). rewrite firstn_length. replace (k - Nat.min i (length w))%nat with (S (k - i - 1)) by lia.
    cbn [nth]. rewrite nth_skipn'. destruct (Nat.eq_dec k i); [lia|]. f_equal. lia.
Qed.
Lemma find_min_spec w j : (j < length w)%nat ->
  (j <= find_min w j < length w)%nat /\ forall l, (j <= l < length w)%nat -> (nth (find_min w j) w 0 <= nth l w 0)%R.
Proof.
  intros H. unfold find_min. set (n := (length w - (j + 1))%nat).
  assert (G : forall c s m, (s + c <= length w)%nat -> (j <= m < s)%nat -> (j < s)%nat ->
     (forall l, (j <= l < s)%nat -> (nth m w 0 <= nth l w 0)%R) ->
     let m' := fold_left (fun min l => if Rlt_dec (nth l w 0%R) (nth min w 0%R) then l else min) (seq s c) m in
     (j <= m' < s + c)%nat /\ forall l, (j <= l < s + c)%nat -> (nth m' w 0 <= nth l w 0)%R).
  { induction c as [|c IH]; intros s m A B B' D.
    - cbn. split; [lia|]. intros l Hl. apply D. lia.
    - cbn [seq fold_left]. replace (s + S c)%nat with (S s + c)%nat by lia. apply IH; [lia| |lia|].
      + destruct (Rlt_dec (nth s w 0%R) (nth m w 0%R)); lia.
      + intros l Hl. destruct (Rlt_dec (nth s w 0%R) (nth m w 0%R)) as [R|R].
        * destruct (Nat.eq_dec l s) as [->|N]; [lra|]. specialize (D l ltac:(lia)). lra.
        * destruct (Nat.eq_dec l s) as [->|N]; [lra|]. apply D. lia. }
  specialize (G n (j + 1)%nat j ltac:(lia) ltac:(lia) ltac:(lia)).
  replace (length w) with (j + 1 + n)%nat by lia. apply G. intros l Hl. replace l with j by lia. lra.
Qed.
Lemma swap_perm w i k : (i < length w)%nat -> (k < length w)%nat -> Permutation w (put (put w i (nth k w 0%R)) k (nth i w 0%R)).
Proof.
  intros Hi Hk. set (w' := put _ _ _).
  assert (L : length w' = length w) by (unfold w'; rewrite !put_length; try reflexivity; rewrite ?put_length; assumption).
  apply Permutation_nth with (d := 0%R). split; [exact L|].
  exists (fun n => if Nat.eq_dec n k then i else if Nat.eq_dec n i then k else n).
  split; [|split].
  - intros n Hn. destruct (Nat.eq_dec n k); [exact Hi|]. destruct (Nat.eq_dec n i); [exact Hk|exact Hn].
  - intros a b Ha Hb. destruct (Nat.eq_dec a k), (Nat.eq_dec b k), (Nat.eq_dec a i), (Nat.eq_dec b i); lia.
  - intros n Hn. unfold w'. rewrite put_nth by (rewrite put_length; assumption). rewrite put_nth by assumption.
    destruct (Nat.eq_dec n k); [reflexivity|]. destruct (Nat.eq_dec n i); reflexivity.
Qed.
Lemma order_first_spec w cnt : (cnt <= length w)%nat ->
  Permutation w (order_first w cnt) /\
  forall a b, (a < cnt)%nat -> (a <= b < length w)%nat -> (nth a (order_first w cnt) 0 <= nth b (order_first w cnt) 0)%R.
Proof.
  induction cnt as [|c IH]; intros H.
  - split; [apply Permutation_refl|]. intros a b A. lia.
  - destruct (IH ltac:(lia)) as [P O]. unfold order_first in *. rewrite seq_S, fold_left_app. cbn [fold_left Nat.add].
    set (v := fold_left order_step (seq 0 c) w) in *. assert (L : length v = length w) by (symmetry; apply Permutation_length; exact P).
    destruct (find_min_spec v c ltac:(lia)) as [M1 M2]. unfold order_step. set (m := find_min v c) in *.
    assert (N : forall k, nth k (put (put v c (nth m v 0%R)) m (nth c v 0%R)) 0%R = if Nat.eq_dec k m then nth c v 0%R else if Nat.eq_dec k c then nth m v 0%R else nth k v 0%R).
    { intros k. rewrite put_nth by (rewrite put_length; lia). rewrite put_nth by lia. reflexivity. }
    split.
    + eapply Permutation_trans; [exact P|]. apply swap_perm; lia.
    + intros a b A B. rewrite !N.
      destruct (Nat.eq_dec a c) as [->|NA].
      * assert (E : (if Nat.eq_dec c m then nth c v 0%R else nth m v 0%R) = nth m v 0%R).
        { destruct (Nat.eq_dec c m) as [E|_]; [rewrite <- E; reflexivity|reflexivity]. }
        rewrite E. destruct (Nat.eq_dec b m); [apply M2; lia|]. destruct (Nat.eq_dec b c); [lra|]. apply M2. lia.
      * destruct (Nat.eq_dec a m) as [|_]; [lia|]. destruct (Nat.eq_dec b m); [apply O; lia|]. destruct (Nat.eq_dec b c); apply O; lia.
Qed.

Lemma filter_length_le {A} (f : A -> bool) l : (length (filter f l) <= length l)%nat.
Proof. induction l as [|x l IH]; cbn; [lia|]. destruct (f x); cbn; lia. Qed.
Lemma filter_nil {A} (f : A -> bool) l : (forall x, In x l -> f x = false) -> filter f l = [].
Proof. induction l as [|x l IH]; intros H; cbn; [reflexivity|]. rewrite (H x) by (left; reflexivity). apply IH. intros y Hy. apply H. right. exact Hy. Qed.
Lemma filter_perm {A} (f : A -> bool) l l' : Permutation l l' -> length (filter f l) = length (filter f l').
Proof. induction 1; cbn; try (destruct (f x)); try (destruct (f y)); cbn; congruence. Qed.

Lemma order_median w m : length w = (2 * m + 1)%nat -> is_median (nth m (order_first w (m + 1)) 0%R) w.
Proof.
  intros HL. destruct (order_first_spec w (m + 1) ltac:(lia)) as [P O]. set (v := order_first w (m + 1)) in *.
  assert (L : length v = length w) by (symmetry; apply Permutation_length; exact P).
  unfold is_median, smaller, larger. rewrite (filter_perm _ w v P), (filter_perm (fun x => if Rlt_dec (nth m v 0%R) x then true else false) w v P).
  split; [|split].
  - apply (Permutation_in _ (Permutation_sym P)). apply nth_In. lia.
  - assert (E : filter (fun x => if Rlt_dec x (nth m v 0%R) then true else false) v
       = filter (fun x => if Rlt_dec x (nth m v 0%R) then true else false) (firstn m v ++ skipn m v)) by (rewrite firstn_skipn; reflexivity).
    rewrite E. rewrite filter_app, app_length.
    rewrite (filter_nil _ (skipn m v)).
    + pose proof (filter_length_le (fun x => if Rlt_dec x (nth m v 0%R) then true else false) (firstn m v)) as F. rewrite firstn_length in F. cbn [length]. lia.
    + intros x Hx. apply (In_nth _ _ 0%R) in Hx. destruct Hx as (k & Hk & <-). rewrite skipn_length in Hk. rewrite nth_skipn'.
      destruct (Rlt_dec (nth (m + k) v 0%R) (nth m v 0%R)) as [R|R]; [|reflexivity]. specialize (O m (m + k)%nat ltac:(lia) ltac:(lia)). lra.
  - assert (E : filter (fun x => if Rlt_dec (nth m v 0%R) x then true else false) v
       = filter (fun x => if Rlt_dec (nth m v 0%R) x then true else false) (firstn (m + 1) v ++ skipn (m + 1) v)) by (rewrite firstn_skipn; reflexivity).
    rewrite E. rewrite filter_app, app_length.
    rewrite (filter_nil _ (firstn (m + 1) v)).
    + pose proof (filter_length_le (fun x => if Rlt_dec (nth m v 0%R) x then true else false) (skipn (m + 1) v)) as F. rewrite skipn_length in F. cbn [length]. lia.
    + intros x Hx. apply (In_nth _ _ 0%R) in Hx. destruct Hx as (k & Hk & <-). rewrite firstn_length in Hk. rewrite nth_firstn_lt by lia.
      destruct (Rlt_dec (nth m v 0%R) (nth k v 0%R)) as [R|R]; [|reflexivity]. specialize (O k m ltac:(lia) ltac:(lia)). lra.
Qed.

(** ** Memory *)
Lemma loop_inv {S} (f : Z -> S -> res S) (Inv : Z -> S -> Prop) n : forall i s, Inv i s ->
  (forall k s, i <= k < i + Z.of_nat n -> Inv k s -> exists s', f k s = Ok s' /\ Inv (k + 1) s') ->
  exists s', loop n i f s = Ok s' /\ Inv (i + Z.of_nat n) s'.
Proof.
  induction n as [|n IH]; intros i s HI HF; cbn [loop].
  - exists s. split; [reflexivity|]. replace (i + Z.of_nat 0) with i by lia. exact HI.
  - destruct (HF i s ltac:(lia) HI) as (s1 & E1 & I1). rewrite E1. cbn [bind].
    destruct (IH (i + 1) s1 I1) as (s2 & E2 & I2).
    + intros k t Hk. apply HF. lia.
    + exists s2. split; [exact E2|]. replace (i + Z.of_nat (Datatypes.S n)) with (i + 1 + Z.of_nat n) by lia. exact I2.
Qed.
Lemma for_inv {S} (f : Z -> S -> res S) (Inv : Z -> S -> Prop) lo hi s : lo <= hi -> Inv lo s ->
  (forall k s, lo <= k < hi -> Inv k s -> exists s', f k s = Ok s' /\ Inv (k + 1) s') ->
  exists s', for_to lo hi f s = Ok s' /\ Inv hi s'.
Proof.
  intros H HI HF. unfold for_to. destruct (loop_inv f Inv (Z.to_nat (hi - lo)) lo s HI) as (s' & E & I).
  - intros k t Hk. apply HF. lia.
  - exists s'. split; [exact E|]. replace (lo + Z.of_nat (Z.to_nat (hi - lo))) with hi in I by lia. exact I.
Qed.
Definition upd (m : mem) (i : Z) (v : R) : mem := fun k => if k =? i then Some v else m k.
Lemma wr_ok size m i v : 0 <= i < size -> wr size m i v = Ok (upd m i v).
Proof. intros H. unfold wr. replace ((0 <=? i) && (i <? size)) with true by lia. reflexivity. Qed.
Lemma rd_ok size m i v : 0 <= i < size -> m i = Some v -> rd size m i = Ok v.
Proof. intros H E. unfold rd. replace ((0 <=? i) && (i <? size)) with true by lia. rewrite E. reflexivity. Qed.
Lemma ofList_ok l i : 0 <= i < Z.of_nat (length l) -> ofList l i = Some (nth (Z.to_nat i) l 0%R).
Proof. intros H. unfold ofList. replace (0 <=? i) with true by lia. apply nth_error_nth'. lia. Qed.
(** the effect of a copy whose source is not written *)
Lemma copy_ok size dst n (src : mem -> Z -> res R) (g : Z -> R) (m : mem) : 0 <= n -> 0 <= dst -> dst + n <= size ->
  (forall k (m' : mem), 0 <= k < n -> (forall q, ~ (dst <= q < dst + n) -> m' q = m q) -> src m' k = Ok (g k)) ->
  exists m', copy size dst n src m = Ok m' /\ forall q, m' q = if (dst <=? q) && (q <? dst + n) then Some (g (q - dst)) else m q.
Proof.
  intros Hn Hd Hs HS. unfold copy.
  destruct (for_inv (fun k m => v <- src m k ;; wr size m (dst + k) v)
     (fun k m' => forall q, m' q = if (dst <=? q) && (q <? dst + k) then Some (g (q - dst)) else m q) 0 n m Hn) as (m' & E & I).
  - intros q. replace ((dst <=? q) && (q <? dst + 0)) with false by lia. reflexivity.
  - intros k m1 Hk I. rewrite (HS k m1 Hk). 2:{ intros q Hq. rewrite I. replace ((dst <=? q) && (q <? dst + k)) with false by lia. reflexivity. }
    cbn [bind]. rewrite wr_ok by lia. eexists. split; [reflexivity|]. intros q. unfold upd. rewrite I.
    destruct (Z.eqb_spec q (dst + k)) as [->|N].
    + replace ((dst <=? dst + k) && (dst + k <? dst + (k + 1))) with true by lia. do 2 f_equal. lia.
    + destruct ((dst <=? q) && (q <? dst + k)) eqn:B; [replace ((dst <=? q) && (q <? dst + (k + 1))) with true by lia|replace ((dst <=? q) && (q <? dst + (k + 1))) with false by lia]; reflexivity.
  - exists m'. split; [exact E|exact I].
Qed.
Lemma collect_ok {A} (f : A -> res R) (g : A -> R) l : (forall a, In a l -> f a = Ok (g a)) -> collect f l = Ok (map g l).
Proof.
  induction l as [|a l IH]; intros H; cbn [collect map]; [reflexivity|]. rewrite (H a) by (left; reflexivity). cbn [bind].
  rewrite IH by (intros b Hb; apply H; right; exact Hb). reflexivity.
Qed.
Lemma In_zseq s n k : In k (zseq s n) <-> s <= k < s + Z.of_nat n.
Proof. revert s. induction n as [|n IH]; intros s; cbn [zseq In]; [lia|]. rewrite IH. lia. Qed.
Lemma zseq_len s n : length (zseq s n) = n.
Proof. revert s. induction n as [|n IH]; intros s; cbn; [reflexivity|]. rewrite IH. reflexivity. Qed.
Lemma zseq_shift s t n : zseq (s + t) n = map (fun d => t + d) (zseq s n).
Proof. revert s. induction n as [|n IH]; intros s; cbn; [reflexivity|]. f_equal; [lia|]. replace (s + t + 1) with (s + 1 + t) by lia. apply IH. Qed.
Lemma zseq_nth0 n k d : (k < n)%nat -> nth k (zseq 0 n) d = Z.of_nat k.
Proof.
  assert (G : forall n s k, (k < n)%nat -> nth k (zseq s n) d = s + Z.of_nat k).
  { induction n0 as [|n0 IH]; intros s k0 H; [lia|]. destruct k0 as [|k0]; cbn [zseq nth]; [lia|]. rewrite IH by lia. lia. }
  intros H. rewrite G by exact H. lia.
Qed.
(** positions in an array of rows of width W *)
Lemma row_unique W r c r' c' : 0 <= c < W -> 0 <= c' < W -> W * r + c = W * r' + c' -> r = r' /\ c = c'.
Proof.
  intros Hc Hc' E. assert (r = r').
  { apply Z.le_antisymm; apply Z.lt_succ_r; apply (Z.mul_lt_mono_pos_l W); lia. }
  subst r'. split; [reflexivity|lia].
Qed.
Lemma row_bound W H r c : 0 <= c < W -> 0 <= r < H -> 0 <= W * r + c < W * H.
Proof.
  intros Hc Hr. assert (0 <= W * r) by (apply Z.mul_nonneg_nonneg; lia). assert (W * (r + 1) <= W * H) by (apply Z.mul_le_mono_nonneg_l; lia). lia.
Qed.

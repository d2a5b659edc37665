(** Proofs about derivative rows. *)
From Verif Require Import Base M_Grid L_Grid M_Deriv S_Deriv.

Definition supported (p : Z) : Prop := In p [2; 4; 6; 8; 10; 12].

Lemma supported_even p : supported p -> exists k, p = 2 * k /\ 1 <= k <= 6.
Proof. intros [<-|[<-|[<-|[<-|[<-|[<-|[]]]]]]]; [exists 1|exists 2|exists 3|exists 4|exists 5|exists 6]; lia. Qed.
Lemma even_supported k : 1 <= k <= 6 -> supported (2 * k).
Proof. intros H. unfold supported. assert (k = 1 \/ k = 2 \/ k = 3 \/ k = 4 \/ k = 5 \/ k = 6) as [->|[->|[->|[->|[->| ->]]]]] by lia; simpl; tauto. Qed.

Lemma quot2 k : Z.quot (2 * k) 2 = k.
Proof. rewrite Z.mul_comm. apply Z.quot_mul. lia. Qed.
Lemma quot2n k : Z.quot (- (2 * k)) 2 = - k.
Proof. replace (- (2 * k)) with (- k * 2) by ring. apply Z.quot_mul. lia. Qed.

Lemma stencil_length p : supported p -> length (stencil p) = Z.to_nat p.
Proof. intros [<-|[<-|[<-|[<-|[<-|[<-|[]]]]]]]; reflexivity. Qed.

Lemma fdcoef_ok p j : supported p -> 0 <= j < p -> fdcoef p j = Ok (stencil_at p j).
Proof.
  intros Hp Hj. unfold fdcoef, vget, stencil_at. replace (j <? 0) with false by lia.
  replace ((0 <=? j) && (j <? p))%bool with true by lia.
  rewrite (nth_error_nth' _ 0%Q); [reflexivity|]. rewrite stencil_length by assumption. lia.
Qed.

Lemma zseq_In s n k : In k (zseq s n) <-> s <= k < s + Z.of_nat n.
Proof.
  revert s; induction n as [|n IH]; intros s; simpl; [lia|]. rewrite IH. lia.
Qed.
Lemma zseq_length s n : length (zseq s n) = n.
Proof. revert s; induction n; intros; simpl; auto. Qed.
Lemma zseq_NoDup s n : NoDup (zseq s n).
Proof.
  revert s; induction n as [|n IH]; intros s; simpl; constructor; auto. rewrite zseq_In. lia.
Qed.

Lemma quot2m d k : Z.quot (d * (2 * k)) 2 = d * k.
Proof. replace (d * (2 * k)) with (d * k * 2) by ring. apply Z.quot_mul. lia. Qed.

(** A stencil of order [2k] that fits is written completely, for any spacing factor and offset. *)
Section Fit.
Variables (dh sh N : Z) (h : Q) (col : Z -> res Z) (colf : Z -> Z).

Lemma row_fwd_fit n : forall fuel x k j acc, 1 <= k <= 6 -> Z.of_nat n = 2 * k - j -> 0 <= j -> (n < fuel)%nat ->
  0 <= x + sh + dh * (- k + 1) -> x + sh + dh * k < N ->
  (forall j, 0 <= j < 2 * k -> col (x + sh + dh * (j - k + 1)) = Ok (colf (x + sh + dh * (j - k + 1)))) ->
  row_fwd fuel dh sh N h col x (2 * k) j acc =
    Ok (acc ++ map (fun i => (colf (x + sh + dh * (i - k + 1)), (stencil_at (2 * k) i / h)%Q)) (zseq j n)).
Proof.
  induction n as [|n IH]; intros fuel x k j acc Hk Hn Hj Hf H1 H2 Hcol.
  - destruct fuel as [|f]; [lia|]. cbn [row_fwd]. replace (j <? 2 * k) with false by lia. cbn [negb map zseq]. now rewrite app_nil_r.
  - destruct fuel as [|f]; [lia|]. cbn [row_fwd]. replace (j <? 2 * k) with true by lia. cbn [negb].
    rewrite quot2m, !quot2, quot2n.
    replace (x + sh + dh * (- k + 1) <? 0) with false by lia. replace (x + sh + dh * k >=? N) with false by lia.
    rewrite Hcol by lia. cbn [bind]. rewrite fdcoef_ok by (try apply even_supported; lia). cbn [bind].
    rewrite IH by (assumption || lia). f_equal. rewrite <- app_assoc. reflexivity.
Qed.

Lemma row_bwd_fit n : forall fuel x k j acc, 1 <= k <= 6 -> Z.of_nat n = 2 * k - j -> 0 <= j -> (n < fuel)%nat ->
  0 <= x + sh + dh * - k -> x + sh + dh * (k - 1) < N ->
  (forall j, 0 <= j < 2 * k -> col (x + sh + dh * (j - k)) = Ok (colf (x + sh + dh * (j - k)))) ->
  row_bwd fuel dh sh N h col x (2 * k) j acc =
    Ok (acc ++ map (fun i => (colf (x + sh + dh * (i - k)), (stencil_at (2 * k) i / h)%Q)) (zseq j n)).
Proof.
  induction n as [|n IH]; intros fuel x k j acc Hk Hn Hj Hf H1 H2 Hcol.
  - destruct fuel as [|f]; [lia|]. cbn [row_bwd]. replace (j <? 2 * k) with false by lia. cbn [negb map zseq]. now rewrite app_nil_r.
  - destruct fuel as [|f]; [lia|]. cbn [row_bwd]. replace (j <? 2 * k) with true by lia. cbn [negb].
    rewrite !quot2, quot2n.
    replace (x + sh + dh * - k <? 0) with false by lia. replace (x + sh + dh * (k - 1) >=? N) with false by lia.
    rewrite Hcol by lia. cbn [bind]. rewrite fdcoef_ok by (try apply even_supported; lia). cbn [bind].
    rewrite IH by (assumption || lia). f_equal. rewrite <- app_assoc. reflexivity.
Qed.
End Fit.

Section Line.
Variables (N : Z) (h : Q) (col : Z -> res Z) (colf : Z -> Z).
Hypothesis Hcol : forall X, 0 <= X < N -> col X = Ok (colf X).

(** A full stencil of order [2k] whose leftmost point is [x0]. *)
Definition full_row (x0 k : Z) : list (Z * Q) :=
  map (fun j => (colf (x0 + j), (stencil_at (2 * k) j / h)%Q)) (zseq 0 (Z.to_nat (2 * k))).

Lemma row_fwd_in n : forall fuel x k j acc, 1 <= k <= 6 -> Z.of_nat n = 2 * k - j -> 0 <= j -> (n < fuel)%nat ->
  0 <= x - k + 1 -> x + k < N ->
  row_fwd fuel 1 0 N h col x (2 * k) j acc =
    Ok (acc ++ map (fun i => (colf (x - k + 1 + i), (stencil_at (2 * k) i / h)%Q)) (zseq j n)).
Proof.
  intros fuel x k j acc Hk Hn Hj Hf H1 H2. rewrite (row_fwd_fit 1 0 N h col colf n); try lia.
  - do 2 f_equal. apply map_ext. intros i. do 2 f_equal. lia.
  - intros i Hi. apply Hcol. lia.
Qed.

Lemma row_bwd_in n : forall fuel x k j acc, 1 <= k <= 6 -> Z.of_nat n = 2 * k - j -> 0 <= j -> (n < fuel)%nat ->
  0 <= x - k -> x + k - 1 < N ->
  row_bwd fuel 1 0 N h col x (2 * k) j acc =
    Ok (acc ++ map (fun i => (colf (x - k + i), (stencil_at (2 * k) i / h)%Q)) (zseq j n)).
Proof.
  intros fuel x k j acc Hk Hn Hj Hf H1 H2. rewrite (row_bwd_fit 1 0 N h col colf n); try lia.
  - do 2 f_equal. apply map_ext. intros i. do 2 f_equal. lia.
  - intros i Hi. apply Hcol. lia.
Qed.

(** Half order actually used and leftmost point. *)
Definition half_f (k x : Z) : Z := if x =? N - 1 then 1 else Z.min k (Z.min (x + 1) (N - 1 - x)).
Definition left_f (k x : Z) : Z := if x =? N - 1 then N - 2 else x - half_f k x + 1.
Definition half_b (k x : Z) : Z := if x =? 0 then 1 else Z.min k (Z.min x (N - x)).
Definition left_b (k x : Z) : Z := if x =? 0 then 0 else x - half_b k x.

Lemma row_fwd_step_min f x k acc : 1 <= k -> x - k + 1 < 0 ->
  row_fwd (S f) 1 0 N h col x (2 * k) 0 acc = row_fwd f 1 0 N h col x (2 * (x + 1)) 0 acc.
Proof.
  intros Hk H. cbn [row_fwd]. replace (0 <? 2 * k) with true by lia. cbn [negb]. rewrite (Z.mul_1_l (2 * k)), !quot2, quot2n.
  replace (x + 0 + 1 * (- k + 1) <? 0) with true by lia. f_equal. lia.
Qed.

Lemma row_fwd_step_max f x k acc : 1 <= k -> 0 <= x - k + 1 -> N <= x + k ->
  row_fwd (S f) 1 0 N h col x (2 * k) 0 acc =
  if N - 1 - x =? 0 then row_fwd f 1 0 N h col (x - 1) 2 0 acc else row_fwd f 1 0 N h col x (2 * (N - 1 - x)) 0 acc.
Proof.
  intros Hk H1 H2. cbn [row_fwd]. replace (0 <? 2 * k) with true by lia. cbn [negb]. rewrite (Z.mul_1_l (2 * k)), !quot2, quot2n.
  replace (x + 0 + 1 * (- k + 1) <? 0) with false by lia. replace (x + 0 + k >=? N) with true by lia.
  replace (2 * k - 2 * (x + 0 + k - N + 1)) with (2 * (N - 1 - x)) by ring.
  replace (2 * (N - 1 - x) =? 0) with (N - 1 - x =? 0) by lia. reflexivity.
Qed.

Lemma row_fwd_spec fuel x k : 2 <= N -> 0 <= x < N -> 1 <= k <= 6 -> 2 * k + 3 <= Z.of_nat fuel ->
  row_fwd fuel 1 0 N h col x (2 * k) 0 [] = Ok (full_row (left_f k x) (half_f k x)).
Proof.
  intros HN Hx Hk Hf.
  assert (P2 : forall f k', 1 <= k' <= k -> 2 * k' + 1 <= Z.of_nat f -> 0 <= x - k' + 1 -> x + k' < N ->
     row_fwd f 1 0 N h col x (2 * k') 0 [] = Ok (full_row (x - k' + 1) k')).
  { intros f k' H1 H2 H3 H4. rewrite (row_fwd_in (Z.to_nat (2 * k'))) by lia. reflexivity. }
  assert (P1 : forall f k', 1 <= k' <= k -> 2 * k + 2 <= Z.of_nat f -> 0 <= x - k' + 1 -> half_f k x = (if x =? N - 1 then 1 else Z.min k' (N - 1 - x)) ->
     row_fwd f 1 0 N h col x (2 * k') 0 [] = Ok (full_row (left_f k x) (half_f k x))).
  { intros f k' H1 H2 H3 H4. destruct (Z_lt_le_dec (x + k') N) as [Hlt|Hge].
    - rewrite P2 by lia. unfold left_f. rewrite H4. replace (x =? N - 1) with false by lia.
      replace (Z.min k' (N - 1 - x)) with k' by lia. reflexivity.
    - destruct f as [|f]; [lia|]. rewrite row_fwd_step_max by lia. unfold left_f. rewrite H4.
      destruct (N - 1 - x =? 0) eqn:E.
      + replace (x =? N - 1) with true by lia. replace (x - 1) with (N - 2) by lia.
        pose proof (row_fwd_in 2%nat f (N - 2) 1 0 []) as Q2. change (2 * 1) with 2 in Q2. rewrite Q2 by lia.
        cbn [app]. unfold full_row. f_equal. apply map_ext. intros j. f_equal. f_equal. lia.
      + replace (x =? N - 1) with false by lia. replace (Z.min k' (N - 1 - x)) with (N - 1 - x) by lia.
        rewrite P2 by lia. reflexivity. }
  destruct (Z_lt_le_dec (x - k + 1) 0) as [Hlt|Hge].
  - destruct fuel as [|f]; [lia|]. rewrite row_fwd_step_min by lia. apply P1; try lia.
    unfold half_f. destruct (x =? N - 1); lia.
  - apply P1; try lia. unfold half_f. destruct (x =? N - 1); lia.
Qed.

Lemma row_bwd_step_min f x k acc : 1 <= k -> x - k < 0 ->
  row_bwd (S f) 1 0 N h col x (2 * k) 0 acc =
  if x =? 0 then row_bwd f 1 0 N h col (x + 1) 2 0 acc else row_bwd f 1 0 N h col x (2 * x) 0 acc.
Proof.
  intros Hk H. cbn [row_bwd]. replace (0 <? 2 * k) with true by lia. cbn [negb]. rewrite !quot2, quot2n.
  replace (x + 0 + 1 * - k <? 0) with true by lia. replace (2 * k + 2 * (x + 0 + 1 * - k)) with (2 * x) by ring.
  replace (2 * x =? 0) with (x =? 0) by lia. reflexivity.
Qed.

Lemma row_bwd_step_max f x k acc : 1 <= k -> 0 <= x - k -> N <= x + k - 1 ->
  row_bwd (S f) 1 0 N h col x (2 * k) 0 acc = row_bwd f 1 0 N h col x (2 * (N - x)) 0 acc.
Proof.
  intros Hk H1 H2. cbn [row_bwd]. replace (0 <? 2 * k) with true by lia. cbn [negb]. rewrite !quot2, quot2n.
  replace (x + 0 + 1 * - k <? 0) with false by lia. replace (x + 0 + 1 * (k - 1) >=? N) with true by lia.
  f_equal. lia.
Qed.

Lemma row_bwd_spec fuel x k : 2 <= N -> 0 <= x < N -> 1 <= k <= 6 -> 2 * k + 3 <= Z.of_nat fuel ->
  row_bwd fuel 1 0 N h col x (2 * k) 0 [] = Ok (full_row (left_b k x) (half_b k x)).
Proof.
  intros HN Hx Hk Hf.
  assert (P2 : forall f k', 1 <= k' <= k -> 2 * k' + 1 <= Z.of_nat f -> 0 <= x - k' -> x + k' - 1 < N ->
     row_bwd f 1 0 N h col x (2 * k') 0 [] = Ok (full_row (x - k') k')).
  { intros f k' H1 H2 H3 H4. rewrite (row_bwd_in (Z.to_nat (2 * k'))) by lia. reflexivity. }
  assert (P1 : forall f k', 1 <= k' <= k -> 2 * k + 2 <= Z.of_nat f -> 0 <= x - k' -> half_b k x = Z.min k' (N - x) -> x <> 0 ->
     row_bwd f 1 0 N h col x (2 * k') 0 [] = Ok (full_row (left_b k x) (half_b k x))).
  { intros f k' H1 H2 H3 H4 H5. destruct (Z_lt_le_dec (x + k' - 1) N) as [Hlt|Hge].
    - rewrite P2 by lia. unfold left_b. rewrite H4. replace (x =? 0) with false by lia.
      replace (Z.min k' (N - x)) with k' by lia. reflexivity.
    - destruct f as [|f]; [lia|]. rewrite row_bwd_step_max by lia. unfold left_b. rewrite H4.
      replace (x =? 0) with false by lia. replace (Z.min k' (N - x)) with (N - x) by lia.
      rewrite P2 by lia. reflexivity. }
  destruct (Z_lt_le_dec (x - k) 0) as [Hlt|Hge].
  - destruct fuel as [|f]; [lia|]. rewrite row_bwd_step_min by lia. destruct (x =? 0) eqn:E.
    + replace (x + 1) with 1 by lia. pose proof (row_bwd_in 2%nat f 1 1 0 []) as Q2. change (2 * 1) with 2 in Q2. rewrite Q2 by lia.
      unfold left_b, half_b. rewrite E. reflexivity.
    + apply P1; try lia. unfold half_b. rewrite E. lia.
  - apply P1; try lia. unfold half_b. replace (x =? 0) with false by lia. lia.
Qed.

(** What a reader wants to know about the row. *)
Lemma half_f_props k x : 2 <= N -> 0 <= x < N -> 1 <= k ->
  1 <= half_f k x <= k /\ 0 <= left_f k x /\ left_f k x + 2 * half_f k x <= N /\
  (x < N - 1 -> left_f k x = x - half_f k x + 1 /\ forall k', k' <= k -> 0 <= x - k' + 1 -> x + k' < N -> k' <= half_f k x) /\
  (x = N - 1 -> half_f k x = 1 /\ left_f k x = x - 1).
Proof. intros. unfold left_f, half_f. destruct (x =? N - 1) eqn:E; repeat split; intros; lia. Qed.

Lemma half_b_props k x : 2 <= N -> 0 <= x < N -> 1 <= k ->
  1 <= half_b k x <= k /\ 0 <= left_b k x /\ left_b k x + 2 * half_b k x <= N /\
  (0 < x -> left_b k x = x - half_b k x /\ forall k', k' <= k -> 0 <= x - k' -> x + k' - 1 < N -> k' <= half_b k x) /\
  (x = 0 -> half_b k x = 1 /\ left_b k x = 0).
Proof. intros. unfold left_b, half_b. destruct (x =? 0) eqn:E; repeat split; intros; lia. Qed.

Lemma full_row_is_row x0 k : 0 <= x0 -> x0 + 2 * k <= N -> (forall X X', 0 <= X < N -> 0 <= X' < N -> colf X = colf X' -> X = X') ->
  is_row N h colf stencil_at (2 * k) x0 (full_row x0 k).
Proof.
  intros H1 H2 Hinj. unfold is_row. repeat split; auto. unfold full_row. rewrite map_map. cbn [fst].
  assert (D : forall s n, 0 <= s -> x0 + s + Z.of_nat n <= N -> NoDup (map (fun j => colf (x0 + j)) (zseq s n))).
  { intros s n; revert s; induction n as [|n IH]; intros s Hs Hn; cbn [zseq map]; constructor.
    - intros Hin. apply in_map_iff in Hin. destruct Hin as (j&He&Hj). apply zseq_In in Hj. apply Hinj in He; lia.
    - apply IH; lia. }
  destruct (Z_lt_le_dec k 0) as [Hk|Hk].
  - replace (Z.to_nat (2 * k)) with 0%nat by lia. constructor.
  - apply D; lia.
Qed.

Lemma row_fwd_forward fuel p x : 2 <= N -> 0 <= x < N -> supported p -> 15 <= Z.of_nat fuel ->
  (forall X X', 0 <= X < N -> 0 <= X' < N -> colf X = colf X' -> X = X') ->
  exists row, row_fwd fuel 1 0 N h col x p 0 [] = Ok row /\ forward_row N h colf stencil_at p x row.
Proof.
  intros HN Hx Hp Hf Hinj. destruct (supported_even p Hp) as (k&->&Hk). rewrite row_fwd_spec by lia.
  eexists; split; [reflexivity|]. destruct (half_f_props k x HN Hx ltac:(lia)) as (P1&P2&P3&P4&P5).
  exists (half_f k x), (left_f k x). split; [lia|]. split; [lia|]. split; [apply full_row_is_row; auto; lia|].
  split; auto. intros Hlt. destruct (P4 Hlt) as [Q1 Q2]. split; [exact Q1|]. intros k' ? ? ?. apply Q2; lia.
Qed.

Lemma row_bwd_backward fuel p x : 2 <= N -> 0 <= x < N -> supported p -> 15 <= Z.of_nat fuel ->
  (forall X X', 0 <= X < N -> 0 <= X' < N -> colf X = colf X' -> X = X') ->
  exists row, row_bwd fuel 1 0 N h col x p 0 [] = Ok row /\ backward_row N h colf stencil_at p x row.
Proof.
  intros HN Hx Hp Hf Hinj. destruct (supported_even p Hp) as (k&->&Hk). rewrite row_bwd_spec by lia.
  eexists; split; [reflexivity|]. destruct (half_b_props k x HN Hx ltac:(lia)) as (P1&P2&P3&P4&P5).
  exists (half_b k x), (left_b k x). split; [lia|]. split; [lia|]. split; [apply full_row_is_row; auto; lia|].
  split; auto. intros Hlt. destruct (P4 Hlt) as [Q1 Q2]. split; [exact Q1|]. intros k' ? ? ?. apply Q2; lia.
Qed.
End Line.

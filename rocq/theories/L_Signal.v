(** Lemmas about the synthetic source signals. *)
From Coq Require Import Reals Lra Lia.
From Verif Require Import Base M_Signal S_Signal.
Open Scope R_scope.

Lemma vmap1_nth f v i x : nth_error v i = Some x -> nth_error (vmap1 f v) i = Some (f x).
Proof. intros H. unfold vmap1. now rewrite (map_nth_error _ _ _ H). Qed.
Lemma vmap2_nth f u v i x y : nth_error u i = Some x -> nth_error v i = Some y -> nth_error (vmap2 f u v) i = Some (f x y).
Proof.
  unfold vmap2. revert v i. induction u as [|a u IH]; intros [|b v] [|i] Hx Hy; simpl in *; try discriminate.
  - now injection Hx as ->; injection Hy as ->.
  - apply IH; assumption.
Qed.
Lemma vmap1_len f v : length (vmap1 f v) = length v.
Proof. apply map_length. Qed.
Lemma vmap2_len f u v : length u = length v -> length (vmap2 f u v) = length v.
Proof. intros H. unfold vmap2. rewrite map_length, combine_length. lia. Qed.
Lemma fillv_len n x : length (fillv n x) = Z.to_nat n.
Proof. apply repeat_length. Qed.
Lemma linearv_len n DT : length (linearv n DT) = Z.to_nat n.
Proof. unfold linearv. now rewrite map_length, seq_length. Qed.
Lemma fillv_nth n x i : (0 <= i < n)%Z -> nth_error (fillv n x) (Z.to_nat i) = Some x.
Proof. intros H. unfold fillv. rewrite (nth_error_repeat x (m := Z.to_nat n)); [reflexivity|lia]. Qed.
Lemma linearv_nth n DT i : (0 <= i < n)%Z -> nth_error (linearv n DT) (Z.to_nat i) = Some (IZR i * DT).
Proof.
  intros H. unfold linearv. rewrite (map_nth_error _ (Z.to_nat i) _ (d := Z.to_nat i)).
  - rewrite INR_IZR_INZ, Z2Nat.id by lia. reflexivity.
  - rewrite nth_error_nth' with (d := 0%nat) by (rewrite seq_length; lia). now rewrite seq_nth by lia.
Qed.

Lemma checked_ok {A} NT DT FC (k : res A) : (0 < NT)%Z -> 0 < DT -> 0 < FC -> checked NT DT FC k = k.
Proof. intros H1 H2 H3. unfold checked. destruct (Z.ltb_spec 0 NT); [|lia]. destruct (Rlt_dec 0 DT); [|lra]. now destruct (Rlt_dec 0 FC); [|lra]. Qed.
Lemma checked_throw {A} NT DT FC (k : res A) : ~ ((0 < NT)%Z /\ 0 < DT /\ 0 < FC) -> checked NT DT FC k = Throw.
Proof. intros H. unfold checked. destruct (Z.ltb_spec 0 NT); [|reflexivity]. destruct (Rlt_dec 0 DT); [|reflexivity]. destruct (Rlt_dec 0 FC); [|reflexivity]. tauto. Qed.

Lemma floorR_spec x : is_floor x (floorR x).
Proof. unfold is_floor, floorR. destruct (base_Int_part x). split; lra. Qed.
Lemma is_floor_unique x k : is_floor x k -> k = floorR x.
Proof.
  intros (H1 & H2). destruct (floorR_spec x) as (H3 & H4).
  assert (IZR k < IZR (floorR x + 1)) by (rewrite plus_IZR; lra). assert (IZR (floorR x) < IZR (k + 1)) by (rewrite plus_IZR; lra).
  apply lt_IZR in H, H0. lia.
Qed.

(** ** The loop over the window *)
Lemma setValue_ok v i x : (0 <= i < Z.of_nat (length v))%Z -> exists v', setValue v i x = Ok v' /\ length v' = length v /\
  forall j, nth_error v' j = if Nat.eqb j (Z.to_nat i) then Some x else nth_error v j.
Proof.
  intros H. unfold setValue. destruct (Z.leb_spec 0 i); [|lia]. destruct (Z.ltb_spec i (Z.of_nat (length v))); [|lia]. cbn [andb].
  eexists. split; [reflexivity|]. set (n := Z.to_nat i). assert (Hn : (n < length v)%nat) by lia. split.
  - rewrite app_length, firstn_length. cbn [length]. rewrite skipn_length. lia.
  - intros j. destruct (Nat.eqb_spec j n) as [->|Hj].
    + rewrite nth_error_app2 by (rewrite firstn_length; lia). rewrite firstn_length. replace (n - Nat.min n (length v))%nat with 0%nat by lia. reflexivity.
    + destruct (Nat.lt_ge_cases j n) as [Hl|Hl].
      * rewrite nth_error_app1 by (rewrite firstn_length; lia). rewrite <- (firstn_skipn n v) at 2. now rewrite nth_error_app1 by (rewrite firstn_length; lia).
      * rewrite nth_error_app2 by (rewrite firstn_length; lia). rewrite firstn_length. replace (j - Nat.min n (length v))%nat with (S (j - S n)) by lia.
        cbn [nth_error]. rewrite <- (firstn_skipn (S n) v) at 2. rewrite nth_error_app2 by (rewrite firstn_length; lia). rewrite firstn_length. f_equal. lia.
Qed.
Lemma setValue_ub v i x : ~ (0 <= i < Z.of_nat (length v))%Z -> setValue v i x = UB.
Proof. intros H. unfold setValue. destruct (Z.leb_spec 0 i), (Z.ltb_spec i (Z.of_nat (length v))); cbn [andb]; try reflexivity. lia. Qed.

Lemma write_from_ok f n : forall v i c, (0 <= i)%Z -> (i + Z.of_nat n <= Z.of_nat (length v))%Z -> exists v', write_from v i n f c = Ok v' /\ length v' = length v /\
  forall j, nth_error v' j = if ((Z.to_nat i <=? j) && (j <? Z.to_nat i + n))%nat then Some (f (c + (j - Z.to_nat i))%nat) else nth_error v j.
Proof.
  induction n as [|n IH]; intros v i c H0 H1.
  - exists v. split; [reflexivity|]. split; [reflexivity|]. intros j. destruct (Nat.leb_spec (Z.to_nat i) j), (Nat.ltb_spec j (Z.to_nat i + 0)); cbn [andb]; try reflexivity. lia.
  - cbn [write_from]. destruct (setValue_ok v i (f c)) as (v1 & E1 & L1 & N1); [lia|]. rewrite E1. cbn [bind].
    destruct (IH v1 (i + 1)%Z (S c)) as (v2 & E2 & L2 & N2); [lia|lia|]. exists v2. split; [exact E2|]. split; [lia|].
    intros j. rewrite N2, N1. replace (Z.to_nat (i + 1)) with (S (Z.to_nat i)) by lia.
    destruct (Nat.leb_spec (S (Z.to_nat i)) j), (Nat.ltb_spec j (S (Z.to_nat i) + n)), (Nat.leb_spec (Z.to_nat i) j), (Nat.ltb_spec j (Z.to_nat i + S n)), (Nat.eqb_spec j (Z.to_nat i)); cbn [andb]; try lia; try reflexivity.
    + f_equal. f_equal. lia.
    + f_equal. f_equal. lia.
Qed.
Lemma write_from_ub f n : forall v i c, (0 < n)%nat -> (i < 0 \/ Z.of_nat (length v) < i + Z.of_nat n)%Z -> write_from v i n f c = UB.
Proof.
  induction n as [|n IH]; intros v i c Hn H; [lia|]. cbn [write_from].
  destruct (Z.ltb_spec i 0); [rewrite setValue_ub by lia; reflexivity|].
  destruct (Z.ltb_spec i (Z.of_nat (length v))); [|rewrite setValue_ub by lia; reflexivity].
  destruct (setValue_ok v i (f c)) as (v1 & E1 & L1 & _); [lia|]. rewrite E1. cbn [bind].
  destruct n as [|n]; [lia|]. apply IH; lia.
Qed.

Lemma window_fill NT i1 i2 (f : nat -> R) : (0 <= i1)%Z -> (i1 <= i2)%Z -> (i2 < NT)%Z -> exists v, write_window (fillv NT 0) i1 i2 f = Ok v /\ length v = Z.to_nat NT /\
  forall i, (0 <= i < NT)%Z -> nth_error v (Z.to_nat i) = Some (if ((i1 <=? i) && (i <=? i2))%Z then f (Z.to_nat (i - i1)) else 0).
Proof.
  intros H0 H1 H2. unfold write_window. destruct (write_from_ok f (Z.to_nat (i2 - i1 + 1)) (fillv NT 0) i1 0) as (v & E & L & N); [lia|rewrite fillv_len; lia|].
  exists v. split; [exact E|]. rewrite fillv_len in L. split; [exact L|]. intros i Hi. rewrite N, fillv_nth by exact Hi.
  destruct (Z.leb_spec i1 i), (Z.leb_spec i i2), (Nat.leb_spec (Z.to_nat i1) (Z.to_nat i)), (Nat.ltb_spec (Z.to_nat i) (Z.to_nat i1 + Z.to_nat (i2 - i1 + 1))); cbn [andb]; try lia; try reflexivity.
  f_equal. f_equal. lia.
Qed.
Lemma window_ub NT i1 i2 (f : nat -> R) : (i1 <= i2)%Z -> (i1 < 0 \/ NT <= i2)%Z -> (0 <= NT)%Z -> write_window (fillv NT 0) i1 i2 f = UB.
Proof. intros H1 H2 H3. unfold write_window. apply write_from_ub; rewrite ?fillv_len; lia. Qed.

(** [vec NT v g]: v has NT elements, element i is g i. *)
Definition vec (NT : Z) (v : list R) (g : Z -> R) : Prop :=
  length v = Z.to_nat NT /\ forall i, (0 <= i < NT)%Z -> nth_error v (Z.to_nat i) = Some (g i).
Lemma vec_map1 NT f v g : vec NT v g -> vec NT (vmap1 f v) (fun i => f (g i)).
Proof. intros (L & H). split; [now rewrite vmap1_len|]. intros i Hi. apply vmap1_nth. auto. Qed.
Lemma vec_map2 NT f u v g h : vec NT u g -> vec NT v h -> vec NT (vmap2 f u v) (fun i => f (g i) (h i)).
Proof. intros (L & H) (L' & H'). split; [rewrite vmap2_len; congruence|]. intros i Hi. apply vmap2_nth; auto. Qed.
Lemma vec_fill NT x : vec NT (fillv NT x) (fun _ => x).
Proof. split; [apply fillv_len|]. intros i Hi. now apply fillv_nth. Qed.
Lemma vec_linear NT DT : vec NT (linearv NT DT) (fun i => IZR i * DT).
Proof. split; [apply linearv_len|]. intros i Hi. now apply linearv_nth. Qed.
Lemma vec_ext NT v g h : vec NT v g -> (forall i, (0 <= i < NT)%Z -> g i = h i) -> vec NT v h.
Proof. intros (L & H) E. split; [exact L|]. intros i Hi. rewrite H, E by exact Hi. reflexivity. Qed.
Lemma vec_sampled NT DT v g : (0 <= NT)%Z -> vec NT v (fun i => g (IZR i * DT)) -> sampled NT DT g v.
Proof. intros H0 (L & H). split; [lia|exact H]. Qed.
Ltac vecs := repeat first [apply vec_map1 | apply vec_map2 | apply vec_fill | apply vec_linear | eassumption].

Lemma window_cases {A} NT DT FC Tshift (k : Z -> Z -> res A) a m : is_floor (Tshift / DT) a -> is_floor (1 / FC / DT) m ->
  window NT DT FC Tshift k = if (a <? NT)%Z then k a (if (NT <? a + m)%Z then NT - 1 else a + m)%Z else Throw.
Proof. intros Ha Hm. unfold window. now rewrite <- (is_floor_unique _ _ Ha), <- (is_floor_unique _ _ Hm). Qed.
Lemma floor_nonneg x m : 0 <= x -> is_floor x m -> (0 <= m)%Z.
Proof. intros H (H1 & H2). assert (IZR (-1) < IZR m) by lra. apply lt_IZR in H0. lia. Qed.

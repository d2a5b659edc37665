(** Proofs about the marks and the supershots: marks, adjointness and common offset data. *)
From Coq Require Import Reals String Lra Sorted.
From Verif Require Import Base M_Acq M_Wave M_Cop M_Decode S_Cop S_Decode L_Cop L_Decode L_Decode2.
Open Scope Z_scope.
Local Notation length := List.length.

(** ** Marks *)
Lemma vplus_nth : forall a b i, length a = length b -> nth i (vplus a b) 0 = nth i a 0 + nth i b 0 /\ length (vplus a b) = length a.
Proof.
  induction a as [|x a IH]; intros [|y b] i H; try discriminate H; cbn [vplus length].
  - split; [destruct i; reflexivity|reflexivity].
  - destruct (IH b (pred i) ltac:(cbn in H; lia)) as [A B]. split; [destruct i; [reflexivity|exact A]|rewrite B; reflexivity].
Qed.
Lemma sum_marks_spec n mm no : mark_matrix n mm -> forall incr enc v, length enc = length incr -> (forall k, In k incr -> 0 <= k < Z.of_nat (length mm)) ->
  length v = S n -> (forall i, (i < n)%nat -> 0 <= nth (S i) v 0) ->
  exists w, sum_marks mm no incr enc v = Ok w /\ length w = S n /\ forall i, (i < n)%nat -> 0 <= nth (S i) w 0 /\
    (marks w i = true <-> marks v i = true \/ exists k e, In (k, e) (team no incr enc) /\ marks (mark_row mm k) i = true).
Proof.
  intros Hm. induction incr as [|k incr IH]; intros [|e enc] v Hl Hk HL Hp; try discriminate Hl; cbn [sum_marks].
  - exists v. split; [reflexivity|]. split; [exact HL|]. intros i Hi. split; [apply Hp, Hi|]. split; [auto|]. intros [H|(? & ? & [] & _)]. exact H.
  - unfold team in *. cbn [combine filter snd]. destruct (Z.abs (e_no e) =? no) eqn:E.
    + pose proof (Hk k (or_introl eq_refl)) as Rk. rewrite (getRow_ok mm k []) by exact Rk. cbn [bind]. fold (mark_row mm k).
      destruct (Hm (mark_row mm k)) as [RL RM]; [apply row_in, Rk|].
      destruct (IH enc (vplus v (mark_row mm k)) ltac:(cbn in Hl; lia) (fun x Hx => Hk x (or_intror Hx))) as (w & E1 & E2 & E3).
      * rewrite (proj2 (vplus_nth v (mark_row mm k) 0 ltac:(congruence))). exact HL.
      * intros i Hi. rewrite (proj1 (vplus_nth v (mark_row mm k) (S i) ltac:(congruence))). specialize (Hp i Hi). destruct (RM i Hi); lia.
      * exists w. split; [exact E1|]. split; [exact E2|]. intros i Hi. destruct (E3 i Hi) as [P Q]. split; [exact P|]. rewrite Q.
        unfold marks at 1. rewrite (proj1 (vplus_nth v (mark_row mm k) (S i) ltac:(congruence))). specialize (Hp i Hi). specialize (RM i Hi).
        assert (X : negb (nth (S i) v 0 + nth (S i) (mark_row mm k) 0 =? 0) = true <-> marks v i = true \/ marks (mark_row mm k) i = true).
        { unfold marks. destruct RM as [-> | ->]; lia. }
        rewrite X. split.
        -- intros [[H|H]|(k' & e' & H & H')]; [left; exact H|right; exists k, e; split; [left; reflexivity|exact H]|right; exists k', e'; split; [right; exact H|exact H']].
        -- intros [H|(k' & e' & [H|H] & H')]; [left; left; exact H|injection H as <- <-; left; right; exact H'|right; exists k', e'; split; [exact H|exact H']].
    + cbn [bind]. apply IH; [cbn in Hl; lia|intros x Hx; apply Hk; right; exact Hx|exact HL|exact Hp].
Qed.
Lemma marks_sgn no x v i : marks (no :: map Z.sgn v) i = marks (x :: v) i.
Proof.
  unfold marks. cbn [nth]. change 0 with (Z.sgn 0) at 1. rewrite map_nth. destruct (nth i v 0); reflexivity.
Qed.
Lemma find_marks_spec mm numshots no : forall incr v, (forall k, In k incr -> 0 <= k < Z.of_nat (length mm)) ->
  (forall r, In r mm -> r <> []) ->
  forall pre k post, incr = (pre ++ k :: post)%list -> (forall j, In j pre -> nth 0 (mark_row mm j) 0 <> no /\ j <> numshots - 1) ->
  nth 0 (mark_row mm k) 0 = no -> find_marks mm numshots no incr v = Ok (mark_row mm k).
Proof.
  induction incr as [|j incr IH]; intros v Hk Hne pre k post Ei Hpre Hno; [destruct pre; discriminate Ei|]. cbn [find_marks].
  pose proof (Hk j (or_introl eq_refl)) as Rj. rewrite (getRow_ok mm j []) by exact Rj. cbn [bind]. fold (mark_row mm j).
  assert (L : (0 < length (mark_row mm j))%nat) by (pose proof (Hne _ (row_in mm j Rj)); destruct (mark_row mm j); [congruence|cbn; lia]).
  rewrite (vget_at _ _ 0) by lia. cbn [bind]. change (Z.to_nat 0) with 0%nat.
  destruct pre as [|p pre].
  - injection Ei as -> ->. rewrite Hno, Z.eqb_refl. reflexivity.
  - injection Ei as -> ->. destruct (Hpre p (or_introl eq_refl)) as [H1 H2]. rewrite (proj2 (Z.eqb_neq _ _) H1), (proj2 (Z.eqb_neq _ _) H2).
    apply (IH _ (fun x Hx => Hk x (or_intror Hx)) Hne pre k post eq_refl); [|exact Hno]. intros x Hx. apply Hpre. right. exact Hx.
Qed.
(** A number that no row of the loop has: the marks of the last row. *)
Lemma find_marks_last mm numshots no : forall incr v, (forall k, In k incr -> 0 <= k < Z.of_nat (length mm)) ->
  (forall r, In r mm -> r <> []) -> (forall j, In j incr -> nth 0 (mark_row mm j) 0 <> no /\ j <> numshots - 1) ->
  find_marks mm numshots no incr v = Ok (match incr with [] => v | _ => mark_row mm (last incr 0) end).
Proof.
  induction incr as [|j incr IH]; intros v Hk Hne Hpre; [reflexivity|]. cbn [find_marks].
  pose proof (Hk j (or_introl eq_refl)) as Rj. rewrite (getRow_ok mm j []) by exact Rj. cbn [bind]. fold (mark_row mm j).
  assert (L : (0 < length (mark_row mm j))%nat) by (pose proof (Hne _ (row_in mm j Rj)); destruct (mark_row mm j); [congruence|cbn; lia]).
  rewrite (vget_at _ _ 0) by lia. cbn [bind]. change (Z.to_nat 0) with 0%nat.
  destruct (Hpre j (or_introl eq_refl)) as [H1 H2]. rewrite (proj2 (Z.eqb_neq _ _) H1), (proj2 (Z.eqb_neq _ _) H2).
  rewrite (IH _ (fun x Hx => Hk x (or_intror Hx)) Hne (fun x Hx => Hpre x (or_intror Hx))). destruct incr; reflexivity.
Qed.
Lemma marked_list {A} (d : A) : forall recs v, length v = length recs -> marked v recs = map (fun i => nth i recs d) (filter (fun i => negb (nth i v 0 =? 0)) (seq 0 (length recs))).
Proof.
  induction recs as [|x recs IH]; intros [|m v] H; try discriminate H; [reflexivity|]. cbn [marked length seq filter]. change (nth 0 (m :: v) 0) with m.
  assert (F : map (fun i => nth i (x :: recs) d) (filter (fun i => negb (nth i (m :: v) 0 =? 0)) (seq 1 (length recs)))
              = map (fun i => nth i recs d) (filter (fun i => negb (nth i v 0 =? 0)) (seq 0 (length recs)))).
  { clear IH. rewrite <- seq_shift. induction (seq 0 (length recs)) as [|y l IHl]; cbn [map filter]; [reflexivity|].
    change (nth (S y) (m :: v) 0) with (nth y v 0). destruct (negb (nth y v 0 =? 0)); cbn [map]; rewrite IHl; reflexivity. }
  destruct (negb (m =? 0)); cbn [map]; rewrite F, <- IH by (cbn in H; lia); reflexivity.
Qed.

(** ** Adjointness *)
Lemma rtotal_app a b : rtotal (a ++ b)%list = (rtotal a + rtotal b)%R.
Proof. induction a as [|x a IH]; cbn [app rtotal fold_right]; [unfold rtotal; ring|]. fold (rtotal (a ++ b)%list) (rtotal a). rewrite IH. ring. Qed.
Lemma rtotal_plus {A} (f g : A -> R) l : rtotal (map (fun x => (f x + g x)%R) l) = (rtotal (map f l) + rtotal (map g l))%R.
Proof. induction l as [|x l IH]; cbn [map rtotal fold_right]; [ring|]. unfold rtotal in IH. rewrite IH. ring. Qed.
Lemma rtotal_scal {A} (f : A -> R) c l : rtotal (map (fun x => (c * f x)%R) l) = (c * rtotal (map f l))%R.
Proof. induction l as [|x l IH]; cbn [map rtotal fold_right]; [ring|]. unfold rtotal in IH. rewrite IH. ring. Qed.
Lemma rtotal_zero {A} (l : list A) : rtotal (map (fun _ => 0%R) l) = 0%R.
Proof. induction l as [|x l IH]; cbn [map rtotal fold_right]; [reflexivity|]. unfold rtotal in IH. rewrite IH. ring. Qed.
Lemma rtotal_swap {A B} (f : A -> B -> R) l k : rtotal (map (fun x => rtotal (map (f x) k)) l) = rtotal (map (fun y => rtotal (map (fun x => f x y) l)) k).
Proof.
  induction l as [|x l IH]; cbn [map].
  - symmetry. exact (rtotal_zero k).
  - change (rtotal (rtotal (map (f x) k) :: map (fun x0 => rtotal (map (f x0) k)) l)) with (rtotal (map (f x) k) + rtotal (map (fun x0 => rtotal (map (f x0) k)) l))%R.
    rewrite IH. symmetry. exact (rtotal_plus (f x) (fun y => rtotal (map (fun z => f z y) l)) k).
Qed.
Lemma rtotal_filter {A} (p : A -> bool) (f : A -> R) l : rtotal (map f (filter p l)) = rtotal (map (fun x => if p x then f x else 0%R) l).
Proof. induction l as [|x l IH]; cbn [filter map rtotal fold_right]; [reflexivity|]. unfold rtotal in *. destruct (p x); cbn [map fold_right]; rewrite IH; ring. Qed.
Lemma rdot_sum k : forall a b, length a = k -> length b = k -> rdot a b = rtotal (map (fun j => (sample a j * sample b j)%R) (seq 0 k)).
Proof.
  induction k as [|k IH]; intros [|x a] [|y b] H1 H2; try discriminate; [reflexivity|].
  unfold rdot. cbn [combine map seq rtotal fold_right fst snd]. f_equal. fold (rtotal (map (fun p : R * R => (fst p * snd p)%R) (combine a b))). fold (rdot a b).
  rewrite (IH a b) by (cbn in *; lia). rewrite <- seq_shift, map_map. reflexivity.
Qed.
Lemma mdot_map {A} (f g : A -> row) l : mdot (map f l) (map g l) = rtotal (map (fun x => rdot (f x) (g x)) l).
Proof.
  unfold mdot. f_equal. induction l as [|x l IH]; cbn [map combine]; [reflexivity|]. rewrite IH. reflexivity.
Qed.
Lemma mdot_app a b c d : length a = length c -> mdot (a ++ b)%list (c ++ d)%list = (mdot a c + mdot b d)%R.
Proof.
  unfold mdot. revert c. induction a as [|x a IH]; intros [|y c] H; try discriminate; cbn [app combine map rtotal fold_right]; [unfold rtotal; ring|].
  unfold rtotal in IH. rewrite IH by (cbn in H; lia). unfold rtotal. cbn [fst snd]. ring.
Qed.
Lemma rdot_zero k : forall a, rdot a (repeat 0%R k) = 0%R.
Proof.
  unfold rdot. induction k as [|k IH]; intros [|x a]; cbn [repeat combine map rtotal fold_right]; try reflexivity. unfold rtotal in IH. rewrite IH. cbn. ring.
Qed.
Lemma mdot_zero k NT : forall a, mdot a (zmat k NT) = 0%R.
Proof.
  unfold mdot, zmat. induction k as [|k IH]; intros [|x a]; cbn [repeat combine map rtotal fold_right]; try reflexivity.
  unfold rtotal in IH. rewrite IH. cbn [fst snd]. rewrite rdot_zero. ring.
Qed.

Lemma adjoint NT mm mv recs ms t (T : Z * esrc -> nat -> row) (D : nat -> row) rest :
  (forall m, In m ms -> forall i, (i < length recs)%nat -> marks (mark_row mm (fst m)) i = true -> marks mv i = true) ->
  (forall m i, length (T m i) = NT) -> (forall i, length (D i) = NT) ->
  mdot (map (stacked NT mm ms T) (chosen mv recs t)) (map D (chosen mv recs t))
  = rtotal (map (fun m => mdot (map (T m) (chosen (mark_row mm (fst m)) recs t) ++ rest m)%list (single_shot NT mm recs t D m)) ms).
Proof.
  intros Hsub HT HD. rewrite mdot_map.
  rewrite (map_ext_in (fun m => mdot _ _) (fun m => rtotal (map (fun i => if marks (mark_row mm (fst m)) i then (sg (snd m) * rdot (T m i) (D i))%R else 0%R) (chosen mv recs t)))).
  2:{ intros m Hm. unfold single_shot, own_traces. rewrite mdot_app by (rewrite !map_length; reflexivity). rewrite mdot_zero, Rplus_0_r, mdot_map.
      rewrite <- (rtotal_filter (marks (mark_row mm (fst m)))). 
      assert (E : filter (marks (mark_row mm (fst m))) (chosen mv recs t) = chosen (mark_row mm (fst m)) recs t).
      { unfold chosen. specialize (Hsub m Hm). assert (HH : forall i, In i (seq 0 (length recs)) -> (i < length recs)%nat) by (intros i Hi; apply in_seq in Hi; lia).
        induction (seq 0 (length recs)) as [|i l IH]; cbn [filter]; [reflexivity|]. specialize (Hsub i (HH i (or_introl eq_refl))).
        destruct (marks (mark_row mm (fst m)) i) eqn:E1.
        - rewrite (Hsub eq_refl). cbn [andb]. destruct (nth i recs 0 =? t); cbn [filter]; rewrite ?E1, IH by (intros; apply HH; right; assumption); reflexivity.
        - cbn [andb]. destruct (marks mv i && (nth i recs 0 =? t)); cbn [filter]; rewrite ?E1; apply IH; intros; apply HH; right; assumption. }
      rewrite E. f_equal. apply map_ext. intros i.
      rewrite (rdot_sum NT) by (rewrite ?times_len; auto). rewrite (rdot_sum NT) by auto. rewrite <- rtotal_scal. f_equal. apply map_ext. intros j. rewrite sample_times. ring. }
  rewrite <- rtotal_swap. f_equal. apply map_ext. intros i.
  rewrite (rdot_sum NT) by (auto; unfold stacked; rewrite map_length, seq_length; reflexivity).
  rewrite (map_ext_in _ (fun j => rtotal (map (fun m => if marks (mark_row mm (fst m)) i then (sg (snd m) * (sample (T m i) j * sample (D i) j))%R else 0%R) ms))).
  - rewrite rtotal_swap. f_equal. apply map_ext. intros m. destruct (marks (mark_row mm (fst m)) i); [|apply rtotal_zero].
    rewrite (rdot_sum NT) by auto. rewrite <- rtotal_scal. reflexivity.
  - intros j Hj. apply in_seq in Hj. unfold stacked. rewrite sample_map by lia. rewrite Rmult_comm, <- rtotal_scal. f_equal. apply map_ext. intros m.
    destruct (marks (mark_row mm (fst m)) i); ring.
Qed.

(** C160, C161, C162: the receivers of supershots, decoding and encoding. *)
From Coq Require Import Reals String Lra Sorted.
From Verif Require Import Base M_Acq M_Wave M_Cop M_Decode S_Cop S_Decode L_Cop L_Decode L_Decode2 L_Decode3 L_Decode4.
Open Scope Z_scope.
Local Notation length := List.length.

(** ** C160: the receivers of a shot *)
(** Supershot: exactly the receivers that one of its shots marks, in the order of the receiver list. *)
Theorem C160_supershot mm n no numshots incr enc old : mark_matrix n mm -> enc <> [] -> length enc = length incr ->
  (forall k, In k incr -> 0 <= k < Z.of_nat (length mm)) ->
  exists mv, markVector mm n no numshots incr enc old = Ok mv /\ nth 0 mv 0 = no /\ super_marks mm n (team no incr enc) mv.
Proof.
  intros Hm He Hl Hk. unfold markVector.
  destruct (sum_marks_spec n mm no Hm incr enc (repeat 0 (S n)) Hl Hk) as (w & E & L & W).
  - apply repeat_length.
  - intros i _. cbn [repeat nth]. rewrite nth_repeat. lia.
  - destruct enc as [|e enc]; [congruence|]. rewrite E. cbn [bind]. destruct w as [|x w]; [discriminate L|]. cbn [map]. eexists. split; [reflexivity|].
    split; [reflexivity|]. split; [cbn [length] in *; rewrite map_length; exact L|]. intros i Hi. rewrite (marks_sgn no x w i), (proj2 (W i Hi)).
    split; [intros [H|H]; [exfalso|exact H]|auto]. unfold marks in H. cbn [repeat nth] in H. rewrite nth_repeat in H. discriminate H.
Qed.
(** The settings that are kept. *)
Theorem C160_kept {A} (d : A) recs mv : length mv = S (length recs) ->
  marked (tl mv) recs = map (fun i => nth i recs d) (filter (marks mv) (seq 0 (length recs))).
Proof.
  intros H. rewrite (marked_list d recs (tl mv)) by (apply tl_length, H). f_equal. apply filter_ext. intros i. rewrite nth_tl. reflexivity.
Qed.
(** Normal shot: the marks of the first row with its number. *)
Theorem C160_normal mm n no numshots incr old pre k post : mark_matrix n mm -> (forall j, In j incr -> 0 <= j < Z.of_nat (length mm)) ->
  incr = (pre ++ k :: post)%list -> (forall j, In j pre -> nth 0 (mark_row mm j) 0 <> no /\ j <> numshots - 1) -> nth 0 (mark_row mm k) 0 = no ->
  exists mv, markVector mm n no numshots incr [] old = Ok mv /\ nth 0 mv 0 = no /\ length mv = S n /\ forall i, marks mv i = marks (mark_row mm k) i.
Proof.
  intros Hm Hk Ei Hpre Hno. unfold markVector.
  rewrite (find_marks_spec mm numshots no incr old Hk) with (pre := pre) (k := k) (post := post); try assumption.
  2:{ intros r Hr E. destruct (Hm r Hr) as [L _]. rewrite E in L. discriminate L. }
  cbn [bind]. destruct (Hm (mark_row mm k)) as [L _]; [apply row_in, Hk; rewrite Ei; apply in_or_app; right; left; reflexivity|].
  destruct (mark_row mm k) as [|x w]; [discriminate L|]. cbn [map]. eexists. split; [reflexivity|]. split; [reflexivity|].
  split; [cbn [length] in *; rewrite map_length; exact L|]. intros i. apply (marks_sgn no x w i).
Qed.
(** A number that none of the selected rows has, when the last row of the matrix is not selected: no error, and the marks
    of the last selected row are used. *)
Theorem C160_missing mm n no numshots incr old : mark_matrix n mm -> incr <> [] -> (forall j, In j incr -> 0 <= j < Z.of_nat (length mm)) ->
  (forall j, In j incr -> nth 0 (mark_row mm j) 0 <> no /\ j <> numshots - 1) ->
  exists mv, markVector mm n no numshots incr [] old = Ok mv /\ nth 0 mv 0 = no /\ forall i, marks mv i = marks (mark_row mm (last incr 0)) i.
Proof.
  intros Hm Hi Hk Hno. unfold markVector. rewrite (find_marks_last mm numshots no incr old Hk).
  2:{ intros r Hr E. destruct (Hm r Hr) as [L _]. rewrite E in L. discriminate L. }
  2:{ exact Hno. }
  cbn [bind]. assert (R : In (last incr 0) incr).
  { clear - Hi. induction incr as [|x l IH]; [congruence|]. destruct l as [|y l]; [left; reflexivity|]. right. apply IH. discriminate. }
  destruct (Hm (mark_row mm (last incr 0))) as [L _]; [apply row_in, Hk, R|]. destruct incr as [|j incr]; [congruence|].
  destruct (mark_row mm (last (j :: incr) 0)) as [|x w]; [discriminate L|]. cbn [map]. eexists. split; [reflexivity|]. split; [reflexivity|].
  intros i. apply (marks_sgn no x w i).
Qed.
(** So a shot whose number is not in the selected rows is simulated with the receivers of another shot. *)
Theorem C160_refuted : exists mm incr mv, mark_matrix 2 mm /\ markVector mm 2 9 3 incr [] [] = Ok mv /\
  (forall r, In r mm -> nth 0 r 0 <> 9) /\ marks mv 0 = true /\ nth 0 mv 0 = 9.
Proof.
  exists [[4; 0; 1]; [5; 1; 0]; [6; 1; 1]], [0; 1], [9; 1; 0]. split; [|split; [reflexivity|]].
  - intros r [<-|[<-|[<-|[]]]]; (split; [reflexivity|]); intros [|[|i]] H; cbn; auto; lia.
  - split; [|split; reflexivity]. intros r [<-|[<-|[<-|[]]]]; cbn; lia.
Qed.

(** The hypotheses of C160_supershot: the supershot 7 consists of the rows 0 and 2. *)
Example C160_ex : mark_matrix 3 [[4; 1; 0; 0]; [5; 0; 1; 0]; [6; 1; 0; 1]] /\
  markVector [[4; 1; 0; 0]; [5; 0; 1; 0]; [6; 1; 0; 1]] 3 7 3 [0; 1; 2] [mkE 7 1; mkE 8 1; mkE (-7) 1] [] = Ok [7; 1; 0; 1] /\
  marked [1; 0; 1] ["a"; "b"; "c"]%string = ["a"; "c"]%string.
Proof.
  split; [|split; reflexivity]. intros r [<-|[<-|[<-|[]]]]; (split; [reflexivity|]); intros [|[|[|i]]] H; cbn in *; auto; lia.
Qed.

(** ** C161: multi offset data *)
Section Multi.
Variable disk : string -> option mat.
Variable seismic : bool.
Variable base : string.
Variable NT : nat.
Variable no : Z.
Variable mm : list (list Z).
Variable mv recs incr : list Z.
Variable enc : list esrc.
Hypothesis HS : supershot no mm mv recs incr enc.
Hypothesis Hne : length mm <> length recs.

(** Decoding gives every shot the traces of its own receivers with its sign, then one row of zeros per receiver of the shot
    that records another type; with et = 1 exactly these matrices are written, under the number and the type. *)
Theorem C161_decode et st D : et = 0 \/ et = 1 -> recorded NT mv recs D (d_data st) -> length (d_dec st) = 4%nat ->
  exists st' fs, decode disk seismic base NT no et mm mv recs (length mm) incr enc st = Ok (st', fs) /\
    d_data st' = d_data st /\ length (d_dec st') = 4%nat /\
    (forall t, chosen mv recs t <> [] -> nth (Z.to_nat (t - 1)) (d_dec st') [] = map (single_shot NT mm recs t (D t)) (team no incr enc)) /\
    (forall name M, In (name, M) fs <-> et = 1 /\ exists t m, chosen mv recs t <> [] /\ In m (team no incr enc) /\
        name = shot_file base seismic (nth 0 (mark_row mm (fst m)) 0) t /\ M = single_shot NT mm recs t (D t) m).
Proof using HS Hne.
  intros Het Hrec Hdec. unfold decode.
  destruct (decode_multi disk seismic base NT no mm mv recs incr enc HS (et + 2) st D ltac:(lia) Hne Hrec Hdec) as (st' & fs & E1 & E2 & E3 & E4 & E5).
  exists st', fs. split; [exact E1|]. split; [exact E2|]. split; [exact E3|]. split; [exact E4|]. intros name M. rewrite E5, in_flat_map.
  destruct (types_spec mv recs) as [_ HI]. split.
  - intros (t & Ht & H). apply HI in Ht. destruct Het as [->| ->]; [destruct H|]. split; [reflexivity|]. cbn in H. apply in_map_iff in H.
    destruct H as (m & H & Hm). injection H as <- <-. exists t, m. repeat split; assumption.
  - intros (-> & t & m & Ht & Hm & -> & ->). exists t. split; [apply HI, Ht|]. cbn. apply in_map_iff. exists m. split; [reflexivity|exact Hm].
Qed.
(** With one receiver type there are no additional rows. *)
Theorem C161_one_type t D m : (forall i, (i < length recs)%nat -> nth i recs 0 = t) -> single_shot NT mm recs t D m = own_traces mm recs t D m.
Proof using.
  clear. intros H. unfold single_shot. replace (others mm recs t m) with 0%nat; [apply app_nil_r|]. unfold others.
  assert (F : forall i, In i (seq 0 (length recs)) -> nth i recs 0 = t) by (intros i Hi; apply in_seq in Hi; apply H; lia).
  induction (seq 0 (length recs)) as [|i l IH]; [reflexivity|]. cbn [filter]. rewrite (F i (or_introl eq_refl)), Z.eqb_refl. cbn [negb]. rewrite andb_false_r.
  apply IH. intros j Hj. apply F. right. exact Hj.
Qed.
(** Encoding from files (et = 1): the signed sum of the traces of the shots. *)
Theorem C161_encode st D (T : Z -> Z * esrc -> nat -> row) rest : recorded NT mv recs D (d_data st) -> length (d_dec st) = 4%nat ->
  (forall t m i, length (T t m i) = NT) ->
  (forall t m, chosen mv recs t <> [] -> In m (team no incr enc) ->
     disk (shot_file base seismic (nth 0 (mark_row mm (fst m)) 0) t) = Some (map (T t m) (chosen (mark_row mm (fst m)) recs t) ++ rest t m)%list /\
     (length (rest t m) = others mm recs t m) /\ forall r, In r (rest t m) -> length r = NT) ->
  exists st', encode disk seismic base NT no 1 mm mv recs (length mm) incr enc st = Ok (st', []) /\ d_dec st' = d_dec st /\
    recorded NT mv recs (fun t => stacked NT mm (team no incr enc) (T t)) (d_data st').
Proof using HS Hne.
  intros Hrec Hdec HT Hd.
  destruct (encode_multi disk seismic base NT no mm mv recs incr enc HS 1 st D T rest (or_intror eq_refl) Hne Hrec Hdec) as (st' & E1 & E2 & E3 & E4 & E5).
  - discriminate.
  - intros _ t m Ht Hm. destruct (Hd t m Ht Hm) as (F1 & F2 & F3). unfold readFile, file_of. rewrite F1.
    pose proof (proj1 (su_fits no mm mv recs incr enc HS m Hm)) as Rm.
    assert (L : length (map (T t m) (chosen (mark_row mm (fst m)) recs t) ++ rest t m)%list = num_recs (mark_row mm (fst m))).
    { rewrite (num_recs_all (length recs)) by (apply row_mm; [exact (su_matrix _ _ _ _ _ _ HS)|exact Rm]).
      rewrite app_length, map_length, F2. unfold others, all_receivers, chosen.
      destruct (filter_two (marks (mark_row mm (fst m))) (fun i => nth i recs 0 =? t) (seq 0 (length recs))). lia. }
    rewrite L, Nat.eqb_refl. cbn [andb].
    assert (G : forallb (fun r => Nat.eqb (length r) NT) (map (T t m) (chosen (mark_row mm (fst m)) recs t) ++ rest t m)%list = true).
    { apply forallb_forall. intros r Hr. apply Nat.eqb_eq. apply in_app_or in Hr. destruct Hr as [Hr|Hr]; [|apply F3, Hr].
      apply in_map_iff in Hr. destruct Hr as (i & <- & _). apply HT. }
    rewrite G. reflexivity.
  - exists st'. split; [exact E1|]. split; [exact E2|]. split; [exact E3|]. intros t Ht.
    split; [|intros i; unfold stacked; rewrite map_length, seq_length; reflexivity].
    destruct (chosen mv recs t) as [|i l] eqn:E; [rewrite E5 by assumption; reflexivity|]. rewrite E4, E by (rewrite E; discriminate).
    apply map_ext. intros x. apply stackrow_stacked. intros m _ _. apply HT.
Qed.
(** Encoding what was decoded (et = 0): every trace times the number of shots that mark its receiver. *)
Theorem C161_again et st D : et = 0 \/ et = 1 -> recorded NT mv recs D (d_data st) -> length (d_dec st) = 4%nat ->
  exists st1 fs st2, decode disk seismic base NT no et mm mv recs (length mm) incr enc st = Ok (st1, fs) /\
    encode disk seismic base NT no 0 mm mv recs (length mm) incr enc st1 = Ok (st2, []) /\ d_dec st2 = d_dec st1 /\
    recorded NT mv recs (fun t i => times (INR (fold_number mm (team no incr enc) i)) (D t i)) (d_data st2).
Proof using HS Hne.
  intros Het Hrec Hdec. destruct (C161_decode et st D Het Hrec Hdec) as (st1 & fs & E1 & E2 & E3 & E4 & _). exists st1, fs.
  assert (Hrec1 : recorded NT mv recs D (d_data st1)) by (rewrite E2; exact Hrec).
  destruct (encode_multi disk seismic base NT no mm mv recs incr enc HS 0 st1 D (fun t m i => times (sg (snd m)) (D t i)) (fun t m => zmat (others mm recs t m) NT)
             (or_introl eq_refl) Hne Hrec1 E3) as (st2 & F1 & F2 & F3 & F4 & F5).
  - intros _ t Ht. rewrite E4 by exact Ht. reflexivity.
  - discriminate.
  - exists st2. split; [exact E1|]. split; [exact F1|]. split; [exact F2|]. split; [exact F3|]. intros t Ht.
    pose proof (proj2 (proj2 Hrec t Ht)) as HD. split; [|intros i; rewrite times_len; apply HD].
    destruct (chosen mv recs t) as [|i l] eqn:E; [rewrite F5 by assumption; reflexivity|]. rewrite F4, E by (rewrite E; discriminate).
    apply map_ext. intros x. rewrite (stackrow_stacked NT) by (intros m _ _; rewrite times_len; apply HD). apply stacked_decoded, HD.
Qed.
(** Decoding is the adjoint of encoding from files. *)
Theorem C161_adjoint et st1 st2 D1 D2 (T : Z -> Z * esrc -> nat -> row) rest : et = 0 \/ et = 1 ->
  recorded NT mv recs D1 (d_data st1) -> recorded NT mv recs D2 (d_data st2) -> length (d_dec st1) = 4%nat -> length (d_dec st2) = 4%nat ->
  (forall t m i, length (T t m i) = NT) ->
  (forall t m, chosen mv recs t <> [] -> In m (team no incr enc) ->
     disk (shot_file base seismic (nth 0 (mark_row mm (fst m)) 0) t) = Some (map (T t m) (chosen (mark_row mm (fst m)) recs t) ++ rest t m)%list /\
     (length (rest t m) = others mm recs t m) /\ forall r, In r (rest t m) -> length r = NT) ->
  exists s1 s2 fs, encode disk seismic base NT no 1 mm mv recs (length mm) incr enc st1 = Ok (s1, []) /\
    decode disk seismic base NT no et mm mv recs (length mm) incr enc st2 = Ok (s2, fs) /\
    forall t, chosen mv recs t <> [] ->
      mdot (nth (Z.to_nat (t - 1)) (d_data s1) []) (nth (Z.to_nat (t - 1)) (d_data st2) []) =
      rtotal (map (fun p => mdot (map (T t (fst p)) (chosen (mark_row mm (fst (fst p))) recs t) ++ rest t (fst p))%list (snd p))
                  (combine (team no incr enc) (nth (Z.to_nat (t - 1)) (d_dec s2) []))).
Proof using HS Hne.
  intros Het R1 R2 L1 L2 HT Hd. destruct (C161_encode st1 D1 T rest R1 L1 HT Hd) as (s1 & E1 & _ & E2).
  destruct (C161_decode et st2 D2 Het R2 L2) as (s2 & fs & F1 & _ & _ & F4 & _). exists s1, s2, fs. split; [exact E1|]. split; [exact F1|].
  intros t Ht. pose proof (su_t no mm mv recs incr enc HS t Ht) as Rt. rewrite (proj1 (proj2 E2 t Rt)), (proj1 (proj2 R2 t Rt)), F4 by exact Ht.
  rewrite (adjoint NT mm mv recs (team no incr enc) t (T t) (D2 t) (rest t)).
  - f_equal. generalize (team no incr enc). intros l. induction l as [|m l IH]; [reflexivity|]. cbn [map combine fst snd]. rewrite IH. reflexivity.
  - intros m Hm. apply (su_fits no mm mv recs incr enc HS m Hm).
  - apply HT.
  - apply (proj2 R2 t Rt).
Qed.
End Multi.

(** With two receiver types the seismogram of a shot gets a row that is no trace of the shot ... *)
Definition two_types : list Z := [1; 2].
Lemma two_super : supershot 7 [[5; 1; 1]] [7; 1; 1] two_types [0] [mkE 7 1].
Proof.
  constructor.
  - intros r [<-|[]]. split; [reflexivity|]. intros [|[|i]] H; cbn in *; auto; lia.
  - split; [reflexivity|]. intros [|[|i]] H; cbn in H; [| |lia]; (split; [intros _; exists 0, (mkE 7 1); split; [left; reflexivity|reflexivity]|reflexivity]).
  - reflexivity.
  - intros k [<-|[]]. cbn. lia.
  - intros t [<-|[<-|[]]]; lia.
Qed.
Theorem C161_rows_refuted : exists NT no mm mv recs incr enc st D st' fs t m M,
  supershot no mm mv recs incr enc /\ recorded NT mv recs D (d_data st) /\
  decode (fun _ => None) true "s" NT no 1 mm mv recs (length mm) incr enc st = Ok (st', fs) /\
  In m (team no incr enc) /\ In (shot_file "s" true (nth 0 (mark_row mm (fst m)) 0) t, M) fs /\
  length M <> length (chosen (mark_row mm (fst m)) recs t).
Proof.
  set (D := fun (_ : Z) (_ : nat) => [1%R]). set (st := mkD [[[1%R]]; [[1%R]]; []; []] [[]; []; []; []]).
  assert (R : recorded 1 [7; 1; 1] two_types D (d_data st)).
  { split; [reflexivity|]. intros t Ht. split; [|reflexivity]. assert (C : t = 1 \/ t = 2 \/ t = 3 \/ t = 4) by lia. destruct C as [->|[->|[->| ->]]]; reflexivity. }
  destruct (C161_decode (fun _ => None) true "s" 1 7 _ _ _ _ _ two_super ltac:(cbn; lia) 1 st D (or_intror eq_refl) R eq_refl) as (st' & fs & E1 & _ & _ & _ & E5).
  exists 1%nat, 7, [[5; 1; 1]], [7; 1; 1], two_types, [0], [mkE 7 1], st, D, st', fs, 1, (0, mkE 7 1), (single_shot 1 [[5; 1; 1]] two_types 1 (D 1) (0, mkE 7 1)).
  split; [exact two_super|]. split; [exact R|]. split; [exact E1|]. split; [left; reflexivity|]. split.
  - apply E5. split; [reflexivity|]. exists 1, (0, mkE 7 1). split; [discriminate|]. split; [left; reflexivity|]. split; reflexivity.
  - cbn. lia.
Qed.
(** ... and encoding from files that hold exactly the traces of the receivers of their type fails. *)
Theorem C161_files_refuted : exists disk NT no mm mv recs incr enc st,
  supershot no mm mv recs incr enc /\
  (forall t m, chosen mv recs t <> [] -> In m (team no incr enc) ->
     exists f, disk (shot_file "s" true (nth 0 (mark_row mm (fst m)) 0) t) = Some f /\ length f = length (chosen (mark_row mm (fst m)) recs t) /\ forall r, In r f -> length r = NT) /\
  encode disk true "s" NT no 1 mm mv recs (length mm) incr enc st = Throw.
Proof.
  exists (fun _ => Some [[1%R]]), 1%nat, 7, [[5; 1; 1]], [7; 1; 1], two_types, [0], [mkE 7 1], (mkD [[[1%R]]; [[1%R]]; []; []] [[]; []; []; []]).
  split; [exact two_super|]. split.
  - intros t m Ht [<-|[]]. exists [[1%R]]. split; [reflexivity|]. pose proof (su_t _ _ _ _ _ _ two_super t Ht) as Rt.
    assert (C : t = 1 \/ t = 2 \/ t = 3 \/ t = 4) by lia. split; [|intros r [<-|[]]; reflexivity]. destruct C as [->|[->|[->| ->]]]; try reflexivity; exfalso; apply Ht; reflexivity.
  - reflexivity.
Qed.
(** The hypotheses of C161 with two shots of opposite sign that share a receiver: it is doubled. *)
Lemma shared_super : supershot 7 [[5; 1; 1; 0]; [6; 0; 1; 1]] [7; 1; 1; 1] [1; 1; 1] [0; 1] [mkE 7 1; mkE (-7) (-1)].
Proof.
  constructor.
  - intros r [<-|[<-|[]]]; (split; [reflexivity|]); intros [|[|[|i]]] H; cbn in *; auto; lia.
  - split; [reflexivity|]. intros [|[|[|i]]] H; cbn in H; [| | |lia]; (split; [intros _|reflexivity]).
    + exists 0, (mkE 7 1). split; [left; reflexivity|reflexivity].
    + exists 0, (mkE 7 1). split; [left; reflexivity|reflexivity].
    + exists 1, (mkE (-7) (-1)). split; [right; left; reflexivity|reflexivity].
  - reflexivity.
  - intros k [<-|[<-|[]]]; cbn; lia.
  - intros t [<-|[<-|[<-|[]]]]; lia.
Qed.
Local Ltac lists := repeat match goal with |- _ :: _ = _ :: _ => apply f_equal2 | |- [] = [] => reflexivity end; lra.
Example C161_ex : exists st1 fs st2, decode (fun _ => None) true "s" 1 7 0 [[5; 1; 1; 0]; [6; 0; 1; 1]] [7; 1; 1; 1] [1; 1; 1] 2 [0; 1] [mkE 7 1; mkE (-7) (-1)]
    (mkD [[[1%R]; [2%R]; [3%R]]; []; []; []] [[]; []; []; []]) = Ok (st1, fs) /\
  nth 0 (d_dec st1) [] = [[[1%R]; [2%R]]; [[(-2)%R]; [(-3)%R]]] /\
  encode (fun _ => None) true "s" 1 7 0 [[5; 1; 1; 0]; [6; 0; 1; 1]] [7; 1; 1; 1] [1; 1; 1] 2 [0; 1] [mkE 7 1; mkE (-7) (-1)] st1 = Ok (st2, []) /\
  nth 0 (d_data st2) [] = [[1%R]; [4%R]; [3%R]].
Proof.
  set (D := fun (_ : Z) (i : nat) => [INR (S i)]). set (st := mkD [[[1%R]; [2%R]; [3%R]]; []; []; []] [[]; []; []; []]).
  assert (R : recorded 1 [7; 1; 1; 1] [1; 1; 1] D (d_data st)).
  { split; [reflexivity|]. intros t Ht. split; [|reflexivity]. assert (C : t = 1 \/ t = 2 \/ t = 3 \/ t = 4) by lia. destruct C as [->|[->|[->| ->]]]; try reflexivity.
    unfold D. cbn -[IZR]. lists. }
  destruct (C161_decode (fun _ => None) true "s" 1 7 _ _ _ _ _ shared_super ltac:(cbn; lia) 0 st D (or_introl eq_refl) R eq_refl) as (st1 & fs & E1 & _ & _ & E4 & _).
  destruct (C161_again (fun _ => None) true "s" 1 7 _ _ _ _ _ shared_super ltac:(cbn; lia) 0 st D (or_introl eq_refl) R eq_refl) as (st1' & fs' & st2 & F1 & F2 & _ & F4).
  rewrite F1 in E1. injection E1 as -> ->. exists st1, fs, st2. split; [exact F1|]. split; [|split; [exact F2|]].
  - change 0%nat with (Z.to_nat (1 - 1)). rewrite E4 by discriminate. unfold D. cbn -[IZR sg]. change (Pos.to_nat 1) with 1%nat. cbn -[IZR sg]. unfold sg. cbn [e_amp]. destruct (Rlt_dec 1 0); [lra|]. destruct (Rlt_dec (-1) 0); [|lra].
    lists.
  - change 0%nat with (Z.to_nat (1 - 1)). rewrite (proj1 (proj2 F4 1 ltac:(lia))). unfold D. cbn -[IZR]. change (Pos.to_nat 1) with 1%nat. cbn -[IZR]. lists.
Qed.

(** ** C162: common offset data *)
Section Common.
Variable disk : string -> option mat.
Variable seismic : bool.
Variable base : string.
Variable NT : nat.
Variable no : Z.
Variable mm : list (list Z).
Variable mv recs incr : list Z.
Variable enc : list esrc.
Hypothesis HS : supershot no mm mv recs incr enc.
Hypothesis Hn : length mm = length recs.
Hypothesis Hdiag : diagonal mm.
Hypothesis Hinc : StronglySorted Z.lt incr.

(** Decoding gives each shot its trace with its sign (the shots of another type get an empty matrix at the end); nothing is
    written, whatever the encode type. *)
Theorem C162_decode et st D : et = 0 \/ et = 1 -> recorded NT mv recs D (d_data st) -> length (d_dec st) = 4%nat ->
  exists st', decode disk seismic base NT no et mm mv recs (length mm) incr enc st = Ok (st', []) /\ d_data st' = d_data st /\ length (d_dec st') = 4%nat /\
    forall t, chosen mv recs t <> [] -> nth (Z.to_nat (t - 1)) (d_dec st') [] =
      (map (fun m => [times (sg (snd m)) (D t (Z.to_nat (fst m)))]) (of_type recs t (team no incr enc)) ++
       repeat ([] : mat) (length (team no incr enc) - length (of_type recs t (team no incr enc))))%list.
Proof using HS Hn Hdiag Hinc.
  intros Het Hrec Hdec. unfold decode.
  exact (decode_common no mm mv recs incr enc HS Hn Hdiag Hinc disk seismic base NT (et + 2) st D ltac:(lia) Hrec Hdec).
Qed.
(** Encoding from the file of the profile: the trace of each shot with its sign. *)
Theorem C162_encode st D (P : Z -> nat -> row) : recorded NT mv recs D (d_data st) -> length (d_dec st) = 4%nat -> (forall t i, length (P t i) = NT) ->
  (forall t, chosen mv recs t <> [] -> disk (base ++ "." ++ component seismic (Z.to_nat (t - 1)))%string = Some (map (P t) (seq 0 (length mm)))) ->
  exists st', encode disk seismic base NT no 1 mm mv recs (length mm) incr enc st = Ok (st', []) /\ d_dec st' = d_dec st /\
    forall t, chosen mv recs t <> [] -> nth (Z.to_nat (t - 1)) (d_data st') [] =
      map (fun m => times (sg (snd m)) (P t (Z.to_nat (fst m)))) (of_type recs t (team no incr enc)).
Proof using HS Hn Hdiag Hinc.
  intros Hrec Hdec HP Hd.
  destruct (encode_common no mm mv recs incr enc HS Hn Hdiag Hinc disk seismic base NT 1 st D (fun t m => P t (Z.to_nat (fst m))) (fun _ => [])
              (or_intror eq_refl) Hrec Hdec (fun t m => HP t _)) as (st' & E1 & E2 & _ & E4 & _).
  - discriminate.
  - intros _ t Ht. exists (map (P t) (seq 0 (length mm))). split; [apply Hd, Ht|]. intros m Hm. unfold of_type, team in Hm.
    apply filter_In in Hm. destruct Hm as [Hm _]. apply filter_In in Hm. destruct Hm as [Hm _]. destruct m as [k e]. cbn [fst].
    pose proof (su_rows _ _ _ _ _ _ HS k (in_combine_l _ _ _ _ Hm)) as Rk.
    rewrite (getRow_ok _ _ (P t 0%nat)) by (rewrite map_length, seq_length; exact Rk). rewrite map_nth, seq_nth by lia. reflexivity.
  - exists st'. split; [exact E1|]. split; [exact E2|exact E4].
Qed.
(** Encoding what was decoded restores the supershot. *)
Theorem C162_again et st D : et = 0 \/ et = 1 -> recorded NT mv recs D (d_data st) -> length (d_dec st) = 4%nat ->
  exists st1 st2, decode disk seismic base NT no et mm mv recs (length mm) incr enc st = Ok (st1, []) /\
    encode disk seismic base NT no 0 mm mv recs (length mm) incr enc st1 = Ok (st2, []) /\ d_data st2 = d_data st.
Proof using HS Hn Hdiag Hinc.
  intros Het Hrec Hdec. destruct (C162_decode et st D Het Hrec Hdec) as (st1 & E1 & E2 & E3 & E4). exists st1.
  assert (Hrec1 : recorded NT mv recs D (d_data st1)) by (rewrite E2; exact Hrec).
  set (T := fun t (m : Z * esrc) => times (sg (snd m)) (nth (Z.to_nat (t - 1)) [D 1; D 2; D 3; D 4] (fun _ => repeat 0%R NT) (own m))).
  assert (HT : forall t m, length (T t m) = NT).
  { intros t m. unfold T. rewrite times_len. destruct (Z.to_nat (t - 1)) as [|[|[|[|j]]]]; cbn [nth]; try (apply (proj2 Hrec); lia). destruct j; apply repeat_length. }
  assert (TD : forall t m, 1 <= t <= 4 -> T t m = times (sg (snd m)) (D t (own m))).
  { intros t m Ht. unfold T. assert (C : t = 1 \/ t = 2 \/ t = 3 \/ t = 4) by lia. destruct C as [->|[->|[->| ->]]]; reflexivity. }
  destruct (encode_common no mm mv recs incr enc HS Hn Hdiag Hinc disk seismic base NT 0 st1 D T
              (fun t => repeat ([] : mat) (length (team no incr enc) - length (of_type recs t (team no incr enc))))
              (or_introl eq_refl) Hrec1 E3 HT) as (st2 & F1 & F2 & F3 & F4 & F5).
  - intros _ t Ht. rewrite E4 by exact Ht. f_equal. apply map_ext. intros m. rewrite TD by (apply (su_t no mm mv recs incr enc HS t Ht)). reflexivity.
  - discriminate.
  - exists st2. split; [exact E1|]. split; [exact F1|]. destruct Hrec as [L1 Hrec].
    apply nth_ext with [] []; [congruence|]. intros j Hj. rewrite F3 in Hj.
    replace j with (Z.to_nat ((Z.of_nat j + 1) - 1)) by lia. set (t := Z.of_nat j + 1). assert (Rt : 1 <= t <= 4) by (unfold t; lia).
    rewrite (proj1 (Hrec t Rt)). destruct (chosen mv recs t) as [|i l] eqn:E; [apply F5; assumption|]. rewrite F4 by (rewrite E; discriminate). rewrite <- E.
    rewrite <- (own_chosen no mm mv recs incr enc HS Hn Hdiag Hinc t), map_map. apply map_ext. intros m. rewrite TD by exact Rt.
    unfold times. rewrite map_map. rewrite <- (map_id (D t (own m))) at 2. apply map_ext. intros x. rewrite <- Rmult_assoc, sg_sq. ring.
Qed.
End Common.

(** A survey with as many receivers as shots in which every shot is recorded by all receivers is taken for common offset
    data: decoding a supershot of fewer shots writes outside dataDecode. *)
Lemma common_ub disk seismic base no et mm mv recs t : et = 2 \/ et = 3 ->
  (forall r, In r mm -> length r = S (length mm)) -> length mv = S (length mm) -> length recs = length mm ->
  (forall i, (i < length mm)%nat -> marks mv i = true) -> (forall i, (i < length mm)%nat -> nth i recs 0 = t) ->
  forall incr enc (data : mat) (dec : list mat) (s : row) c, length enc = length incr -> (forall k, In k incr -> 0 <= k < Z.of_nat (length mm)) ->
  0 <= c -> c + Z.of_nat (length incr) <= Z.of_nat (length data) -> Z.of_nat (length dec) < c + Z.of_nat (length incr) -> c <= Z.of_nat (length dec) ->
  common disk seismic base no et mm mv recs t incr enc data dec [s] c c = UB.
Proof.
  intros Het Hr Hmv Hrecs Hm Ht. induction incr as [|k incr IH]; intros [|e enc] data dec s c Hl Hk H0 H1 H2 H3; try discriminate Hl; [cbn in H2; lia|].
  pose proof (Hk k (or_introl eq_refl)) as Rk. cbn [common]. rewrite (getRow_ok mv _ 0) by lia. cbn [bind].
  replace (Z.to_nat (k + 1)) with (S (Z.to_nat k)) by lia. pose proof (Hm (Z.to_nat k) ltac:(lia)) as M. unfold marks in M. rewrite M.
  rewrite (vget_at recs k 0) by lia. cbn [bind]. rewrite (Ht (Z.to_nat k)) by lia. rewrite Z.eqb_refl. cbn [andb].
  replace (et <=? 1) with false by (destruct Het; subst; reflexivity).
  rewrite (getRow_ok mm k []) by exact Rk. cbn [bind]. fold (mark_row mm k). pose proof (Hr _ (row_in mm k Rk)) as RL.
  rewrite (getRow_ok (mark_row mm k) _ 0) by lia. cbn [bind].
  assert (S1 : exists s', (if negb (nth (Z.to_nat (k + 1)) (mark_row mm k) 0 =? 0)
      then x <- getRow data c ;; updRow (fun _ => if flip e then map Ropp x else x) [s] 0 else Ok [s]) = Ok [s']).
  { destruct (negb (nth (Z.to_nat (k + 1)) (mark_row mm k) 0 =? 0)); [|exists s; reflexivity]. cbn [length] in H1. rewrite (getRow_ok data c []) by lia. cbn [bind].
    eexists. rewrite (updRow_app _ [] [] s 0 eq_refl). reflexivity. }
  destruct S1 as [s' S1].
  match type of S1 with ?l = _ => match goal with |- context [bind ?x _] => change x with l end end. rewrite S1. cbn [bind]. destruct (Z.lt_ge_cases c (Z.of_nat (length dec))) as [C|C].
  - rewrite vset_upd by lia. cbn [bind]. apply IH; [cbn in Hl; lia|intros x Hx; apply Hk; right; exact Hx|lia|cbn [length] in H1; lia| |].
    + rewrite upd_at_length. cbn [length] in H2. lia.
    + rewrite upd_at_length. lia.
  - assert (Q : vset dec c ([s'] : mat) = UB); [|match goal with |- context [vset dec c ?x] => change x with ([s'] : mat) end; rewrite Q; reflexivity]. unfold vset. destruct (c <? 0) eqn:E; [lia|].
    assert (NN : forall (l : list mat) i a, (length l <= i)%nat -> nset l i a = None).
    { clear. induction l as [|x l IH]; intros i a H; [destruct i; reflexivity|]. destruct i as [|i]; [cbn in H; lia|]. cbn. rewrite IH by (cbn in H; lia). reflexivity. }
    rewrite NN by lia. reflexivity.
Qed.
Theorem C162_square disk seismic base NT no et mm mv recs incr enc st D t : et = 0 \/ et = 1 -> supershot no mm mv recs incr enc -> length mm = length recs ->
  (forall i, (i < length recs)%nat -> nth i recs 0 = t /\ marks mv i = true) -> length incr = length mm -> (length (team no incr enc) < length incr)%nat ->
  recorded NT mv recs D (d_data st) -> length (d_dec st) = 4%nat ->
  decode disk seismic base NT no et mm mv recs (length mm) incr enc st = UB.
Proof.
  intros Het HS Hn Hm Hi Hlt [L1 Hrec] L2. unfold decode, encode. rewrite (read_ok no mm mv recs incr enc HS). cbn [bind]. destruct (types_spec mv recs) as [HN HI].
  assert (P : (0 < length recs)%nat) by lia.
  assert (EC : chosen mv recs t = seq 0 (length recs)).
  { unfold chosen. assert (F : forall i, In i (seq 0 (length recs)) -> marks mv i && (nth i recs 0 =? t) = true).
    { intros i Hx. apply in_seq in Hx. destruct (Hm i ltac:(lia)) as [E1 E2]. rewrite E1, E2, Z.eqb_refl. reflexivity. }
    induction (seq 0 (length recs)) as [|i l IH]; [reflexivity|]. cbn [filter]. rewrite (F i (or_introl eq_refl)). f_equal. apply IH. intros j Hj. apply F. right. exact Hj. }
  assert (It : In t (receiverTypes (tl mv) recs)) by (apply HI; rewrite EC; destruct recs; [cbn in P; lia|discriminate]).
  assert (Only : forall u, In u (receiverTypes (tl mv) recs) -> u = t).
  { intros u Hu. apply HI in Hu. destruct (chosen mv recs u) as [|i l] eqn:E; [congruence|]. assert (X : In i (chosen mv recs u)) by (rewrite E; left; reflexivity).
    apply chosen_in in X. destruct X as (X1 & _ & <-). apply Hm, X1. }
  destruct (receiverTypes (tl mv) recs) as [|u ts]; [destruct It|]. rewrite (Only u (or_introl eq_refl)).
  assert (Rt : 1 <= t <= 4) by (apply (su_types _ _ _ _ _ _ HS); rewrite <- (proj1 (Hm 0%nat P)); apply nth_In, P).
  cbn [code_types]. unfold code_type. rewrite (vget_at (d_data st) _ []) by lia. cbn [bind]. rewrite (vget_at (d_dec st) _ []) by lia. cbn [bind].
  replace (et + 2 <=? 1) with false by lia. rewrite members_len by apply (su_lines _ _ _ _ _ _ HS). cbn [bind].
  rewrite Hn, Z.eqb_refl. rewrite (proj1 (Hrec t Rt)), EC.
  change (zmat 1 NT) with [repeat 0%R NT].
  match goal with |- context [common ?a1 ?a2 ?a3 ?a4 ?a5 ?a6 ?a7 ?a8 ?a9 ?b1 ?b2 ?b3 ?b4 ?b5 0 0] =>
    assert (Q : common a1 a2 a3 a4 a5 a6 a7 a8 a9 b1 b2 b3 b4 b5 0 0 = UB) end.
  { apply common_ub; [lia| | | | |rewrite Hn; intros i Hx; apply Hm, Hx|apply (su_lines _ _ _ _ _ _ HS)|apply (su_rows _ _ _ _ _ _ HS)|lia|rewrite map_length, seq_length; lia|rewrite repeat_length; lia|lia].
    - intros r Hr. rewrite Hn. apply (su_matrix _ _ _ _ _ _ HS r Hr).
    - rewrite Hn. apply (su_marks _ _ _ _ _ _ HS).
    - symmetry. exact Hn.
    - rewrite Hn. intros i Hx. apply Hm, Hx. }
  rewrite Q. reflexivity.
Qed.
Lemma square_super : supershot 7 [[5; 1; 1]; [6; 1; 1]] [7; 1; 1] [1; 1] [0; 1] [mkE 7 1; mkE 8 1].
Proof.
  constructor.
  - intros r [<-|[<-|[]]]; (split; [reflexivity|]); intros [|[|i]] H; cbn in *; auto; lia.
  - split; [reflexivity|]. intros [|[|i]] H; cbn in H; [| |lia]; (split; [intros _; exists 0, (mkE 7 1); split; [left; reflexivity|reflexivity]|reflexivity]).
  - reflexivity.
  - intros k [<-|[<-|[]]]; cbn; lia.
  - intros t [<-|[<-|[]]]; lia.
Qed.
Theorem C162_square_refuted : exists NT no mm mv recs incr enc st D, supershot no mm mv recs incr enc /\ recorded NT mv recs D (d_data st) /\ length (d_dec st) = 4%nat /\
  decode (fun _ => None) true "s" NT no 0 mm mv recs (length mm) incr enc st = UB.
Proof.
  set (D := fun (_ : Z) (_ : nat) => [1%R]). set (st := mkD [[[1%R]; [1%R]]; []; []; []] [[]; []; []; []]).
  assert (R : recorded 1 [7; 1; 1] [1; 1] D (d_data st)).
  { split; [reflexivity|]. intros t Ht. split; [|reflexivity]. assert (C : t = 1 \/ t = 2 \/ t = 3 \/ t = 4) by lia. destruct C as [->|[->|[->| ->]]]; reflexivity. }
  exists 1%nat, 7, [[5; 1; 1]; [6; 1; 1]], [7; 1; 1], [1; 1], [0; 1], [mkE 7 1; mkE 8 1], st, D. split; [exact square_super|]. split; [exact R|]. split; [reflexivity|].
  apply (C162_square _ _ _ _ _ 0 _ _ _ _ _ _ D 1); [left; reflexivity|exact square_super|reflexivity| |reflexivity|cbn; lia|exact R|reflexivity].
  intros [|[|i]] H; cbn in H; [split; reflexivity|split; reflexivity|lia].
Qed.
(** The hypotheses of C162: three shots, the supershot contains the first and the last. *)
Example C162_ex : supershot 7 [[4; 1; 0; 0]; [5; 0; 1; 0]; [6; 0; 0; 1]] [7; 1; 0; 1] [1; 1; 1] [0; 1; 2] [mkE 7 1; mkE 8 1; mkE (-7) (-1)] /\
  diagonal [[4; 1; 0; 0]; [5; 0; 1; 0]; [6; 0; 0; 1]] /\ StronglySorted Z.lt [0; 1; 2] /\
  recorded 1 [7; 1; 0; 1] [1; 1; 1] (fun _ i => [INR i]) [[[0%R]; [(1 + 1)%R]]; []; []; []].
Proof.
  split; [constructor|split; [|split]].
  - intros r [<-|[<-|[<-|[]]]]; (split; [reflexivity|]); intros [|[|[|i]]] H; cbn in *; auto; lia.
  - split; [reflexivity|]. intros [|[|[|i]]] H; cbn in H; [| | |lia].
    + split; [intros _; exists 0, (mkE 7 1); split; [left; reflexivity|reflexivity]|reflexivity].
    + split; [intros X; discriminate X|]. intros (k & e & [X|[X|[]]] & Y); injection X as <- <-; discriminate Y.
    + split; [intros _; exists 2, (mkE (-7) (-1)); split; [right; left; reflexivity|reflexivity]|reflexivity].
  - reflexivity.
  - intros k [<-|[<-|[<-|[]]]]; cbn; lia.
  - intros t [<-|[<-|[<-|[]]]]; lia.
  - intros [|[|[|k]]] [|[|[|i]]] H1 H2; cbn in H1, H2; try lia; cbn; split; intros X; try reflexivity; try discriminate X.
  - repeat constructor.
  - split; [reflexivity|]. intros t Ht. split; [|reflexivity]. assert (C : t = 1 \/ t = 2 \/ t = 3 \/ t = 4) by lia. destruct C as [->|[->|[->| ->]]]; reflexivity.
Qed.

Print Assumptions C160_supershot.
Print Assumptions C160_kept.
Print Assumptions C160_normal.
Print Assumptions C160_missing.
Print Assumptions C160_refuted.
Print Assumptions C161_decode.
Print Assumptions C161_one_type.
Print Assumptions C161_encode.
Print Assumptions C161_again.
Print Assumptions C161_adjoint.
Print Assumptions C161_rows_refuted.
Print Assumptions C161_files_refuted.
Print Assumptions C162_decode.
Print Assumptions C162_encode.
Print Assumptions C162_again.
Print Assumptions C162_square.
Print Assumptions C162_square_refuted.

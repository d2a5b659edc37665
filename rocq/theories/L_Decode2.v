(** Proofs about the marks and the supershots: the loops over the types. *)
From Coq Require Import Reals String Lra.
From Verif Require Import Base M_Acq M_Wave M_Cop M_Decode S_Cop S_Decode L_Cop L_Decode.
Open Scope Z_scope.
Local Notation length := List.length.

Lemma members_len no : forall incr enc, length enc = length incr -> members no incr enc = Ok (length (team no incr enc)).
Proof.
  induction incr as [|k incr IH]; intros [|e enc] H; try discriminate H; [reflexivity|]. cbn [members].
  rewrite IH by (cbn in H; lia). cbn [bind]. unfold team. cbn [combine filter snd].
  destruct (Z.abs (e_no e) =? no); reflexivity.
Qed.

(** ** The receiver types *)
Lemma NoDup_snoc {A} (l : list A) x : NoDup l -> ~ In x l -> NoDup (l ++ [x]).
Proof.
  induction l as [|y l IH]; intros H Hx; cbn; [constructor; [intros []|constructor]|]. apply NoDup_cons_iff in H. destruct H as [H1 H2].
  constructor; [|apply IH; [exact H2|intros X; apply Hx; right; exact X]]. rewrite in_app_iff. intros [X|[<-|[]]]; [exact (H1 X)|apply Hx; left; reflexivity].
Qed.
Lemma types_fold l : forall acc, NoDup acc ->
  let r := fold_left (fun ts t => if existsb (Z.eqb t) ts then ts else (ts ++ [t])%list) l acc in
  NoDup r /\ forall t, In t r <-> In t acc \/ In t l.
Proof.
  induction l as [|x l IH]; intros acc H; cbn [fold_left].
  - split; [exact H|]. intros t. cbn. tauto.
  - destruct (existsb (Z.eqb x) acc) eqn:E.
    + destruct (IH acc H) as [N I]. split; [exact N|]. intros t. rewrite I. cbn. apply existsb_exists in E. destruct E as (y & Hy & E).
      apply Z.eqb_eq in E. subst y. intuition (subst; auto).
    + assert (Hx : ~ In x acc).
      { intros Hx. assert (T : existsb (Z.eqb x) acc = true) by (apply existsb_exists; exists x; split; [exact Hx|apply Z.eqb_refl]). congruence. }
      destruct (IH (acc ++ [x])%list) as [N I].
      { apply NoDup_snoc; assumption. }
      split; [exact N|]. intros t. rewrite I, in_app_iff. cbn. tauto.
Qed.
Lemma marked_in t : forall recs v, In t (marked v recs) <-> exists i, (i < length recs)%nat /\ nth i v 0 <> 0 /\ nth i recs 0 = t.
Proof.
  induction recs as [|x recs IH]; intros [|m v]; cbn [marked].
  - split; [intros []|intros (i & H & _); cbn in H; lia].
  - split; [intros []|intros (i & H & _); cbn in H; lia].
  - split; [intros []|]. intros (i & _ & H & _). destruct i; exfalso; apply H; reflexivity.
  - destruct (m =? 0) eqn:E; cbn [negb].
    + rewrite IH. split.
      * intros (i & H1 & H2 & H3). exists (S i). cbn [length nth]. repeat split; [lia|exact H2|exact H3].
      * intros ([|i] & H1 & H2 & H3); cbn [length nth] in *; [lia|]. exists i. repeat split; [lia|exact H2|exact H3].
    + cbn [In]. rewrite IH. split.
      * intros [->|(i & H1 & H2 & H3)].
        -- exists 0%nat. cbn. repeat split; lia.
        -- exists (S i). cbn [length nth]. repeat split; [lia|exact H2|exact H3].
      * intros ([|i] & H1 & H2 & H3); cbn [length nth] in *; [left; exact H3|]. right. exists i. repeat split; [lia|exact H2|exact H3].
Qed.
Lemma chosen_in mv recs t i : In i (chosen mv recs t) <-> (i < length recs)%nat /\ marks mv i = true /\ nth i recs 0 = t.
Proof.
  unfold chosen. rewrite filter_In, in_seq, andb_true_iff, Z.eqb_eq. intuition lia.
Qed.
Lemma types_spec mv recs : NoDup (receiverTypes (tl mv) recs) /\ forall t, In t (receiverTypes (tl mv) recs) <-> chosen mv recs t <> [].
Proof.
  destruct (types_fold (marked (tl mv) recs) [] (NoDup_nil _)) as [N I]. split; [exact N|]. intros t. unfold receiverTypes. rewrite I.
  rewrite marked_in. split.
  - intros [[]|(i & H1 & H2 & H3)] C. assert (X : In i (chosen mv recs t)).
    { apply chosen_in. repeat split; [exact H1| |exact H3]. unfold marks. rewrite nth_tl in H2. destruct (nth (S i) mv 0 =? 0) eqn:E; [lia|reflexivity]. }
    rewrite C in X. destruct X.
  - intros C. right. destruct (chosen mv recs t) as [|i l] eqn:E; [congruence|]. assert (X : In i (chosen mv recs t)) by (rewrite E; left; reflexivity).
    apply chosen_in in X. destruct X as (H1 & H2 & H3). exists i. repeat split; [exact H1| |exact H3]. rewrite nth_tl. unfold marks in H2. intros Z0. rewrite Z0 in H2. discriminate H2.
Qed.

(** ** The loop over the types *)
Lemma code_types_spec disk seismic base NT no et mm mv recs numshots incr enc (st0 : dstate) (A : Z -> mat) (B : Z -> list mat) (Fl : Z -> list (string * mat)) :
  forall ts, NoDup ts -> (forall t, In t ts -> 1 <= t <= 4) ->
  (forall t, In t ts -> forall st, length (d_data st) = 4%nat -> length (d_dec st) = 4%nat ->
    nth (Z.to_nat (t - 1)) (d_data st) [] = nth (Z.to_nat (t - 1)) (d_data st0) [] ->
    nth (Z.to_nat (t - 1)) (d_dec st) [] = nth (Z.to_nat (t - 1)) (d_dec st0) [] ->
    code_type disk seismic base NT no et mm mv recs numshots incr enc t st
    = Ok (mkD (upd_at (Z.to_nat (t - 1)) (fun _ => A t) (d_data st)) (upd_at (Z.to_nat (t - 1)) (fun _ => B t) (d_dec st)), Fl t)) ->
  forall st, length (d_data st) = 4%nat -> length (d_dec st) = 4%nat ->
  (forall t, In t ts -> nth (Z.to_nat (t - 1)) (d_data st) [] = nth (Z.to_nat (t - 1)) (d_data st0) [] /\
                        nth (Z.to_nat (t - 1)) (d_dec st) [] = nth (Z.to_nat (t - 1)) (d_dec st0) []) ->
  exists st', code_types disk seismic base NT no et mm mv recs numshots incr enc ts st = Ok (st', flat_map Fl ts) /\
    length (d_data st') = 4%nat /\ length (d_dec st') = 4%nat /\
    (forall t, In t ts -> nth (Z.to_nat (t - 1)) (d_data st') [] = A t /\ nth (Z.to_nat (t - 1)) (d_dec st') [] = B t) /\
    (forall t, 1 <= t <= 4 -> ~ In t ts -> nth (Z.to_nat (t - 1)) (d_data st') [] = nth (Z.to_nat (t - 1)) (d_data st) [] /\
                                nth (Z.to_nat (t - 1)) (d_dec st') [] = nth (Z.to_nat (t - 1)) (d_dec st) []).
Proof.
  induction ts as [|t ts IH]; intros HN HR HC st L1 L2 HS.
  - exists st. split; [reflexivity|]. split; [exact L1|]. split; [exact L2|]. split; [intros ? []|]. intros t _ _. split; reflexivity.
  - apply NoDup_cons_iff in HN. destruct HN as [Hn HN]. cbn [code_types].
    rewrite (HC t (or_introl eq_refl) st L1 L2 (proj1 (HS t (or_introl eq_refl))) (proj2 (HS t (or_introl eq_refl)))). cbn [bind].
    pose proof (HR t (or_introl eq_refl)) as Rt.
    set (st1 := mkD _ _).
    assert (U : forall u, 1 <= u <= 4 -> u <> t -> nth (Z.to_nat (u - 1)) (d_data st1) [] = nth (Z.to_nat (u - 1)) (d_data st) [] /\
                                nth (Z.to_nat (u - 1)) (d_dec st1) [] = nth (Z.to_nat (u - 1)) (d_dec st) []).
    { intros u Hu Hne. unfold st1. cbn [d_data d_dec]. rewrite !upd_at_nth by lia.
      destruct (Nat.eqb (Z.to_nat (u - 1)) (Z.to_nat (t - 1))) eqn:E; [apply Nat.eqb_eq in E; lia|]. split; reflexivity. }
    assert (V : nth (Z.to_nat (t - 1)) (d_data st1) [] = A t /\ nth (Z.to_nat (t - 1)) (d_dec st1) [] = B t).
    { unfold st1. cbn [d_data d_dec]. rewrite !upd_at_nth by lia. rewrite Nat.eqb_refl. split; reflexivity. }
    destruct (IH HN (fun u Hu => HR u (or_intror Hu)) (fun u Hu => HC u (or_intror Hu)) st1) as (st' & E & K1 & K2 & K3 & K4).
    + unfold st1. cbn [d_data]. rewrite upd_at_length. exact L1.
    + unfold st1. cbn [d_dec]. rewrite upd_at_length. exact L2.
    + intros u Hu. destruct (U u (HR u (or_intror Hu)) ltac:(intros ->; exact (Hn Hu))) as [U1 U2]. rewrite U1, U2. apply HS. right. exact Hu.
    + exists st'. rewrite E. cbn [bind flat_map]. split; [reflexivity|]. split; [exact K1|]. split; [exact K2|]. split.
      * intros u [<-|Hu]; [|apply K3; exact Hu]. destruct (K4 t Rt Hn) as [-> ->]. exact V.
      * intros u Hu Hnu. destruct (K4 u Hu ltac:(intros X; apply Hnu; right; exact X)) as [-> ->]. apply U; [exact Hu|]. intros ->. apply Hnu. left. reflexivity.
Qed.

(** ** Supershots *)
Section Super.
Variable disk : string -> option mat.
Variable seismic : bool.
Variable base : string.
Variable NT : nat.
Variable no : Z.
Variable mm : list (list Z).
Variable mv recs incr : list Z.
Variable enc : list esrc.
Hypothesis HS : supershot no mm mv recs incr enc.
Let ms := team no incr enc.
Let n := length recs.

Lemma su_len : length mv = S n.
Proof using HS. apply (su_marks _ _ _ _ _ _ HS). Qed.
Lemma su_fits m : In m ms -> fits mm mv recs m.
Proof using HS.
  intros H. destruct m as [k e]. split; cbn [fst].
  - apply (su_rows _ _ _ _ _ _ HS). unfold ms, team in H. apply filter_In in H. apply (in_combine_l incr enc k e), H.
  - intros i Hi Hm. apply (proj2 (su_marks _ _ _ _ _ _ HS) i Hi). exists k, e. split; [exact H|exact Hm].
Qed.
Lemma read_ok : readMarks (length mm) (length recs) mm = Ok mm.
Proof using HS.
  unfold readMarks. rewrite Nat.eqb_refl. cbn [andb].
  assert (F : forallb (fun r => Nat.eqb (length r) (S (length recs))) mm = true).
  { apply forallb_forall. intros r Hr. apply Nat.eqb_eq. apply (su_matrix _ _ _ _ _ _ HS r Hr). }
  rewrite F. reflexivity.
Qed.
Lemma su_t t : chosen mv recs t <> [] -> 1 <= t <= 4.
Proof using HS.
  intros H. destruct (chosen mv recs t) as [|i l] eqn:E; [congruence|]. assert (X : In i (chosen mv recs t)) by (rewrite E; left; reflexivity).
  apply chosen_in in X. destruct X as (H1 & _ & <-). apply (su_types _ _ _ _ _ _ HS), nth_In, H1.
Qed.
Lemma filter_two {A} (p q : A -> bool) l : (length (filter p l) - length (filter (fun x => p x && q x) l) = length (filter (fun x => p x && negb (q x)) l) /\
   length (filter (fun x => p x && q x) l) <= length (filter p l))%nat.
Proof using. clear. induction l as [|x l IH]; cbn [filter length]; [lia|]. destruct (p x), (q x); cbn [andb negb length]; lia. Qed.
Lemma decoded_single t D m : decoded NT mm recs t D m = single_shot NT mm recs t D m.
Proof using.
  clear. unfold decoded, single_shot. f_equal. f_equal. unfold all_receivers, chosen, others.
  apply (filter_two (marks (mark_row mm (fst m))) (fun i => nth i recs 0 =? t)).
Qed.

Lemma decode_multi et st D : et = 2 \/ et = 3 -> length mm <> length recs -> recorded NT mv recs D (d_data st) -> length (d_dec st) = 4%nat ->
  exists st' fs, encode disk seismic base NT no et mm mv recs (length mm) incr enc st = Ok (st', fs) /\
    d_data st' = d_data st /\ length (d_dec st') = 4%nat /\
    (forall t, chosen mv recs t <> [] -> nth (Z.to_nat (t - 1)) (d_dec st') [] = map (single_shot NT mm recs t (D t)) ms) /\
    fs = flat_map (fun t => if et =? 3 then map (fun m => (file_of seismic base mm t m, single_shot NT mm recs t (D t) m)) ms else []) (receiverTypes (tl mv) recs).
Proof using HS.
  intros Het Hne [L1 Hrec] L2. unfold encode. rewrite read_ok. cbn [bind]. destruct (types_spec mv recs) as [HN HI].
  destruct (code_types_spec disk seismic base NT no et mm mv recs (Z.of_nat (length mm)) incr enc st
             (fun t => map (D t) (chosen mv recs t)) (fun t => map (single_shot NT mm recs t (D t)) ms)
             (fun t => if et =? 3 then map (fun m => (file_of seismic base mm t m, single_shot NT mm recs t (D t) m)) ms else [])
             (receiverTypes (tl mv) recs) HN) with (st := st) as (st' & E & K1 & K2 & K3 & K4); try assumption.
  - intros t Ht. apply su_t, HI, Ht.
  - intros t Ht s J1 J2 E1 E2. apply HI in Ht. pose proof (su_t t Ht) as Rt. unfold code_type.
    rewrite (vget_at (d_data s) _ []) by lia. cbn [bind]. rewrite (vget_at (d_dec s) _ []) by lia. cbn [bind].
    replace (et <=? 1) with false by (destruct Het; subst; reflexivity). rewrite members_len by apply (su_lines _ _ _ _ _ _ HS). cbn [bind].
    destruct (Z.of_nat (length mm) =? Z.of_nat (length recs)) eqn:EE; [lia|].
    rewrite E1. rewrite (proj1 (Hrec t Rt)).
    pose proof (multi_decode disk seismic base NT no mm mv recs (su_matrix _ _ _ _ _ _ HS) su_len t (D t) et Het incr enc (su_lines _ _ _ _ _ _ HS) su_fits [] 0 eq_refl) as Q.
    cbn [app] in Q. rewrite Q. cbn [bind]. rewrite vset_upd by lia. cbn [bind]. rewrite vset_upd by lia. cbn [bind].
    fold ms. rewrite (map_ext _ _ (decoded_single t (D t))).
    destruct (et =? 3); [|reflexivity]. do 2 f_equal. apply map_ext. intros m. rewrite decoded_single. reflexivity.
  - intros t Ht. split; reflexivity.
  - exists st'. eexists. split; [exact E|]. split.
    + apply nth_ext with [] []; [congruence|]. intros j Hj. rewrite K1 in Hj.
      replace j with (Z.to_nat ((Z.of_nat j + 1) - 1)) by lia. set (t := Z.of_nat j + 1).
      destruct (in_dec Z.eq_dec t (receiverTypes (tl mv) recs)) as [Hi|Hi].
      * rewrite (proj1 (K3 t Hi)). symmetry. apply Hrec. unfold t. lia.
      * apply K4; [unfold t; lia|exact Hi].
    + split; [exact K2|]. split; [|reflexivity]. intros t Ht. apply K3, HI, Ht.
Qed.

Lemma encode_multi et st D (T : Z -> Z * esrc -> nat -> row) rest : et = 0 \/ et = 1 -> length mm <> length recs -> recorded NT mv recs D (d_data st) -> length (d_dec st) = 4%nat ->
  (et = 0 -> forall t, chosen mv recs t <> [] -> nth (Z.to_nat (t - 1)) (d_dec st) [] = map (fun m => map (T t m) (chosen (mark_row mm (fst m)) recs t) ++ rest t m)%list ms) ->
  (et = 1 -> forall t m, chosen mv recs t <> [] -> In m ms ->
     readFile disk NT (file_of seismic base mm t m) (num_recs (mark_row mm (fst m))) = Ok (map (T t m) (chosen (mark_row mm (fst m)) recs t) ++ rest t m)%list) ->
  exists st', encode disk seismic base NT no et mm mv recs (length mm) incr enc st = Ok (st', []) /\
    d_dec st' = d_dec st /\ length (d_data st') = 4%nat /\
    (forall t, chosen mv recs t <> [] -> nth (Z.to_nat (t - 1)) (d_data st') [] = map (fun i => stackrow mm (T t) ms i (repeat 0%R NT)) (chosen mv recs t)) /\
    (forall t, 1 <= t <= 4 -> chosen mv recs t = [] -> nth (Z.to_nat (t - 1)) (d_data st') [] = []).
Proof using HS.
  intros Het Hne [L1 Hrec] L2 H0 H1. unfold encode. rewrite read_ok. cbn [bind]. destruct (types_spec mv recs) as [HN HI].
  destruct (code_types_spec disk seismic base NT no et mm mv recs (Z.of_nat (length mm)) incr enc st
             (fun t => map (fun i => stackrow mm (T t) ms i (repeat 0%R NT)) (chosen mv recs t)) (fun t => nth (Z.to_nat (t - 1)) (d_dec st) [])
             (fun t => []) (receiverTypes (tl mv) recs) HN) with (st := st) as (st' & E & K1 & K2 & K3 & K4); try assumption.
  - intros t Ht. apply su_t, HI, Ht.
  - intros t Ht s J1 J2 E1 E2. apply HI in Ht. pose proof (su_t t Ht) as Rt. unfold code_type.
    rewrite (vget_at (d_data s) _ []) by lia. cbn [bind]. rewrite (vget_at (d_dec s) _ []) by lia. cbn [bind].
    replace (et <=? 1) with true by (destruct Het; subst; reflexivity). cbn [bind].
    destruct (Z.of_nat (length mm) =? Z.of_nat (length recs)) eqn:EE; [lia|].
    rewrite E1, E2. rewrite (proj1 (Hrec t Rt)). unfold zero_of. rewrite map_map.
    rewrite (map_ext (fun x => map (fun _ : R => 0%R) (D t x)) (fun _ => repeat 0%R NT)).
    2:{ intros i. rewrite <- (proj2 (Hrec t Rt) i). induction (D t i) as [|x l IHl]; cbn; [reflexivity|]. rewrite IHl. reflexivity. }
    change (map (fun _ : nat => repeat 0%R NT) (chosen mv recs t)) with (map (fun _ : nat => (repeat 0%R NT : row)) (chosen mv recs t)).
    rewrite (multi_encode disk seismic base NT no mm mv recs (su_matrix _ _ _ _ _ _ HS) su_len t et
               (fun m => map (T t m) (chosen (mark_row mm (fst m)) recs t) ++ rest t m)%list (rest t) (T t) Het incr enc (su_lines _ _ _ _ _ _ HS)
               (fun m Hm => conj (su_fits m Hm) eq_refl) (nth (Z.to_nat (t - 1)) (d_dec st) []) [] 0 (fun _ => repeat 0%R NT)).
    2:{ destruct Het as [->| ->]; [left|right].
        - split; [reflexivity|]. split; [|reflexivity]. cbn [app]. apply H0; [reflexivity|exact Ht].
        - split; [reflexivity|]. intros m Hm. apply H1; [reflexivity|exact Ht|exact Hm]. }
    cbn [bind]. rewrite vset_upd by lia. cbn [bind]. rewrite vset_upd by lia. cbn [bind]. reflexivity.
  - intros t Ht. split; reflexivity.
  - exists st'. split; [rewrite E; f_equal; f_equal; clear; induction (receiverTypes (tl mv) recs); [reflexivity|assumption]|]. split; [|split; [exact K1|split]].
    + apply nth_ext with [] []; [congruence|]. intros j Hj. rewrite K2 in Hj.
      replace j with (Z.to_nat ((Z.of_nat j + 1) - 1)) by lia. set (t := Z.of_nat j + 1).
      destruct (in_dec Z.eq_dec t (receiverTypes (tl mv) recs)) as [Hi|Hi].
      * exact (proj2 (K3 t Hi)).
      * apply K4; [unfold t; lia|exact Hi].
    + intros t Ht. apply K3, HI, Ht.
    + intros t Ht Hc. destruct (K4 t Ht) as [-> _]; [intros X; apply HI in X; exact (X Hc)|]. rewrite (proj1 (Hrec t Ht)), Hc. reflexivity.
Qed.
End Super.

(** ** Stacks *)
Lemma row_ext (a b : row) k : length a = k -> length b = k -> (forall j, (j < k)%nat -> sample a j = sample b j) -> a = b.
Proof. intros H1 H2 H. apply nth_ext with 0%R 0%R; [congruence|]. intros j Hj. apply H. lia. Qed.
Lemma times_len w r : length (times w r) = length r. Proof. apply map_length. Qed.
Lemma sample_times w r j : sample (times w r) j = (w * sample r j)%R.
Proof.
  unfold sample, times. destruct (Nat.lt_ge_cases j (length r)) as [H|H].
  - rewrite (nth_indep _ 0%R (w * 0)%R) by (rewrite map_length; exact H). apply map_nth.
  - rewrite (nth_overflow (map (Rmult w) r)) by (rewrite map_length; exact H). rewrite (nth_overflow r) by exact H. ring.
Qed.
Lemma stackrow_spec NT mm T i ms : (forall m, In m ms -> marks (mark_row mm (fst m)) i = true -> length (T m i) = NT) ->
  forall r, length r = NT -> length (stackrow mm T ms i r) = NT /\
  forall j, sample (stackrow mm T ms i r) j = (sample r j + rtotal (map (fun m => if marks (mark_row mm (fst m)) i then (sg (snd m) * sample (T m i) j)%R else 0%R) ms))%R.
Proof.
  induction ms as [|m ms IH]; intros HT r Hr; cbn [stackrow fold_left map rtotal fold_right].
  - split; [exact Hr|]. intros j. ring.
  - fold (rtotal (map (fun _ : nat => 0%R) [])). change (fold_left _ ms ?x) with (stackrow mm T ms i x).
    destruct (marks (mark_row mm (fst m)) i) eqn:E.
    + assert (L : length (times (sg (snd m)) (T m i)) = length r) by (rewrite times_len, Hr; apply HT; [left; reflexivity|exact E]).
      destruct (IH (fun x Hx => HT x (or_intror Hx)) (radd r (times (sg (snd m)) (T m i)))) as [A B]; [rewrite radd_len; [exact Hr|symmetry; exact L]|].
      split; [exact A|]. intros j. rewrite B. unfold sample at 1. rewrite radd_nth by (symmetry; exact L). fold (sample r j) (sample (times (sg (snd m)) (T m i)) j).
      rewrite sample_times. unfold rtotal. ring.
    + destruct (IH (fun x Hx => HT x (or_intror Hx)) r Hr) as [A B]. split; [exact A|]. intros j. rewrite B. unfold rtotal. ring.
Qed.
Lemma sample_map (f : nat -> R) k j : (j < k)%nat -> sample (map f (seq 0 k)) j = f j.
Proof.
  intros H. unfold sample. rewrite (nth_indep _ 0%R (f 0%nat)) by (rewrite map_length, seq_length; exact H). rewrite map_nth, seq_nth by exact H. reflexivity.
Qed.
Lemma stackrow_stacked NT mm T i ms : (forall m, In m ms -> marks (mark_row mm (fst m)) i = true -> length (T m i) = NT) ->
  stackrow mm T ms i (repeat 0%R NT) = stacked NT mm ms T i.
Proof.
  intros H. destruct (stackrow_spec NT mm T i ms H (repeat 0%R NT) (repeat_length _ _)) as [A B].
  apply row_ext with NT; [exact A|unfold stacked; rewrite map_length, seq_length; reflexivity|].
  intros j Hj. rewrite B. unfold stacked. rewrite (sample_map _ NT j Hj). unfold sample at 1. rewrite nth_repeat. ring.
Qed.
Lemma sg_sq e : (sg e * sg e = 1)%R. Proof. unfold sg. destruct (Rlt_dec (e_amp e) 0); ring. Qed.
(** Stacking the decoded traces: the trace times the fold. *)
Lemma stacked_decoded NT mm ms (D : nat -> row) i : length (D i) = NT ->
  stacked NT mm ms (fun m i => times (sg (snd m)) (D i)) i = times (INR (fold_number mm ms i)) (D i).
Proof.
  intros HL. apply row_ext with NT; [unfold stacked; rewrite map_length, seq_length; reflexivity|rewrite times_len; exact HL|].
  intros j Hj. rewrite sample_times. unfold stacked. rewrite (sample_map _ NT j Hj).
  unfold fold_number. induction ms as [|m ms IH]; cbn [map rtotal fold_right filter length]; [cbn; ring|].
  fold (rtotal (map (fun m => if marks (mark_row mm (fst m)) i then (sg (snd m) * sample (times (sg (snd m)) (D i)) j)%R else 0%R) ms)). rewrite IH.
  destruct (marks (mark_row mm (fst m)) i); [|ring]. rewrite sample_times. cbn [length]. rewrite S_INR.
  replace (sg (snd m) * (sg (snd m) * sample (D i) j))%R with ((sg (snd m) * sg (snd m)) * sample (D i) j)%R by ring. rewrite sg_sq. ring.
Qed.

(** Proofs about the marks and the supershots. *)
From Coq Require Import Reals String Lra.
From Verif Require Import Base M_Acq M_Wave M_Cop M_Decode S_Cop S_Decode L_Cop.
Open Scope Z_scope.
Local Notation length := List.length.

Lemma getRow_ok {A} (m : list A) k d : 0 <= k < Z.of_nat (length m) -> getRow m k = Ok (nth (Z.to_nat k) m d).
Proof.
  intros H. unfold getRow. destruct (k <? 0) eqn:E; [lia|]. rewrite (nth_error_nth' m d) by lia. reflexivity.
Qed.
Lemma vget_at {A} (l : list A) i d : 0 <= i < Z.of_nat (length l) -> vget l i = Ok (nth (Z.to_nat i) l d).
Proof.
  intros H. unfold vget. destruct (i <? 0) eqn:E; [lia|]. rewrite (nth_error_nth' l d) by lia. reflexivity.
Qed.
Lemma getRow_app {A} (a b : list A) x k : k = Z.of_nat (length a) -> getRow (a ++ x :: b) k = Ok x.
Proof.
  intros ->. rewrite (getRow_ok _ _ x) by (rewrite app_length; cbn [length]; lia). rewrite Nat2Z.id, nth_middle. reflexivity.
Qed.
Lemma upd_at_app {A} (a b : list A) x f : upd_at (length a) f (a ++ x :: b) = (a ++ f x :: b)%list.
Proof. induction a as [|y a IH]; cbn; [reflexivity|]. rewrite IH. reflexivity. Qed.
Lemma updRow_app f (a b : mat) x k : k = Z.of_nat (length a) -> updRow f (a ++ x :: b)%list k = Ok (a ++ f x :: b)%list.
Proof.
  intros E. unfold updRow. rewrite (getRow_app a b x k E). cbn [bind]. subst k. rewrite Nat2Z.id, upd_at_app. reflexivity.
Qed.

(** ** The loops over the receivers *)
Section Rows.
Variable a ty b : nat -> Z.
Variable t : Z.
Let sup i := negb (a i =? 0) && (ty i =? t).
Let sh i := negb (a i =? 0) && (ty i =? t) && negb (b i =? 0).
Let c i : cell := (a i, ty i, b i).

Lemma decode_rows_spec (D : nat -> row) idx : forall pre preS post ce co,
  ce = Z.of_nat (length pre) -> co = Z.of_nat (length preS) -> (length (filter sh idx) <= length post)%nat ->
  decode_rows t (map c idx) (pre ++ map D (filter sup idx))%list (preS ++ post)%list co ce
  = Ok (preS ++ map D (filter sh idx) ++ skipn (length (filter sh idx)) post)%list.
Proof.
  induction idx as [|i idx IH]; intros pre preS post ce co Ec Eo Hl; cbn [map filter]; [|change (c i) with (a i, ty i, b i)]; cbn [decode_rows].
  - rewrite app_nil_l. reflexivity.
  - cbn [filter] in Hl. change (sh i) with (negb (a i =? 0) && (ty i =? t) && negb (b i =? 0)) in Hl.
    change (sup i) with (negb (a i =? 0) && (ty i =? t)); change (sh i) with (negb (a i =? 0) && (ty i =? t) && negb (b i =? 0)). destruct (negb (a i =? 0) && (ty i =? t)) eqn:E1; cbn [andb] in *.
    + destruct (negb (b i =? 0)) eqn:E2; cbn [map length] in *.
      * destruct post as [|p post]; [cbn in Hl; lia|]. rewrite (getRow_app pre _ (D i)) by exact Ec. cbn [bind].
        rewrite updRow_app by exact Eo. cbn [bind].
        replace (pre ++ D i :: map D (filter sup idx))%list with ((pre ++ [D i]) ++ map D (filter sup idx))%list by (rewrite <- app_assoc; reflexivity).
        replace (preS ++ D i :: post)%list with ((preS ++ [D i]) ++ post)%list by (rewrite <- app_assoc; reflexivity).
        rewrite IH; [|rewrite app_length; cbn [length]; lia|rewrite app_length; cbn [length]; lia|cbn in Hl; lia].
        rewrite <- !app_assoc. cbn [app skipn]. reflexivity.
      * replace (pre ++ D i :: map D (filter sup idx))%list with ((pre ++ [D i]) ++ map D (filter sup idx))%list by (rewrite <- app_assoc; reflexivity).
        apply IH; [rewrite app_length; cbn [length]; lia|exact Eo|exact Hl].
    + apply IH; assumption.
Qed.

Lemma encode_rows_spec (F S : nat -> row) rest idx : forall pre preS ce co,
  ce = Z.of_nat (length pre) -> co = Z.of_nat (length preS) ->
  encode_rows t (map c idx) (preS ++ map S (filter sh idx) ++ rest)%list (pre ++ map F (filter sup idx))%list co ce
  = Ok (pre ++ map (fun i => if negb (b i =? 0) then radd (F i) (S i) else F i) (filter sup idx))%list.
Proof.
  induction idx as [|i idx IH]; intros pre preS ce co Ec Eo; cbn [map filter]; [|change (c i) with (a i, ty i, b i)]; cbn [encode_rows].
  - reflexivity.
  - change (sup i) with (negb (a i =? 0) && (ty i =? t)); change (sh i) with (negb (a i =? 0) && (ty i =? t) && negb (b i =? 0)). destruct (negb (a i =? 0) && (ty i =? t)) eqn:E1; cbn [andb].
    + destruct (negb (b i =? 0)) eqn:E2; cbn [map app].
      * rewrite (getRow_app preS _ (S i)) by exact Eo. cbn [bind]. rewrite updRow_app by exact Ec. cbn [bind].
        replace (preS ++ S i :: map S (filter sh idx) ++ rest)%list with ((preS ++ [S i]) ++ map S (filter sh idx) ++ rest)%list by (rewrite <- app_assoc; reflexivity).
        replace (pre ++ radd (F i) (S i) :: map F (filter sup idx))%list with ((pre ++ [radd (F i) (S i)]) ++ map F (filter sup idx))%list by (rewrite <- app_assoc; reflexivity).
        rewrite IH; [|rewrite app_length; cbn [length]; lia|rewrite app_length; cbn [length]; lia].
        rewrite E2. rewrite <- app_assoc. reflexivity.
      * replace (pre ++ F i :: map F (filter sup idx))%list with ((pre ++ [F i]) ++ map F (filter sup idx))%list by (rewrite <- app_assoc; reflexivity).
        rewrite IH; [|rewrite app_length; cbn [length]; lia|exact Eo]. rewrite E2, <- app_assoc. reflexivity.
    + apply IH; assumption.
Qed.
End Rows.

(** The cells of the receivers by number. *)
Lemma cells_map n : forall mv recs mr, length mv = n -> length recs = n -> length mr = n ->
  cells mv recs mr = map (fun i => (nth i mv 0, nth i recs 0, nth i mr 0) : cell) (seq 0 n).
Proof.
  induction n as [|n IH]; intros [|x mv] [|y recs] [|z mr] H1 H2 H3; cbn in H1, H2, H3; try lia; [reflexivity|].
  cbn [cells seq map nth]. f_equal. rewrite <- seq_shift, map_map. apply IH; lia.
Qed.
Lemma nth_tl {A} (l : list A) i d : nth i (tl l) d = nth (S i) l d.
Proof. destruct l; [destruct i; reflexivity|reflexivity]. Qed.
Lemma tl_length {A} (l : list A) n : length l = S n -> length (tl l) = n.
Proof. destruct l; cbn; lia. Qed.

Lemma filter_sup mv recs t : filter (fun i => negb (nth i (tl mv) 0 =? 0) && (nth i recs 0 =? t)) (seq 0 (length recs)) = chosen mv recs t.
Proof. unfold chosen, marks. apply filter_ext. intros i. rewrite nth_tl. reflexivity. Qed.
Lemma filter_sh mv mr recs t : (forall i, (i < length recs)%nat -> marks mr i = true -> marks mv i = true) ->
  filter (fun i => negb (nth i (tl mv) 0 =? 0) && (nth i recs 0 =? t) && negb (nth i (tl mr) 0 =? 0)) (seq 0 (length recs)) = chosen mr recs t.
Proof.
  intros H. unfold chosen. apply filter_ext_in. intros i Hi. apply in_seq in Hi. rewrite !nth_tl. fold (marks mv i) (marks mr i).
  specialize (H i ltac:(lia)). destruct (marks mr i), (marks mv i), (nth i recs 0 =? t); cbn; try reflexivity. 
  all: discriminate (H eq_refl).
Qed.

(** The number of rows of a decoded matrix: all receivers of the shot. *)
Definition num_recs (r : list Z) : nat := Z.to_nat (zsum (tl r)).
Lemma count_marks n : forall l, length l = n -> (forall i, (i < n)%nat -> nth i l 0 = 0 \/ nth i l 0 = 1) ->
  Z.to_nat (zsum l) = length (filter (fun i => negb (nth i l 0 =? 0)) (seq 0 n)) /\ 0 <= zsum l.
Proof.
  induction n as [|n IH]; intros [|x l] HL H; cbn [length] in HL; try lia; [split; reflexivity|].
  cbn [seq filter]. change (nth 0 (x :: l) 0) with x. change (zsum (x :: l)) with (x + zsum l).
  assert (F : filter (fun i => negb (nth i (x :: l) 0 =? 0)) (seq 1 n) = map S (filter (fun i => negb (nth i l 0 =? 0)) (seq 0 n))).
  { rewrite <- seq_shift. clear. induction (seq 0 n) as [|y s IH]; cbn [map filter]; [reflexivity|].
    change (nth (S y) (x :: l) 0) with (nth y l 0). destruct (negb (nth y l 0 =? 0)); cbn [map]; rewrite IH; reflexivity. }
  rewrite F. destruct (IH l) as [E P]; [lia|intros i Hi; apply (H (S i)); lia|].
  destruct (H 0%nat ltac:(lia)) as [E0|E0]; cbn [nth] in E0; subst x; cbn [Z.eqb negb length]; rewrite ?map_length.
  - split; [rewrite Z.add_0_l; exact E|lia].
  - split; [|lia]. rewrite <- E. lia.
Qed.
Lemma filter_le {A} (f g : A -> bool) l : (forall x, f x = true -> g x = true) -> (length (filter f l) <= length (filter g l))%nat.
Proof.
  intros H. induction l as [|x l IH]; cbn; [lia|]. specialize (H x). destruct (f x) eqn:E; [rewrite H by reflexivity; cbn; lia|].
  destruct (g x); cbn; lia.
Qed.
Lemma chosen_le n r recs t : mark_matrix n [r] -> length recs = n -> (length (chosen r recs t) <= num_recs r)%nat.
Proof.
  intros H E. destruct (H r (or_introl eq_refl)) as [L M]. unfold num_recs.
  destruct (count_marks n (tl r)) as [-> _]; [apply tl_length, L|intros i Hi; rewrite nth_tl; apply M, Hi|].
  unfold chosen. rewrite E. apply filter_le. intros i Hi. apply andb_true_iff in Hi. rewrite nth_tl. apply Hi.
Qed.

Lemma num_recs_all n r : mark_matrix n [r] -> num_recs r = all_receivers n r.
Proof.
  intros H. destruct (H r (or_introl eq_refl)) as [L M]. unfold num_recs, all_receivers.
  destruct (count_marks n (tl r)) as [-> _]; [apply tl_length, L|intros i Hi; rewrite nth_tl; apply M, Hi|].
  f_equal. apply filter_ext. intros i. rewrite nth_tl. reflexivity.
Qed.

Lemma negate_rows e (m : mat) : negate (flip e) m = map (times (sg e)) m.
Proof.
  unfold negate, flip, sg, times. destruct (Rlt_dec (e_amp e) 0).
  - apply map_ext. intros r0. apply map_ext. intros x. ring.
  - rewrite <- (map_id m) at 1. apply map_ext. intros r0. rewrite <- (map_id r0) at 1. apply map_ext. intros x. ring.
Qed.
Lemma map_repeat {A B} (f : A -> B) x k : map f (repeat x k) = repeat (f x) k.
Proof. induction k as [|k IH]; cbn; [reflexivity|]. rewrite IH. reflexivity. Qed.
Lemma times_zero w k : times w (repeat 0%R k) = repeat 0%R k.
Proof. unfold times. rewrite map_repeat. f_equal. ring. Qed.
Lemma repeat_skip {A} (x : A) k m : skipn k (repeat x m) = repeat x (m - k).
Proof. revert k. induction m as [|m IH]; intros [|k]; cbn; try reflexivity. apply IH. Qed.

Section Multi.
Variable disk : string -> option mat.
Variable seismic : bool.
Variable base : string.
Variable NT : nat.
Variable no : Z.
Variable mm : list (list Z).
Variable mv recs : list Z.
Let n := length recs.
Hypothesis Hmm : mark_matrix n mm.
Hypothesis Hmv : length mv = S n.

Definition fits (m : Z * esrc) : Prop :=
  0 <= fst m < Z.of_nat (length mm) /\
  forall i, (i < n)%nat -> marks (mark_row mm (fst m)) i = true -> marks mv i = true.

Lemma row_in k : 0 <= k < Z.of_nat (length mm) -> In (mark_row mm k) mm.
Proof using. clear. intros H. unfold mark_row. apply nth_In. lia. Qed.
Lemma row_mm k : 0 <= k < Z.of_nat (length mm) -> mark_matrix n [mark_row mm k].
Proof using Hmm. intros H r [<-|[]]. apply Hmm, row_in, H. Qed.

(** A decoded matrix. *)
Definition decoded (t : Z) (D : nat -> row) (m : Z * esrc) : mat :=
  (own_traces mm recs t D m ++
   zmat (all_receivers n (mark_row mm (fst m)) - length (chosen (mark_row mm (fst m)) recs t)) NT)%list.
Definition file_of (t : Z) (m : Z * esrc) : string := shot_file base seismic (nth 0 (mark_row mm (fst m)) 0) t.

Lemma comp_name_eq t : comp_name seismic t = component seismic (Z.to_nat (t - 1)).
Proof. unfold comp_name, component, typeStrings. destruct seismic; reflexivity. Qed.

Lemma cells_of k : 0 <= k < Z.of_nat (length mm) ->
  cells (tl mv) recs (tl (mark_row mm k)) = map (fun i => (nth i (tl mv) 0, nth i recs 0, nth i (tl (mark_row mm k)) 0) : cell) (seq 0 n).
Proof using Hmm Hmv.
  intros H. apply cells_map; [apply tl_length, Hmv|reflexivity|]. apply tl_length. apply (Hmm _ (row_in k H)).
Qed.

Lemma multi_decode t D et : et = 2 \/ et = 3 -> forall incr enc, length enc = length incr ->
  (forall m, In m (team no incr enc) -> fits m) -> forall (predec : list mat) cd, cd = Z.of_nat (length predec) ->
  multi disk seismic base NT no et mm mv recs t incr enc (map D (chosen mv recs t)) (predec ++ repeat ([] : mat) (length (team no incr enc)))%list cd
  = Ok (map D (chosen mv recs t), (predec ++ map (decoded t D) (team no incr enc))%list,
        if et =? 3 then map (fun m => (file_of t m, decoded t D m)) (team no incr enc) else []).
Proof using Hmm Hmv.
  intros Het. induction incr as [|k incr IH]; intros [|e enc] Hl Hf predec cd Hcd; try discriminate Hl.
  - cbn. rewrite !app_nil_r. destruct (et =? 3); reflexivity.
  - cbn [multi]. unfold team in *. cbn [combine filter snd] in *. destruct (Z.abs (e_no e) =? no) eqn:E.
    + assert (F : fits (k, e)) by (apply Hf; left; reflexivity). destruct F as [Hk Hsub]. cbn [fst] in *.
      rewrite (getRow_ok mm k []) by exact Hk. cbn [bind]. fold (mark_row mm k).
      pose proof (Hmm _ (row_in k Hk)) as [L _].
      rewrite (vget_at (mark_row mm k) 0 0) by lia. cbn [bind]. change (Z.to_nat 0) with 0%nat.
      replace (et <=? 1) with false by (destruct Het; subst; reflexivity).
      rewrite cells_of by exact Hk. rewrite <- (filter_sup mv recs t). fold n.
      pose proof (decode_rows_spec (fun i => nth i (tl mv) 0) (fun i => nth i recs 0) (fun i => nth i (tl (mark_row mm k)) 0) t D (seq 0 n) [] []
                 (zmat (Z.to_nat (zsum (tl (mark_row mm k)))) NT) 0 0 eq_refl eq_refl) as Q. cbn [app] in Q. rewrite Q; clear Q.
      2:{ unfold n. rewrite (filter_sh mv (mark_row mm k) recs t Hsub). unfold zmat. rewrite repeat_length.
          apply (chosen_le n); [apply row_mm, Hk|reflexivity]. }
      cbn [bind length repeat]. unfold n. rewrite !(filter_sh mv (mark_row mm k) recs t Hsub).
      assert (ED : negate (flip e) (map D (chosen (mark_row mm k) recs t) ++
                     skipn (length (chosen (mark_row mm k) recs t)) (zmat (Z.to_nat (zsum (tl (mark_row mm k)))) NT))%list = decoded t D (k, e)).
      { rewrite negate_rows. unfold zmat. rewrite repeat_skip, map_app, map_repeat, map_map, times_zero.
        fold (num_recs (mark_row mm k)). rewrite (num_recs_all n) by (apply row_mm, Hk). reflexivity. }
      rewrite ED. rewrite vset_upd by (rewrite app_length; cbn [length]; lia). cbn [bind].
      rewrite Hcd, Nat2Z.id, upd_at_app.
      replace (predec ++ decoded t D (k, e) :: repeat ([] : mat) (length (filter (fun p => Z.abs (e_no (snd p)) =? no) (combine incr enc))))%list
        with ((predec ++ [decoded t D (k, e)]) ++ repeat ([] : mat) (length (filter (fun p => Z.abs (e_no (snd p)) =? no) (combine incr enc))))%list
        by (rewrite <- app_assoc; reflexivity).
      rewrite filter_sup.
      rewrite IH; [|cbn in Hl; lia|intros; apply Hf; right; assumption|rewrite app_length; cbn [length]; lia].
      cbn [bind map]. rewrite <- app_assoc. rewrite comp_name_eq. unfold file_of at 1, shot_file at 1.
      destruct (et =? 3); reflexivity.
    + apply IH; [cbn in Hl; lia|exact Hf|exact Hcd].
Qed.

Definition stackrow (S : Z * esrc -> nat -> row) (ms : list (Z * esrc)) (i : nat) (r : row) : row :=
  fold_left (fun acc m => if marks (mark_row mm (fst m)) i then radd acc (times (sg (snd m)) (S m i)) else acc) ms r.

Lemma multi_encode t et src rest S : et = 0 \/ et = 1 -> forall incr enc, length enc = length incr ->
  (forall m, In m (team no incr enc) -> fits m /\ src m = (map (S m) (chosen (mark_row mm (fst m)) recs t) ++ rest m)%list) ->
  forall (dec predec : list mat) cd F,
  (et = 0 /\ dec = (predec ++ map src (team no incr enc))%list /\ cd = Z.of_nat (length predec)) \/
  (et = 1 /\ forall m, In m (team no incr enc) -> readFile disk NT (file_of t m) (num_recs (mark_row mm (fst m))) = Ok (src m)) ->
  multi disk seismic base NT no et mm mv recs t incr enc (map F (chosen mv recs t)) dec cd
  = Ok (map (fun i => stackrow S (team no incr enc) i (F i)) (chosen mv recs t), dec, []).
Proof using Hmm Hmv.
  intros Het. induction incr as [|k incr IH]; intros [|e enc] Hl Hf dec predec cd F Hsrc; try discriminate Hl.
  - reflexivity.
  - cbn [multi]. unfold team in *. cbn [combine filter snd] in *. destruct (Z.abs (e_no e) =? no) eqn:E.
    + destruct (Hf (k, e) (or_introl eq_refl)) as [[Hk Hsub] Es]. cbn [fst] in *.
      rewrite (getRow_ok mm k []) by exact Hk. cbn [bind]. fold (mark_row mm k).
      pose proof (Hmm _ (row_in k Hk)) as [L _].
      rewrite (vget_at (mark_row mm k) 0 0) by lia. cbn [bind]. change (Z.to_nat 0) with 0%nat.
      replace (et <=? 1) with true by (destruct Het; subst; reflexivity).
      assert (Er : (if et =? 1 then readFile disk NT (base ++ ".shot_" ++ decStr (nth 0 (mark_row mm k) 0) ++ "." ++ comp_name seismic t)%string
                       (Z.to_nat (zsum (tl (mark_row mm k)))) else vget dec cd) = Ok (src (k, e))).
      { rewrite comp_name_eq. destruct Hsrc as [(-> & Ed & Ec)|(-> & Hd)].
        - cbn [Z.eqb]. rewrite Ed, Ec. cbn [map]. rewrite (vget_at _ _ (src (k, e))) by (rewrite app_length; cbn [length]; lia).
          rewrite Nat2Z.id, nth_middle. reflexivity.
        - exact (Hd (k, e) (or_introl eq_refl)). }
      rewrite Er. cbn [bind]. rewrite cells_of by exact Hk.
      assert (EN : negate (flip e) (src (k, e)) = ([] ++ map (fun i => times (sg e) (S (k, e) i)) (filter (fun i => negb (nth i (tl mv) 0 =? 0) && (nth i recs 0 =? t) && negb (nth i (tl (mark_row mm k)) 0 =? 0)) (seq 0 n)) ++ map (times (sg e)) (rest (k, e)))%list).
      { rewrite negate_rows, Es, map_app, map_map. unfold n. rewrite (filter_sh mv (mark_row mm k) recs t Hsub). reflexivity. }
      rewrite EN. rewrite <- (filter_sup mv recs t). fold n.
      pose proof (encode_rows_spec (fun i => nth i (tl mv) 0) (fun i => nth i recs 0) (fun i => nth i (tl (mark_row mm k)) 0) t F
                 (fun i => times (sg e) (S (k, e) i)) (map (times (sg e)) (rest (k, e))) (seq 0 n) [] [] 0 0 eq_refl eq_refl) as Q.
      cbn [app] in Q |- *. rewrite Q; clear Q.
      cbn [bind app]. unfold n at 1. rewrite filter_sup.
      rewrite (IH enc ltac:(cbn in Hl; lia) (fun m Hm => Hf m (or_intror Hm)) dec (predec ++ [src (k, e)])%list (cd + 1)).
      * cbn [bind app]. unfold n. rewrite filter_sup. do 2 f_equal. f_equal. apply map_ext. intros i. cbn [stackrow fold_left fst snd].
        rewrite nth_tl. reflexivity.
      * destruct Hsrc as [(H1 & H2 & H3)|(H1 & H2)]; [left|right].
        -- split; [exact H1|]. split; [rewrite <- app_assoc; exact H2|]. rewrite app_length. cbn [length]. lia.
        -- split; [exact H1|]. intros m Hm. apply H2. right. exact Hm.
    + apply (IH enc ltac:(cbn in Hl; lia) Hf dec predec cd F Hsrc).
Qed.
End Multi.

(** Proofs about the supershots of common offset data. *)
From Coq Require Import Reals String Lra Sorted.
From Verif Require Import Base M_Acq M_Wave M_Cop M_Decode S_Cop S_Decode L_Cop L_Decode L_Decode2.
Open Scope Z_scope.
Local Notation length := List.length.

Lemma flip_row e (x : row) : (if flip e then map Ropp x else x) = times (sg e) x.
Proof.
  unfold flip, sg, times. destruct (Rlt_dec (e_amp e) 0).
  - apply map_ext. intros y. ring.
  - rewrite <- (map_id x) at 1. apply map_ext. intros y. ring.
Qed.
Lemma combine_fun {A B} (l : list A) : NoDup l -> forall (k : list B) x y z, In (x, y) (combine l k) -> In (x, z) (combine l k) -> y = z.
Proof.
  induction l as [|a l IH]; intros H [|b k] x y z H1 H2; try (destruct H1; fail). apply NoDup_cons_iff in H. destruct H as [N1 N2]. cbn in H1, H2.
  destruct H1 as [H1|H1], H2 as [H2|H2].
  - congruence.
  - exfalso. apply N1. injection H1 as -> _. apply (in_combine_l _ _ _ _ H2).
  - exfalso. apply N1. injection H2 as -> _. apply (in_combine_l _ _ _ _ H1).
  - exact (IH N2 k x y z H1 H2).
Qed.

(** Two increasing lists with the same elements. *)
Lemma sorted_ext (l : list nat) : forall k, StronglySorted lt l -> StronglySorted lt k -> (forall x, In x l <-> In x k) -> l = k.
Proof.
  induction l as [|a l IH]; intros [|b k] Hl Hk H.
  - reflexivity.
  - exfalso. apply (H b). left. reflexivity.
  - exfalso. apply (H a). left. reflexivity.
  - apply StronglySorted_inv in Hl, Hk. destruct Hl as [Sl Fl], Hk as [Sk Fk]. rewrite Forall_forall in Fl, Fk.
    assert (E : a = b).
    { destruct (proj1 (H a) (or_introl eq_refl)) as [E|E]; [symmetry; exact E|]. destruct (proj2 (H b) (or_introl eq_refl)) as [E'|E']; [exact E'|].
      specialize (Fl b E'). specialize (Fk a E). lia. }
    subst b. f_equal. apply IH; [exact Sl|exact Sk|]. intros x. split; intros Hx.
    + destruct (proj1 (H x) (or_intror Hx)) as [E|E]; [|exact E]. subst x. specialize (Fl a Hx). lia.
    + destruct (proj2 (H x) (or_intror Hx)) as [E|E]; [|exact E]. subst x. specialize (Fk a Hx). lia.
Qed.
Lemma sorted_filter (p : nat -> bool) l : StronglySorted lt l -> StronglySorted lt (filter p l).
Proof.
  induction 1 as [|a l Hs IH Hf]; cbn [filter]; [constructor|]. destruct (p a); [|exact IH]. constructor; [exact IH|].
  rewrite Forall_forall in *. intros x Hx. apply filter_In in Hx. apply Hf, Hx.
Qed.
Lemma sorted_seq a k : StronglySorted lt (seq a k).
Proof. revert a. induction k as [|k IH]; intros a; cbn; constructor; [apply IH|]. apply Forall_forall. intros x Hx. apply in_seq in Hx. lia. Qed.

Section Common.
Variable disk : string -> option mat.
Variable seismic : bool.
Variable base : string.
Variable NT : nat.
Variable no : Z.
Variable mm : list (list Z).
Variable mv recs : list Z.
Let n := length recs.
Hypothesis Hn : length mm = n.
Hypothesis Hmm : mark_matrix n mm.
Hypothesis Hmv : length mv = S n.
Hypothesis Hdiag : diagonal mm.
Definition own (m : Z * esrc) : nat := Z.to_nat (fst m).
Definition tidy (m : Z * esrc) : Prop := 0 <= fst m < Z.of_nat n /\ marks mv (own m) = (Z.abs (e_no (snd m)) =? no).

Lemma diag_row k : 0 <= k < Z.of_nat n -> getRow mm k = Ok (mark_row mm k) /\ exists x, getRow (mark_row mm k) (k + 1) = Ok x /\ negb (x =? 0) = true.
Proof using Hn Hmm Hdiag.
  clear - Hn Hmm Hdiag. intros H. assert (Rk : 0 <= k < Z.of_nat (length mm)) by lia. split; [apply getRow_ok, Rk|].
  destruct (Hmm _ (row_in mm k Rk)) as [L _]. exists (nth (S (Z.to_nat k)) (mark_row mm k) 0). split.
  - rewrite (getRow_ok _ _ 0) by lia. do 2 f_equal. lia.
  - pose proof (proj2 (Hdiag (Z.to_nat k) (Z.to_nat k) ltac:(lia) ltac:(lia)) eq_refl) as M. rewrite Z2Nat.id in M by lia. exact M.
Qed.
Lemma mine_eq k e t : tidy (k, e) ->
  exists m ty, getRow mv (k + 1) = Ok m /\ (if negb (m =? 0) then vget recs k else Ok 0) = Ok ty /\
    negb (m =? 0) && (ty =? t) = (Z.abs (e_no e) =? no) && (nth (own (k, e)) recs 0 =? t).
Proof using Hmv.
  clear - Hmv. intros [H M]. cbn [fst snd] in *. exists (nth (S (own (k, e))) mv 0). rewrite <- M. unfold marks.
  assert (E : getRow mv (k + 1) = Ok (nth (S (own (k, e))) mv 0)).
  { rewrite (getRow_ok _ _ 0) by lia. unfold own. cbn [fst]. do 2 f_equal. lia. }
  destruct (negb (nth (S (own (k, e))) mv 0 =? 0)) eqn:EE.
  - exists (nth (own (k, e)) recs 0). split; [exact E|]. split; [|reflexivity]. rewrite (vget_at _ _ 0) by (fold n; lia). reflexivity.
  - exists 0. split; [exact E|]. split; reflexivity.
Qed.

Lemma common_decode t D et : et = 2 \/ et = 3 -> forall incr enc, length enc = length incr -> (forall m, In m (combine incr enc) -> tidy m) ->
  forall (pre : mat) (predec extra : list mat) (s : row) ce cd, ce = Z.of_nat (length pre) -> cd = Z.of_nat (length predec) ->
  common disk seismic base no et mm mv recs t incr enc (pre ++ map (fun m => D (own m)) (of_type recs t (team no incr enc)))%list
    (predec ++ repeat ([] : mat) (length (of_type recs t (team no incr enc))) ++ extra)%list [s] ce cd
  = Ok ((pre ++ map (fun m => D (own m)) (of_type recs t (team no incr enc)))%list,
        (predec ++ map (fun m => [times (sg (snd m)) (D (own m))]) (of_type recs t (team no incr enc)) ++ extra)%list).
Proof using Hn Hmm Hmv Hdiag.
  intros Het. induction incr as [|k incr IH]; intros [|e enc] Hl Ht pre predec extra s ce cd Hce Hcd; try discriminate Hl; [reflexivity|].
  destruct (mine_eq k e t (Ht (k, e) (or_introl eq_refl))) as (x & ty & E1 & E2 & E3). cbn [common]. rewrite E1. cbn [bind]. rewrite E2. cbn [bind].
  replace (et <=? 1) with false by (destruct Het; subst; reflexivity). rewrite E3.
  unfold of_type, team in *. cbn [combine filter snd] in *.
  destruct (Z.abs (e_no e) =? no) eqn:E; cbn [andb filter fst]; [change (nth (Z.to_nat k) recs 0) with (nth (own (k, e)) recs 0); destruct (nth (own (k, e)) recs 0 =? t)|].
  - destruct (diag_row k (proj1 (Ht (k, e) (or_introl eq_refl)))) as (R1 & y & R2 & R3). rewrite R1. cbn [bind]. rewrite R2. cbn [bind]. rewrite R3.
    cbn [map]. rewrite (getRow_app pre _ _ ce Hce). cbn [bind]. rewrite flip_row. rewrite (updRow_app _ [] [] s 0 eq_refl). cbn [bind app].
    cbn [length repeat app]. rewrite vset_upd by (rewrite app_length; cbn [length]; lia). cbn [bind]. rewrite Hcd, Nat2Z.id, upd_at_app.
    set (L := filter _ (filter _ (combine incr enc))) in *.
    replace (pre ++ D (own (k, e)) :: map (fun m => D (own m)) L)%list with ((pre ++ [D (own (k, e))]) ++ map (fun m => D (own m)) L)%list by (rewrite <- app_assoc; reflexivity).
    unfold L.
    pose proof (IH enc ltac:(cbn in Hl; lia) (fun m Hm => Ht m (or_intror Hm)) (pre ++ [D (own (k, e))])%list (predec ++ [[times (sg e) (D (own (k, e)))] : mat])%list extra
                  (times (sg e) (D (own (k, e)))) (ce + 1) (Z.of_nat (length predec) + 1) ltac:(rewrite app_length; cbn [length]; lia) ltac:(rewrite app_length; cbn [length]; lia)) as Q.
    rewrite <- !(app_assoc predec) in Q. etransitivity; [exact Q|]. rewrite <- app_assoc. reflexivity.
  - apply IH; [cbn in Hl; lia|intros m Hm; apply Ht; right; exact Hm|exact Hce|exact Hcd].
  - apply IH; [cbn in Hl; lia|intros m Hm; apply Ht; right; exact Hm|exact Hce|exact Hcd].
Qed.

Lemma common_encode t T et : et = 0 \/ et = 1 -> forall incr enc, length enc = length incr -> (forall m, In m (combine incr enc) -> tidy m) ->
  forall (pre : mat) (dec predec extra : list mat) (s : mat) F ce cd, ce = Z.of_nat (length pre) ->
  (et = 0 /\ cd = Z.of_nat (length predec) /\ dec = (predec ++ map (fun m => [T m]) (of_type recs t (team no incr enc)) ++ extra)%list) \/
  (et = 1 /\ exists f, disk (base ++ "." ++ component seismic (Z.to_nat (t - 1)))%string = Some f /\ forall m, In m (of_type recs t (team no incr enc)) -> getRow f (fst m) = Ok (T m)) ->
  common disk seismic base no et mm mv recs t incr enc (pre ++ map F (of_type recs t (team no incr enc)))%list dec s ce cd
  = Ok ((pre ++ map (fun m => radd (F m) (times (sg (snd m)) (T m))) (of_type recs t (team no incr enc)))%list, dec).
Proof using Hn Hmm Hmv Hdiag.
  intros Het. induction incr as [|k incr IH]; intros [|e enc] Hl Ht pre dec predec extra s F ce cd Hce Hs; try discriminate Hl; [reflexivity|].
  destruct (mine_eq k e t (Ht (k, e) (or_introl eq_refl))) as (x & ty & E1 & E2 & E3). cbn [common]. rewrite E1. cbn [bind]. rewrite E2. cbn [bind].
  replace (et <=? 1) with true by (destruct Het; subst; reflexivity). rewrite E3.
  unfold of_type, team in *. cbn [combine filter snd] in *.
  destruct (Z.abs (e_no e) =? no) eqn:E; cbn [andb filter fst] in *; [change (nth (Z.to_nat k) recs 0) with (nth (own (k, e)) recs 0) in *; destruct (nth (own (k, e)) recs 0 =? t)|].
  - assert (Es : (if et =? 1 then match disk (base ++ "." ++ comp_name seismic t)%string with Some f => r <- getRow f k ;; Ok [r] | None => Throw end else vget dec cd) = Ok [T (k, e)]).
    { destruct Hs as [(-> & Ec & Ed)|(-> & f & Ef & Hf)].
      - change (0 =? 1) with false. cbv iota. rewrite Ed, Ec. cbn [map app]. rewrite (vget_at _ _ ([T (k, e)] : mat)) by (rewrite app_length; cbn [length]; lia). rewrite Nat2Z.id, nth_middle. reflexivity.
      - change (1 =? 1) with true. cbv iota. rewrite comp_name_eq, Ef. pose proof (Hf (k, e) (or_introl eq_refl)) as Q. cbn [fst] in Q. unfold row in *. rewrite Q. reflexivity. }
    rewrite Es. cbn [bind].
    destruct (diag_row k (proj1 (Ht (k, e) (or_introl eq_refl)))) as (R1 & y & R2 & R3). rewrite R1. cbn [bind]. rewrite R2. cbn [bind]. rewrite R3.
    change (getRow [T (k, e)] 0) with (Ok (T (k, e))). cbn [bind map]. rewrite (updRow_app _ pre _ _ ce Hce). cbn [bind]. rewrite flip_row.
    set (L := filter _ (filter _ (combine incr enc))) in *.
    replace (pre ++ radd (F (k, e)) (times (sg e) (T (k, e))) :: map F L)%list with ((pre ++ [radd (F (k, e)) (times (sg e) (T (k, e)))]) ++ map F L)%list by (rewrite <- app_assoc; reflexivity).
    unfold L. etransitivity; [apply (IH enc ltac:(cbn in Hl; lia) (fun m Hm => Ht m (or_intror Hm)) _ dec (predec ++ [[T (k, e)] : mat])%list extra)|rewrite <- app_assoc; reflexivity].
    + rewrite app_length. cbn [length]. lia.
    + destruct Hs as [(H1 & H2 & H3)|(H1 & f & H2 & H3)]; [left|right].
      * split; [exact H1|]. split; [rewrite app_length; cbn [length]; lia|]. rewrite <- app_assoc. exact H3.
      * split; [exact H1|]. exists f. split; [exact H2|]. intros m Hm. apply H3. right. exact Hm.
  - apply (IH enc ltac:(cbn in Hl; lia) (fun m Hm => Ht m (or_intror Hm)) pre dec predec extra s F ce cd Hce Hs).
  - apply (IH enc ltac:(cbn in Hl; lia) (fun m Hm => Ht m (or_intror Hm)) pre dec predec extra s F ce cd Hce Hs).
Qed.
End Common.

Section SuperCommon.
Variable no : Z.
Variable mm : list (list Z).
Variable mv recs incr : list Z.
Variable enc : list esrc.
Hypothesis HS : supershot no mm mv recs incr enc.
Hypothesis Hn : length mm = length recs.
Hypothesis Hdiag : diagonal mm.
Hypothesis Hinc : StronglySorted Z.lt incr.
Let ms := team no incr enc.

Lemma inc_nodup : NoDup incr.
Proof using Hinc.
  clear - Hinc. induction Hinc as [|a l Hs IH Hf]; constructor; [|exact (IH Hs)]. rewrite Forall_forall in Hf. intros X. specialize (Hf a X). lia.
Qed.
Lemma all_tidy m : In m (combine incr enc) -> tidy no mv recs m.
Proof using HS Hn Hdiag Hinc.
  intros H. destruct m as [k e]. assert (Rk : 0 <= k < Z.of_nat (length mm)) by (apply (su_rows _ _ _ _ _ _ HS), (in_combine_l _ _ _ _ H)).
  split; cbn [fst snd]; [lia|]. change (own (k, e)) with (Z.to_nat k).
  pose proof (proj2 (su_marks _ _ _ _ _ _ HS) (Z.to_nat k) ltac:(lia)) as Q.
  destruct (Z.abs (e_no e) =? no) eqn:E.
  - apply Q. exists k, e. split; [unfold team; apply filter_In; split; [exact H|exact E]|].
    replace k with (Z.of_nat (Z.to_nat k)) at 1 by lia. apply Hdiag; lia.
  - destruct (marks mv (Z.to_nat k)) eqn:EM; [|reflexivity]. exfalso. destruct (proj1 Q eq_refl) as (k' & e' & Hi & Hm).
    unfold team in Hi. apply filter_In in Hi. destruct Hi as [Hi Ee]. pose proof (su_rows _ _ _ _ _ _ HS k' (in_combine_l _ _ _ _ Hi)) as Rk'.
    replace k' with (Z.of_nat (Z.to_nat k')) in Hm by lia. apply Hdiag in Hm; [|lia|lia]. assert (k' = k) by lia. subst k'.
    rewrite (combine_fun incr inc_nodup enc k e e' H Hi) in E. cbn in Ee. congruence.
Qed.
Lemma own_sorted t : forall (e' : list esrc) l, StronglySorted Z.lt l -> (forall k, In k l -> 0 <= k) ->
  StronglySorted lt (map own (of_type recs t (team no l e'))) /\ forall x, In x (map own (of_type recs t (team no l e'))) -> exists k, In k l /\ x = Z.to_nat k.
Proof using.
  clear. intros e' l. revert e'. induction l as [|a l IH]; intros [|e e'] H Hp; try (split; [constructor|intros x []]).
  apply StronglySorted_inv in H. destruct H as [H1 H2]. destruct (IH e' H1 (fun k Hk => Hp k (or_intror Hk))) as [A B]. rewrite Forall_forall in H2.
  unfold of_type, team in *. cbn [combine filter snd fst]. 
  destruct (Z.abs (e_no e) =? no); cbn [filter fst]; [destruct (nth (Z.to_nat a) recs 0 =? t)|]; cbn [map].
  - split.
    + constructor; [exact A|]. apply Forall_forall. intros x Hx. destruct (B x Hx) as (k & Hk & ->). specialize (H2 k Hk). pose proof (Hp a (or_introl eq_refl)). unfold own. cbn [fst]. lia.
    + intros x [<-|Hx]; [exists a; split; [left; reflexivity|reflexivity]|]. destruct (B x Hx) as (k & Hk & ->). exists k. split; [right; exact Hk|reflexivity].
  - split; [exact A|]. intros x Hx. destruct (B x Hx) as (k & Hk & ->). exists k. split; [right; exact Hk|reflexivity].
  - split; [exact A|]. intros x Hx. destruct (B x Hx) as (k & Hk & ->). exists k. split; [right; exact Hk|reflexivity].
Qed.
Lemma own_chosen t : map own (of_type recs t ms) = chosen mv recs t.
Proof using HS Hn Hdiag Hinc.
  apply sorted_ext.
  - apply own_sorted; [exact Hinc|]. intros k Hk. apply (su_rows _ _ _ _ _ _ HS k Hk).
  - apply sorted_filter, sorted_seq.
  - intros x. rewrite chosen_in, in_map_iff. unfold of_type, ms, team. split.
    + intros (m & <- & Hm). apply filter_In in Hm. destruct Hm as [Hm Et]. apply filter_In in Hm. destruct Hm as [Hm Ee].
      destruct (all_tidy m Hm) as [T1 T2]. split; [unfold own; lia|]. split; [rewrite T2; exact Ee|]. unfold own. lia.
    + intros (H1 & H2 & H3). apply (proj2 (su_marks _ _ _ _ _ _ HS) x H1) in H2. destruct H2 as (k & e & Hi & Hm).
      pose proof (proj1 (filter_In _ _ _) Hi) as [Hi' _]. pose proof (su_rows _ _ _ _ _ _ HS k (in_combine_l _ _ _ _ Hi')) as Rk.
      replace k with (Z.of_nat (Z.to_nat k)) in Hm by lia. apply Hdiag in Hm; [|lia|lia]. exists (k, e). split; [unfold own; cbn [fst]; lia|].
      apply filter_In. split; [exact Hi|]. cbn [fst]. rewrite <- Hm. lia.
Qed.
Lemma of_type_le t : (length (of_type recs t ms) <= length ms)%nat.
Proof using. clear. unfold of_type. induction ms as [|m l IH]; cbn [filter length]; [lia|]. destruct (nth _ recs 0 =? t); cbn [length]; lia. Qed.

Variable disk : string -> option mat.
Variable seismic : bool.
Variable base : string.
Variable NT : nat.
Lemma decode_common et st D : et = 2 \/ et = 3 -> recorded NT mv recs D (d_data st) -> length (d_dec st) = 4%nat ->
  exists st', encode disk seismic base NT no et mm mv recs (length mm) incr enc st = Ok (st', []) /\
    d_data st' = d_data st /\ length (d_dec st') = 4%nat /\
    (forall t, chosen mv recs t <> [] -> nth (Z.to_nat (t - 1)) (d_dec st') [] =
       (map (fun m => [times (sg (snd m)) (D t (own m))]) (of_type recs t ms) ++ repeat ([] : mat) (length ms - length (of_type recs t ms)))%list).
Proof using HS Hn Hdiag Hinc.
  intros Het [L1 Hrec] L2. unfold encode. rewrite (read_ok no mm mv recs incr enc HS). cbn [bind]. destruct (types_spec mv recs) as [HN HI].
  destruct (code_types_spec disk seismic base NT no et mm mv recs (Z.of_nat (length mm)) incr enc st
             (fun t => map (D t) (chosen mv recs t))
             (fun t => (map (fun m => [times (sg (snd m)) (D t (own m))]) (of_type recs t ms) ++ repeat ([] : mat) (length ms - length (of_type recs t ms)))%list)
             (fun t => []) (receiverTypes (tl mv) recs) HN) with (st := st) as (st' & E & K1 & K2 & K3 & K4); try assumption.
  - intros t Ht. apply (su_t no mm mv recs incr enc HS), HI, Ht.
  - intros t Ht s J1 J2 E1 E2. apply HI in Ht. pose proof (su_t no mm mv recs incr enc HS t Ht) as Rt. unfold code_type.
    rewrite (vget_at (d_data s) _ []) by lia. cbn [bind]. rewrite (vget_at (d_dec s) _ []) by lia. cbn [bind].
    replace (et <=? 1) with false by (destruct Het; subst; reflexivity). rewrite members_len by apply (su_lines _ _ _ _ _ _ HS). cbn [bind].
    destruct (Z.of_nat (length mm) =? Z.of_nat (length recs)) eqn:EE; [|lia].
    rewrite E1. rewrite (proj1 (Hrec t Rt)). fold ms.
    pose proof (common_decode disk seismic base no mm mv recs Hn (su_matrix _ _ _ _ _ _ HS) (su_len no mm mv recs incr enc HS) Hdiag t (D t) et Het incr enc (su_lines _ _ _ _ _ _ HS) all_tidy
                  [] [] (repeat ([] : mat) (length ms - length (of_type recs t ms))) (repeat 0%R NT) 0 0 eq_refl eq_refl) as Q.
    cbn [app] in Q. fold ms in Q. rewrite app_assoc, <- repeat_app in Q || rewrite <- repeat_app in Q.
    replace (length (of_type recs t ms) + (length ms - length (of_type recs t ms)))%nat with (length ms) in Q by (pose proof (of_type_le t); lia).
    assert (EC : map (fun m => D t (own m)) (of_type recs t ms) = map (D t) (chosen mv recs t)) by (rewrite <- own_chosen, map_map; reflexivity).
    rewrite EC in Q. match type of Q with ?l = _ => match goal with |- context [common disk seismic base no et mm mv recs t incr enc ?x ?y ?z 0 0] => change (common disk seismic base no et mm mv recs t incr enc x y z 0 0) with l end end. rewrite Q. cbn [bind].
    rewrite vset_upd by lia. cbn [bind]. rewrite vset_upd by lia. cbn [bind]. reflexivity.
  - intros t Ht. split; reflexivity.
  - exists st'. split; [rewrite E; f_equal; f_equal; clear; induction (receiverTypes (tl mv) recs); [reflexivity|assumption]|]. split; [|split; [exact K2|intros t Ht; apply K3, HI, Ht]].
    apply nth_ext with [] []; [congruence|]. intros j Hj. rewrite K1 in Hj.
    replace j with (Z.to_nat ((Z.of_nat j + 1) - 1)) by lia. set (t := Z.of_nat j + 1).
    destruct (in_dec Z.eq_dec t (receiverTypes (tl mv) recs)) as [Hi|Hi].
    + rewrite (proj1 (K3 t Hi)). symmetry. apply Hrec. unfold t. lia.
    + apply K4; [unfold t; lia|exact Hi].
Qed.

Lemma encode_common et st D (T : Z -> Z * esrc -> row) extra : et = 0 \/ et = 1 -> recorded NT mv recs D (d_data st) -> length (d_dec st) = 4%nat ->
  (forall t m, length (T t m) = NT) ->
  (et = 0 -> forall t, chosen mv recs t <> [] -> nth (Z.to_nat (t - 1)) (d_dec st) [] = (map (fun m => [T t m]) (of_type recs t ms) ++ extra t)%list) ->
  (et = 1 -> forall t, chosen mv recs t <> [] -> exists f, disk (base ++ "." ++ component seismic (Z.to_nat (t - 1)))%string = Some f /\ forall m, In m (of_type recs t ms) -> getRow f (fst m) = Ok (T t m)) ->
  exists st', encode disk seismic base NT no et mm mv recs (length mm) incr enc st = Ok (st', []) /\
    d_dec st' = d_dec st /\ length (d_data st') = 4%nat /\
    (forall t, chosen mv recs t <> [] -> nth (Z.to_nat (t - 1)) (d_data st') [] = map (fun m => times (sg (snd m)) (T t m)) (of_type recs t ms)) /\
    (forall t, 1 <= t <= 4 -> chosen mv recs t = [] -> nth (Z.to_nat (t - 1)) (d_data st') [] = []).
Proof using HS Hn Hdiag Hinc.
  intros Het [L1 Hrec] L2 HT H0 H1. unfold encode. rewrite (read_ok no mm mv recs incr enc HS). cbn [bind]. destruct (types_spec mv recs) as [HN HI].
  destruct (code_types_spec disk seismic base NT no et mm mv recs (Z.of_nat (length mm)) incr enc st
             (fun t => map (fun m => times (sg (snd m)) (T t m)) (of_type recs t ms)) (fun t => nth (Z.to_nat (t - 1)) (d_dec st) [])
             (fun t => []) (receiverTypes (tl mv) recs) HN) with (st := st) as (st' & E & K1 & K2 & K3 & K4); try assumption.
  - intros t Ht. apply (su_t no mm mv recs incr enc HS), HI, Ht.
  - intros t Ht s J1 J2 E1 E2. apply HI in Ht. pose proof (su_t no mm mv recs incr enc HS t Ht) as Rt. unfold code_type.
    rewrite (vget_at (d_data s) _ []) by lia. cbn [bind]. rewrite (vget_at (d_dec s) _ []) by lia. cbn [bind].
    replace (et <=? 1) with true by (destruct Het; subst; reflexivity). cbn [bind].
    destruct (Z.of_nat (length mm) =? Z.of_nat (length recs)) eqn:EE; [|lia].
    rewrite E1, E2. rewrite (proj1 (Hrec t Rt)). unfold zero_of. rewrite map_map.
    assert (EC : map (fun x => map (fun _ : R => 0%R) (D t x)) (chosen mv recs t) = map (fun m : Z * esrc => (repeat 0%R NT : row)) (of_type recs t ms)).
    { rewrite <- own_chosen, map_map. apply map_ext. intros m. rewrite <- (proj2 (Hrec t Rt) (own m)). induction (D t (own m)) as [|x l IHl]; cbn; [reflexivity|]. rewrite IHl. reflexivity. }
    pose proof (common_encode disk seismic base no mm mv recs Hn (su_matrix _ _ _ _ _ _ HS) (su_len no mm mv recs incr enc HS) Hdiag t (T t) et Het incr enc (su_lines _ _ _ _ _ _ HS) all_tidy
                  [] (nth (Z.to_nat (t - 1)) (d_dec st) []) [] (extra t) (zmat 1 NT) (fun _ => repeat 0%R NT) 0 0 eq_refl) as Q.
    cbn [app] in Q. fold ms in Q.
    assert (ER : map (fun m : Z * esrc => radd (repeat 0%R NT) (times (sg (snd m)) (T t m))) (of_type recs t ms) = map (fun m => times (sg (snd m)) (T t m)) (of_type recs t ms)).
    { apply map_ext. intros m. apply row_ext with NT.
      * rewrite radd_len; rewrite repeat_length; [reflexivity|rewrite times_len, HT; reflexivity].
      * rewrite times_len. apply HT.
      * intros j _. unfold sample. rewrite radd_nth by (rewrite repeat_length, times_len, HT; reflexivity). rewrite nth_repeat. ring. }
    rewrite ER in Q. unfold row in *. rewrite EC. rewrite Q.
    + cbn [bind]. rewrite vset_upd by lia. cbn [bind]. rewrite vset_upd by lia. cbn [bind]. reflexivity.
    + destruct Het as [->| ->]; [left|right].
      * split; [reflexivity|]. split; [reflexivity|]. apply H0; [reflexivity|exact Ht].
      * split; [reflexivity|]. destruct (H1 eq_refl t Ht) as (f & F1 & F2). exists f. split; [exact F1|exact F2].
  - intros t Ht. split; reflexivity.
  - exists st'. split; [rewrite E; f_equal; f_equal; clear; induction (receiverTypes (tl mv) recs); [reflexivity|assumption]|]. split; [|split; [exact K1|split]].
    + apply nth_ext with [] []; [congruence|]. intros j Hj. rewrite K2 in Hj.
      replace j with (Z.to_nat ((Z.of_nat j + 1) - 1)) by lia. set (t := Z.of_nat j + 1).
      destruct (in_dec Z.eq_dec t (receiverTypes (tl mv) recs)) as [Hi|Hi].
      * exact (proj2 (K3 t Hi)).
      * apply K4; [unfold t; lia|exact Hi].
    + intros t Ht. apply K3, HI, Ht.
    + intros t Ht Hc. destruct (K4 t Ht) as [-> _]; [intros X; apply HI in X; exact (X Hc)|]. rewrite (proj1 (Hrec t Ht)), Hc. reflexivity.
Qed.
End SuperCommon.

(** Lemmas for C29-C32, C36-C38. *)
From Coq Require Import Ascii String QArith Qround Permutation Sorted.
From Verif Require Import Base M_Grid M_Acq S_Acq L_AcqFile.
Open Scope Z_scope.

(** * Unique shot numbers *)
Definition uq (acc l : list Z) : list Z :=
  fold_left (fun acc n => if existsb (Z.eqb n) acc then acc else (acc ++ [n])%list) l acc.
Lemma uq_map {F} (l : list (source F)) acc : fold_left uniq_step l acc = uq acc (map shot_of l).
Proof. revert acc. induction l as [|s l IH]; intros acc; [reflexivity|]. cbn. apply IH. Qed.
Lemma existsb_in n l : existsb (Z.eqb n) l = true <-> In n l.
Proof.
  rewrite existsb_exists. split.
  - intros (x & H & E). apply Z.eqb_eq in E. subst. exact H.
  - intros H. exists n. split; [exact H|apply Z.eqb_refl].
Qed.
Lemma uq_start {F} (s0 : source F) r :
  fold_left uniq_step (s0 :: r) [shot_of s0] = uq [] (map shot_of (s0 :: r)).
Proof.
  cbn [fold_left map]. unfold uniq_step at 2. fold (shot_of s0).
  assert (existsb (Z.eqb (shot_of s0)) [shot_of s0] = true) as -> by (cbn; rewrite Z.eqb_refl; reflexivity).
  rewrite uq_map. reflexivity.
Qed.
Lemma uq_first l : first_occurrences l (uq [] l).
Proof.
  induction l as [|n l (H1 & H2 & H3)] using rev_ind.
  - split; [constructor|]. split; [tauto|]. intros a n b E. destruct a; discriminate E.
  - unfold uq. rewrite fold_left_app. cbn [fold_left]. fold (uq [] l).
    assert (Hsplit : forall a m b, (l ++ [n])%list = (a ++ m :: b)%list ->
      (b = [] /\ m = n /\ a = l) \/ exists b', b = (b' ++ [n])%list /\ l = (a ++ m :: b')%list).
    { intros a m b E. destruct b as [|x b] using rev_ind.
      - left. apply app_inj_tail in E. destruct E; subst. tauto.
      - right. clear IHb. exists b. rewrite app_comm_cons, app_assoc in E. apply app_inj_tail in E.
        destruct E; subst. tauto. }
    destruct (existsb (Z.eqb n) (uq [] l)) eqn:E.
    + apply existsb_in in E. split; [exact H1|]. split.
      * intros m. rewrite in_app_iff, <- H2. cbn. split; [tauto|]. intros [K|[K|[]]]; [exact K|subst; exact E].
      * intros a m b Em Hm. destruct (Hsplit a m b Em) as [(-> & -> & ->)|(b' & -> & ->)].
        { apply H2 in E. contradiction. }
        { apply (H3 a m b' eq_refl Hm). }
    + assert (En : ~ In n (uq [] l)). { intros K. apply existsb_in in K. congruence. }
      split; [|split].
      * apply (Permutation_NoDup (l := n :: uq [] l)); [apply Permutation_cons_append|].
        constructor; assumption.
      * intros m. rewrite !in_app_iff, H2. reflexivity.
      * intros a m b Em Hm. destruct (Hsplit a m b Em) as [(-> & -> & ->)|(b' & -> & ->)].
        { exists (uq [] l), []. split; [reflexivity|exact H2]. }
        { destruct (H3 a m b' eq_refl Hm) as (u1 & u2 & Eu & Hu). rewrite Eu.
          exists u1, (u2 ++ [n])%list. split; [|exact Hu]. rewrite <- app_assoc. reflexivity. }
Qed.
Lemma unique_lem {F} (l : list (source F)) : l <> [] ->
  exists u, calcuniqueShotNo l = Ok u /\ first_occurrences (map shot_of l) u.
Proof.
  intros Hl. destruct l as [|s0 r]; [contradiction|].
  exists (uq [] (map shot_of (s0 :: r))). split; [|apply uq_first].
  unfold calcuniqueShotNo. fold (shot_of s0). rewrite uq_start. reflexivity.
Qed.

(** * Per-shot lists *)
Lemma flat_map_filter_cons {A} (key : A -> Z) (s : A) (l : list A) u :
  NoDup u -> In (key s) u ->
  Permutation (flat_map (fun n => filter (fun x => key x =? n) (s :: l)) u)
              (s :: flat_map (fun n => filter (fun x => key x =? n) l) u).
Proof.
  intros Hu Hs. induction u as [|n u IH]; [destruct Hs|].
  inversion Hu as [|? ? Hn Hu']; subst. cbn [flat_map].
  assert (Hno : ~ In (key s) u ->
    flat_map (fun n => filter (fun x => key x =? n) (s :: l)) u =
    flat_map (fun n => filter (fun x => key x =? n) l) u).
  { clear. induction u as [|m u IH]; intros K; [reflexivity|]. cbn [flat_map].
    rewrite IH by (intros J; apply K; right; exact J).
    cbn [filter]. destruct (Z.eqb_spec (key s) m) as [E|_]; [exfalso; apply K; left; symmetry; exact E|reflexivity]. }
  destruct (Z.eq_dec (key s) n) as [E|E].
  - rewrite Hno by (rewrite E; exact Hn). cbn [filter]. rewrite (proj2 (Z.eqb_eq _ _) E). reflexivity.
  - destruct Hs as [K|K]; [congruence|]. specialize (IH Hu' K).
    assert (filter (fun x => key x =? n) (s :: l) = filter (fun x => key x =? n) l) as ->
      by (cbn [filter]; rewrite (proj2 (Z.eqb_neq _ _) E); reflexivity).
    rewrite IH.
    apply Permutation_sym, Permutation_middle.
Qed.
Lemma partition_lem {A} (key : A -> Z) (l : list A) u : NoDup u -> (forall s, In s l -> In (key s) u) ->
  Permutation (flat_map (fun n => filter (fun x => key x =? n) l) u) l.
Proof.
  intros Hu. induction l as [|s l IH]; intros H.
  - clear. induction u as [|n u IH]; [constructor|]. cbn. exact IH.
  - rewrite flat_map_filter_cons; [|exact Hu|apply H; left; reflexivity].
    constructor. apply IH. intros x Hx. apply H. right. exact Hx.
Qed.

Lemma find_ind_spec nos i d n : In n nos ->
  exists k, find_ind nos i d n = i + Z.of_nat k /\ nth_error nos k = Some n /\
            forall j, (j < k)%nat -> nth_error nos j <> Some n.
Proof.
  revert i. induction nos as [|m nos IH]; intros i H; [destruct H|].
  cbn [find_ind]. destruct (Z.eqb_spec m n) as [->|Hm].
  - exists 0%nat. split; [lia|]. split; [reflexivity|]. intros j Hj. lia.
  - destruct H as [H|H]; [contradiction|]. destruct (IH (i + 1) H) as (k & E & Hk & Hj).
    exists (S k). split; [lia|]. split; [exact Hk|].
    intros [|j] Lj; cbn; [congruence|]. apply Hj. lia.
Qed.
Lemma find_ind_none nos i d n : ~ In n nos -> find_ind nos i d n = d.
Proof.
  revert i. induction nos as [|m nos IH]; intros i H; [reflexivity|].
  cbn. destruct (Z.eqb_spec m n) as [->|_]; [exfalso; apply H; left; reflexivity|].
  apply IH. intros K. apply H. right. exact K.
Qed.

(** * Windows *)
Lemma assert_ok b u : assert b = Ok u <-> b = true.
Proof. unfold assert. destruct b, u; split; congruence. Qed.
Lemma cut_coord_ok c cut NX NY NZ BW q : cut_coord c cut NX NY NZ BW = Ok q ->
  q = mkC (cx c - cx cut) (cy c - cy cut) (cz c - cz cut) /\
  off_frame (cx q) NX BW /\ off_frame (cy q) NY BW /\ (2 * BW < NZ -> off_frame (cz q) NZ BW).
Proof.
  unfold cut_coord, off_frame. intros H.
  apply bind_ok in H. destruct H as (? & E1 & H). apply bind_ok in H. destruct H as (? & E2 & H).
  apply bind_ok in H. destruct H as (? & E3 & H). apply bind_ok in H. destruct H as (? & E4 & H).
  apply bind_ok in H. destruct H as (? & E5 & H). inversion H; subst; clear H. cbn [cx cy cz].
  apply assert_ok in E1, E2, E3, E4. split; [reflexivity|]. split; [lia|]. split; [lia|].
  intros Hz. rewrite (proj2 (Z.ltb_lt (BW * 2) NZ)) in E5; [|lia].
  apply bind_ok in E5. destruct E5 as (? & E5 & E6). apply assert_ok in E5, E6. lia.
Qed.
Lemma cut_coord_clean c cut NX NY NZ BW : clean (cut_coord c cut NX NY NZ BW).
Proof.
  assert (Ha : forall b, clean (assert b)).
  { intros []; [left; exists tt; reflexivity|right; reflexivity]. }
  unfold cut_coord.
  do 4 (apply clean_bind; [apply Ha|intros ?]).
  apply clean_bind; [|intros ?; apply clean_ok].
  destruct (BW * 2 <? NZ); [|apply clean_ok]. apply clean_bind; [apply Ha|intros ?; apply Ha].
Qed.
Lemma window_lem {F} (all : list (source F)) cuts NX NY NZ BW out :
  getSettingsPerShot all cuts NX NY NZ BW = Ok out ->
  (exists c', List.length c' = List.length all /\ (exists c'', cuts = c' ++ c'')%list /\
     List.length out = List.length all /\
     forall i s c, nth_error all i = Some s -> nth_error c' i = Some c ->
       exists s', nth_error out i = Some s' /\ moved s c s') /\
  Forall (fun s => off_frame (cx (sourceCoords s)) NX BW /\ off_frame (cy (sourceCoords s)) NY BW /\
                   (2 * BW < NZ -> off_frame (cz (sourceCoords s)) NZ BW)) out.
Proof.
  revert cuts out. induction all as [|s all IH]; intros cuts out H; cbn [getSettingsPerShot] in H.
  - inversion H; subst. split; [|constructor]. exists []. split; [reflexivity|].
    split; [exists cuts; reflexivity|]. split; [reflexivity|]. intros i s c E. destruct i; discriminate E.
  - destruct cuts as [|c cs]; [discriminate|].
    apply bind_ok in H. destruct H as (q & E1 & H). apply bind_ok in H. destruct H as (rest & E2 & H).
    inversion H; subst; clear H. apply cut_coord_ok in E1. destruct E1 as (Eq & Hq).
    destruct (IH cs rest E2) as ((c' & L1 & (c'' & L2) & L3 & L4) & HF). split.
    + exists (c :: c'). split; [cbn; lia|]. split; [exists c''; rewrite L2; reflexivity|].
      split; [cbn; lia|]. intros [|i] s1 c1 Es Ec; cbn [nth_error] in *.
      * inversion Es; inversion Ec; subst. exists (set_coords s1 (mkC (cx (sourceCoords s1) - cx c1)
          (cy (sourceCoords s1) - cy c1) (cz (sourceCoords s1) - cz c1))).
        split; [reflexivity|]. repeat split.
      * apply (L4 i s1 c1 Es Ec).
    + constructor; [cbn; exact Hq|exact HF].
Qed.
Lemma window_clean {F} (all : list (source F)) cuts NX NY NZ BW :
  (List.length all <= List.length cuts)%nat -> clean (getSettingsPerShot all cuts NX NY NZ BW).
Proof.
  revert cuts. induction all as [|s all IH]; intros cuts H; cbn [getSettingsPerShot]; [apply clean_ok|].
  destruct cuts as [|c cs]; [cbn in H; lia|].
  apply clean_bind; [apply cut_coord_clean|]. intros q.
  apply clean_bind; [apply IH; cbn in H; lia|]. intros; apply clean_ok.
Qed.
Lemma rwindow_lem all cut NX NY NZ BW out :
  getReceiversPerShot all cut NX NY NZ BW = Ok out ->
  Forall2 (fun r r' => receiverType r' = receiverType r /\
    receiverCoords r' = mkC (cx (receiverCoords r) - cx cut) (cy (receiverCoords r) - cy cut)
                            (cz (receiverCoords r) - cz cut)) all out /\
  Forall (fun s => off_frame (cx (receiverCoords s)) NX BW /\ off_frame (cy (receiverCoords s)) NY BW /\
                   (2 * BW < NZ -> off_frame (cz (receiverCoords s)) NZ BW)) out.
Proof.
  revert out. induction all as [|s all IH]; intros out H; cbn [getReceiversPerShot] in H.
  - inversion H; subst. split; constructor.
  - apply bind_ok in H. destruct H as (q & E1 & H). apply bind_ok in H. destruct H as (rest & E2 & H).
    inversion H; subst; clear H. apply cut_coord_ok in E1. destruct E1 as (Eq & Hq).
    destruct (IH rest E2) as [H1 H2]. split.
    + constructor; [cbn; split; [reflexivity|exact Eq]|exact H1].
    + constructor; [cbn; exact Hq|exact H2].
Qed.

(** * Block distribution *)
Lemma zseq_app s a b : zseq s (a + b) = (zseq s a ++ zseq (s + Z.of_nat a) b)%list.
Proof.
  revert s. induction a as [|a IH]; intros s.
  - cbn. f_equal. lia.
  - cbn [zseq Nat.add app]. rewrite IH. do 3 f_equal. lia.
Qed.
Lemma zseq_nth_error s n i : (i < n)%nat -> nth_error (zseq s n) i = Some (s + Z.of_nat i).
Proof.
  revert s i. induction n as [|n IH]; intros s i H; [lia|].
  destruct i as [|i]; cbn [zseq nth_error]; [f_equal; lia|]. rewrite IH by lia. f_equal. lia.
Qed.
Lemma zseq_in s n x : In x (zseq s n) <-> s <= x < s + Z.of_nat n.
Proof.
  revert s. induction n as [|n IH]; intros s; cbn [zseq In]; [lia|]. rewrite IH. lia.
Qed.
Lemma zseq_length s n : List.length (zseq s n) = n.
Proof. revert s. induction n as [|n IH]; intros s; cbn; [reflexivity|]. rewrite IH. reflexivity. Qed.

Lemma block_size_pos n p : 1 <= p -> 0 <= n -> n <= block_size n p * p /\ 0 <= block_size n p /\
  (block_size n p - 1) * p < n \/ n = 0.
Proof.
  intros Hp Hn. unfold block_size. destruct (Z.eq_dec n 0) as [->|Hz]; [right; reflexivity|left].
  pose proof (Z.mul_div_le (n + p - 1) p ltac:(lia)).
  pose proof (Z.mul_succ_div_gt (n + p - 1) p ltac:(lia)).
  assert (0 <= (n + p - 1) / p) by (apply Z.div_pos; lia). nia.
Qed.
Lemma block_ub_lb n p r : block_ub n p r = block_lb n p (r + 1).
Proof. reflexivity. Qed.
Lemma block_nonneg n p : 1 <= p -> 0 <= n -> 0 <= block_size n p.
Proof. intros. unfold block_size. apply Z.div_pos; lia. Qed.
Lemma block_lb_mono n p r : 1 <= p -> 0 <= n -> 0 <= r -> 0 <= block_lb n p r <= block_ub n p r /\ block_ub n p r <= n.
Proof.
  intros Hp Hn Hr. pose proof (block_nonneg n p Hp Hn). unfold block_ub, block_lb. nia.
Qed.
Lemma block_end n p : 1 <= p -> 0 <= n -> block_lb n p p = n.
Proof.
  intros Hp Hn. unfold block_lb. destruct (block_size_pos n p Hp Hn) as [H| ->]; [lia|].
  pose proof (block_nonneg 0 p Hp ltac:(lia)). nia.
Qed.
Lemma block_concat n p k : 1 <= p -> 0 <= n ->
  concat (map (fun r => zseq (block_lb n p r) (Z.to_nat (block_ub n p r - block_lb n p r))) (zseq 0 k))
  = zseq 0 (Z.to_nat (block_lb n p (Z.of_nat k))).
Proof.
  intros Hp Hn. induction k as [|k IH].
  - cbn [zseq map concat]. unfold block_lb. replace (Z.to_nat _) with 0%nat by lia. reflexivity.
  - replace (S k) with (k + 1)%nat by lia. rewrite zseq_app, map_app, concat_app, IH.
    cbn [zseq map concat]. rewrite app_nil_r, Z.add_0_l.
    pose proof (block_lb_mono n p (Z.of_nat k) Hp Hn ltac:(lia)).
    replace (Z.of_nat (k + 1)) with (Z.of_nat k + 1) by lia. rewrite <- block_ub_lb.
    replace (Z.to_nat (block_ub n p (Z.of_nat k))) with
      (Z.to_nat (block_lb n p (Z.of_nat k)) + Z.to_nat (block_ub n p (Z.of_nat k) - block_lb n p (Z.of_nat k)))%nat by lia.
    rewrite zseq_app. do 2 f_equal. lia.
Qed.
Lemma block_unique n p i : 1 <= p -> 0 <= n -> 0 <= i < n ->
  exists! r, 0 <= r < p /\ block_lb n p r <= i < block_ub n p r.
Proof.
  intros Hp Hn Hi. destruct (block_size_pos n p Hp Hn) as [(H1 & H2 & H3)|]; [|lia].
  assert (Hb : 1 <= block_size n p) by nia.
  exists (i / block_size n p). set (b := block_size n p) in *.
  pose proof (Z.mul_div_le i b ltac:(lia)). pose proof (Z.mul_succ_div_gt i b ltac:(lia)).
  assert (0 <= i / b) by (apply Z.div_pos; lia).
  split.
  - split; [split; [assumption|apply Z.div_lt_upper_bound; nia]|].
    unfold block_lb, block_ub. fold b. nia.
  - intros r [Hr Hri]. unfold block_lb, block_ub in Hri. fold b in Hri.
    symmetry. apply (Z.div_unique i b r (i - b * r)); [left; nia|lia].
Qed.

(** * The shot loop *)
Lemma vget_ok {A} (v : list A) i a : nth_error v i = Some a -> vget v (Z.of_nat i) = Ok a.
Proof.
  intros H. unfold vget. replace (Z.of_nat i <? 0) with false by lia. rewrite Nat2Z.id, H. reflexivity.
Qed.
Lemma vget_zseq (n : nat) i : 0 <= i < Z.of_nat n -> vget (zseq 0 n) i = Ok i.
Proof.
  intros H. rewrite <- (Z2Nat.id i) by lia. rewrite (vget_ok _ _ (Z.of_nat (Z.to_nat i))); [reflexivity|].
  rewrite zseq_nth_error by lia. f_equal; lia.
Qed.
Lemma vget_app {A} (v w : list A) i a : vget v i = Ok a -> vget (v ++ w) i = Ok a.
Proof.
  unfold vget. destruct (i <? 0); [discriminate|].
  destruct (nth_error v (Z.to_nat i)) eqn:E; [|discriminate]. intros H.
  rewrite nth_error_app1, E; [exact H|]. apply nth_error_Some. congruence.
Qed.
Lemma vget_nos (nos : list Z) i : 0 <= i < Z.of_nat (List.length nos) ->
  vget nos i = Ok (nth (Z.to_nat i) nos 0).
Proof.
  intros H. rewrite <- (Z2Nat.id i) at 1 by lia. apply vget_ok. apply nth_error_nth'. lia.
Qed.
Lemma shot_body_lem shots inds n nos :
  (forall i, In i shots -> 0 <= i < Z.of_nat (List.length nos) /\ i < n /\ vget inds i = Ok i) ->
  shot_body shots inds n nos = Ok (map (fun i => nth (Z.to_nat i) nos 0) shots).
Proof.
  induction shots as [|i shots IH]; intros H; [reflexivity|].
  cbn [shot_body map]. destruct (H i (or_introl eq_refl)) as (H1 & H2 & H3).
  rewrite H3. cbn [bind]. rewrite vget_zseq by lia. cbn [bind]. rewrite vget_nos by exact H1.
  cbn [bind]. rewrite IH by (intros j Hj; apply H; right; exact Hj). reflexivity.
Qed.
Lemma map_nth_zseq (nos : list Z) s k : (s + k <= List.length nos)%nat ->
  map (fun i => nth (Z.to_nat i) nos 0) (zseq (Z.of_nat s) k) = firstn k (skipn s nos).
Proof.
  revert s. induction k as [|k IH]; intros s H; [reflexivity|].
  cbn [zseq map]. rewrite Nat2Z.id.
  replace (Z.of_nat s + 1) with (Z.of_nat (S s)) by lia. rewrite IH by lia.
  assert (E : skipn s nos = nth s nos 0 :: skipn (S s) nos).
  { assert (Hs : (s < List.length nos)%nat) by lia. clear - Hs. revert nos Hs.
    induction s as [|s IH]; intros [|x nos] Hs; cbn in *; try lia; [reflexivity|].
    rewrite IH by lia. destruct nos; reflexivity. }
  rewrite E. reflexivity.
Qed.

(** The shots of domain [r] as a segment of the list of shot numbers. *)
Definition segment (nos : list Z) (n p r : Z) : list Z :=
  map (fun i => nth (Z.to_nat i) nos 0) (zseq (block_lb n p r) (Z.to_nat (block_ub n p r - block_lb n p r))).
Lemma segment_concat nos p : 1 <= p ->
  concat (map (segment nos (Z.of_nat (List.length nos)) p) (zseq 0 (Z.to_nat p))) = nos.
Proof.
  intros Hp. unfold segment.
  rewrite <- (map_map (fun r => zseq (block_lb (Z.of_nat (List.length nos)) p r)
     (Z.to_nat (block_ub (Z.of_nat (List.length nos)) p r - block_lb (Z.of_nat (List.length nos)) p r)))
     (map (fun i => nth (Z.to_nat i) nos 0))).
  rewrite <- concat_map, block_concat by lia. rewrite Z2Nat.id by lia. rewrite block_end by lia.
  rewrite Nat2Z.id.
  etransitivity; [exact (map_nth_zseq nos 0 (List.length nos) ltac:(lia))|]. apply firstn_all.
Qed.

Lemma shots_lem encode n dom dec nos r :
  1 <= dom -> 0 <= r < dom -> Z.of_nat (List.length nos) <= n ->
  dom <= Z.of_nat (List.length nos) -> (encode = 0 -> Z.of_nat (List.length nos) mod dom = 0) ->
  (encode <> 0 -> Z.of_nat (List.length nos) = dom) ->
  shots_of_domain encode n dom dec nos r =
  Ok (if dec =? 0 then segment nos (Z.of_nat (List.length nos)) dom r
      else segment nos (Z.of_nat (List.length nos)) dom r ++ segment nos (Z.of_nat (List.length nos)) dom r)%list.
Proof.
  intros Hd Hr Hn Hge He He'. unfold shots_of_domain.
  set (m := Z.of_nat (List.length nos)) in *.
  assert (Em : (if encode =? 0 then m else dom) = m).
  { destruct (Z.eqb_spec encode 0) as [|Hne]; [reflexivity|]. symmetry. apply He'. exact Hne. }
  rewrite Em. replace (dom <=? m) with true by lia. cbn [assert bind].
  assert (Ec : (if encode =? 0 then x <- crem m dom ;; assert (x =? 0) else Ok tt) = Ok tt).
  { destruct (Z.eqb_spec encode 0) as [E|]; [|reflexivity]. unfold crem.
    replace (dom =? 0) with false by lia. cbn [bind]. rewrite Z.rem_mod_nonneg by lia. rewrite He by exact E.
    reflexivity. }
  rewrite Ec. cbn [bind].
  pose proof (block_lb_mono m dom r Hd ltac:(lia) ltac:(lia)) as Hb.
  assert (Hbody : forall inds, shot_body (zseq (block_lb m dom r) (Z.to_nat (block_ub m dom r - block_lb m dom r)))
      (zseq 0 (Z.to_nat (if encode =? 0 then n else dom)) ++ inds) n nos = Ok (segment nos m dom r)).
  { intros inds. apply shot_body_lem. intros i Hi. apply zseq_in in Hi.
    split; [lia|]. split; [lia|]. apply vget_app. apply vget_zseq.
    destruct (Z.eqb_spec encode 0); [|pose proof (He' n0)]; lia. }
  assert (Hlen : forall inds, negb (Nat.eqb (List.length
      (zseq 0 (Z.to_nat (if encode =? 0 then n else dom)) ++ inds)%list) 0) = true).
  { intros inds. rewrite app_length, zseq_length.
    destruct (Z.eqb_spec encode 0); [|pose proof (He' n0)]; lia. }
  destruct (Z.eqb_spec dec 0) as [->|Hdec].
  - unfold cdiv. replace (dom =? 0) with false by lia. cbn [bind].
    assert (1 <= Z.quot m dom). { rewrite Z.quot_div_nonneg by lia. apply Z.div_le_lower_bound; lia. }
    destruct (Z.to_nat (Z.quot m dom)) as [|k] eqn:Ek; [lia|]. cbn [shot_rounds].
    unfold calcUniqueShotInds. cbn [app]. rewrite <- (app_nil_r (zseq 0 _)).
    rewrite Hlen. cbn [assert bind]. rewrite Hbody. cbn [bind]. reflexivity.
  - cbn [bind]. change (Z.to_nat 2) with 2%nat. cbn [shot_rounds].
    unfold calcUniqueShotInds. cbn [app]. rewrite (proj2 (Z.eqb_neq dec 0) Hdec).
    pose proof (Hlen []) as L0. pose proof (Hbody []) as B0. rewrite app_nil_r in L0, B0.
    rewrite L0. cbn [assert bind]. rewrite B0. cbn [bind].
    rewrite Hlen. cbn [assert bind]. rewrite Hbody. cbn [bind]. rewrite app_nil_r. reflexivity.
Qed.

(** * Shot domains *)
Lemma shot_domain_lem dom size rank :
  1 <= dom -> 1 <= size -> 0 <= rank < size ->
  let d := Z.min dom size in
  getShotDomain 0 dom size rank 0 None true =
  if size mod d =? 0 then Ok (rank / (size / d)) else Throw.
Proof.
  intros Hd Hs Hr d. unfold getShotDomain, checkNumShotDomains. cbn [Z.eqb].
  assert (E : (if size <? dom then size else dom) = d).
  { unfold d. destruct (Z.ltb_spec size dom); lia. }
  rewrite E.
  assert (Hd' : 1 <= d <= size) by (unfold d; lia).
  unfold cdiv at 1. replace (d =? 0) with false by lia. cbn [bind].
  rewrite Z.quot_div_nonneg by lia. pose proof (Z.div_mod size d ltac:(lia)).
  assert (1 <= size / d) by (apply Z.div_le_lower_bound; lia).
  destruct (Z.eqb_spec (size mod d) 0) as [E0|E0].
  - replace (size =? d * (size / d)) with true by lia. cbn [negb].
    unfold cdiv. replace (size / d =? 0) with false by lia. rewrite Z.quot_div_nonneg by lia. reflexivity.
  - replace (size =? d * (size / d)) with false by lia. reflexivity.
Qed.

(** * Sorting of traces *)
Definition of_type (k : Z) (tc : list (Z * Z)) : list Z := map snd (filter (fun p => fst p =? k) tc).
Definition cnt (k : Z) (l : list Z) : Z := Z.of_nat (List.length (filter (fun t => t =? k) l)).

Lemma get4 {A} (a b c d : A) : vget [a; b; c; d] (1 - 1) = Ok a /\ vget [a; b; c; d] (2 - 1) = Ok b /\
  vget [a; b; c; d] (3 - 1) = Ok c /\ vget [a; b; c; d] (4 - 1) = Ok d.
Proof. repeat split. Qed.
Lemma set4 {A} (a b c d x : A) : vset [a; b; c; d] (1 - 1) x = Ok [x; b; c; d] /\
  vset [a; b; c; d] (2 - 1) x = Ok [a; x; c; d] /\
  vset [a; b; c; d] (3 - 1) x = Ok [a; b; x; d] /\ vset [a; b; c; d] (4 - 1) x = Ok [a; b; c; x].
Proof. repeat split. Qed.
Ltac idx4 := rewrite ?(proj1 (get4 _ _ _ _)), ?(proj1 (proj2 (get4 _ _ _ _))),
  ?(proj1 (proj2 (proj2 (get4 _ _ _ _)))), ?(proj2 (proj2 (proj2 (get4 _ _ _ _)))); cbn [bind];
  rewrite ?(proj1 (set4 _ _ _ _ _)), ?(proj1 (proj2 (set4 _ _ _ _ _))),
  ?(proj1 (proj2 (proj2 (set4 _ _ _ _ _)))), ?(proj2 (proj2 (proj2 (set4 _ _ _ _ _)))); cbn [bind].
Lemma count_types_lem types a b c d : Forall (fun t => 1 <= t <= 4) types ->
  count_types types [a; b; c; d] =
  Ok [a + cnt 1 types; b + cnt 2 types; c + cnt 3 types; d + cnt 4 types].
Proof.
  intros H. revert a b c d. induction H as [|t types Ht _ IH]; intros a b c d.
  - cbn. do 2 f_equal; [lia|]. f_equal; [lia|]. f_equal; [lia|]. f_equal; lia.
  - assert (t = 1 \/ t = 2 \/ t = 3 \/ t = 4) as [E1|[E1|[E1|E1]]] by lia; subst t; cbn [count_types]; idx4;
      rewrite IH; unfold cnt; cbn [filter Z.eqb Pos.eqb List.length]; rewrite ?Nat2Z.inj_succ; do 2 f_equal; try lia;
      f_equal; try lia; f_equal; try lia; f_equal; lia.
Qed.
Lemma nset_app {A} (pre : list A) y post x : nset (pre ++ y :: post) (List.length pre) x = Some (pre ++ x :: post)%list.
Proof. induction pre as [|z pre IH]; [reflexivity|]. cbn. rewrite IH. reflexivity. Qed.
Lemma vset_app {A} (pre : list A) y post x k : k = Z.of_nat (List.length pre) ->
  vset (pre ++ y :: post) k x = Ok (pre ++ x :: post)%list.
Proof.
  intros ->. unfold vset. replace (_ <? 0) with false by lia. rewrite Nat2Z.id, nset_app. reflexivity.
Qed.
Definition comp (pre : list Z) (k : Z) (tc : list (Z * Z)) : list Z :=
  (pre ++ repeat 0 (List.length (of_type k tc)))%list.
Lemma sort_lem tc p1 p2 p3 p4 : Forall (fun p => 1 <= fst p <= 4) tc ->
  sort_coords tc [comp p1 1 tc; comp p2 2 tc; comp p3 3 tc; comp p4 4 tc]
    [Z.of_nat (List.length p1); Z.of_nat (List.length p2); Z.of_nat (List.length p3); Z.of_nat (List.length p4)]
  = Ok [p1 ++ of_type 1 tc; p2 ++ of_type 2 tc; p3 ++ of_type 3 tc; p4 ++ of_type 4 tc]%list.
Proof.
  intros H. revert p1 p2 p3 p4. induction H as [|[t x] tc Ht _ IH]; intros p1 p2 p3 p4.
  - cbn. unfold comp. cbn. reflexivity.
  - cbn [fst] in Ht.
    assert (Hn : forall p k, k <> t -> comp p k ((t, x) :: tc) = comp p k tc /\ of_type k ((t, x) :: tc) = of_type k tc).
    { intros p k Hk. unfold comp, of_type. cbn [filter fst]. rewrite (proj2 (Z.eqb_neq t k)) by congruence. tauto. }
    assert (Hy : forall p, comp p t ((t, x) :: tc) = (p ++ 0 :: repeat 0 (List.length (of_type t tc)))%list /\
                 of_type t ((t, x) :: tc) = x :: of_type t tc).
    { intros p. unfold comp, of_type. cbn [filter fst]. rewrite Z.eqb_refl. cbn. tauto. }
    assert (Hc : forall p, (p ++ x :: repeat 0 (List.length (of_type t tc)))%list = comp (p ++ [x]) t tc).
    { intros p. unfold comp. rewrite <- app_assoc. reflexivity. }
    assert (Hl : forall p : list Z, Z.of_nat (List.length p) + 1 = Z.of_nat (List.length (p ++ [x]))).
    { intros p. rewrite app_length. cbn. lia. }
    assert (Ha : forall p : list Z, (p ++ x :: of_type t tc)%list = ((p ++ [x]) ++ of_type t tc)%list).
    { intros p. rewrite <- app_assoc. reflexivity. }
    assert (t = 1 \/ t = 2 \/ t = 3 \/ t = 4) as [E1|[E1|[E1|E1]]] by lia; subst t;
      rewrite ?(proj1 (Hn _ _ ltac:(discriminate))), ?(proj2 (Hn [] _ ltac:(discriminate))),
        (proj1 (Hy _)), (proj2 (Hy []));
      cbn [sort_coords]; idx4; (rewrite vset_app by reflexivity); cbn [bind]; rewrite Hc; idx4; rewrite Hl, Ha; apply IH.
Qed.
Lemma handler_lem tc : Forall (fun p => 1 <= fst p <= 4) tc ->
  initSeismogramHandler tc = Ok [of_type 1 tc; of_type 2 tc; of_type 3 tc; of_type 4 tc].
Proof.
  intros H. unfold initSeismogramHandler.
  rewrite count_types_lem.
  - cbn [bind map]. rewrite !Z.add_0_l.
    assert (E : forall k, repeat 0 (Z.to_nat (cnt k (map fst tc))) = comp [] k tc).
    { intros k. unfold comp, cnt, of_type. rewrite Nat2Z.id. cbn [app]. f_equal. rewrite map_length.
      clear. induction tc as [|[t x] tc IH]; [reflexivity|]. cbn. destruct (t =? k); cbn; lia. }
    rewrite !E. exact (sort_lem tc [] [] [] [] H).
  - clear - H. induction H; constructor; assumption.
Qed.
Lemma handler_bad tc : Exists (fun p => ~ 1 <= fst p <= 4) tc -> initSeismogramHandler tc = UB.
Proof.
  intros H. unfold initSeismogramHandler.
  assert (K : forall a b c d, count_types (map fst tc) [a; b; c; d] = UB).
  { induction H as [[t x] tc Ht|[t x] tc _ IH]; intros a b c d; cbn [map fst] in *.
    - cbn [count_types]. unfold vget. destruct (Z.ltb_spec (t - 1) 0); [reflexivity|].
      destruct (nth_error [a; b; c; d] (Z.to_nat (t - 1))) eqn:E; [|reflexivity].
      apply (f_equal (fun o => match o with Some _ => true | None => false end)) in E.
      assert ((Z.to_nat (t - 1) < 4)%nat). { change 4%nat with (List.length [a; b; c; d]).
        apply nth_error_Some. destruct (nth_error [a;b;c;d] _); [discriminate|discriminate E]. }
      lia.
    - destruct (Z_lt_dec t 1); [|destruct (Z_lt_dec 4 t)].
      + cbn [count_types]. unfold vget. replace (t - 1 <? 0) with true by lia. reflexivity.
      + cbn [count_types]. unfold vget. destruct (t - 1 <? 0); [reflexivity|].
        rewrite (proj2 (nth_error_None [a; b; c; d] (Z.to_nat (t - 1)))); [reflexivity|]. cbn. lia.
      + assert (t = 1 \/ t = 2 \/ t = 3 \/ t = 4) as [E1|[E1|[E1|E1]]] by lia; subst t;
          cbn [count_types]; idx4; apply IH. }
  rewrite K. reflexivity.
Qed.

(** * Local and global receivers *)
Fixpoint positions (coords : list Z) (isLocal : Z -> bool) (n : Z) : list Z :=
  match coords with
  | [] => []
  | c :: r => if isLocal c then n :: positions r isLocal (n + 1) else positions r isLocal (n + 1)
  end.
Lemma g2l_check_ok coords isLocal size i : Forall (fun c => 0 <= c < size) coords ->
  g2l_check coords isLocal size i = Ok (i + Z.of_nat (List.length (positions coords isLocal 0))).
Proof.
  assert (Hp : forall n m, List.length (positions coords isLocal n) = List.length (positions coords isLocal m)).
  { induction coords as [|c r IH]; intros n m; [reflexivity|]. cbn.
    destruct (isLocal c); cbn; rewrite (IH (n + 1) (m + 1)); reflexivity. }
  intros H. revert i. induction H as [|c r Hc _ IH]; intros i.
  - cbn. f_equal. lia.
  - cbn [g2l_check]. replace ((0 <=? c) && (c <? size)) with true by lia. cbn [assert bind].
    assert (Hp' : List.length (positions r isLocal 1) = List.length (positions r isLocal 0)).
    { specialize (Hp 0 (-1)). cbn in Hp. clear - Hp. revert Hp.
      assert (G : forall n m, List.length (positions r isLocal n) = List.length (positions r isLocal m)).
      { clear. induction r as [|c r IH]; intros n m; [reflexivity|]. cbn.
        destruct (isLocal c); cbn; rewrite (IH (n + 1) (m + 1)); reflexivity. }
      intros _. apply G. }
    rewrite IH.
    + cbn [positions]. destruct (isLocal c); cbn [List.length]; change (0 + 1) with 1; rewrite Hp'; f_equal; lia.
    + clear. induction r as [|c r IH]; intros n m; [reflexivity|]. cbn.
      destruct (isLocal c); cbn; rewrite (IH (n + 1) (m + 1)); reflexivity.
Qed.
Lemma g2l_check_throw coords isLocal size i : Exists (fun c => ~ 0 <= c < size) coords ->
  g2l_check coords isLocal size i = Throw.
Proof.
  intros H. revert i. induction H as [c r Hc|c r _ IH]; intros i; cbn [g2l_check].
  - replace ((0 <=? c) && (c <? size)) with false by lia. reflexivity.
  - destruct ((0 <=? c) && (c <? size)); cbn [assert bind]; [apply IH|reflexivity].
Qed.
Lemma g2l_fill_ok coords isLocal n pre :
  g2l_fill coords isLocal n (Z.of_nat (List.length pre))
    (pre ++ repeat 0 (List.length (positions coords isLocal n))) = Ok (pre ++ positions coords isLocal n)%list.
Proof.
  revert n pre. induction coords as [|c r IH]; intros n pre.
  - reflexivity.
  - cbn [g2l_fill positions]. destruct (isLocal c); [|apply IH].
    cbn [List.length repeat]. rewrite vset_app by reflexivity. cbn [bind].
    specialize (IH (n + 1) (pre ++ [n])%list). rewrite app_length in IH. cbn [List.length] in IH.
    rewrite <- !app_assoc in IH. cbn [app] in IH.
    replace (Z.of_nat (List.length pre + 1)) with (Z.of_nat (List.length pre) + 1) in IH by lia. exact IH.
Qed.
Lemma g2l_lem coords isLocal size : Forall (fun c => 0 <= c < size) coords ->
  Global2Local coords isLocal size = Ok (positions coords isLocal 0).
Proof.
  intros H. unfold Global2Local. rewrite g2l_check_ok by exact H. cbn [bind]. rewrite Z.add_0_l, Nat2Z.id.
  exact (g2l_fill_ok coords isLocal 0 []).
Qed.
Lemma positions_in coords isLocal n i : In i (positions coords isLocal n) <->
  n <= i /\ exists c, nth_error coords (Z.to_nat (i - n)) = Some c /\ isLocal c = true.
Proof.
  revert n. induction coords as [|c r IH]; intros n.
  - cbn. split; [tauto|]. intros (_ & c & E & _). destruct (Z.to_nat (i - n)); discriminate E.
  - assert (Hs : n + 1 <= i -> nth_error (c :: r) (Z.to_nat (i - n)) = nth_error r (Z.to_nat (i - (n + 1)))).
    { intros K. replace (Z.to_nat (i - n)) with (S (Z.to_nat (i - (n + 1)))) by lia. reflexivity. }
    assert (Hin : In i (positions (c :: r) isLocal n) <->
                  (i = n /\ isLocal c = true) \/ In i (positions r isLocal (n + 1))).
    { cbn [positions]. destruct (isLocal c); cbn [In]; split; intuition congruence. }
    rewrite Hin, IH. split.
    + intros [[-> E]|(H1 & d & E & Hd)].
      * split; [lia|]. exists c. replace (Z.to_nat (n - n)) with 0%nat by lia. split; [reflexivity|exact E].
      * split; [lia|]. exists d. rewrite Hs by exact H1. split; assumption.
    + intros (H1 & d & E & Hd). destruct (Z.eq_dec i n) as [->|Hne].
      * left. replace (Z.to_nat (n - n)) with 0%nat in E by lia. inversion E; subst. split; [reflexivity|exact Hd].
      * right. split; [lia|]. exists d. rewrite <- Hs by lia. split; assumption.
Qed.
Lemma positions_sorted coords isLocal n : increasing (positions coords isLocal n).
Proof.
  revert n. induction coords as [|c r IH]; intros n; [constructor|].
  cbn. destruct (isLocal c); [|apply IH]. constructor; [apply IH|].
  apply Forall_forall. intros x Hx. apply positions_in in Hx. lia.
Qed.
Lemma positions_partition coords (owner : Z -> Z) procs n : NoDup procs ->
  (forall c, In c coords -> In (owner c) procs) ->
  Permutation (flat_map (fun p => positions coords (fun c => owner c =? p) n) procs)
              (zseq n (List.length coords)).
Proof.
  intros Hp. revert n. induction coords as [|c r IH]; intros n H.
  - cbn. clear. induction procs as [|p q IH]; [constructor|exact IH].
  - cbn [List.length zseq]. rewrite <- (IH (n + 1)) by (intros d Hd; apply H; right; exact Hd).
    assert (Ho : In (owner c) procs) by (apply H; left; reflexivity). clear IH H.
    induction procs as [|p q IH]; [destruct Ho|]. inversion Hp as [|? ? Hn Hq]; subst.
    cbn [flat_map positions].
    assert (Hno : forall q', ~ In (owner c) q' ->
       flat_map (fun p => if owner c =? p then n :: positions r (fun c => owner c =? p) (n + 1)
                          else positions r (fun c => owner c =? p) (n + 1)) q' =
       flat_map (fun p => positions r (fun c => owner c =? p) (n + 1)) q').
    { clear. induction q' as [|m u IH]; intros K; [reflexivity|]. cbn [flat_map].
      rewrite IH by (intros J; apply K; right; exact J).
      destruct (Z.eqb_spec (owner c) m) as [E|_]; [exfalso; apply K; left; symmetry; exact E|reflexivity]. }
    destruct (Z.eqb_spec (owner c) p) as [E|E].
    + cbn [app]. constructor. apply Permutation_app_head.
      change (fun p0 => positions (c :: r) (fun c0 => owner c0 =? p0) n) with
        (fun p0 => if owner c =? p0 then n :: positions r (fun c => owner c =? p0) (n + 1)
                          else positions r (fun c => owner c =? p0) (n + 1)).
      rewrite Hno by (rewrite E; exact Hn). reflexivity.
    + destruct Ho as [K|K]; [congruence|].
      rewrite (IH Hq K). apply Permutation_sym, Permutation_middle.
Qed.

(** * Polarity *)
Lemma trunc_pos q : (0 <? trunc q) = true <-> (1 <= q)%Q.
Proof.
  unfold trunc. destruct (Qle_bool 0 q) eqn:E.
  - split.
    + intros H. apply Z.ltb_lt in H. pose proof (Qfloor_le q) as K.
      apply Qle_trans with (inject_Z (Qfloor q)); [|exact K]. change 1%Q with (inject_Z 1).
      rewrite <- Zle_Qle. lia.
    + intros H. apply Z.ltb_lt. pose proof (Qfloor_resp_le 1 q H) as K. change (Qfloor 1) with 1 in K. lia.
  - assert (Hq : ~ (0 <= q)%Q). { intros K. apply Qle_bool_iff in K. congruence. }
    split.
    + intros H. apply Z.ltb_lt in H. exfalso. apply Hq.
      apply Qnot_lt_le. intros K. pose proof (Qceiling_lt q) as L.
      assert (Qceiling q <= 0); [|lia].
      pose proof (Qceiling_resp_le q 0 (Qlt_le_weak _ _ K)) as M. exact M.
    + intros H. exfalso. apply Hq. apply Qle_trans with 1%Q; [discriminate|exact H].
Qed.

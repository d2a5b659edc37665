(** Lemmas for C177: the recorded frequencies, the termination of the selection, the list of the supershots. *)
From Coq Require Import Reals Lra Sorted.
From Verif Require Import Base M_Grid M_Common M_Acq M_Freq S_Acq S_Freq L_AcqFile L_Acq L_Acq2 L_Freq.
Open Scope Z_scope.

Section Rec.
  Context {F : Type}.
  Variable rnd : nat -> Z.
  Hypothesis rnd_pos : forall p, 0 <= rnd p.
  Implicit Types (l : list (source F)) (s : source F).

  Definition of_shot l (no : Z) : list (source F) := filter (fun s => Z.abs (sourceNo s) =? no) l.

  Lemma pick_rec fuel fc12 no : forall l p hist jf u l' p' u', 0 <= jf ->
    pick rnd fuel fc12 l no p hist jf u = Ok (l', p', u') ->
    List.length u' = List.length u /\
    (Z.to_nat jf + List.length (of_shot l' no) <= List.length u \/ of_shot l' no = [])%nat /\
    forall d i, nth i u' d =
      if ((Z.to_nat jf <=? i) && (i <? Z.to_nat jf + List.length (of_shot l' no)))%nat
      then nth (i - Z.to_nat jf) (map fc (of_shot l' no)) d else nth i u d.
  Proof using.
    clear rnd_pos. induction l as [|s l IH]; intros p hist jf u l' p' u' Hj H.
    - cbn in H. inversion H; subst. split; [reflexivity|]. split; [right; reflexivity|]. intros d i.
      cbn [of_shot filter List.length]. destruct (Nat.leb_spec (Z.to_nat jf) i); [|reflexivity].
      destruct (Nat.ltb_spec i (Z.to_nat jf + 0)); [lia|reflexivity].
    - cbn [pick] in H. destruct (Z.eqb_spec (Z.abs (sourceNo s)) no) as [E|E].
      + apply bind_ok in H. destruct H as ((ind & p1) & D & H).
        apply bind_ok in H. destruct H as (h & Gh & H). apply bind_ok in H. destruct H as (hist' & Sh & H).
        apply bind_ok in H. destruct H as (f & Gf & H). apply bind_ok in H. destruct H as (u1 & Su & H).
        apply bind_ok in H. destruct H as (((rest & p2) & u2) & R & H). inversion H; subst.
        destruct (IH _ _ (jf + 1) u1 rest p' u' ltac:(lia) R) as (I1 & I2 & I3).
        pose proof (vset_length _ _ _ _ Su) as Lu. destruct (vset_spec _ _ _ _ Su) as [Ju _].
        pose proof (fun d j => vset_get _ _ _ _ d j Su) as Nu.
        unfold of_shot in *. cbn [filter]. replace (Z.abs (sourceNo (tune s f)) =? Z.abs (sourceNo s)) with true
          by (cbn; symmetry; apply Z.eqb_refl).
        replace (Z.to_nat (jf + 1)) with (S (Z.to_nat jf)) in * by lia.
        cbn [List.length map]. split; [lia|]. split.
        { left. destruct I2 as [I2|I2]; [lia|]. rewrite I2. cbn. lia. }
        intros d i. rewrite I3, Nu. set (m := List.length (filter _ rest)) in *.
        destruct (Nat.leb_spec (S (Z.to_nat jf)) i) as [A|A]; cbn [andb].
        * replace (Z.to_nat jf <=? i)%nat with true by (symmetry; apply Nat.leb_le; lia). cbn [andb].
          replace (i <? Z.to_nat jf + S m)%nat with (i <? S (Z.to_nat jf) + m)%nat
            by (f_equal; lia).
          destruct (Nat.ltb_spec i (S (Z.to_nat jf) + m)).
          -- replace (i - Z.to_nat jf)%nat with (S (i - S (Z.to_nat jf))) by lia. reflexivity.
          -- replace (Nat.eqb i (Z.to_nat jf)) with false by (symmetry; apply Nat.eqb_neq; lia). reflexivity.
        * destruct (Nat.eqb_spec i (Z.to_nat jf)) as [->|Hne].
          -- rewrite Nat.leb_refl. replace (Z.to_nat jf <? Z.to_nat jf + S m)%nat with true
               by (symmetry; apply Nat.ltb_lt; lia). cbn [andb].
             rewrite Nat.sub_diag. reflexivity.
          -- replace (Z.to_nat jf <=? i)%nat with false by (symmetry; apply Nat.leb_gt; lia). reflexivity.
      + apply bind_ok in H. destruct H as (((rest & p2) & u2) & R & H). inversion H; subst.
        destruct (IH _ _ jf u rest p' u' Hj R) as (I1 & I2 & I3).
        unfold of_shot in *. cbn [filter]. rewrite (proj2 (Z.eqb_neq _ _) E). auto.
  Qed.
  Lemma pick_rec0 fuel fc12 no l p hist u l' p' u' : pick rnd fuel fc12 l no p hist 0 u = Ok (l', p', u') ->
    u' = map fc (of_shot l' no) ++ skipn (List.length (of_shot l' no)) u /\ List.length u' = List.length u.
  Proof using.
    clear rnd_pos. intros H. destruct (pick_rec _ _ _ _ _ _ _ _ _ _ _ (Z.le_refl 0) H) as (I1 & I2 & I3).
    split; [|exact I1]. set (m := List.length (of_shot l' no)) in *.
    assert (Hm : (m <= List.length u)%nat) by (destruct I2 as [I2|I2]; [cbn in I2; lia|unfold m; rewrite I2; cbn; lia]).
    destruct u' as [|d r] eqn:Eu.
    - assert (List.length u = 0%nat) by (cbn in I1; lia). destruct u; [|discriminate].
      assert (m = 0%nat) by (cbn in Hm; lia). unfold m in *. destruct (of_shot l' no); [reflexivity|discriminate].
    - rewrite <- Eu in *. apply (nth_ext _ _ d d).
      { rewrite app_length, map_length, skipn_length. fold m. lia. }
      intros i Hi. rewrite I3. cbn [Z.to_nat Nat.leb andb Nat.add]. rewrite Nat.sub_0_r.
      destruct (Nat.ltb_spec i m).
      + rewrite app_nth1 by (rewrite map_length; exact H0). reflexivity.
      + rewrite app_nth2; rewrite map_length; fold m; [|lia].
        rewrite <- (firstn_skipn m u) at 1. rewrite app_nth2; rewrite firstn_length; [|lia].
        f_equal. lia.
  Qed.

  (** Later supershots leave the sources of an earlier one alone. *)
  Lemma of_shot_keep l l' no : Forall2 same_but_signal l l' ->
    (forall i s s', nth_error l i = Some s -> nth_error l' i = Some s' -> Z.abs (sourceNo s) = no -> s' = s) ->
    of_shot l' no = of_shot l no.
  Proof using.
    intros H. induction H as [|a b l l' Hab _ IH]; intros K; [reflexivity|].
    unfold of_shot in *. cbn [filter]. rewrite (proj1 Hab).
    rewrite IH by (intros i; apply (K (S i))).
    destruct (Z.eqb_spec (Z.abs (sourceNo a)) no) as [E|E]; [|reflexivity].
    rewrite (K 0%nat a b eq_refl eq_refl E). reflexivity.
  Qed.

  Lemma pick_all_rec fuel fc12 nos : NoDup fc12 -> NoDup nos -> (1 <= List.length fc12)%nat ->
    forall n k l p u l' fcs, 0 <= k -> pick_all rnd fuel fc12 nos n k l p u = Ok (l', fcs) ->
    List.length fcs = n /\
    forall j no, (j < n)%nat -> nth_error nos (Z.to_nat k + j) = Some no ->
      exists v, nth_error fcs j = Some (map fc (of_shot l' no) ++ v) /\
                List.length (map fc (of_shot l' no) ++ v) = List.length u /\
                v = skipn (List.length (of_shot l' no)) (match j with O => u | S j' => nth j' fcs u end).
  Proof using rnd_pos.
    intros ND NN Hn. induction n as [|n IH]; intros k l p u l' fcs Hk H.
    - cbn in H. inversion H; subst. split; [reflexivity|]. intros; lia.
    - cbn [pick_all] in H. apply bind_ok in H. destruct H as (no & Gno & H).
      apply bind_ok in H. destruct H as (((l1 & p1) & u1) & P & H).
      apply bind_ok in H. destruct H as ((l2 & fcs2) & R & H). inversion H; subst. clear H.
      destruct (pick_rec0 _ _ _ _ _ _ _ _ _ _ P) as [E1 L1].
      destruct (IH (k + 1) l1 p1 u1 l' fcs2 ltac:(lia) R) as [I1 I2].
      destruct (pick_all_lem rnd rnd_pos fuel fc12 nos ND NN Hn n (k + 1) l1 p1 u1 l' fcs2 ltac:(lia) R) as ((Q1 & Q2 & _) & _).
      apply vget_inv with (d := no) in Gno. destruct Gno as [G1 G2].
      assert (Gk : nth_error nos (Z.to_nat k) = Some no).
      { rewrite (nth_error_nth' nos no) by lia. f_equal. congruence. }
      replace (Z.to_nat (k + 1)) with (S (Z.to_nat k)) in * by lia.
      split; [cbn; lia|]. intros [|j] no' Hj Hno.
      + rewrite Nat.add_0_r in Hno. assert (no' = no) by congruence. subst no'.
        assert (Ek : of_shot l' no = of_shot l1 no).
        { apply of_shot_keep; [exact Q1|]. intros i s s' Hs Hs' E. apply (Q2 i s s' Hs Hs'). rewrite E.
          intros (x & Hx & Hx'). assert (x = Z.to_nat k); [|lia].
          apply (proj1 (NoDup_nth_error nos) NN); [apply nth_error_Some; congruence|congruence]. }
        rewrite Ek. eexists. split; [cbn; f_equal; exact E1|]. split; [|reflexivity].
        rewrite <- E1. exact L1.
      + destruct (I2 j no' ltac:(lia) ltac:(replace (S (Z.to_nat k) + j)%nat with (Z.to_nat k + S j)%nat by lia; exact Hno))
          as (v & V1 & V2 & V3).
        exists v. split; [exact V1|]. split; [lia|]. rewrite V3. f_equal. destruct j as [|j]; [reflexivity|].
        cbn [nth]. apply nth_indep. lia.
  Qed.

  (** ** Termination *)
  Lemma pick_mono fuel fc12 no c : forall l p hist jf u out, pick rnd fuel fc12 l no p hist jf u = Ok out ->
    pick rnd (fuel + c) fc12 l no p hist jf u = Ok out.
  Proof using.
    clear rnd_pos. induction l as [|s l IH]; intros p hist jf u out H; [exact H|].
    cbn [pick] in *. destruct (Z.abs (sourceNo s) =? no).
    - apply bind_ok in H. destruct H as ((ind & p1) & D & H). rewrite (draw_mono _ _ _ _ _ _ _ c D). cbn [bind].
      apply bind_ok in H. destruct H as (h & Gh & H). rewrite Gh. cbn [bind].
      apply bind_ok in H. destruct H as (hist' & Sh & H). rewrite Sh. cbn [bind].
      apply bind_ok in H. destruct H as (f & Gf & H). rewrite Gf. cbn [bind].
      apply bind_ok in H. destruct H as (u1 & Su & H). rewrite Su. cbn [bind].
      apply bind_ok in H. destruct H as (o & R & H). rewrite (IH _ _ _ _ _ R). exact H.
    - apply bind_ok in H. destruct H as (o & R & H). rewrite (IH _ _ _ _ _ R). exact H.
  Qed.
  Lemma pick_term fc12 no (d : F) : (1 <= List.length fc12)%nat -> fair rnd (Z.of_nat (List.length fc12)) ->
    forall l p hist jf u, List.length hist = List.length fc12 -> 0 <= jf -> zsum hist = jf ->
    jf + Z.of_nat (members l no) <= Z.of_nat (List.length u) ->
    jf + Z.of_nat (members l no) <= Z.of_nat (List.length fc12) ->
    exists fuel out, pick rnd fuel fc12 l no p hist jf u = Ok out.
  Proof using rnd_pos.
    intros Hn Hf. induction l as [|s l IH]; intros p hist jf u Lh Hj Hz Hu Hc.
    - exists 0%nat. eexists. reflexivity.
    - unfold members in *. cbn [pick filter] in *. destruct (Z.eqb_spec (Z.abs (sourceNo s)) no) as [E|E].
      + cbn [List.length] in *.
        destruct (draw_term rnd rnd_pos (Z.of_nat (List.length fc12)) 1 hist p ltac:(lia) ltac:(lia) Hf ltac:(lia)) as (f1 & (ind & p1) & D).
        destruct (draw_lem rnd rnd_pos (Z.of_nat (List.length fc12)) 1 hist ltac:(lia) ltac:(lia) _ _ _ _ D) as [D1 _].
        destruct (vset_some hist ind (nth (Z.to_nat ind) hist 0 + 1) ltac:(lia)) as [hist' Sh].
        destruct (vset_some u jf (nth (Z.to_nat ind) fc12 d) ltac:(lia)) as [u1 Su].
        destruct (IH p1 hist' (jf + 1) u1) as (f2 & ((o1 & o2) & o3) & R).
        * rewrite (vset_length _ _ _ _ Sh). exact Lh.
        * lia.
        * rewrite (vset_zsum _ _ _ _ Sh). lia.
        * rewrite (vset_length _ _ _ _ Su). lia.
        * lia.
        * exists (f1 + f2)%nat. rewrite (draw_mono _ _ _ _ _ _ _ f2 D). cbn [bind].
          rewrite (vget_some hist ind 0) by lia. cbn [bind]. rewrite Sh. cbn [bind].
          rewrite (vget_some fc12 ind d) by lia. cbn [bind]. rewrite Su. cbn [bind].
          rewrite Nat.add_comm. rewrite (pick_mono _ _ _ f1 _ _ _ _ _ _ R). eexists. reflexivity.
      + destruct (IH p hist jf u Lh Hj Hz Hu Hc) as (f2 & ((o1 & o2) & o3) & R).
        exists f2. rewrite R. eexists. reflexivity.
  Qed.
  Lemma members_same l l' no : Forall2 same_but_signal l l' -> members l' no = members l no.
  Proof using.
    intros H. unfold members. induction H as [|a b l l' Hab _ IH]; [reflexivity|]. cbn [filter].
    rewrite (proj1 Hab). destruct (Z.abs (sourceNo a) =? no); cbn [List.length]; congruence.
  Qed.
  Lemma pick_all_mono fuel fc12 nos c : forall n k l p u out, pick_all rnd fuel fc12 nos n k l p u = Ok out ->
    pick_all rnd (fuel + c) fc12 nos n k l p u = Ok out.
  Proof using.
    clear rnd_pos. induction n as [|n IH]; intros k l p u out H; [exact H|]. cbn [pick_all] in *.
    apply bind_ok in H. destruct H as (no & G & H). rewrite G. cbn [bind].
    apply bind_ok in H. destruct H as (((l1 & p1) & u1) & P & H). rewrite (pick_mono _ _ _ c _ _ _ _ _ _ P). cbn [bind].
    apply bind_ok in H. destruct H as ((l2 & f2) & R & H). rewrite (IH _ _ _ _ _ R). exact H.
  Qed.
  Lemma zsum_zero n : zsum (repeat 0 n) = 0.
  Proof using. clear rnd_pos rnd. induction n as [|n IH]; [reflexivity|]. cbn. exact IH. Qed.
  Lemma pick_all_term fc12 (d : F) nos : NoDup fc12 -> (1 <= List.length fc12)%nat ->
    fair rnd (Z.of_nat (List.length fc12)) -> forall n k l p u, 0 <= k ->
    k + Z.of_nat n <= Z.of_nat (List.length nos) ->
    (forall no, (members l no <= List.length u)%nat) -> (List.length u <= List.length fc12)%nat ->
    exists fuel out, pick_all rnd fuel fc12 nos n k l p u = Ok out.
  Proof using rnd_pos.
    intros ND Hn Hf. induction n as [|n IH]; intros k l p u Hk Hl Hm Hu.
    - exists 0%nat. eexists. reflexivity.
    - cbn [pick_all]. set (no := nth (Z.to_nat k) nos 0).
      destruct (pick_term fc12 no d Hn Hf l p (repeat 0 (List.length fc12)) 0 u) as (f1 & ((l1 & p1) & u1) & P).
      { apply repeat_length. } { lia. } { apply zsum_zero. } { specialize (Hm no). lia. } { specialize (Hm no). lia. }
      assert (S1 : Forall2 same_but_signal l l1).
      { eapply pick_lem; [exact rnd_pos|exact ND| | |exact Hn|exact P]; [apply repeat_length|].
        apply Forall_forall. intros x Hx. apply repeat_spec in Hx. lia. }
      destruct (pick_rec0 _ _ _ _ _ _ _ _ _ _ P) as [_ L1].
      destruct (IH (k + 1) l1 p1 u1) as (f2 & (l2 & o2) & R).
      { lia. } { lia. } { intros no'. rewrite (members_same _ _ no' S1), L1. apply Hm. } { lia. }
      exists (f1 + f2)%nat. rewrite (vget_some nos k 0) by lia. cbn [bind]. fold no.
      rewrite (pick_mono _ _ _ f2 _ _ _ _ _ _ P). cbn [bind]. rewrite Nat.add_comm.
      rewrite (pick_all_mono _ _ _ f1 _ _ _ _ _ _ R). eexists. reflexivity.
  Qed.
End Rec.

Section Lines.
  Context {F : Type}.
  Implicit Types (l : list (source F)) (s : source F).

  (** ** The list of the supershots *)
  Lemma shots_of_in no x : forall l a, In x (shots_of l no a) <->
    exists i s, nth_error l i = Some s /\ Z.abs (sourceNo s) = no /\ x = a + Z.of_nat i + 1.
  Proof using.
    induction l as [|s l IH]; intros a; cbn [shots_of].
    - split; [intros []|]. intros (i & s & H & _). destruct i; discriminate.
    - assert (T : In x (shots_of l no (a + 1)) <-> exists i s0, nth_error (s :: l) (S i) = Some s0 /\
                   Z.abs (sourceNo s0) = no /\ x = a + Z.of_nat (S i) + 1).
      { rewrite IH. split; intros (i & s0 & H1 & H2 & H3); exists i, s0; repeat split; auto; lia. }
      destruct (Z.eqb_spec (Z.abs (sourceNo s)) no) as [E|E]; cbn [In]; rewrite T; clear T IH; split.
      + intros [<-|(i & s0 & H)]; [exists 0%nat, s; repeat split; auto; lia|exists (S i), s0; exact H].
      + intros ([|i] & s0 & H1 & H2 & H3); [left; lia|right; exists i, s0; auto].
      + intros (i & s0 & H). exists (S i), s0. exact H.
      + intros ([|i] & s0 & H1 & H2 & H3); [inversion H1; subst; contradiction|exists i, s0; auto].
  Qed.
  Lemma shots_of_sorted no : forall l a, StronglySorted Z.lt (shots_of l no a).
  Proof using.
    induction l as [|s l IH]; intros a; cbn [shots_of]; [constructor|].
    destruct (Z.abs (sourceNo s) =? no); [|apply IH]. constructor; [apply IH|].
    apply Forall_forall. intros x Hx. apply shots_of_in in Hx. destruct Hx as (i & _ & _ & _ & ->). lia.
  Qed.
  Lemma skipn_tail {A} (v : list A) i a r : skipn i v = a :: r -> r = skipn (1 + i) v.
  Proof using.
    revert v. induction i as [|i IH]; intros [|b v] H; try discriminate.
    - cbn in H. inversion H; subst. reflexivity.
    - cbn [skipn] in H. apply (IH v H).
  Qed.
  Lemma lines_ok nos l : forall n k, 0 <= k -> k + Z.of_nat n <= Z.of_nat (List.length nos) ->
    encode_lines nos l n k = Ok (map (fun no => (no, shots_of l no 0)) (firstn n (skipn (Z.to_nat k) nos))).
  Proof using.
    induction n as [|n IH]; intros k Hk Hl; [reflexivity|]. cbn [encode_lines].
    destruct (skipn (Z.to_nat k) nos) as [|no r] eqn:E.
    { apply (f_equal (@List.length Z)) in E. rewrite skipn_length in E. cbn in E. lia. }
    assert (N : vget nos k = Ok no).
    { rewrite (vget_some nos k 0) by lia. f_equal. rewrite <- (firstn_skipn (Z.to_nat k) nos), E.
      rewrite app_nth2; rewrite firstn_length; [|lia]. replace (_ - _)%nat with 0%nat by lia. reflexivity. }
    rewrite N. cbn [bind]. rewrite IH by lia. cbn [bind firstn map].
    replace (skipn (Z.to_nat (k + 1)) nos) with r; [reflexivity|].
    replace (Z.to_nat (k + 1)) with (1 + Z.to_nat k)%nat by lia.
    exact (skipn_tail _ _ _ _ E).
  Qed.
  Lemma lines_ub nos l : forall n k, 0 <= k <= Z.of_nat (List.length nos) -> Z.of_nat (List.length nos) < k + Z.of_nat n ->
    encode_lines nos l n k = UB.
  Proof using.
    induction n as [|n IH]; intros k Hk Hl; [lia|]. cbn [encode_lines].
    destruct (Z.eq_dec k (Z.of_nat (List.length nos))) as [->|Hne].
    - unfold vget. replace (_ <? 0) with false by lia. rewrite Nat2Z.id.
      rewrite (proj2 (nth_error_None nos _)) by lia. reflexivity.
    - rewrite (vget_some nos k 0) by lia. cbn [bind]. rewrite IH by lia. reflexivity.
  Qed.
End Lines.

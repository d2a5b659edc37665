(** Lemmas for C35 (shot thinning). *)
From Coq Require Import Ascii String QArith Qround Permutation Sorted.
From Verif Require Import Base M_Grid M_Acq S_Acq L_AcqFile L_Acq L_Acq2.
Open Scope Z_scope.

(** * Rounding *)
Lemma round_nonneg q : (0 <= q)%Q -> round_half q = Qfloor (q + (1 # 2)).
Proof. intros H. unfold round_half. apply Qle_bool_iff in H. rewrite H. reflexivity. Qed.
Lemma round_mono p q : (0 <= p)%Q -> (p <= q)%Q -> round_half p <= round_half q.
Proof.
  intros Hp Hq. rewrite !round_nonneg; [|apply Qle_trans with p; assumption|assumption].
  apply Qfloor_resp_le. apply Qplus_le_compat; [assumption|apply Qle_refl].
Qed.
Lemma floor_add a z : Qfloor (a + inject_Z z) = Qfloor a + z.
Proof.
  pose proof (Qfloor_le a) as H1. pose proof (Qlt_floor a) as H2.
  pose proof (Qfloor_le (a + inject_Z z)) as H3. pose proof (Qlt_floor (a + inject_Z z)) as H4.
  assert (A : (inject_Z (Qfloor a + z) < inject_Z (Qfloor (a + inject_Z z) + 1))%Q).
  { apply Qle_lt_trans with (a + inject_Z z)%Q; [|exact H4].
    rewrite inject_Z_plus. apply Qplus_le_compat; [exact H1|apply Qle_refl]. }
  assert (B : (inject_Z (Qfloor (a + inject_Z z)) < inject_Z (Qfloor a + 1 + z))%Q).
  { apply Qle_lt_trans with (a + inject_Z z)%Q; [exact H3|].
    rewrite inject_Z_plus. apply Qplus_lt_le_compat; [exact H2|apply Qle_refl]. }
  rewrite <- Zlt_Qlt in A, B. lia.
Qed.
Lemma round_add p q z : (0 <= p)%Q -> 0 <= z -> (p + inject_Z z <= q)%Q -> round_half p + z <= round_half q.
Proof.
  intros Hp Hz Hq.
  assert (H0 : (0 <= inject_Z z)%Q) by (change 0%Q with (inject_Z 0); rewrite <- Zle_Qle; exact Hz).
  assert (Hpz : (0 <= p + inject_Z z)%Q).
  { apply Qle_trans with (0 + 0)%Q; [discriminate|]. apply Qplus_le_compat; assumption. }
  apply Z.le_trans with (round_half (p + inject_Z z)).
  - rewrite !round_nonneg by assumption. rewrite <- floor_add. apply Qfloor_resp_le.
    assert (E : (p + (1 # 2) + inject_Z z == p + inject_Z z + (1 # 2))%Q) by ring. rewrite E. apply Qle_refl.
  - apply round_mono; assumption.
Qed.
Lemma round_int z : 0 <= z -> round_half (inject_Z z) = z.
Proof.
  intros Hz. rewrite round_nonneg.
  - assert (E : (inject_Z z + (1 # 2) == (1 # 2) + inject_Z z)%Q) by ring.
    rewrite (Qfloor_comp _ _ E). rewrite floor_add. reflexivity.
  - change 0%Q with (inject_Z 0). rewrite <- Zle_Qle. exact Hz.
Qed.
Lemma round_comp p q : (p == q)%Q -> round_half p = round_half q.
Proof.
  intros E. unfold round_half.
  assert (Eb : Qle_bool 0 p = Qle_bool 0 q).
  { destruct (Qle_bool 0 p) eqn:A, (Qle_bool 0 q) eqn:B; try reflexivity.
    - apply Qle_bool_iff in A. rewrite E in A. apply Qle_bool_iff in A. congruence.
    - apply Qle_bool_iff in B. rewrite <- E in B. apply Qle_bool_iff in B. congruence. }
  rewrite Eb. destruct (Qle_bool 0 q).
  - apply Qfloor_comp. rewrite E. reflexivity.
  - apply Qceiling_comp. rewrite E. reflexivity.
Qed.

Section T.
  Variable len : list Z.
  Variable shotIncr DH : Q.
  Variable L0 N : Z.
  Hypothesis DHpos : (0 < DH)%Q.
  Hypothesis incr_pos : (DH < shotIncr)%Q.
  Hypothesis N_len : Z.of_nat (List.length len) = N.

  Local Notation step := (incr_step shotIncr DH).
  Local Notation loop := (thin_loop len shotIncr DH L0 N).
  Local Notation at_ := (fun i => nth (Z.to_nat i) len 0).

  Lemma ratio_nonneg k : 0 <= k -> (0 <= shotIncr * inject_Z (k + 1) / DH)%Q.
  Proof. clear N_len L0 N len.
    intros Hk. apply Qle_shift_div_l; [exact DHpos|]. rewrite Qmult_0_l.
    apply Qmult_le_0_compat.
    - apply Qlt_le_weak, Qlt_trans with DH; assumption.
    - change 0%Q with (inject_Z 0). rewrite <- Zle_Qle. lia.
  Qed.
  Lemma step_gap k G : 0 <= k -> 0 <= G -> (inject_Z G * DH <= shotIncr)%Q -> step k + G <= step (k + 1).
  Proof. clear N_len L0 N len.
    intros Hk HG H. unfold incr_step. apply round_add; [apply ratio_nonneg; exact Hk|exact HG|].
    assert (E : (shotIncr * inject_Z (k + 1 + 1) / DH == shotIncr * inject_Z (k + 1) / DH + shotIncr / DH)%Q).
    { rewrite (inject_Z_plus (k + 1) 1). field. intros K. rewrite K in DHpos. apply (Qlt_irrefl 0). exact DHpos. }
    rewrite E. apply Qplus_le_compat; [apply Qle_refl|].
    apply Qle_shift_div_l; [exact DHpos|exact H].
  Qed.
  Lemma step_mono k : 0 <= k -> 0 <= step k /\ step k <= step (k + 1).
  Proof. clear N_len L0 N len.
    intros Hk. split.
    - unfold incr_step. rewrite <- (round_int 0) at 1 by lia.
      apply round_mono; [apply Qle_refl|apply ratio_nonneg; exact Hk].
    - pose proof (step_gap k 0 Hk ltac:(lia)) as K. rewrite Z.add_0_r in K. apply K.
      rewrite Qmult_0_l. apply Qlt_le_weak, Qlt_trans with DH; assumption.
  Qed.

  (** Kept shots form an increasing list. *)
  Definition good (kept : list Z) (n shotInd t : Z) : Prop :=
    exists ks last, kept = (ks ++ [last])%list /\ Z.of_nat (List.length kept) = n + 1 /\
      increasing kept /\ 0 <= last <= shotInd + 1 /\ last < N /\ hd 0 kept = 0 /\
      t <= L0 + step n /\
      (last = shotInd + 1 -> at_ shotInd <= t -> at_ (shotInd + 1) - t <= t - at_ shotInd).

  Lemma sorted_snoc ks last x : increasing (ks ++ [last]) -> last < x -> increasing ((ks ++ [last]) ++ [x]).
  Proof.
    intros H Hx. unfold increasing in *.
    assert (A : Forall (fun y => y <= last) (ks ++ [last])).
    { clear Hx x. induction ks as [|k ks IH]; cbn in *.
      - constructor; [lia|constructor].
      - inversion H as [|? ? H1 H2]; subst. specialize (IH H1). constructor; [|exact IH].
        rewrite Forall_forall in H2. specialize (H2 last ltac:(apply in_or_app; right; left; reflexivity)). lia. }
    revert H A. generalize (ks ++ [last])%list. intros l. induction l as [|y l IH]; intros H A; cbn.
    - repeat constructor.
    - inversion H as [|? ? H1 H2]; subst. inversion A as [|? ? A1 A2]; subst. constructor; [apply IH; assumption|].
      apply Forall_app. split; [exact H2|]. constructor; [lia|constructor].
  Qed.
  Lemma last_get (ks : list Z) last n : Z.of_nat (List.length (ks ++ [last])) = n + 1 -> vget (ks ++ [last]) n = Ok last.
  Proof.
    clear. intros H. rewrite app_length in H. cbn in H. replace n with (Z.of_nat (List.length ks)) by lia.
    apply vget_ok. rewrite nth_error_app2 by lia. rewrite Nat.sub_diag. reflexivity.
  Qed.
  Lemma hd_app ks (last x : Z) : hd 0 ((ks ++ [last]) ++ [x]) = hd 0 (ks ++ [last]).
  Proof. clear. destruct ks; reflexivity. Qed.

  Lemma thin_increasing fuel : forall shotInd n t kept out,
    0 <= shotInd -> 0 <= n -> good kept n shotInd t -> loop fuel shotInd n t kept = Ok out ->
    increasing out /\ hd 0 out = 0 /\ out <> [] /\ Forall (fun i => 0 <= i < N) out.
  Proof.
    induction fuel as [|fuel IH]; intros shotInd n t kept out Hs Hn Hg H; [discriminate|].
    pose proof Hg as (ks & last & Ek & El & Hinc & Hl & HlN & Hhd & Ht & Hnear).
    assert (Hfin : forall k', increasing k' -> hd 0 k' = 0 -> k' <> [] -> (forall x, In x k' -> x < N) ->
              increasing k' /\ hd 0 k' = 0 /\ k' <> [] /\ Forall (fun i => 0 <= i < N) k').
    { intros k' A1 A2 A3 A4. repeat split; try assumption. apply Forall_forall. intros x Hx.
      split; [|apply A4; exact Hx]. destruct k' as [|y k']; [contradiction|]. cbn in A2. subst y.
      unfold increasing in A1. inversion A1 as [|? ? _ A5]; subst. destruct Hx as [<-|Hx]; [lia|].
      rewrite Forall_forall in A5. specialize (A5 x Hx). lia. }
    assert (Hlt : forall x, In x kept -> x <= last).
    { subst kept. clear - Hinc. intros x Hx. apply in_app_iff in Hx. destruct Hx as [Hx|[<-|[]]]; [|lia].
      unfold increasing in Hinc. induction ks as [|k ks IH]; [destruct Hx|]. cbn in Hinc.
      inversion Hinc as [|? ? H1 H2]; subst. destruct Hx as [<-|Hx]; [|apply IH; assumption].
      rewrite Forall_forall in H2. specialize (H2 last ltac:(apply in_or_app; right; left; reflexivity)). lia. }
    cbn [thin_loop] in H. destruct (Z.ltb_spec shotInd (N - 1)) as [Hlt1|Hge].
    - rewrite (vget_some len shotInd 0) in H by lia. cbn [bind] in H.
      rewrite (vget_some len (shotInd + 1) 0) in H by lia. cbn [bind] in H.
      rewrite Ek in H. rewrite last_get in H by (rewrite <- Ek; exact El). cbn [bind] in H.
      set (a := nth (Z.to_nat shotInd) len 0) in *. set (b := nth (Z.to_nat (shotInd + 1)) len 0) in *.
      pose proof (step_mono n Hn) as [Sn1 Sn2].
      destruct ((a <=? t) && (t <=? b)) eqn:Ein.
      + destruct (negb (last =? shotInd) && (Z.abs (t - a) <? Z.abs (t - b))) eqn:E1.
        { apply IH in H; [exact H|lia|lia|].
          exists (ks ++ [last])%list, shotInd. split; [reflexivity|].
          assert (last < shotInd). { assert (last <> shotInd + 1 \/ last = shotInd + 1) as [K|K] by lia; [lia|].
            pose proof (Hnear K ltac:(lia)). lia. }
          split; [rewrite app_length, <- Ek; cbn; lia|].
          split; [apply sorted_snoc; [rewrite <- Ek; exact Hinc|lia]|].
          split; [lia|]. split; [lia|]. split; [rewrite hd_app, <- Ek; exact Hhd|].
          split; [lia|]. lia. }
        destruct (negb (last =? shotInd + 1) && (Z.abs (t - b) <=? Z.abs (t - a))) eqn:E2.
        { apply IH in H; [exact H|lia|lia|].
          exists (ks ++ [last])%list, (shotInd + 1). split; [reflexivity|].
          split; [rewrite app_length, <- Ek; cbn; lia|].
          split; [apply sorted_snoc; [rewrite <- Ek; exact Hinc|lia]|].
          split; [lia|]. split; [lia|]. split; [rewrite hd_app, <- Ek; exact Hhd|].
          split; [lia|]. intros _ _. fold a b. lia. }
        { rewrite <- Ek in H. apply IH in H; [exact H|lia|lia|].
          exists ks, last. split; [exact Ek|]. split; [exact El|]. split; [exact Hinc|].
          split; [lia|]. split; [lia|]. split; [exact Hhd|]. split; [lia|].
          intros K K'. fold a in K' |- *. fold b. pose proof (Hnear K ltac:(lia)). lia. }
      + destruct ((shotInd =? N - 2) && negb (last =? shotInd + 1) && (Z.abs (t - b) <? Z.abs (b - a))) eqn:E1.
        { destruct fuel as [|fuel]; [discriminate|]. cbn [thin_loop] in H.
          replace (shotInd + 1 <? N - 1) with false in H by lia. inversion H; subst out.
          apply Hfin.
          - apply sorted_snoc; [rewrite <- Ek; exact Hinc|lia].
          - rewrite hd_app, <- Ek; exact Hhd.
          - destruct ks; discriminate.
          - intros x Hx. rewrite <- Ek in Hx. apply in_app_iff in Hx. destruct Hx as [Hx|[<-|[]]]; [|lia].
            specialize (Hlt x Hx). lia. }
        { rewrite <- Ek in H. apply IH in H; [exact H|lia|lia|].
          exists ks, last. split; [exact Ek|]. split; [exact El|]. split; [exact Hinc|].
          split; [lia|]. split; [lia|]. split; [exact Hhd|]. split; [lia|]. lia. }
    - inversion H; subst out. apply Hfin; [exact Hinc|exact Hhd|subst kept; destruct ks; discriminate|].
      intros x Hx. specialize (Hlt x Hx). lia.
  Qed.

  (** Termination when the shots are in ascending order at most the increment apart. *)
  Variable G : Z.
  Hypothesis G_pos : 1 <= G.
  Hypothesis G_incr : (inject_Z G * DH <= shotIncr)%Q.
  Hypothesis gaps : forall i, 0 <= i < N - 1 -> 0 <= at_ (i + 1) - at_ i <= G.

  (** the last kept shot is not far above the previous target *)
  Definition close (kept : list Z) (n shotInd t : Z) : Prop :=
    exists last, 2 * at_ last - G <= 2 * (t - G) /\ t = L0 + step n /\
      vget kept n = Ok last /\ 0 <= last <= shotInd + 1 /\ last < N.

  Lemma thin_terminates : forall m shotInd n t kept,
    0 <= shotInd <= N - 1 -> 0 <= n -> close kept n shotInd t -> Z.of_nat (List.length kept) = n + 1 ->
    (forall last, vget kept n = Ok last -> 2 * N - shotInd - last <= Z.of_nat m) ->
    exists fuel out, loop fuel shotInd n t kept = Ok out.
  Proof.
    induction m as [|m IH]; intros shotInd n t kept Hs Hn (last & Hc & Et & Hget & Hl & HlN) Lk Hm.
    - specialize (Hm last Hget). lia.
    - specialize (Hm last Hget).
      destruct (Z.eq_dec shotInd (N - 1)) as [->|Hne].
      { exists 1%nat, kept. cbn [thin_loop]. replace (N - 1 <? N - 1) with false by lia. reflexivity. }
      pose proof (gaps shotInd ltac:(lia)) as Hgap.
      set (a := nth (Z.to_nat shotInd) len 0) in *. set (b := nth (Z.to_nat (shotInd + 1)) len 0) in *.
      pose proof (step_gap n G Hn ltac:(lia) G_incr) as Hstep.
      assert (Hunf : forall fuel, loop (S fuel) shotInd n t kept =
          if (a <=? t) && (t <=? b) then
            let '(kept', n') :=
              if negb (last =? shotInd) && (Z.abs (t - a) <? Z.abs (t - b))
              then ((kept ++ [shotInd])%list, n + 1)
              else if negb (last =? shotInd + 1) && (Z.abs (t - b) <=? Z.abs (t - a))
              then ((kept ++ [shotInd + 1])%list, n + 1) else (kept, n) in
            loop fuel shotInd n' (L0 + step n') kept'
          else if (shotInd =? N - 2) && negb (last =? shotInd + 1) && (Z.abs (t - b) <? Z.abs (b - a))
          then loop fuel (shotInd + 1) n t (kept ++ [shotInd + 1])
          else loop fuel (shotInd + 1) n t kept).
      { intros fuel. cbn [thin_loop]. replace (shotInd <? N - 1) with true by lia.
        rewrite (vget_some len shotInd 0) by lia. cbn [bind].
        rewrite (vget_some len (shotInd + 1) 0) by lia. cbn [bind]. rewrite Hget. reflexivity. }
      assert (Hsnoc : forall x, vget (kept ++ [x]) (n + 1) = Ok x).
      { intros x. apply last_get. rewrite app_length. cbn [List.length]. lia. }
      destruct ((a <=? t) && (t <=? b)) eqn:Ein.
      + (* a shot is pushed *)
        destruct (negb (last =? shotInd) && (Z.abs (t - a) <? Z.abs (t - b))) eqn:E1.
        { assert (Hlast : last <> shotInd + 1).
          { intros ->. fold b in Hc. lia. }
          destruct (IH shotInd (n + 1) (L0 + step (n + 1)) (kept ++ [shotInd])%list) as (fuel & out & Ho); try lia.
          - exists shotInd. fold a. split; [lia|]. split; [reflexivity|]. split; [apply Hsnoc|]. lia.
          - rewrite app_length. cbn [List.length]. lia.
          - intros l' E'. rewrite Hsnoc in E'. inversion E'; subst l'. lia.
          - exists (S fuel), out. rewrite Hunf. exact Ho. }
        destruct (negb (last =? shotInd + 1) && (Z.abs (t - b) <=? Z.abs (t - a))) eqn:E2.
        { destruct (IH shotInd (n + 1) (L0 + step (n + 1)) (kept ++ [shotInd + 1])%list) as (fuel & out & Ho); try lia.
          - exists (shotInd + 1). fold b. split; [lia|]. split; [reflexivity|]. split; [apply Hsnoc|]. lia.
          - rewrite app_length. cbn [List.length]. lia.
          - intros l' E'. rewrite Hsnoc in E'. inversion E'; subst l'. lia.
          - exists (S fuel), out. rewrite Hunf. exact Ho. }
        exfalso. assert (last = shotInd \/ last = shotInd + 1) as [-> | ->] by lia.
        * fold a in Hc. lia.
        * fold b in Hc. lia.
      + destruct ((shotInd =? N - 2) && negb (last =? shotInd + 1) && (Z.abs (t - b) <? Z.abs (b - a))) eqn:E1.
        * exists 2%nat. eexists. rewrite Hunf. cbn [thin_loop].
          replace (shotInd + 1 <? N - 1) with false by lia. reflexivity.
        * destruct (IH (shotInd + 1) n t kept) as (fuel & out & Ho); try lia.
          { exists last. split; [exact Hc|]. split; [exact Et|]. split; [exact Hget|]. lia. }
          { intros l' E'. rewrite Hget in E'. inversion E'; subst l'. lia. }
          exists (S fuel), out. rewrite Hunf. exact Ho.
  Qed.
End T.

Lemma thin_loop_mono len shotIncr DH L0 N k fuel : forall shotInd n t kept out,
  thin_loop len shotIncr DH L0 N fuel shotInd n t kept = Ok out ->
  thin_loop len shotIncr DH L0 N (fuel + k) shotInd n t kept = Ok out.
Proof.
  induction fuel as [|fuel IH]; intros shotInd n t kept out H; [discriminate|].
  cbn [thin_loop Nat.add] in *. destruct (shotInd <? N - 1); [|exact H].
  destruct (vget len shotInd) as [a| | |]; cbn [bind] in *; try discriminate.
  destruct (vget len (shotInd + 1)) as [b| | |]; cbn [bind] in *; try discriminate.
  destruct (vget kept n) as [last| | |]; cbn [bind] in *; try discriminate.
  destruct ((a <=? t) && (t <=? b)).
  - destruct (if negb (last =? shotInd) && (Z.abs (t - a) <? Z.abs (t - b))
              then ((kept ++ [shotInd])%list, n + 1)
              else if negb (last =? shotInd + 1) && (Z.abs (t - b) <=? Z.abs (t - a))
                   then ((kept ++ [shotInd + 1])%list, n + 1) else (kept, n)) as [kept' n'].
    apply IH. exact H.
  - destruct (_ && _ && _); apply IH; exact H.
Qed.

Lemma source_line_length {F} (all : list (source F)) : source_line all <> [] ->
  List.length (source_line all) = List.length all.
Proof.
  unfold source_line. destruct all as [|s0 [|s1 r]]; try contradiction.
  destruct (_ <? _); [intros _; apply map_length|]. destruct (_ <? _); [intros _; apply map_length|contradiction].
Qed.

Lemma picks {F} (all : list (source F)) inds out :
  (fix go (l : list Z) : res (list (source F)) :=
     match l with [] => Ok [] | i :: r => s <- vget all i ;; t <- go r ;; Ok (s :: t) end) inds = Ok out ->
  picked all inds out.
Proof.
  revert out. induction inds as [|i r IH]; intros out H.
  - inversion H; subst. constructor.
  - apply bind_ok in H. destruct H as (s & Es & H). apply bind_ok in H. destruct H as (t & Et & H).
    inversion H; subst. constructor; [|apply IH; exact Et].
    unfold vget in Es. destruct (Z.ltb_spec i 0); [discriminate|].
    destruct (nth_error all (Z.to_nat i)) eqn:E; [|discriminate]. inversion Es; subst. split; [lia|reflexivity].
Qed.
Lemma picks_ex {F} (all : list (source F)) inds : Forall (fun i => 0 <= i < Z.of_nat (List.length all)) inds ->
  exists out, (fix go (l : list Z) : res (list (source F)) :=
     match l with [] => Ok [] | i :: r => s <- vget all i ;; t <- go r ;; Ok (s :: t) end) inds = Ok out.
Proof.
  induction 1 as [|i r Hi _ (out & IH)].
  - exists []. reflexivity.
  - destruct (nth_error all (Z.to_nat i)) as [s|] eqn:E.
    + exists (s :: out). unfold vget at 1. replace (i <? 0) with false by lia. rewrite E. cbn [bind].
      rewrite IH. reflexivity.
    + apply nth_error_None in E. lia.
Qed.
Lemma picked_all {A} (all : list A) : picked all (zseq 0 (List.length all)) all.
Proof.
  assert (K : forall pre l : list A, picked (pre ++ l) (zseq (Z.of_nat (List.length pre)) (List.length l)) l).
  { intros pre l. revert pre. induction l as [|a l IH]; intros pre; [constructor|].
    cbn [List.length zseq]. constructor.
    - split; [lia|]. rewrite Nat2Z.id, nth_error_app2, Nat.sub_diag by lia. reflexivity.
    - specialize (IH (pre ++ [a])%list). rewrite <- app_assoc in IH. cbn [app] in IH.
      rewrite app_length in IH. cbn [List.length] in IH.
      replace (Z.of_nat (List.length pre) + 1) with (Z.of_nat (List.length pre + 1)) by lia. exact IH. }
  exact (K [] all).
Qed.
Lemma zseq_increasing s n : increasing (zseq s n).
Proof.
  revert s. induction n as [|n IH]; intros s; [constructor|]. cbn [zseq]. constructor; [apply IH|].
  apply Forall_forall. intros x Hx. apply zseq_in in Hx. lia.
Qed.

Lemma not_le_lt p q : Qle_bool p q = false -> (q < p)%Q.
Proof.
  intros H. apply Qnot_le_lt. intros K. apply Qle_bool_iff in K. congruence.
Qed.

(** A returned selection is a subsequence of the shots that starts with the first one. *)
Lemma thin_lem {F} fuel (all : list (source F)) shotIncr DH inds out : all <> [] -> (0 < DH)%Q ->
  thin fuel all shotIncr DH = Ok (inds, out) ->
  increasing inds /\ hd 0 inds = 0 /\ inds <> [] /\ picked all inds out.
Proof.
  intros Hall HD H. unfold thin in H.
  destruct ((1 <? Z.of_nat (List.length all)) && negb (Qle_bool shotIncr DH)) eqn:E.
  - apply andb_prop in E. destruct E as [E1 E2]. apply negb_true_iff, not_le_lt in E2.
    apply bind_ok in H. destruct H as (l0 & El & H). apply bind_ok in H. destruct H as (kept & Ek & H).
    apply bind_ok in H. destruct H as (st & Es & H). inversion H; subst inds out.
    assert (Hn : source_line all <> []). { intros K. rewrite K in El. discriminate El. }
    pose proof (source_line_length all Hn) as L.
    destruct (thin_increasing (source_line all) shotIncr DH l0 _ HD E2 (f_equal Z.of_nat L) fuel 0 0 l0 [0] kept)
      as (A1 & A2 & A3 & A4); try lia; try exact Ek.
    { exists [], 0. split; [reflexivity|]. split; [reflexivity|].
      split; [repeat constructor|]. split; [lia|]. split; [lia|]. split; [reflexivity|].
      pose proof (step_mono shotIncr DH HD E2 0 ltac:(lia)).
      split; lia. }
    split; [exact A1|]. split; [exact A2|]. split; [exact A3|]. apply picks. exact Es.
  - inversion H; subst. split; [apply zseq_increasing|]. destruct out as [|s r]; [contradiction|].
    split; [reflexivity|]. split; [discriminate|]. apply picked_all.
Qed.

(** Enough fuel exists when the shots ascend along the line with gaps not above the increment. *)
Lemma thin_term_lem {F} (all : list (source F)) shotIncr DH G : (0 < DH)%Q -> 1 <= G ->
  (inject_Z G * DH <= shotIncr)%Q -> source_line all <> [] ->
  (forall i a b, nth_error (source_line all) i = Some a -> nth_error (source_line all) (S i) = Some b ->
     0 <= b - a <= G) ->
  exists fuel out, forall k, thin (fuel + k) all shotIncr DH = Ok out.
Proof.
  intros HD HG HG' Hl Hgap. unfold thin.
  destruct ((1 <? Z.of_nat (List.length all)) && negb (Qle_bool shotIncr DH)) eqn:E.
  2:{ exists 0%nat. eexists. intros k. reflexivity. }
  apply andb_prop in E. destruct E as [E1 E2]. apply negb_true_iff, not_le_lt in E2.
  pose proof (source_line_length all Hl) as L.
  destruct (source_line all) as [|l0 len'] eqn:El; [contradiction|]. set (len := l0 :: len') in *.
  set (N := Z.of_nat (List.length all)) in *. assert (HN : Z.of_nat (List.length len) = N) by (unfold N; lia).
  change (vget len 0) with (Ok l0). cbn [bind].
  assert (Hg : forall i, 0 <= i < N - 1 -> 0 <= nth (Z.to_nat (i + 1)) len 0 - nth (Z.to_nat i) len 0 <= G).
  { intros i Hi. apply (Hgap (Z.to_nat i)).
    - apply nth_error_nth'. lia.
    - replace (S (Z.to_nat i)) with (Z.to_nat (i + 1)) by lia. apply nth_error_nth'. lia. }
  pose proof (step_gap shotIncr DH HD E2 0 G ltac:(lia) ltac:(lia) HG') as S1.
  change (0 + 1) with 1 in S1.
  assert (S0 : G <= incr_step shotIncr DH 0).
  { unfold incr_step. rewrite <- (round_int G) at 1 by lia. apply round_mono.
    - change 0%Q with (inject_Z 0). rewrite <- Zle_Qle. lia.
    - apply Qle_shift_div_l; [exact HD|]. change (inject_Z (0 + 1)) with 1%Q. rewrite Qmult_1_r. exact HG'. }
  assert (Hrun : exists fuel out, thin_loop len shotIncr DH l0 N fuel 0 0 l0 [0] = Ok out).
  { pose proof (Hg 0 ltac:(lia)) as Hg0.
    change (nth (Z.to_nat 0) len 0) with l0 in Hg0. change (Z.to_nat (0 + 1)) with 1%nat in Hg0.
    assert (Hunf : forall fuel, thin_loop len shotIncr DH l0 N (S fuel) 0 0 l0 [0] =
       let b := nth 1 len 0 in
       if l0 =? b then thin_loop len shotIncr DH l0 N fuel 0 1 (l0 + incr_step shotIncr DH 1) [0; 1]
       else thin_loop len shotIncr DH l0 N fuel 0 0 (l0 + incr_step shotIncr DH 0) [0]).
    { intros fuel. cbn [thin_loop]. replace (0 <? N - 1) with true by lia.
      change (vget len 0) with (Ok l0). cbn [bind].
      rewrite (vget_some len (0 + 1) 0) by lia. cbn [bind]. change (Z.to_nat (0 + 1)) with 1%nat.
      change (vget [0] 0) with (Ok 0). cbn [bind]. cbv zeta.
      replace ((l0 <=? l0) && (l0 <=? nth 1 len 0)) with true by lia. cbn [Z.eqb negb andb Z.add].
      destruct (Z.eqb_spec l0 (nth 1 len 0)) as [Eb|Eb].
      - replace (Z.abs (l0 - nth 1 len 0) <=? Z.abs (l0 - l0)) with true by lia. reflexivity.
      - replace (Z.abs (l0 - nth 1 len 0) <=? Z.abs (l0 - l0)) with false by lia. reflexivity. }
    destruct (Z.eqb_spec l0 (nth 1 len 0)) as [Eb|Eb].
    - destruct (thin_terminates len shotIncr DH l0 N HD E2 HN G HG HG' Hg (Z.to_nat (2 * N)) 0 1
        (l0 + incr_step shotIncr DH 1) [0; 1]) as (fuel & out & Ho); try lia.
      + exists 1. change (Z.to_nat 1) with 1%nat. split; [lia|]. split; [reflexivity|]. split; [reflexivity|]. lia.
      + reflexivity.
      + intros last E. change (vget [0; 1] 1) with (Ok 1) in E. inversion E. lia.
      + exists (S fuel), out. rewrite Hunf. cbv zeta. replace (l0 =? nth 1 len 0) with true by lia. exact Ho.
    - destruct (thin_terminates len shotIncr DH l0 N HD E2 HN G HG HG' Hg (Z.to_nat (2 * N)) 0 0
        (l0 + incr_step shotIncr DH 0) [0]) as (fuel & out & Ho); try lia.
      + exists 0. change (nth (Z.to_nat 0) len 0) with l0. split; [lia|]. split; [reflexivity|]. split; [reflexivity|]. lia.
      + reflexivity.
      + intros last E. change (vget [0] 0) with (Ok 0) in E. inversion E. lia.
      + exists (S fuel), out. rewrite Hunf. cbv zeta. replace (l0 =? nth 1 len 0) with false by lia. exact Ho. }
  destruct Hrun as (fuel & kept & Hrun).
  destruct (thin_increasing len shotIncr DH l0 N HD E2 HN fuel 0 0 l0 [0] kept) as (_ & _ & _ & Hr);
    try lia; try exact Hrun.
  { exists [], 0. split; [reflexivity|]. split; [reflexivity|].
    split; [repeat constructor|]. split; [lia|]. split; [lia|]. split; [reflexivity|].
    split; lia. }
  destruct (picks_ex all kept Hr) as [st Est].
  exists fuel, (kept, st). intros k. rewrite (thin_loop_mono _ _ _ _ _ k _ _ _ _ _ _ Hrun). cbn [bind].
  rewrite Est. reflexivity.
Qed.

(** * A uniform line *)
Section U.
  Variable x0 s m N : Z.
  Hypothesis s_pos : 1 <= s.
  Hypothesis m_pos : 1 <= m.
  Hypothesis N_pos : 2 <= N.
  Variable shotIncr DH : Q.
  Hypothesis DHpos : (0 < DH)%Q.
  Hypothesis incr_eq : (shotIncr == inject_Z (m * s) * DH)%Q.
  Variable len : list Z.
  Hypothesis len_eq : forall i, 0 <= i < N -> vget len i = Ok (x0 + i * s).

  Lemma ustep n : 0 <= n -> incr_step shotIncr DH n = (n + 1) * (m * s).
  Proof.
    intros Hn. unfold incr_step. rewrite (round_comp _ (inject_Z ((n + 1) * (m * s)))).
    - apply round_int. nia.
    - rewrite incr_eq. rewrite (inject_Z_mult (n + 1)). field.
      intros K. rewrite K in DHpos. exact (Qlt_irrefl 0 DHpos).
  Qed.
  Definition mult (n : Z) : list Z := map (fun k => k * m) (zseq 0 (Z.to_nat (n + 1))).
  Lemma mult_snoc n : 0 <= n -> mult (n + 1) = (mult n ++ [(n + 1) * m])%list.
  Proof.
    intros Hn. unfold mult. replace (Z.to_nat (n + 1 + 1)) with (Z.to_nat (n + 1) + 1)%nat by lia.
    rewrite zseq_app, map_app. cbn [zseq map]. do 3 f_equal. lia.
  Qed.
  Lemma mult_get n : 0 <= n -> vget (mult n) n = Ok (n * m).
  Proof.
    intros Hn. rewrite <- (Z2Nat.id n) at 2 by lia. apply vget_ok. unfold mult.
    rewrite nth_error_map, zseq_nth_error by lia. cbn. f_equal. lia.
  Qed.
  Lemma uloop : forall k shotInd n, 0 <= n -> 0 <= shotInd <= N - 1 -> n * m <= N - 1 ->
    n * m - 1 <= shotInd < (n + 1) * m ->
    2 * (N - 1 - shotInd) + (if shotInd =? (n + 1) * m - 1 then 1 else 0) < Z.of_nat k ->
    exists fuel, thin_loop len shotIncr DH x0 N fuel shotInd n (x0 + (n + 1) * (m * s)) (mult n)
                 = Ok (mult ((N - 1) / m)).
  Proof.
    induction k as [|k IH]; intros shotInd n Hn Hs HnN Hb Hk.
    { destruct (_ =? _); lia. }
    destruct (Z.eq_dec shotInd (N - 1)) as [->|Hne].
    { exists 1%nat. cbn [thin_loop]. replace (N - 1 <? N - 1) with false by lia.
      do 2 f_equal. apply (Z.div_unique (N - 1) m n (N - 1 - m * n)); nia. }
    assert (Hunf : forall fuel, thin_loop len shotIncr DH x0 N (S fuel) shotInd n (x0 + (n + 1) * (m * s)) (mult n) =
       if shotInd =? (n + 1) * m - 1
       then thin_loop len shotIncr DH x0 N fuel shotInd (n + 1) (x0 + (n + 1 + 1) * (m * s)) (mult (n + 1))
       else thin_loop len shotIncr DH x0 N fuel (shotInd + 1) n (x0 + (n + 1) * (m * s)) (mult n)).
    { intros fuel. cbn [thin_loop]. replace (shotInd <? N - 1) with true by lia.
      rewrite !len_eq by lia. cbn [bind]. rewrite mult_get by lia. cbn [bind].
      destruct (Z.eqb_spec shotInd ((n + 1) * m - 1)) as [Et|Et].
      - assert (E2 : x0 + (shotInd + 1) * s = x0 + (n + 1) * (m * s)) by (rewrite Et; ring).
        assert (E1 : x0 + shotInd * s = x0 + (n + 1) * (m * s) - s) by (rewrite Et; ring).
        rewrite E1, E2. set (t := x0 + (n + 1) * (m * s)).
        replace ((t - s <=? t) && (t <=? t)) with true by lia.
        replace (Z.abs (t - (t - s)) <? Z.abs (t - t)) with false by lia. rewrite andb_false_r.
        replace (Z.abs (t - t) <=? Z.abs (t - (t - s))) with true by lia. rewrite andb_true_r.
        replace (n * m =? shotInd + 1) with false by nia. cbn [negb].
        rewrite mult_snoc by lia. rewrite ustep by lia. replace (shotInd + 1) with ((n + 1) * m) by lia.
        reflexivity.
      - assert (Hd : (shotInd + 1) * s + s <= (n + 1) * (m * s)) by nia.
        replace (_ && _) with false by lia.
        replace (Z.abs (x0 + (n + 1) * (m * s) - (x0 + (shotInd + 1) * s)) <?
                 Z.abs (x0 + (shotInd + 1) * s - (x0 + shotInd * s))) with false by lia.
        rewrite andb_false_r. reflexivity. }
    destruct (Z.eqb_spec shotInd ((n + 1) * m - 1)) as [Et|Et].
    - destruct (IH shotInd (n + 1)) as [fuel Hf]; try nia.
      { destruct (Z.eqb_spec shotInd ((n + 1 + 1) * m - 1)); lia. }
      exists (S fuel). rewrite Hunf. exact Hf.
    - destruct (IH (shotInd + 1) n) as [fuel Hf]; try lia.
      { destruct (_ =? _); lia. }
      exists (S fuel). rewrite Hunf. exact Hf.
  Qed.
  Lemma uniform_loop : exists fuel, thin_loop len shotIncr DH x0 N fuel 0 0 x0 [0] = Ok (mult ((N - 1) / m)).
  Proof.
    destruct (uloop (Z.to_nat (2 * N + 1)) 0 0) as [fuel Hf]; try nia.
    { destruct (_ =? _); lia. }
    exists (S fuel). cbn [thin_loop]. replace (0 <? N - 1) with true by lia.
    rewrite !len_eq by lia. cbn [bind]. change (vget [0] 0) with (Ok 0). cbn [bind].
    replace (x0 + 0 * s) with x0 by ring. replace (x0 + (0 + 1) * s) with (x0 + s) by ring.
    replace ((x0 <=? x0) && (x0 <=? x0 + s)) with true by lia. cbn [Z.eqb negb andb].
    replace (Z.abs (x0 - (x0 + s)) <=? Z.abs (x0 - x0)) with false by lia.
    rewrite andb_false_r. rewrite ustep by lia. exact Hf.
  Qed.
End U.

Lemma thin_uniform_lem {F} (all : list (source F)) x0 s m DH shotIncr :
  1 <= s -> 1 <= m -> 1 < m * s -> (0 < DH)%Q -> (shotIncr == inject_Z (m * s) * DH)%Q ->
  (2 <= List.length all)%nat ->
  (forall i a, nth_error (source_line all) i = Some a -> a = x0 + Z.of_nat i * s) -> source_line all <> [] ->
  exists fuel out, forall k, thin (fuel + k) all shotIncr DH =
    Ok (map (fun k => k * m) (zseq 0 (Z.to_nat ((Z.of_nat (List.length all) - 1) / m + 1))), out).
Proof.
  intros Hs Hm Hms HD He HN Hline Hne.
  pose proof (source_line_length all Hne) as L.
  assert (Hlen : forall i, 0 <= i < Z.of_nat (List.length all) -> vget (source_line all) i = Ok (x0 + i * s)).
  { intros i Hi. rewrite <- (Z2Nat.id i) at 1 by lia. apply vget_ok.
    destruct (nth_error (source_line all) (Z.to_nat i)) as [a|] eqn:E.
    - f_equal. rewrite (Hline _ _ E). lia.
    - apply nth_error_None in E. lia. }
  destruct (uniform_loop x0 s m (Z.of_nat (List.length all)) Hs Hm ltac:(lia) shotIncr DH HD He (source_line all) Hlen)
    as [fuel Hf].
  assert (Hlt : (DH < shotIncr)%Q).
  { rewrite He. rewrite <- (Qmult_1_l DH) at 1. apply Qmult_lt_compat_r; [exact HD|].
    change 1%Q with (inject_Z 1). rewrite <- Zlt_Qlt. exact Hms. }
  assert (Hr : Forall (fun i => 0 <= i < Z.of_nat (List.length all)) (mult m ((Z.of_nat (List.length all) - 1) / m))).
  { apply Forall_forall. intros i Hi. apply in_map_iff in Hi. destruct Hi as (k & <- & Hk).
    apply zseq_in in Hk. pose proof (Z.mul_div_le (Z.of_nat (List.length all) - 1) m ltac:(lia)).
    assert (0 <= (Z.of_nat (List.length all) - 1) / m) by (apply Z.div_pos; lia). nia. }
  destruct (picks_ex all _ Hr) as [st Est].
  exists fuel, st. intros k. unfold thin.
  replace (1 <? Z.of_nat (List.length all)) with true by lia.
  destruct (Qle_bool shotIncr DH) eqn:Eb.
  { exfalso. apply Qle_bool_iff in Eb. exact (Qlt_not_le _ _ Hlt Eb). }
  cbn [negb andb]. rewrite Hlen by lia. cbn [bind]. replace (x0 + 0 * s) with x0 by ring.
  rewrite (thin_loop_mono _ _ _ _ _ k _ _ _ _ _ _ Hf). cbn [bind]. rewrite Est. reflexivity.
Qed.
Lemma Forall2_impl {A B} (P Q : A -> B -> Prop) l l' : (forall a b, P a b -> Q a b) -> Forall2 P l l' -> Forall2 Q l l'.
Proof. intros H. induction 1; constructor; auto. Qed.

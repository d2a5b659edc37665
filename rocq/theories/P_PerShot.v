(** C166: the width of the model of a shot. *)
From Verif Require Import Base M_Grid M_Acq M_PerShot S_PerShot.
Open Scope Z_scope.
Local Notation length := List.length.

Lemma at_ok {A} (l : list A) i a : at_ l (Z.of_nat i) = Ok a -> nth_error l i = Some a.
Proof. unfold at_. destruct (Z.of_nat i <? 0); [discriminate|]. rewrite Nat2Z.id. destruct (nth_error l i); [|discriminate]. intros [= ->]. reflexivity. Qed.
Lemma vget_ok {A} (l : list A) i a : vget l (Z.of_nat i) = Ok a -> nth_error l i = Some a.
Proof. unfold vget. destruct (Z.of_nat i <? 0); [discriminate|]. rewrite Nat2Z.id. destruct (nth_error l i); [|discriminate]. intros [= ->]. reflexivity. Qed.

Section Proofs.
Context {F : Type}.
Variable big enc : list (@source F).
Variable cuts : option (list coord).
Variable recs : Z -> res (list receiver).
Variable NX BW urs use dom : Z.
Hypothesis Hu : urs = 1 \/ urs = 2.
Let srcs := if use =? 0 then big else enc.
Let n := length big.
Let skip : nat := if (n <? 20)%nat then 1%nat else (n / 10)%nat.

Lemma skip_eq : shotSkip big = Z.of_nat skip.
Proof.
  clear. unfold shotSkip, skip, n. set (m := length big). assert (Z.of_nat m / 10 = Z.of_nat (m / 10)) as E by (rewrite Nat2Z.inj_div by lia; reflexivity).
  rewrite E. pose proof (Nat.div_mod m 10 ltac:(lia)). pose proof (Nat.mod_upper_bound m 10 ltac:(lia)).
  destruct (1 <? Z.of_nat (m / 10)) eqn:E1, (m <? 20)%nat eqn:E2; lia.
Qed.
Lemma skip_pos : (0 < skip)%nat.
Proof. clear. unfold skip. destruct (n <? 20)%nat eqn:E; [lia|]. pose proof (Nat.div_mod n 10 ltac:(lia)). pose proof (Nat.mod_upper_bound n 10 ltac:(lia)). lia. Qed.
Lemma less_cut_ok x i p : less_cut cuts x (Z.of_nat i) = Ok p <-> own_x cuts i x p.
Proof.
  clear. unfold less_cut, own_x. destruct cuts as [l|].
  - split.
    + destruct (at_ l (Z.of_nat i)) as [c| | |] eqn:E; try discriminate. cbn. intros [= <-]. exists c. split; [apply at_ok, E|reflexivity].
    + intros (c & E & ->). unfold at_. replace (Z.of_nat i <? 0) with false by lia. rewrite Nat2Z.id, E. reflexivity.
  - split; [intros [= ->]; reflexivity|intros ->; reflexivity].
Qed.
Lemma less_cuts_ok rs i xs : less_cuts cuts rs (Z.of_nat i) = Ok xs -> forall p, In p xs <-> exists r, In r rs /\ own_x cuts i (cx (receiverCoords r)) p.
Proof.
  clear. revert xs. induction rs as [|r rs IH]; intros xs; cbn.
  - intros [= <-] p. split; [intros []|intros (r & [] & _)].
  - destruct (less_cut _ _ _) as [x| | |] eqn:E; try discriminate. destruct (less_cuts _ rs _) as [ys| | |]; try discriminate. cbn. intros [= <-] p. cbn.
    rewrite (IH ys eq_refl p). apply less_cut_ok in E. split.
    + intros [<-|(r' & H1 & H2)]; [exists r; auto|exists r'; auto].
    + intros (r' & [<-|H1] & H2); [|right; exists r'; auto]. left. apply less_cut_ok in E, H2. congruence.
Qed.
(** the extent of a set of positions *)
Definition spans (e : ext) (P : Z -> Prop) : Prop := (forall p, P p -> x_min e <= p <= x_max e) /\ P (x_min e) /\ P (x_max e).
Lemma spans_iff e P Q : (forall p, P p <-> Q p) -> spans e P -> spans e Q.
Proof. intros H (A & B & C). split; [intros p Hp; apply A, H, Hp|split; apply H; assumption]. Qed.
Lemma widen_spans e P x : spans e P -> spans (widen e x) (fun p => P p \/ p = x).
Proof.
  intros (A & B & C). unfold widen, spans. cbn [x_min x_max]. split; [|split].
  - intros p [Hp| ->]; [pose proof (A p Hp)|pose proof (A _ B)]; destruct (x <? x_min e) eqn:E1, (x_max e <? x) eqn:E2; lia.
  - destruct (x <? x_min e); auto.
  - destruct (x_max e <? x); auto.
Qed.
Lemma widens_spans xs : forall e P, spans e P -> spans (fold_left widen xs e) (fun p => P p \/ In p xs).
Proof.
  induction xs as [|x xs IH]; intros e P H; cbn [fold_left].
  - revert H. apply spans_iff. intros p. cbn. tauto.
  - specialize (IH _ _ (widen_spans e P x H)). revert IH. apply spans_iff. intros p. cbn. intuition.
Qed.
Definition src_at (i : nat) (p : Z) : Prop := exists s, nth_error srcs i = Some s /\ own_x cuts i (cx (sourceCoords s)) p.
Definition rec_at (i : nat) (p : Z) : Prop := exists s l r, nth_error srcs i = Some s /\ recs (Z.abs (sourceNo s)) = Ok l /\ In r l /\ own_x cuts i (cx (receiverCoords r)) p.
Lemma look_ok i s r s' r' P Q : look big enc cuts recs urs use (Z.of_nat i) s r = Ok (s', r') -> spans s P -> spans r Q ->
  spans s' (fun p => P p \/ src_at i p) /\ spans r' (fun p => Q p \/ rec_at i p).
Proof.
  unfold look. fold srcs. destruct (vget srcs _) as [sr| | |] eqn:E1; try discriminate. cbn. destruct (less_cut _ _ _) as [x| | |] eqn:E2; try discriminate. cbn.
  replace ((urs =? 1) || (urs =? 2)) with true by (destruct Hu as [-> | ->]; reflexivity).
  destruct (recs _) as [l| | |] eqn:E3; try discriminate. cbn. destruct (less_cuts _ l _) as [xs| | |] eqn:E4; try discriminate. cbn. intros [= <- <-] HP HQ.
  apply vget_ok in E1. apply less_cut_ok in E2. pose proof (less_cuts_ok _ _ _ E4) as E5. split.
  - generalize (widen_spans s P x HP). apply spans_iff. intros p. split; (intros [H|H]; [left; exact H|right]).
    + subst p. exists sr. auto.
    + destruct H as (sr' & H1 & H2). rewrite E1 in H1. injection H1 as <-. apply less_cut_ok in E2, H2. congruence.
  - generalize (widens_spans xs r Q HQ). apply spans_iff. intros p. rewrite E5. split; (intros [H|H]; [left; exact H|right]).
    + destruct H as (rc & H1 & H2). exists sr, l, rc. auto.
    + destruct H as (sr' & l' & rc & H1 & H2 & H3 & H4). rewrite E1 in H1. injection H1 as <-. rewrite E3 in H2. injection H2 as <-. exists rc. auto.
Qed.
Lemma looks_ok fuel : forall k s r s' r' P Q, looks big enc cuts recs urs use fuel (Z.of_nat (k * skip)) s r = Ok (s', r') -> spans s P -> spans r Q ->
  spans s' (fun p => P p \/ exists j, (k <= j)%nat /\ (j * skip < n)%nat /\ src_at (j * skip) p) /\
  spans r' (fun p => Q p \/ exists j, (k <= j)%nat /\ (j * skip < n)%nat /\ rec_at (j * skip) p).
Proof.
  induction fuel as [|fuel IH]; intros k s r s' r' P Q; cbn [looks]; fold n; destruct (Z.of_nat (k * skip) <? Z.of_nat n) eqn:E; try discriminate.
  - intros [= <- <-] HP HQ. split; [revert HP|revert HQ]; apply spans_iff; intros p; (split; [auto|]); intros [H|(j & H1 & H2 & _)]; [exact H| |exact H|]; exfalso; nia.
  - destruct (look _ _ _ _ _ _ _ s r) as [(s1, r1)| | |] eqn:EL; try discriminate. cbn [bind].
    rewrite skip_eq, <- Nat2Z.inj_add. replace (k * skip + skip)%nat with (S k * skip)%nat by lia. intros H HP HQ.
    destruct (look_ok _ _ _ _ _ _ _ EL HP HQ) as (A & B). destruct (IH _ _ _ _ _ _ _ H A B) as (A' & B').
    split; [generalize A'|generalize B']; apply spans_iff; intros p; split.
    + intros [[H1|H1]|(j & H1 & H2 & H3)]; [auto|right; exists k; repeat split; auto; lia|right; exists j; repeat split; auto; lia].
    + intros [H1|(j & H1 & H2 & H3)]; [auto|]. destruct (Nat.eq_dec j k) as [->|Hne]; [auto|]. right. exists j. repeat split; auto; lia.
    + intros [[H1|H1]|(j & H1 & H2 & H3)]; [auto|right; exists k; repeat split; auto; lia|right; exists j; repeat split; auto; lia].
    + intros [H1|(j & H1 & H2 & H3)]; [auto|]. destruct (Nat.eq_dec j k) as [->|Hne]; [auto|]. right. exists j. repeat split; auto; lia.
  - intros [= <- <-] HP HQ. split; [revert HP|revert HQ]; apply spans_iff; intros p; (split; [auto|]); intros [H|(j & H1 & H2 & _)]; [exact H| |exact H|]; exfalso; nia.
Qed.
Lemma looked_iff i : looked_at n i <-> exists j, i = (j * skip)%nat /\ (j * skip < n)%nat.
Proof.
  clear. unfold looked_at. fold skip. pose proof skip_pos as S0. split.
  - intros (H1 & H2). exists (i / skip)%nat. pose proof (Nat.div_mod i skip ltac:(lia)). lia.
  - intros (j & -> & H). split; [exact H|]. apply Nat.mod_mul. lia.
Qed.

Lemma size_ok W m : getModelPerShotSize big enc cuts recs NX BW urs use dom = Ok (W, m) ->
  (forall s0 s1, nth_error big 0 = Some s0 -> nth_error srcs 0 = Some s1 -> cx (sourceCoords s0) = cx (sourceCoords s1)) ->
  (forall i p, looked_at n i -> used srcs cuts recs i p -> BW <= p < W - BW) /\
  (W = NX \/ NX < W /\ exists i p, looked_at n i /\ used srcs cuts recs i p /\ p = W - BW - 1) /\
  m = (if use =? 0 then 1 else cceil (Z.of_nat n) dom).
Proof.
  unfold getModelPerShotSize. replace (0 <? urs) with true by (destruct Hu as [-> | ->]; reflexivity).
  destruct (vget big 0) as [s0| | |] eqn:E0; try discriminate. cbn [bind]. destruct (less_cut _ _ _) as [x0| | |] eqn:E1; try discriminate. cbn [bind].
  destruct (looks _ _ _ _ _ _ _ _ _ _) as [(s, r)| | |] eqn:EL; try discriminate. cbn [bind]. unfold assert.
  destruct (BW <=? _) eqn:EB; try discriminate. cbn [bind]. intros [= <- <-] H0.
  assert (SP : spans (mkExt x0 x0) (fun p => p = x0)) by (split; [intros p ->; cbn; lia|split; reflexivity]).
  destruct (looks_ok _ 0 _ _ _ _ _ _ EL SP SP) as ((A1 & A2 & A3) & (B1 & B2 & B3)).
  change 0 with (Z.of_nat 0) in E0, E1. apply vget_ok in E0. apply less_cut_ok in E1.
  assert (NP : (0 < n)%nat) by (clear - E0; unfold n; generalize E0; clear; destruct big; [discriminate|cbn; lia]).
  assert (U0 : forall p, p = x0 -> exists i, looked_at n i /\ used srcs cuts recs i p).
  { intros p ->. exists O. split; [apply looked_iff; exists O; split; [reflexivity|exact NP]|].
    assert (L : exists s1, nth_error srcs 0 = Some s1).
    { clear - EL NP Hu. revert EL. unfold looks. destruct (length big) eqn:E; [unfold n in NP; lia|]. cbn. replace (0 <? Z.pos (Pos.of_succ_nat n0)) with true by lia. unfold look at 1. fold srcs.
      destruct (vget srcs 0) as [s1| | |] eqn:ES; try discriminate. intros _. exists s1. apply (vget_ok srcs 0), ES. }
    destruct L as (s1 & L). apply (used_src _ _ _ _ _ s1 L). rewrite <- (H0 s0 s1 E0 L). exact E1. }
  assert (US : forall p, (p = x0 \/ (exists j, (0 <= j)%nat /\ (j * skip < n)%nat /\ src_at (j * skip) p)) -> exists i, looked_at n i /\ used srcs cuts recs i p).
  { intros p [H|(j & _ & H2 & (s1 & H3 & H4))]; [apply U0, H|]. exists (j * skip)%nat. split; [apply looked_iff; exists j; auto|]. apply (used_src _ _ _ _ _ s1); assumption. }
  assert (UR : forall p, (p = x0 \/ (exists j, (0 <= j)%nat /\ (j * skip < n)%nat /\ rec_at (j * skip) p)) -> exists i, looked_at n i /\ used srcs cuts recs i p).
  { intros p [H|(j & _ & H2 & (s1 & l & rc & H3 & H4 & H5 & H6))]; [apply U0, H|]. exists (j * skip)%nat. split; [apply looked_iff; exists j; auto|]. apply (used_rec _ _ _ _ _ s1 l rc); assumption. }
  split; [|split; [|reflexivity]].
  - intros i p Hi Hp. apply looked_iff in Hi. destruct Hi as (j & -> & Hj).
    assert (Q : x_min s <= p <= x_max s \/ x_min r <= p <= x_max r).
    { destruct Hp as [s1 H3 H4|s1 l rc H3 H4 H5 H6].
      - left. apply A1. right. exists j. split; [lia|]. split; [exact Hj|]. exists s1. auto.
      - right. apply B1. right. exists j. split; [lia|]. split; [exact Hj|]. exists s1, l, rc. auto. }
    clear - Q EB. destruct (x_min s <? x_min r) eqn:E1, (x_max r <? x_max s) eqn:E2; destruct (NX <? _) eqn:E3; lia.
  - destruct (x_max r <? x_max s) eqn:E2; destruct (NX <? _) eqn:E3; [right|left; reflexivity|right|left; reflexivity]; (split; [lia|]).
    + destruct (US _ A3) as (i & Hi & Hp). exists i, (x_max s). split; [exact Hi|]. split; [exact Hp|]. lia.
    + destruct (UR _ B3) as (i & Hi & Hp). exists i, (x_max r). split; [exact Hi|]. split; [exact Hp|]. lia.
Qed.
End Proofs.

(** The model of a shot that is looked at contains the source and all receivers of the shot outside the boundary strips; it is the
    configured one or just wide enough. *)
Theorem C166_size : forall {F} (big enc : list (@source F)) cuts recs NX BW useReceiversPerShot useSourceEncode dom W m,
  useReceiversPerShot = 1 \/ useReceiversPerShot = 2 ->
  let srcs := if useSourceEncode =? 0 then big else enc in
  (forall s0 s1, nth_error big 0 = Some s0 -> nth_error srcs 0 = Some s1 -> cx (sourceCoords s0) = cx (sourceCoords s1)) ->
  getModelPerShotSize big enc cuts recs NX BW useReceiversPerShot useSourceEncode dom = Ok (W, m) ->
  (forall i p, looked_at (length big) i -> used srcs cuts recs i p -> BW <= p < W - BW) /\
  (W = NX \/ NX < W /\ exists i p, looked_at (length big) i /\ used srcs cuts recs i p /\ p = W - BW - 1) /\
  m = (if useSourceEncode =? 0 then 1 else cceil (Z.of_nat (length big)) dom).
Proof. intros F big enc cuts recs NX BW urs use dom W m Hu srcs H0 H. exact (size_ok big enc cuts recs NX BW urs use dom Hu W m H H0). Qed.

(** Without receivers per shot the model of a shot is as wide as the configuration says. *)
Theorem C166_off : forall {F} (big enc : list (@source F)) cuts recs NX BW useReceiversPerShot useSourceEncode dom, useReceiversPerShot <= 0 ->
  getModelPerShotSize big enc cuts recs NX BW useReceiversPerShot useSourceEncode dom = Ok (NX, 1).
Proof. intros F big enc cuts recs NX BW urs use dom H. unfold getModelPerShotSize. rewrite (proj2 (Z.ltb_ge _ _)) by lia. reflexivity. Qed.
Print Assumptions C166_off.
Definition yz_inside (c cut : coord) (NY NZ BW : Z) : Prop :=
  BW <= cy c - cy cut < NY - BW /\ (2 * BW < NZ -> BW <= cz c - cz cut < NZ - BW).
Lemma cut_coord_ok c cut W NY NZ BW : BW <= cx c - cx cut < W - BW -> yz_inside c cut NY NZ BW -> exists q, cut_coord c cut W NY NZ BW = Ok q.
Proof.
  intros H1 (H2 & H3). unfold cut_coord, assert. rewrite (proj2 (Z.leb_le _ _)) by lia. cbn [bind]. rewrite (proj2 (Z.ltb_lt _ _)) by lia. cbn [bind].
  rewrite (proj2 (Z.leb_le _ _)) by lia. cbn [bind]. rewrite (proj2 (Z.ltb_lt _ _)) by lia. cbn [bind].
  destruct (BW * 2 <? NZ) eqn:E; [|eexists; reflexivity]. specialize (H3 ltac:(lia)). rewrite (proj2 (Z.leb_le _ _)) by lia. cbn [bind].
  rewrite (proj2 (Z.ltb_lt _ _)) by lia. eexists; reflexivity.
Qed.
(** With less than twenty sources the windows of all shots are accepted later (getSettingsPerShot, C13). *)
Theorem C166_small : forall {F} (big : list (@source F)) cs recs NX NY NZ BW useReceiversPerShot dom W m,
  useReceiversPerShot = 1 \/ useReceiversPerShot = 2 -> (length big < 20)%nat -> length cs = length big ->
  getModelPerShotSize big [] (Some cs) recs NX BW useReceiversPerShot 0 dom = Ok (W, m) ->
  (forall i s c, nth_error big i = Some s -> nth_error cs i = Some c -> yz_inside (sourceCoords s) c NY NZ BW) ->
  (forall i s c l r, nth_error big i = Some s -> nth_error cs i = Some c -> recs (Z.abs (sourceNo s)) = Ok l -> In r l -> yz_inside (receiverCoords r) c NY NZ BW) ->
  (exists ss, getSettingsPerShot big cs W NY NZ BW = Ok ss) /\
  (forall i s c l, nth_error big i = Some s -> nth_error cs i = Some c -> recs (Z.abs (sourceNo s)) = Ok l -> exists rs, getReceiversPerShot l c W NY NZ BW = Ok rs).
Proof.
  intros F big cs recs NX NY NZ BW urs dom W m Hu Hn Hc H Hs Hr. destruct (size_ok big [] (Some cs) recs NX BW urs 0 dom Hu W m H) as (A & _ & _).
  { cbn. intros s0 s1 -> [= ->]. reflexivity. }
  cbn [Z.eqb] in A.
  assert (L : forall i s, nth_error big i = Some s -> looked_at (length big) i).
  { intros i s Hi. split; [apply nth_error_Some; congruence|]. rewrite (proj2 (Nat.ltb_lt _ _) Hn). apply Nat.mod_1_r. }
  split.
  - assert (B : forall i s c, nth_error big i = Some s -> nth_error cs i = Some c -> BW <= cx (sourceCoords s) - cx c < W - BW).
    { intros i s c H1 H2. apply (A i); [exact (L i s H1)|]. apply (used_src _ _ _ _ _ s H1). exists c. auto. }
    clear - Hs Hc B. revert cs Hs Hc B. induction big as [|s big IH]; intros [|c cs] Hs Hc B; try discriminate; [eexists; reflexivity|].
    cbn [getSettingsPerShot]. destruct (cut_coord_ok (sourceCoords s) c W NY NZ BW (B O s c eq_refl eq_refl) (Hs O s c eq_refl eq_refl)) as (q & ->). cbn [bind].
    destruct (IH cs (fun i => Hs (S i)) ltac:(cbn in Hc; lia) (fun i => B (S i))) as (ss & ->). eexists; reflexivity.
  - intros i s c l H1 H2 H3.
    assert (B : forall r, In r l -> BW <= cx (receiverCoords r) - cx c < W - BW).
    { intros r H4. apply (A i); [exact (L i s H1)|]. apply (used_rec _ _ _ _ _ s l r H1 H3 H4). exists c. auto. }
    specialize (fun r => Hr i s c l r H1 H2 H3). clear - B Hr. induction l as [|r l IH]; [eexists; reflexivity|]. cbn [getReceiversPerShot].
    destruct (cut_coord_ok (receiverCoords r) c W NY NZ BW (B r (or_introl eq_refl)) (Hr r (or_introl eq_refl))) as (q & ->). cbn [bind].
    destruct IH as (rs & ->); [intros x Hx; apply Hr; right; exact Hx|intros x Hx; apply B; right; exact Hx|]. eexists; reflexivity.
Qed.

(** Twenty or more sources: only every (n/10)-th is looked at, and a shot between them may not fit. *)
Definition ex_src (no x : Z) : @source Z := mkSrc no (mkC x 30 0) 1 1 1 5 1 0 0.
Lemma far_looks n (big : list (@source Z)) (recs : Z -> res (list receiver)) : length big = n -> (20 <= n)%nat -> 
  (forall i, (i < n)%nat -> i <> 1%nat -> exists s, nth_error big i = Some s /\ cx (sourceCoords s) = 30 /\ recs (Z.abs (sourceNo s)) = Ok []) ->
  forall fuel k, (n < fuel + k * (n / 10) + 1)%nat -> looks big [] None recs 1 0 fuel (Z.of_nat (k * (n / 10))) (mkExt 30 30) (mkExt 30 30) = Ok (@pair ext ext (mkExt 30 30) (mkExt 30 30)).
Proof.
  intros Hl Hn H. assert (K : (2 <= n / 10)%nat) by (pose proof (Nat.div_mod n 10 ltac:(lia)); pose proof (Nat.mod_upper_bound n 10 ltac:(lia)); lia).
  induction fuel as [|fuel IH]; intros k Hf; cbn [looks]; rewrite Hl; destruct (Z.of_nat (k * (n / 10)) <? Z.of_nat n) eqn:E; try reflexivity; [exfalso; lia|].
  destruct (H (k * (n / 10))%nat ltac:(lia) ltac:(clear - K; generalize dependent (n / 10)%nat; intros d Hd; destruct k; nia)) as (s & H1 & H2 & H3). unfold look at 1. cbn [Z.eqb]. unfold vget. replace (Z.of_nat (k * (n / 10)) <? 0) with false by lia.
  rewrite Nat2Z.id, H1. cbn [bind less_cut]. cbn [Z.eqb Pos.eqb orb]. rewrite H3. cbn [bind less_cuts fold_left]. rewrite H2. change (widen (mkExt 30 30) 30) with (mkExt 30 30).
  rewrite skip_eq, Hl. replace ((n <? 20)%nat) with false by (symmetry; apply Nat.ltb_ge; lia). rewrite <- Nat2Z.inj_add. replace (k * (n / 10) + n / 10)%nat with (S k * (n / 10))%nat by lia.
  apply IH. lia.
Qed.
Theorem C166_refuted : forall n, (20 <= n)%nat -> exists (big : list (@source Z)) recs NX BW W m i p, length big = n /\
  getModelPerShotSize big [] None recs NX BW 1 0 1 = Ok (W, m) /\ (i < n)%nat /\ used big None recs i p /\ W <= p.
Proof.
  intros n Hn. set (big := map (fun k => ex_src (Z.of_nat k + 1) (if Nat.eqb k 1 then 200 else 30)) (seq 0 n)).
  assert (Hl : length big = n) by (unfold big; rewrite map_length, seq_length; reflexivity).
  assert (Hb : forall i, (i < n)%nat -> nth_error big i = Some (ex_src (Z.of_nat i + 1) (if Nat.eqb i 1 then 200 else 30))).
  { intros i Hi. unfold big. rewrite nth_error_map, (nth_error_nth' _ O) by (rewrite seq_length; exact Hi). rewrite seq_nth by exact Hi. reflexivity. }
  exists big, (fun _ => Ok []), 100, 10, 100, 1, 1%nat, 200. split; [exact Hl|]. split; [|split; [lia|split; [|lia]]].
  - unfold getModelPerShotSize. cbn [Z.ltb Z.compare]. unfold vget at 1. cbn [Z.ltb Z.compare Z.to_nat]. rewrite (Hb O ltac:(lia)). cbn [bind less_cut sourceCoords ex_src cx Nat.eqb].
    pose proof (far_looks n big (fun _ => Ok []) Hl Hn) as Q. rewrite Hl. cbn [Nat.mul] in Q. specialize (fun X => Q X n 0%nat). cbn [Nat.mul] in Q. change (Z.of_nat 0) with 0 in Q.
    rewrite Q; [reflexivity| |lia]. intros i Hi Hne. exists (ex_src (Z.of_nat i + 1) 30). rewrite (Hb i Hi), (proj2 (Nat.eqb_neq i 1) Hne). auto.
  - apply (used_src _ _ _ _ _ (ex_src 2 200)); [exact (Hb 1%nat ltac:(lia))|reflexivity].
Qed.

(** A stream of twenty shots at 30, 31, ..., each recorded at 20 points to its right, except the second one, recorded at 80 points:
    the size of the configuration (NX = 71) is kept, and the window of the second shot is refused later. *)
Example C166_ex : exists (big : list (@source Z)) cs recs, getCutCoord big 0 0 1 = Ok cs /\
  getModelPerShotSize big [] (Some cs) recs 71 10 1 0 1 = Ok (71, 1) /\
  (exists ss, getSettingsPerShot big cs 71 100 1 10 = Ok ss) /\
  (exists l, recs 2 = Ok l /\ getReceiversPerShot l (nth 1 cs (mkC 0 0 0)) 71 100 1 10 = Throw) /\
  getModelPerShotSize (firstn 19 big) [] (Some (firstn 19 cs)) recs 71 10 1 0 1 = Ok (121, 1).
Proof.
  exists (map (fun k => ex_src (Z.of_nat k + 1) (30 + Z.of_nat k)) (seq 0 20)), (map (fun k => mkC (Z.of_nat k) 0 0) (seq 0 20)),
    (fun no => Ok [mkRec (mkC (29 + no + (if no =? 2 then 80 else 20)) 30 0) 1]).
  split; [vm_compute; reflexivity|]. split; [vm_compute; reflexivity|]. split; [eexists; vm_compute; reflexivity|]. split; [|vm_compute; reflexivity].
  eexists. split; [reflexivity|]. vm_compute. reflexivity.
Qed.
Print Assumptions C166_size.
Print Assumptions C166_small.
Print Assumptions C166_refuted.

(** Lemmas for C33 (random shot selection) and C34 (supershot encoding). *)
From Coq Require Import Ascii String QArith Qround Permutation Sorted Znumtheory.
From Verif Require Import Base M_Grid M_Acq S_Acq L_AcqFile L_Acq.
Open Scope Z_scope.

Lemma nset_spec {A} (v : list A) i a v' : nset v i a = Some v' ->
  (i < List.length v)%nat /\ v' = (firstn i v ++ a :: skipn (S i) v)%list.
Proof.
  revert i v'. induction v as [|b r IH]; intros i v' H; [destruct i; discriminate H|].
  destruct i as [|i]; cbn [nset] in H.
  - inversion H; subst. cbn. split; [lia|reflexivity].
  - destruct (nset r i a) eqn:E; [|discriminate]. inversion H; subst. destruct (IH i l E) as [H1 H2].
    cbn. split; [lia|]. rewrite H2. reflexivity.
Qed.
Lemma nset_some {A} (v : list A) i a : (i < List.length v)%nat -> exists v', nset v i a = Some v'.
Proof.
  revert i. induction v as [|b r IH]; intros i H; [cbn in H; lia|].
  destruct i as [|i]; cbn [nset]; [eexists; reflexivity|].
  destruct (IH i ltac:(cbn in H; lia)) as [v' ->]. eexists; reflexivity.
Qed.
Lemma vset_spec {A} (v : list A) i a v' : vset v i a = Ok v' ->
  0 <= i < Z.of_nat (List.length v) /\ v' = (firstn (Z.to_nat i) v ++ a :: skipn (S (Z.to_nat i)) v)%list.
Proof.
  unfold vset. destruct (Z.ltb_spec i 0); [discriminate|].
  destruct (nset v (Z.to_nat i) a) eqn:E; [|discriminate]. intros K. inversion K; subst.
  destruct (nset_spec _ _ _ _ E) as [H1 H2]. split; [lia|exact H2].
Qed.
Lemma vset_some {A} (v : list A) i a : 0 <= i < Z.of_nat (List.length v) -> exists v', vset v i a = Ok v'.
Proof.
  intros H. unfold vset. replace (i <? 0) with false by lia.
  destruct (nset_some v (Z.to_nat i) a ltac:(lia)) as [v' ->]. eexists; reflexivity.
Qed.
Lemma vset_length {A} (v : list A) i a v' : vset v i a = Ok v' -> List.length v' = List.length v.
Proof.
  intros H. destruct (vset_spec _ _ _ _ H) as [H1 ->].
  rewrite app_length, firstn_length. cbn [List.length]. rewrite skipn_length. lia.
Qed.
Lemma vset_get {A} (v : list A) i a v' d k : vset v i a = Ok v' ->
  nth k v' d = if Nat.eqb k (Z.to_nat i) then a else nth k v d.
Proof.
  intros H. destruct (vset_spec _ _ _ _ H) as [H1 ->].
  destruct (Nat.eqb_spec k (Z.to_nat i)) as [->|Hk].
  - rewrite app_nth2; rewrite firstn_length; [|lia]. replace (_ - _)%nat with 0%nat by lia. reflexivity.
  - rewrite <- (firstn_skipn (S (Z.to_nat i)) v) at 3.
    destruct (Nat.lt_ge_cases k (Z.to_nat i)).
    + rewrite app_nth1 by (rewrite firstn_length; lia).
      rewrite app_nth1 by (rewrite firstn_length; lia).
      rewrite <- (firstn_skipn (Z.to_nat i) v) at 2.
      rewrite firstn_app, firstn_firstn, firstn_length. replace (Nat.min (S (Z.to_nat i)) (Z.to_nat i)) with (Z.to_nat i) by lia.
      rewrite app_nth1 by (rewrite firstn_length; lia). reflexivity.
    + rewrite app_nth2 by (rewrite firstn_length; lia).
      rewrite (app_nth2 (firstn (S (Z.to_nat i)) v)) by (rewrite firstn_length; lia).
      rewrite !firstn_length. replace (k - Nat.min (Z.to_nat i) (List.length v))%nat with
        (S (k - Nat.min (S (Z.to_nat i)) (List.length v)))%nat by lia. reflexivity.
Qed.
Lemma vset_firstn {A} (v : list A) i a v' : vset v i a = Ok v' ->
  firstn (Z.to_nat i) v' = firstn (Z.to_nat i) v /\
  firstn (S (Z.to_nat i)) v' = (firstn (Z.to_nat i) v ++ [a])%list.
Proof.
  intros H. destruct (vset_spec _ _ _ _ H) as [H1 ->].
  assert (L : List.length (firstn (Z.to_nat i) v) = Z.to_nat i) by (rewrite firstn_length; lia).
  split.
  - rewrite firstn_app, L, Nat.sub_diag, firstn_firstn, Nat.min_id. cbn. apply app_nil_r.
  - rewrite firstn_app, L, firstn_firstn. replace (Nat.min (S (Z.to_nat i)) (Z.to_nat i)) with (Z.to_nat i) by lia.
    replace (S (Z.to_nat i) - Z.to_nat i)%nat with 1%nat by lia. reflexivity.
Qed.
Lemma vget_inv {A} (v : list A) i a d : vget v i = Ok a ->
  0 <= i < Z.of_nat (List.length v) /\ nth (Z.to_nat i) v d = a.
Proof.
  unfold vget. destruct (Z.ltb_spec i 0); [discriminate|].
  destruct (nth_error v (Z.to_nat i)) eqn:E; [|discriminate]. intros K; inversion K; subst.
  split; [|apply nth_error_nth; exact E].
  assert (Z.to_nat i < List.length v)%nat by (apply nth_error_Some; congruence). lia.
Qed.
Lemma vget_some {A} (v : list A) i d : 0 <= i < Z.of_nat (List.length v) -> vget v i = Ok (nth (Z.to_nat i) v d).
Proof.
  intros H. rewrite <- (Z2Nat.id i) at 1 by lia. apply vget_ok. apply nth_error_nth'. lia.
Qed.

  Lemma zseq_NoDup s n : NoDup (zseq s n).
  Proof.
    revert s. induction n as [|n IH]; intros s; cbn; constructor; [|apply IH].
    rewrite zseq_in. lia.
  Qed.

  Lemma pigeon (l m : list Z) : NoDup l -> (List.length m < List.length l)%nat -> exists x, In x l /\ ~ In x m.
  Proof.
    intros Hl Hlen. destruct (Forall_Exists_dec (fun x => In x m) (fun x => in_dec Z.eq_dec x m) l) as [H|H].
    - rewrite Forall_forall in H. pose proof (NoDup_incl_length Hl H). lia.
    - apply Exists_exists in H. exact H.
  Qed.

(** * C33 *)
Section R.
  Variable rnd : nat -> Z.
  Hypothesis rnd_pos : forall p, 0 <= rnd p.

  Definition hits (l : list Z) (x : Z) : Z := Z.of_nat (count_occ Z.eq_dec l x).

  Lemma crem_range p N : 1 <= N -> exists r, crem (rnd p) N = Ok r /\ 0 <= r < N.
  Proof using rnd_pos.
    intros HN. exists (Z.rem (rnd p) N). split.
    - unfold crem. replace (N =? 0) with false by lia. reflexivity.
    - rewrite Z.rem_mod_nonneg by (try apply rnd_pos; lia). apply Z.mod_pos_bound. lia.
  Qed.
  Lemma random1_lem N mc dom : 1 <= N -> forall fuel p d rhist inds shist i' s',
    Z.of_nat (List.length rhist) = dom -> Z.of_nat (List.length inds) = dom -> 0 <= d <= dom ->
    Z.of_nat (List.length shist) = N ->
    firstn (Z.to_nat d) rhist = firstn (Z.to_nat d) inds ->
    NoDup (firstn (Z.to_nat d) inds) -> Forall (fun x => 0 <= x < N) (firstn (Z.to_nat d) inds) ->
    random1 rnd fuel p d dom N mc rhist inds shist = Ok (i', s') ->
    Z.of_nat (List.length i') = dom /\ NoDup i' /\ Forall (fun x => 0 <= x < N) i' /\
    List.length s' = List.length shist /\
    (forall x, 0 <= x < N -> nth (Z.to_nat x) s' 0 + hits (firstn (Z.to_nat d) inds) x =
                             nth (Z.to_nat x) shist 0 + hits i' x) /\
    (forall x, In x i' -> In x (firstn (Z.to_nat d) inds) \/ nth (Z.to_nat x) shist 0 < mc).
  Proof using rnd_pos.
    intros HN. induction fuel as [|fuel IH]; intros p d rhist inds shist i' s' L1 L2 Hd L3 E Hnd Hr H; [discriminate|].
    cbn [random1] in H. destruct (Z.ltb_spec d dom) as [Hlt|Hge].
    - destruct (crem_range p N HN) as (r & Er & Hrr). rewrite Er in H. cbn [bind] in H.
      apply bind_ok in H. destruct H as (rh & Erh & H). apply bind_ok in H. destruct H as (h & Eh & H).
      destruct (vset_firstn _ _ _ _ Erh) as [F1 F2]. pose proof (vset_length _ _ _ _ Erh) as L1'.
      rewrite F1, E in H. apply vget_inv with (d := 0) in Eh. destruct Eh as [Eh1 Eh2].
      destruct ((mc <=? h) || existsb (Z.eqb r) (firstn (Z.to_nat d) inds)) eqn:Eb.
      + apply (IH (S p) d rh inds shist i' s' ltac:(lia) L2 Hd L3 ltac:(congruence) Hnd Hr H).
      + apply orb_false_iff in Eb. destruct Eb as [Eb1 Eb2].
        assert (Hnr : ~ In r (firstn (Z.to_nat d) inds)). { intros K. apply existsb_in in K. congruence. }
        apply bind_ok in H. destruct H as (in' & Ein & H). apply bind_ok in H. destruct H as (sh' & Esh & H).
        destruct (vset_firstn _ _ _ _ Ein) as [G1 G2]. pose proof (vset_length _ _ _ _ Ein) as L2'.
        pose proof (vset_length _ _ _ _ Esh) as L3'.
        assert (Es : Z.to_nat (d + 1) = S (Z.to_nat d)) by lia.
        assert (Hq := IH (S p) (d + 1) rh in' sh' i' s' ltac:(lia) ltac:(lia) ltac:(lia) ltac:(lia)).
        rewrite Es, F2, G2, E in Hq. specialize (Hq eq_refl).
        destruct Hq as (A1 & A2 & A3 & A4 & A5 & A6).
        * apply (Permutation_NoDup (l := r :: firstn (Z.to_nat d) inds)); [apply Permutation_cons_append|].
          constructor; assumption.
        * apply Forall_app. split; [exact Hr|]. constructor; [exact Hrr|constructor].
        * exact H.
        * split; [exact A1|]. split; [exact A2|]. split; [exact A3|]. split; [congruence|]. split.
          { intros x Hx. specialize (A5 x Hx). rewrite (vset_get _ _ _ _ 0 (Z.to_nat x) Esh) in A5.
            unfold hits in A5 |- *. rewrite count_occ_app in A5. cbn [count_occ] in A5.
            destruct (Z.eq_dec r x) as [->|Hne].
            - rewrite Nat.eqb_refl in A5. lia.
            - replace (Nat.eqb (Z.to_nat x) (Z.to_nat r)) with false in A5 by lia. lia. }
          { intros x Hx. destruct (A6 x Hx) as [K|K].
            - apply in_app_iff in K. destruct K as [K|[K|[]]]; [left; exact K|]. subst x. right. lia.
            - rewrite (vset_get _ _ _ _ 0 (Z.to_nat x) Esh) in K.
              destruct (Nat.eqb_spec (Z.to_nat x) (Z.to_nat r)) as [Ex|]; [right; rewrite Ex; lia|right; exact K]. }
    - inversion H; subst i' s'. replace (Z.to_nat d) with (List.length inds) in * by lia.
      rewrite firstn_all in *. repeat split; auto; try lia.
  Qed.

  Definition avail (shist : list Z) (mc N : Z) : list Z :=
    filter (fun x => nth (Z.to_nat x) shist 0 <? mc) (zseq 0 (Z.to_nat N)).

  Lemma fair_crem N x p : 1 <= N -> fair rnd N -> 0 <= x < N ->
    exists q, (p <= q)%nat /\ crem (rnd q) N = Ok x.
  Proof using. clear rnd_pos; try clear rnd; try clear neg; try clear F.
    intros HN Hf Hx. destruct (Hf x p Hx) as (q & H1 & H2). exists q. split; [exact H1|].
    unfold crem. replace (N =? 0) with false by lia. rewrite H2. reflexivity.
  Qed.

  Lemma random1_term N mc dom shist0 : 1 <= N -> fair rnd N ->
    dom <= Z.of_nat (List.length (avail shist0 mc N)) ->
    forall k d p rhist inds shist,
    d = dom - Z.of_nat k -> 0 <= d ->
    Z.of_nat (List.length rhist) = dom -> Z.of_nat (List.length inds) = dom ->
    Z.of_nat (List.length shist) = N ->
    firstn (Z.to_nat d) rhist = firstn (Z.to_nat d) inds ->
    (forall x, 0 <= x < N -> ~ In x (firstn (Z.to_nat d) inds) -> nth (Z.to_nat x) shist 0 = nth (Z.to_nat x) shist0 0) ->
    exists fuel out, random1 rnd fuel p d dom N mc rhist inds shist = Ok out.
  Proof using rnd_pos.
    intros HN Hf Hav. induction k as [|k IH]; intros d p rhist inds shist Ed Hd L1 L2 L3 E Hs.
    - exists 1%nat. cbn. replace (d <? dom) with false by lia. eexists; reflexivity.
    - destruct (pigeon (avail shist0 mc N) (firstn (Z.to_nat d) inds)) as (x & Hx1 & Hx2).
      { apply NoDup_filter, zseq_NoDup. }
      { rewrite firstn_length. lia. }
      apply filter_In in Hx1. destruct Hx1 as [Hx1 Hx3]. apply zseq_in in Hx1.
      destruct (fair_crem N x p HN Hf ltac:(lia)) as (q & Hpq & Hq).
      remember (q - p)%nat as m eqn:Em. revert p rhist Hpq Em L1 E.
      induction m as [|m IHm]; intros p rhist Hpq Em L1 E.
      + assert (q = p) by lia. subst q. clear Hpq Em.
        destruct (vset_some rhist d x ltac:(lia)) as [rh Erh].
        destruct (vset_firstn _ _ _ _ Erh) as [F1 F2]. pose proof (vset_length _ _ _ _ Erh) as L1'.
        destruct (vset_some inds d x ltac:(lia)) as [in' Ein].
        destruct (vset_firstn _ _ _ _ Ein) as [G1 G2]. pose proof (vset_length _ _ _ _ Ein) as L2'.
        destruct (vset_some shist x (nth (Z.to_nat x) shist 0 + 1) ltac:(lia)) as [sh' Esh].
        pose proof (vset_length _ _ _ _ Esh) as L3'.
        assert (Es : Z.to_nat (d + 1) = S (Z.to_nat d)) by lia.
        destruct (IH (d + 1) (S p) rh in' sh') as (fuel & out & Hout); try lia.
        { rewrite Es, F2, G2, E. reflexivity. }
        { intros y Hy. rewrite Es, G2, in_app_iff. intros K. rewrite (vset_get _ _ _ _ 0 (Z.to_nat y) Esh).
          destruct (Nat.eqb_spec (Z.to_nat y) (Z.to_nat x)) as [Exy|_].
          - exfalso. apply K. right. left. lia.
          - apply Hs; [exact Hy|]. tauto. }
        exists (S fuel), out. cbn [random1]. replace (d <? dom) with true by lia.
        rewrite Hq. cbn [bind]. rewrite Erh. cbn [bind].
        rewrite (vget_some shist x 0) by lia. cbn [bind]. rewrite F1, E.
        assert (Ex : existsb (Z.eqb x) (firstn (Z.to_nat d) inds) = false).
        { destruct (existsb _ _) eqn:K; [apply existsb_in in K; contradiction|reflexivity]. }
        rewrite Ex. rewrite (Hs x ltac:(lia) Hx2) in *.
        replace (mc <=? nth (Z.to_nat x) shist0 0) with false by lia. cbn [orb].
        rewrite Ein. cbn [bind]. rewrite Esh. cbn [bind]. exact Hout.
      + destruct (crem_range p N HN) as (r & Er & Hrr).
        destruct (vset_some rhist d r ltac:(lia)) as [rh Erh].
        destruct (vset_firstn _ _ _ _ Erh) as [F1 F2]. pose proof (vset_length _ _ _ _ Erh) as L1'.
        destruct ((mc <=? nth (Z.to_nat r) shist 0) || existsb (Z.eqb r) (firstn (Z.to_nat d) inds)) eqn:Eb.
        * destruct (IHm (S p) rh ltac:(lia) ltac:(lia) ltac:(lia) ltac:(congruence)) as (fuel & out & Hout).
          exists (S fuel), out. cbn [random1]. replace (d <? dom) with true by lia.
          rewrite Er. cbn [bind]. rewrite Erh. cbn [bind].
          rewrite (vget_some shist r 0) by lia. cbn [bind]. rewrite F1, E, Eb. exact Hout.
        * pose proof Eb as Eb'. apply orb_false_iff in Eb. destruct Eb as [Eb1 Eb2].
          destruct (vset_some inds d r ltac:(lia)) as [in' Ein].
          destruct (vset_firstn _ _ _ _ Ein) as [G1 G2]. pose proof (vset_length _ _ _ _ Ein) as L2'.
          destruct (vset_some shist r (nth (Z.to_nat r) shist 0 + 1) ltac:(lia)) as [sh' Esh].
          pose proof (vset_length _ _ _ _ Esh) as L3'.
          assert (Es : Z.to_nat (d + 1) = S (Z.to_nat d)) by lia.
          destruct (IH (d + 1) (S p) rh in' sh') as (fuel & out & Hout); try lia.
          { rewrite Es, F2, G2, E. reflexivity. }
          { intros y Hy. rewrite Es, G2, in_app_iff. intros K. rewrite (vset_get _ _ _ _ 0 (Z.to_nat y) Esh).
            destruct (Nat.eqb_spec (Z.to_nat y) (Z.to_nat r)) as [Exy|_].
            - exfalso. apply K. right. left. lia.
            - apply Hs; [exact Hy|]. tauto. }
          exists (S fuel), out. cbn [random1]. replace (d <? dom) with true by lia.
          rewrite Er. cbn [bind]. rewrite Erh. cbn [bind].
          rewrite (vget_some shist r 0) by lia. cbn [bind]. rewrite F1, E, Eb'.
          rewrite Ein. cbn [bind]. rewrite Esh. cbn [bind]. exact Hout.
  Qed.
End R.

(** Modes 2 and 3. *)
Lemma random_seq_lem f N : 1 <= N -> forall k d inds shist,
  (forall j, d <= j < d + Z.of_nat k -> 0 <= f j) ->
  0 <= d -> d + Z.of_nat k = Z.of_nat (List.length inds) -> N <= Z.of_nat (List.length shist) ->
  exists s', random_seq f k d N inds shist =
    Ok (firstn (Z.to_nat d) inds ++ map (fun j => f j mod N) (zseq d k), s')%list.
Proof.
  intros HN. induction k as [|k IH]; intros d inds shist Hf Hd L1 L2.
  - exists shist. cbn. rewrite app_nil_r. replace (Z.to_nat d) with (List.length inds) by lia.
    rewrite firstn_all. reflexivity.
  - cbn [random_seq]. unfold crem. replace (N =? 0) with false by lia. cbn [bind].
    rewrite Z.rem_mod_nonneg; [|apply Hf; lia|lia].
    pose proof (Z.mod_pos_bound (f d) N ltac:(lia)) as Hm.
    destruct (vset_some inds d (f d mod N) ltac:(lia)) as [in' Ein].
    destruct (vset_firstn _ _ _ _ Ein) as [_ G2]. pose proof (vset_length _ _ _ _ Ein) as L1'.
    rewrite Ein. cbn [bind]. rewrite (vget_some shist (f d mod N) 0) by lia. cbn [bind].
    destruct (vset_some shist (f d mod N) (nth (Z.to_nat (f d mod N)) shist 0 + 1) ltac:(lia)) as [sh' Esh].
    rewrite Esh. cbn [bind]. pose proof (vset_length _ _ _ _ Esh) as L2'.
    destruct (IH (d + 1) in' sh') as [s' Hs']; try lia.
    { intros j Hj. apply Hf. lia. }
    exists s'. rewrite Hs'. do 2 f_equal. replace (Z.to_nat (d + 1)) with (S (Z.to_nat d)) by lia.
    rewrite G2. cbn [zseq map]. rewrite <- app_assoc. reflexivity.
Qed.

Lemma NoDup_map_inj {A B} (f : A -> B) l : NoDup l -> (forall x y, In x l -> In y l -> f x = f y -> x = y) ->
  NoDup (map f l).
Proof.
  induction 1 as [|a l Ha _ IH]; intros Hf; cbn; constructor.
  - rewrite in_map_iff. intros (x & E & Hx). apply Ha.
    rewrite (Hf a x); [exact Hx|left; reflexivity|right; exact Hx|symmetry; exact E].
  - apply IH. intros x y Hx Hy. apply Hf; right; assumption.
Qed.
Lemma NoDup_map_inv' {A B} (f : A -> B) l x y : NoDup (map f l) -> In x l -> In y l -> f x = f y -> x = y.
Proof.
  induction l as [|a l IH]; cbn; intros H Hx Hy E; [destruct Hx|].
  inversion H as [|? ? Hn Hl]; subst.
  destruct Hx as [->|Hx], Hy as [->|Hy]; try reflexivity.
  - exfalso. apply Hn. rewrite E. apply in_map. exact Hy.
  - exfalso. apply Hn. rewrite <- E. apply in_map. exact Hx.
  - apply IH; assumption.
Qed.
Lemma mod_eq_divide a b N : 1 <= N -> (a mod N = b mod N <-> (N | a - b)).
Proof.
  intros HN. split.
  - intros H. apply Z.mod_divide; [lia|]. rewrite Zminus_mod, H, Z.sub_diag. apply Z.mod_0_l. lia.
  - intros [q Hq]. replace a with (b + q * N) by lia. apply Z_mod_plus_full.
Qed.
Lemma progression_distinct s st N D : 1 <= N -> 1 <= st ->
  (NoDup (map (fun j => (s + j * st) mod N) (zseq 0 (Z.to_nat D))) <-> D <= N / Z.gcd st N).
Proof.
  intros HN Hst.
  assert (Hg : 1 <= Z.gcd st N). { pose proof (Z.gcd_nonneg st N). pose proof (Z.gcd_eq_0_l st N). lia. }
  destruct (Z.gcd_divide_l st N) as [a Ha]. destruct (Z.gcd_divide_r st N) as [b Hb].
  remember (Z.gcd st N) as g eqn:Eg.
  assert (Eb : N / g = b). { rewrite Hb. apply Z.div_mul. lia. }
  assert (Hbp : 1 <= b) by nia.
  assert (Hdiv : forall j, (N | j * st) <-> (b | j)).
  { intros j. split.
    - intros [q Hq]. apply (Gauss b a j).
      + exists q. nia.
      + apply rel_prime_sym. unfold rel_prime.
        assert (G1 : Z.gcd a b = 1).
        { pose proof (Z.gcd_div_gcd st N g ltac:(lia) Eg) as K.
          rewrite Ha in K at 1. rewrite Z.div_mul in K by lia. rewrite Eb in K. exact K. }
        rewrite <- G1. apply Zgcd_is_gcd.
    - intros [q Hq]. exists (q * a). nia. }
  rewrite Eb. split.
  - intros Hnd. destruct (Z_le_gt_dec D b) as [|Hgt]; [assumption|exfalso].
    assert (b = 0); [|lia].
    apply (NoDup_map_inv' (fun j => (s + j * st) mod N) (zseq 0 (Z.to_nat D)) b 0 Hnd).
    + apply zseq_in. lia.
    + apply zseq_in. lia.
    + apply mod_eq_divide; [lia|]. replace (s + b * st - (s + 0 * st)) with (b * st) by ring.
      apply Hdiv. exists 1. lia.
  - intros HD. apply NoDup_map_inj; [apply zseq_NoDup|].
    intros x y Hx Hy E. apply zseq_in in Hx, Hy. apply mod_eq_divide in E; [|lia].
    replace (s + x * st - (s + y * st)) with ((x - y) * st) in E by ring. apply Hdiv in E.
    destruct E as [q Hq]. assert (q = 0) by nia. lia.
Qed.

Lemma cceil_spec n d : 1 <= d -> capacity n d (cceil n d).
Proof.
  intros Hd. unfold capacity, cceil. pose proof (Z.mul_div_le (- n) d ltac:(lia)).
  pose proof (Z.mul_succ_div_gt (- n) d ltac:(lia)). nia.
Qed.

(** * C34 *)
Lemma set_no_no {F} (s : source F) n : sourceNo (set_no s n) = n. Proof. reflexivity. Qed.
Lemma super_abs dom ind : 1 <= dom -> 0 <= ind -> Z.abs (super_no dom ind) = super_no dom ind.
Proof. intros. unfold super_no. lia. Qed.

Section E.
  Context {F : Type} (neg : F -> F).
  Variable rnd : nat -> Z.
  Hypothesis rnd_pos : forall p, 0 <= rnd p.

  Lemma occupancy_cons (s : source F) l n :
    occupancy (s :: l) n = occupancy l n + (if Z.abs (sourceNo s) =? n then 1 else 0).
  Proof using. clear rnd_pos; try clear rnd; try clear neg; try clear F. unfold occupancy. cbn [filter]. destruct (Z.abs (sourceNo s) =? n); cbn [List.length]; lia. Qed.

  Lemma draw_lem dom cap hist : 1 <= dom -> Z.of_nat (List.length hist) = dom ->
    forall fuel p ind p', draw rnd fuel p dom cap hist = Ok (ind, p') ->
    0 <= ind < dom /\ nth (Z.to_nat ind) hist 0 < cap.
  Proof using rnd_pos.
    intros Hd L. induction fuel as [|fuel IH]; intros p ind p' H; [discriminate|].
    cbn [draw] in H. unfold crem in H. replace (dom =? 0) with false in H by lia. cbn [bind] in H.
    apply bind_ok in H. destruct H as (h & Eh & H). apply vget_inv with (d := 0) in Eh.
    destruct (Z.leb_spec cap h); [apply (IH _ _ _ H)|]. inversion H; subst. lia.
  Qed.

  Definition in_super (dom : Z) (s s' : source F) : Prop :=
    exists ind, 0 <= ind < dom /\ s' = set_no s (super_no dom ind).

  Lemma encode1_lem dom cap fuel : 1 <= dom -> 1 <= cap -> forall l shotInd p hist l' p',
    0 <= shotInd -> Z.of_nat (List.length hist) = dom ->
    (forall j, 0 <= j < dom -> 0 <= nth (Z.to_nat j) hist 0 <= cap) ->
    (forall j, shotInd <= j < dom -> nth (Z.to_nat j) hist 0 = 0) ->
    encode1_loop rnd fuel l shotInd p dom cap hist = Ok (l', p') ->
    Forall2 (in_super dom) l l' /\
    (forall j, 0 <= j < dom -> nth (Z.to_nat j) hist 0 + occupancy l' (super_no dom j) <= cap) /\
    (forall j, shotInd <= j < dom -> j < shotInd + Z.of_nat (List.length l) ->
       1 <= occupancy l' (super_no dom j)).
  Proof using rnd_pos.
    intros Hd Hc. induction l as [|s l IH]; intros shotInd p hist l' p' Hs L H1 H2 H.
    - inversion H; subst. split; [constructor|]. split.
      + intros j Hj. pose proof (H1 j Hj). unfold occupancy. cbn. lia.
      + cbn [List.length]. lia.
    - cbn [encode1_loop] in H. apply bind_ok in H. destruct H as ([ind p1] & E1 & H).
      apply bind_ok in H. destruct H as (h & Eh & H). apply bind_ok in H. destruct H as (hist' & Eh' & H).
      apply bind_ok in H. destruct H as ([rest p2] & E2 & H).
      assert (El : l' = set_no s (super_no dom ind) :: rest) by congruence.
      assert (Ep : p2 = p') by congruence. subst l' p2. clear H.
      assert (Hind : 0 <= ind < dom /\ nth (Z.to_nat ind) hist 0 < cap /\ (shotInd < dom -> ind = shotInd)).
      { destruct (Z.ltb_spec shotInd dom).
        - assert (ind = shotInd) by congruence. subst ind. rewrite H2 by lia. lia.
        - pose proof (draw_lem dom cap hist Hd L fuel p ind p1 E1). lia. }
      destruct Hind as (I1 & I2 & I3). apply vget_inv with (d := 0) in Eh. destruct Eh as [_ Eh].
      pose proof (vset_length _ _ _ _ Eh') as L'.
      assert (G : forall j, 0 <= j < dom -> nth (Z.to_nat j) hist' 0 = nth (Z.to_nat j) hist 0 + (if j =? ind then 1 else 0)).
      { intros j Hj. rewrite (vset_get _ _ _ _ 0 (Z.to_nat j) Eh'). destruct (Z.eqb_spec j ind) as [->|].
        - rewrite Nat.eqb_refl. lia.
        - replace (Nat.eqb (Z.to_nat j) (Z.to_nat ind)) with false by lia. lia. }
      destruct (IH (shotInd + 1) p1 hist' rest p' ltac:(lia) ltac:(lia)) as (A1 & A2 & A3).
      + intros j Hj. rewrite G by exact Hj. pose proof (H1 j Hj). destruct (Z.eqb_spec j ind) as [->|]; lia.
      + intros j Hj. rewrite G by lia. rewrite H2 by lia. destruct (Z.eqb_spec j ind) as [->|]; [|lia].
        rewrite I3 in Hj by lia. lia.
      + exact E2.
      + assert (O : forall j, 0 <= j < dom -> occupancy (set_no s (super_no dom ind) :: rest) (super_no dom j) =
                    occupancy rest (super_no dom j) + (if j =? ind then 1 else 0)).
        { intros j Hj. rewrite occupancy_cons, set_no_no, super_abs by lia. f_equal.
          unfold super_no. destruct (Z.eqb_spec j ind) as [->|].
          - rewrite Z.eqb_refl. reflexivity.
          - replace (dom * 10000 + 1 + ind =? dom * 10000 + 1 + j) with false by lia. reflexivity. }
        split; [constructor; [exists ind; split; [exact I1|reflexivity]|exact A1]|]. split.
        * intros j Hj. rewrite O by exact Hj. specialize (A2 j Hj). rewrite G in A2 by exact Hj. lia.
        * intros j Hj Hj'. rewrite O by lia. cbn [List.length] in Hj'.
          destruct (Z.eqb_spec j ind) as [->|Hne].
          -- unfold occupancy. lia.
          -- rewrite Z.add_0_r. apply A3; [|lia]. rewrite I3 in Hne by lia. lia.
  Qed.

  (** Termination under a fair random sequence. *)
  Lemma draw_mono dom cap hist fuel p out k : draw rnd fuel p dom cap hist = Ok out ->
    draw rnd (fuel + k) p dom cap hist = Ok out.
  Proof using. clear rnd_pos; try clear rnd; try clear neg; try clear F.
    revert p. induction fuel as [|fuel IH]; intros p H; [discriminate|].
    cbn [draw Nat.add] in *. destruct (crem (rnd p) dom) as [ind| | |]; cbn [bind] in *; try discriminate.
    destruct (vget hist ind) as [h| | |]; cbn [bind] in *; try discriminate.
    destruct (cap <=? h); [apply IH; exact H|exact H].
  Qed.
  Lemma encode1_mono dom cap fuel k (l : list (source F)) : forall shotInd p hist out,
    encode1_loop rnd fuel l shotInd p dom cap hist = Ok out ->
    encode1_loop rnd (fuel + k) l shotInd p dom cap hist = Ok out.
  Proof using. clear rnd_pos; try clear rnd; try clear neg; try clear F.
    induction l as [|s l IH]; intros shotInd p hist out H; [exact H|].
    cbn [encode1_loop] in *. apply bind_ok in H. destruct H as ([ind p1] & E1 & H).
    assert (E1' : (if shotInd <? dom then Ok (shotInd, p) else draw rnd (fuel + k) p dom cap hist) = Ok (ind, p1)).
    { destruct (shotInd <? dom); [exact E1|]. apply draw_mono. exact E1. }
    rewrite E1'. cbn [bind]. apply bind_ok in H. destruct H as (h & Eh & H). rewrite Eh. cbn [bind].
    apply bind_ok in H. destruct H as (h' & Eh' & H). rewrite Eh'. cbn [bind].
    apply bind_ok in H. destruct H as ([rest p2] & E2 & H). rewrite (IH _ _ _ _ E2). cbn [bind]. exact H.
  Qed.
  Lemma zsum_cap (hist : list Z) cap : zsum hist < cap * Z.of_nat (List.length hist) ->
    exists j, (j < List.length hist)%nat /\ nth j hist 0 < cap.
  Proof using. clear rnd_pos; try clear rnd; try clear neg; try clear F.
    induction hist as [|h r IH]; cbn [zsum fold_right List.length]; intros H; [lia|].
    destruct (Z_lt_dec h cap) as [Hh|Hh].
    - exists 0%nat. cbn. split; [lia|exact Hh].
    - destruct IH as (j & Hj & Hn); [fold (zsum r) in *; lia|]. exists (S j). cbn. split; [lia|exact Hn].
  Qed.
  Lemma zsum_app a b : zsum (a ++ b) = zsum a + zsum b.
  Proof using. clear rnd_pos; try clear rnd; try clear neg; try clear F. unfold zsum. induction a as [|x a IH]; cbn; [reflexivity|]. rewrite IH. lia. Qed.
  Lemma vset_zsum v i x v' : vset v i x = Ok v' -> zsum v' = zsum v - nth (Z.to_nat i) v 0 + x.
  Proof using. clear rnd_pos; try clear rnd; try clear neg; try clear F.
    intros H. destruct (vset_spec _ _ _ _ H) as [H1 ->].
    rewrite <- (firstn_skipn (Z.to_nat i) v) at 3. rewrite !zsum_app.
    assert (E : skipn (Z.to_nat i) v = nth (Z.to_nat i) v 0 :: skipn (S (Z.to_nat i)) v).
    { assert (Hs : (Z.to_nat i < List.length v)%nat) by lia. generalize (Z.to_nat i) Hs. clear.
      induction v as [|y v IH]; intros [|n] Hs; cbn in *; try lia; [reflexivity|].
      rewrite IH by lia. destruct v; reflexivity. }
    rewrite E. cbn [zsum fold_right]. fold (zsum (skipn (S (Z.to_nat i)) v)). lia.
  Qed.
  Lemma draw_term dom cap hist p : 1 <= dom -> Z.of_nat (List.length hist) = dom -> fair rnd dom ->
    zsum hist < cap * dom -> exists fuel out, draw rnd fuel p dom cap hist = Ok out.
  Proof using rnd_pos.
    intros Hd L Hf Hz. destruct (zsum_cap hist cap) as (j & Hj & Hn); [rewrite L; exact Hz|].
    destruct (Hf (Z.of_nat j) p ltac:(lia)) as (q & Hpq & Hq).
    remember (q - p)%nat as m eqn:Em. revert p Hpq Em. induction m as [|m IH]; intros p Hpq Em.
    - assert (q = p) by lia. subst q. exists 1%nat. eexists. cbn [draw]. unfold crem.
      replace (dom =? 0) with false by lia. cbn [bind]. rewrite Hq. rewrite (vget_some hist _ 0) by lia. cbn [bind].
      rewrite Nat2Z.id. replace (cap <=? nth j hist 0) with false by lia. reflexivity.
    - destruct (IH (S p) ltac:(lia) ltac:(lia)) as (fuel & out & Ho).
      assert (Hr : 0 <= Z.rem (rnd p) dom < dom).
      { rewrite Z.rem_mod_nonneg by (try apply rnd_pos; lia). apply Z.mod_pos_bound. lia. }
      exists (S fuel). cbn [draw]. unfold crem. replace (dom =? 0) with false by lia. cbn [bind].
      rewrite (vget_some hist _ 0) by lia. cbn [bind].
      destruct (cap <=? _); [exists out; exact Ho|eexists; reflexivity].
  Qed.
  Lemma encode1_term dom cap : 1 <= dom -> fair rnd dom -> forall (l : list (source F)) shotInd p hist,
    0 <= shotInd -> Z.of_nat (List.length hist) = dom -> zsum hist = shotInd ->
    shotInd + Z.of_nat (List.length l) <= cap * dom ->
    exists fuel out, encode1_loop rnd fuel l shotInd p dom cap hist = Ok out.
  Proof using rnd_pos.
    intros Hd Hf. induction l as [|s l IH]; intros shotInd p hist Hs L Hz Hc.
    - exists 0%nat. eexists. reflexivity.
    - cbn [List.length] in Hc.
      assert (D : exists f1 ind p1, (if shotInd <? dom then Ok (shotInd, p) else draw rnd f1 p dom cap hist) = Ok (ind, p1)
                  /\ 0 <= ind < dom).
      { destruct (Z.ltb_spec shotInd dom) as [Hlt|Hge].
        - exists 0%nat, shotInd, p. split; [reflexivity|lia].
        - destruct (draw_term dom cap hist p Hd L Hf ltac:(lia)) as (f1 & [ind p1] & E).
          exists f1, ind, p1. split; [exact E|]. pose proof (draw_lem dom cap hist Hd L f1 p ind p1 E). lia. }
      destruct D as (f1 & ind & p1 & E1 & Hi).
      destruct (vset_some hist ind (nth (Z.to_nat ind) hist 0 + 1) ltac:(lia)) as [hist' Eh'].
      pose proof (vset_length _ _ _ _ Eh') as L'. pose proof (vset_zsum _ _ _ _ Eh') as Z'.
      destruct (IH (shotInd + 1) p1 hist' ltac:(lia) ltac:(lia) ltac:(lia) ltac:(lia)) as (f2 & [rest p2] & E2).
      exists (f1 + f2)%nat. eexists. cbn [encode1_loop].
      assert (E1' : (if shotInd <? dom then Ok (shotInd, p) else draw rnd (f1 + f2) p dom cap hist) = Ok (ind, p1)).
      { destruct (shotInd <? dom); [exact E1|]. apply draw_mono. exact E1. }
      rewrite E1'. cbn [bind]. rewrite (vget_some hist ind 0) by lia. cbn [bind]. rewrite Eh'. cbn [bind].
      rewrite Nat.add_comm. rewrite (encode1_mono _ _ _ f1 _ _ _ _ _ E2). cbn [bind]. reflexivity.
  Qed.

  Lemma encode1_sign_lem l p : Forall2 (fun s s' => same_source neg s s' /\ sourceNo s' = sourceNo s)
    l (encode1_sign neg rnd l p).
  Proof using. clear rnd_pos; try clear rnd; try clear neg; try clear F.
    revert p. induction l as [|s l IH]; intros p; cbn; constructor; [|apply IH].
    destruct (0 <? Z.rem (rnd p) 2); repeat split; cbn; auto.
  Qed.
  Lemma occupancy_same l l' n : Forall2 (fun s s' : source F => sourceNo s' = sourceNo s) l l' ->
    occupancy l' n = occupancy l n.
  Proof using. clear rnd_pos; try clear rnd; try clear neg; try clear F.
    induction 1 as [|s s' l l' E _ IH]; [reflexivity|]. rewrite !occupancy_cons, IH, E. reflexivity.
  Qed.

  (** Modes 2 and 3 *)
  Definition cnt_in (f : Z -> Z) (a : Z) (n : nat) (j : Z) : Z :=
    Z.of_nat (List.length (filter (fun i => f i =? j) (zseq a n))).
  Lemma cnt_in_snoc f a n j : cnt_in f a (S n) j = cnt_in f a n j + (if f (a + Z.of_nat n) =? j then 1 else 0).
  Proof using. clear rnd_pos; try clear rnd; try clear neg; try clear F.
    unfold cnt_in. replace (S n) with (n + 1)%nat by lia. rewrite zseq_app, filter_app, app_length.
    cbn [zseq filter]. destruct (f (a + Z.of_nat n) =? j); cbn [List.length]; lia.
  Qed.
  Lemma cnt_mod dom j n : 1 <= dom -> 0 <= j < dom ->
    let c := cnt_in (fun i => i mod dom) 0 n j in
    Z.of_nat n <= c * dom + j /\ (c = 0 \/ (c - 1) * dom + j < Z.of_nat n) /\ 0 <= c.
  Proof using. clear rnd_pos; try clear rnd; try clear neg; try clear F.
    intros Hd Hj. cbn zeta. induction n as [|n IH].
    - unfold cnt_in. cbn. lia.
    - rewrite cnt_in_snoc. rewrite Z.add_0_l. set (c := cnt_in (fun i => i mod dom) 0 n j) in *.
      destruct IH as (I1 & I2 & I3). pose proof (Z.div_mod (Z.of_nat n) dom ltac:(lia)) as Dm.
      pose proof (Z.mod_pos_bound (Z.of_nat n) dom ltac:(lia)) as Bm.
      destruct (Z.eqb_spec (Z.of_nat n mod dom) j) as [E|E].
      + assert (c = Z.of_nat n / dom). { destruct I2; nia. } nia.
      + split; [|split; [|lia]].
        * assert (Z.of_nat n <> c * dom + j); [|lia]. intros K. apply E. rewrite K.
          rewrite Z.add_comm, Z_mod_plus_full. apply Z.mod_small. lia.
        * destruct I2; [left|right]; lia.
  Qed.
  Lemma cnt_div cap j n : 1 <= cap -> 0 <= j ->
    cnt_in (fun i => i / cap) 0 n j = Z.min (Z.max (Z.of_nat n - j * cap) 0) cap.
  Proof using. clear rnd_pos; try clear rnd; try clear neg; try clear F.
    intros Hc Hj. induction n as [|n IH].
    - unfold cnt_in. cbn [zseq filter List.length]. nia.
    - rewrite cnt_in_snoc, IH, Z.add_0_l. rewrite Nat2Z.inj_succ.
      pose proof (Z.mul_div_le (Z.of_nat n) cap ltac:(lia)). pose proof (Z.mul_succ_div_gt (Z.of_nat n) cap ltac:(lia)).
      destruct (Z.eqb_spec (Z.of_nat n / cap) j) as [E|E]; [subst j; nia|].
      assert (Z.of_nat n < j * cap \/ (j + 1) * cap <= Z.of_nat n) as [K|K] by nia; nia.
  Qed.
  Lemma encode_numbers (f : Z -> Z) dom l l' a : 1 <= dom ->
    Forall2 (fun i p => snd p = set_no (fst p) (super_no dom (f i))) (zseq a (List.length l)) (combine l l') ->
    List.length l' = List.length l -> (forall i, a <= i < a + Z.of_nat (List.length l) -> 0 <= f i < dom) ->
    Forall2 (in_super dom) l l' /\
    forall j, 0 <= j < dom -> occupancy l' (super_no dom j) = cnt_in f a (List.length l) j.
  Proof using. clear rnd_pos; try clear rnd; try clear neg; try clear F.
    intros Hd. revert a l'. induction l as [|s l IH]; intros a l' H L Hf.
    - destruct l'; [|discriminate L]. split; [constructor|reflexivity].
    - destruct l' as [|s' l']; [discriminate L|]. cbn [List.length zseq combine] in H.
      inversion H as [|? ? ? ? Hs Hr]; subst. cbn [fst snd] in Hs.
      cbn [List.length] in L, Hf. specialize (Hf a ltac:(lia)) as Hfa.
      destruct (IH (a + 1) l' Hr ltac:(lia)) as [A1 A2]. { intros i Hi. apply Hf. lia. }
      split; [constructor; [exists (f a); split; [exact Hfa|exact Hs]|exact A1]|].
      intros j Hj. rewrite occupancy_cons, A2 by exact Hj. rewrite Hs, set_no_no, super_abs by lia.
      unfold cnt_in. cbn [List.length zseq filter].
      replace (super_no dom (f a) =? super_no dom j) with (f a =? j) by (unfold super_no; lia).
      destruct (f a =? j); cbn [List.length]; lia.
  Qed.
  Lemma encode2_lem (l : list (source F)) a dom : 1 <= dom -> 0 <= a -> exists l', encode2_loop l a dom = Ok l' /\
    List.length l' = List.length l /\
    Forall2 (fun i p => snd p = set_no (fst p) (super_no dom (i mod dom))) (zseq a (List.length l)) (combine l l').
  Proof using. clear rnd_pos; try clear rnd; try clear neg; try clear F.
    intros Hd. revert a. induction l as [|s l IH]; intros a Ha.
    - exists []. repeat split. constructor.
    - destruct (IH (a + 1) ltac:(lia)) as (l' & E & L & H). exists (set_no s (super_no dom (a mod dom)) :: l').
      cbn [encode2_loop]. unfold crem. replace (dom =? 0) with false by lia. cbn [bind]. rewrite E. cbn [bind].
      rewrite Z.rem_mod_nonneg by lia. split; [reflexivity|]. split; [cbn; lia|].
      cbn [List.length zseq combine]. constructor; [reflexivity|exact H].
  Qed.
  Lemma encode3_lem (l : list (source F)) a dom cap : 1 <= cap -> 0 <= a -> exists l', encode3_loop l a dom cap = Ok l' /\
    List.length l' = List.length l /\
    Forall2 (fun i p => snd p = set_no (fst p) (super_no dom (i / cap))) (zseq a (List.length l)) (combine l l').
  Proof using. clear rnd_pos; try clear rnd; try clear neg; try clear F.
    intros Hd. revert a. induction l as [|s l IH]; intros a Ha.
    - exists []. repeat split. constructor.
    - destruct (IH (a + 1) ltac:(lia)) as (l' & E & L & H). exists (set_no s (super_no dom (a / cap)) :: l').
      cbn [encode3_loop]. unfold cdiv. replace (cap =? 0) with false by lia. cbn [bind]. rewrite E. cbn [bind].
      rewrite Z.quot_div_nonneg by lia. split; [reflexivity|]. split; [cbn; lia|].
      cbn [List.length zseq combine]. constructor; [reflexivity|exact H].
  Qed.
End E.

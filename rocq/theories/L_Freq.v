(** Lemmas for C177. *)
From Coq Require Import Reals Lra.
From Verif Require Import Base M_Grid M_Common M_Acq M_Freq S_Acq S_Freq L_AcqFile L_Acq L_Acq2.
Open Scope Z_scope.

Lemma ceilR_spec x : (IZR (ceilR x) - 1 < x <= IZR (ceilR x))%R.
Proof.
  unfold ceilR. rewrite opp_IZR. destruct (base_Int_part (- x)) as [H1 H2]. lra.
Qed.
Lemma ceilR_le x k : (x <= IZR k)%R <-> ceilR x <= k.
Proof.
  destruct (ceilR_spec x) as [H1 H2]. split; intros H.
  - assert (K : (IZR (ceilR x) < IZR (k + 1))%R) by (rewrite plus_IZR; lra). apply lt_IZR in K. lia.
  - apply IZR_le in H. lra.
Qed.
Lemma up_to_ceil k df hi : (0 < df)%R -> up_to k df hi <-> k <= ceilR (hi / df).
Proof.
  intros Hd. unfold up_to.
  assert (E : (IZR (k - 1) * df < hi)%R <-> ~ (hi / df <= IZR (k - 1))%R).
  { assert (Eh : hi = (hi / df * df)%R) by (field; lra). split; intros H.
    - intros K. apply (Rmult_le_compat_r df) in K; [|lra]. rewrite <- Eh in K. lra.
    - apply Rnot_le_lt in H. apply (Rmult_lt_compat_r df) in H; [|lra]. rewrite <- Eh in H. exact H. }
  rewrite E, ceilR_le. lia.
Qed.
Lemma lo_ceil k df lo : (0 < df)%R -> (lo <= IZR k * df)%R <-> ceilR (lo / df) <= k.
Proof.
  intros Hd. rewrite <- ceilR_le.
  assert (Eh : lo = (lo / df * df)%R) by (field; lra). split; intros H.
  - apply Rmult_le_reg_r with df; [lra|]. rewrite <- Eh. exact H.
  - apply (Rmult_le_compat_r df) in H; [|lra]. rewrite <- Eh in H. exact H.
Qed.
Lemma ceilR_nonneg x : (0 <= x)%R -> 0 <= ceilR x.
Proof.
  intros H. destruct (ceilR_spec x) as [_ H2]. apply le_IZR. lra.
Qed.

Lemma cceil2 a : 2 * cceil a 2 - 1 <= a <= 2 * cceil a 2.
Proof. unfold cceil. pose proof (Z.div_mod (- a) 2). pose proof (Z.mod_pos_bound (- a) 2). lia. Qed.

Lemma first_true i : 0 <= i -> Z.even (first_ind true i) = true /\ 2 <= first_ind true i /\
  (forall k, Z.even k = true -> 0 < k -> i <= k -> first_ind true i <= k) /\ i <= first_ind true i.
Proof.
  intros H. unfold first_ind. set (a := if i =? 0 then 2 else i).
  assert (Ha : 1 <= a /\ i <= a /\ (a = i \/ (i = 0 /\ a = 2))).
  { unfold a. destruct (Z.eqb_spec i 0); lia. }
  clearbody a. destruct Ha as (A1 & A2 & A3).
  pose proof (Z.quot_rem' a 2) as Q. pose proof (Z.rem_bound_pos a 2 ltac:(lia) ltac:(lia)) as B.
  assert (Hk : forall k, Z.even k = true -> exists j, k = 2 * j).
  { intros k E. apply Z.even_spec in E. destruct E as [j ->]. exists j. lia. }
  destruct (Z.eqb_spec (Z.rem a 2) 1) as [E|E].
  - split; [|split; [lia|split; [|lia]]].
    + apply Z.even_spec. exists (Z.quot a 2 + 1). lia.
    + intros k E' K1 K2. destruct (Hk _ E') as [j ->]. lia.
  - split; [|split; [|split; [|lia]]].
    + apply Z.even_spec. exists (Z.quot a 2). lia.
    + lia.
    + intros k E' K1 K2. destruct (Hk _ E') as [j ->]. lia.
Qed.
Lemma first_false i : 0 <= i -> 1 <= first_ind false i /\ i <= 2 * first_ind false i /\
  (forall k, 0 < k -> i <= 2 * k -> first_ind false i <= k).
Proof.
  intros H. unfold first_ind. pose proof (cceil2 i). cbn zeta.
  destruct (Z.eqb_spec (cceil i 2) 0); split; try split; try lia; intros; lia.
Qed.

Lemma linear_in n a d l : linear n a d = Ok l ->
  forall f, In f l <-> exists k, 0 <= k < n /\ f = (a + IZR k * d)%R.
Proof.
  unfold linear. destruct (Z.ltb_spec n 0); [discriminate|]. intros K. inversion K; subst. intros f.
  rewrite in_map_iff. split.
  - intros (k & <- & Hk). apply in_seq in Hk. exists (Z.of_nat k). split; [lia|reflexivity].
  - intros (k & Hk & ->). exists (Z.to_nat k). rewrite Z2Nat.id by lia. split; [reflexivity|].
    apply in_seq. lia.
Qed.
Lemma linear_nodup n a d l : (d <> 0)%R -> linear n a d = Ok l -> NoDup l.
Proof.
  unfold linear. destruct (Z.ltb_spec n 0); [discriminate|]. intros Hd K. inversion K; subst.
  apply FinFun.Injective_map_NoDup; [|apply seq_NoDup].
  intros i j E. assert (E' : (IZR (Z.of_nat i) * d = IZR (Z.of_nat j) * d)%R) by lra.
  apply Rmult_eq_reg_r in E'; [|exact Hd]. apply eq_IZR in E'. lia.
Qed.

Lemma grid_lem df fc1 fc2 cpml l : (0 < df)%R -> (0 <= fc1)%R -> frequencies true df fc1 fc2 cpml = Ok l ->
  NoDup l /\ forall f, In f l <-> grid_freq df fc1 (if Req_EM_T fc2 0 then (cpml * 2)%R else fc2) f.
Proof.
  intros Hd H1 H. unfold frequencies in H. set (hi := if Req_EM_T fc2 0 then _ else _) in *. clearbody hi.
  split; [apply (linear_nodup _ _ _ _) in H; [exact H|]; unfold step_ind; lra|].
  intros f. rewrite (linear_in _ _ _ _ H). unfold grid_freq, number_freq, step_ind.
  assert (Hq : (0 <= fc1 / df)%R).
  { unfold Rdiv. apply Rmult_le_pos; [exact H1|]. left. apply Rinv_0_lt_compat. exact Hd. }
  destruct (first_true (ceilR (fc1 / df)) (ceilR_nonneg _ Hq)) as (F1 & F2 & F3 & F4).
  set (a := first_ind true _) in *. clearbody a.
  pose proof (cceil2 (ceilR (hi / df) - a + 1)) as C. split.
  - intros (k & Hk & ->). exists (a + 2 * k).
    assert (E : (IZR a * df + IZR k * (2 * df) = IZR (a + 2 * k) * df)%R).
    { rewrite plus_IZR, mult_IZR. ring. }
    split; [exact E|]. split; [lia|]. split.
    { rewrite Z.even_add, F1, Z.even_mul. reflexivity. }
    split; [rewrite E; apply lo_ceil; [exact Hd|lia]|apply up_to_ceil; [exact Hd|lia]].
  - intros (k & -> & K0 & K1 & K2 & K3). apply lo_ceil in K2; [|exact Hd]. apply up_to_ceil in K3; [|exact Hd].
    specialize (F3 k K1 K0 K2). apply Z.even_spec in F1. apply Z.even_spec in K1.
    destruct F1 as [u ->]. destruct K1 as [v ->]. exists (v - u). split; [lia|].
    rewrite minus_IZR, !mult_IZR. ring.
Qed.
Lemma wide_lem df fc1 fc2 cpml l : (0 < df)%R -> (0 <= fc1)%R -> frequencies false df fc1 fc2 cpml = Ok l ->
  NoDup l /\ forall f, In f l <-> wide_freq df fc1 (if Req_EM_T fc2 0 then (cpml * 2)%R else fc2) f.
Proof.
  intros Hd H1 H. unfold frequencies in H. set (hi := if Req_EM_T fc2 0 then _ else _) in *. clearbody hi.
  split; [apply (linear_nodup _ _ _ _) in H; [exact H|]; unfold step_ind; lra|].
  intros f. rewrite (linear_in _ _ _ _ H). unfold wide_freq, number_freq, step_ind.
  assert (Hq : (0 <= fc1 / df)%R).
  { unfold Rdiv. apply Rmult_le_pos; [exact H1|]. left. apply Rinv_0_lt_compat. exact Hd. }
  destruct (first_false (ceilR (fc1 / df)) (ceilR_nonneg _ Hq)) as (F1 & F2 & F3).
  set (a := first_ind false _) in *. clearbody a.
  assert (E2 : forall k, (fc1 <= 2 * (IZR k * df))%R <-> ceilR (fc1 / df) <= 2 * k).
  { intros k. rewrite <- lo_ceil by exact Hd. rewrite mult_IZR.
    replace (2 * (IZR k * df))%R with (2 * IZR k * df)%R by ring. reflexivity. }
  split.
  - intros (k & Hk & ->). exists (a + k), (ceilR (hi / df)).
    assert (E : (IZR a * df + IZR k * (1 * df) = IZR (a + k) * df)%R) by (rewrite plus_IZR; ring).
    split; [exact E|]. split; [lia|]. split; [rewrite E; apply E2; lia|].
    split; [lia|apply up_to_ceil; [exact Hd|lia]].
  - intros (k & m & -> & K0 & K1 & K2 & K3). apply E2 in K1. apply up_to_ceil in K3; [|exact Hd].
    specialize (F3 k K0 K1). exists (k - a). split; [lia|]. rewrite minus_IZR. ring.
Qed.

Section Sel.
  Context {F : Type}.
  Variable rnd : nat -> Z.
  Hypothesis rnd_pos : forall p, 0 <= rnd p.
  Implicit Types (l : list (source F)) (s : source F).

  (** The choices of one supershot: [free i] says that frequency i was still free. *)
  Definition chosen (fc12 : list F) (hist : list Z) (f : F) : Prop :=
    exists i, (i < List.length fc12)%nat /\ nth_error fc12 i = Some f /\ nth i hist 0 = 0.
  Definition picked (fc12 : list F) (hist : list Z) (no : Z) l l' : Prop :=
    Forall2 same_but_signal l l' /\
    (forall i s s', nth_error l i = Some s -> nth_error l' i = Some s' -> Z.abs (sourceNo s) <> no -> s' = s) /\
    (forall i s s', nth_error l i = Some s -> nth_error l' i = Some s' -> Z.abs (sourceNo s) = no ->
       sine s' /\ chosen fc12 hist (fc s')) /\
    (forall i j s t, i <> j -> nth_error l' i = Some s -> nth_error l' j = Some t ->
       Z.abs (sourceNo s) = no -> Z.abs (sourceNo t) = no -> fc s <> fc t).

  Lemma same_refl s : same_but_signal s s.
  Proof using. unfold same_but_signal. tauto. Qed.

  Lemma f2_nth l l' i s' : Forall2 same_but_signal l l' -> nth_error l' i = Some s' ->
    exists s, nth_error l i = Some s /\ same_but_signal s s'.
  Proof using.
    intros H. revert i. induction H as [|a b l l' Hab _ IH]; intros [|i] E; try discriminate.
    - inversion E; subst. exists a. auto.
    - apply IH. exact E.
  Qed.

  Lemma pick_lem fuel fc12 no : NoDup fc12 -> forall l p hist jf u l' p' u',
    List.length hist = List.length fc12 -> Forall (fun h => 0 <= h) hist -> (1 <= List.length fc12)%nat ->
    pick rnd fuel fc12 l no p hist jf u = Ok (l', p', u') -> picked fc12 hist no l l'.
  Proof using rnd_pos.
    intros ND. induction l as [|s l IH]; intros p hist jf u l' p' u' Hl Hh Hn H.
    - cbn in H. inversion H; subst. split; [constructor|].
      split; [|split]; intros [|i]; intros; discriminate.
    - cbn [pick] in H. destruct (Z.eqb_spec (Z.abs (sourceNo s)) no) as [E|E].
      + apply bind_ok in H. destruct H as ((ind & p1) & D & H).
        apply bind_ok in H. destruct H as (h & Gh & H). apply bind_ok in H. destruct H as (hist' & Sh & H).
        apply bind_ok in H. destruct H as (f & Gf & H). apply bind_ok in H. destruct H as (u1 & Su & H).
        apply bind_ok in H. destruct H as (((rest & p2) & u2) & R & H). inversion H; subst.
        destruct (draw_lem rnd rnd_pos (Z.of_nat (List.length fc12)) 1 hist ltac:(lia) ltac:(lia) _ _ _ _ D) as [D1 D2].
        set (k := Z.to_nat ind) in *.
        assert (Z0 : nth k hist 0 = 0).
        { assert (0 <= nth k hist 0); [|lia]. rewrite Forall_forall in Hh. apply Hh. apply nth_In. lia. }
        assert (Hf : nth_error fc12 k = Some f).
        { apply vget_inv with (d := f) in Gf. destruct Gf as [G1 G2]. subst k.
          rewrite (nth_error_nth' fc12 f) by lia. f_equal. congruence. }
        pose proof (vset_length _ _ _ _ Sh) as Lh.
        pose proof (fun j => vset_get _ _ _ _ 0 j Sh) as Nh. fold k in Nh.
        apply vget_inv with (d := 0) in Gh. destruct Gh as [G1 G2]. fold k in G2.
        assert (Hh' : Forall (fun h => 0 <= h) hist').
        { apply Forall_forall. intros x Hx. apply In_nth with (d := 0) in Hx. destruct Hx as (j & Hj & <-).
          rewrite Nh. destruct (Nat.eqb j k); [lia|]. rewrite Forall_forall in Hh. apply Hh. apply nth_In. lia. }
        destruct (IH p1 hist' (jf + 1) u1 rest p' u' ltac:(lia) Hh' Hn R) as (P1 & P2 & P3 & P4).
        assert (Sub : forall g, chosen fc12 hist' g -> chosen fc12 hist g /\ g <> f).
        { intros g (i & Hi & Gi & Zi). rewrite Nh in Zi. destruct (Nat.eqb_spec i k) as [->|Hik].
          - exfalso. lia.
          - split; [exists i; auto|]. intros ->. apply Hik.
            apply (proj1 (NoDup_nth_error fc12) ND i k); [lia|congruence]. }
        split; [constructor; [unfold same_but_signal, tune; cbn; tauto|exact P1]|]. split; [|split].
        * intros [|i] a a' Ha Ha' N; [inversion Ha; subst; contradiction|exact (P2 i a a' Ha Ha' N)].
        * intros [|i] a a' Ha Ha' N.
          -- inversion Ha'; subst. split; [split; reflexivity|]. exists k. cbn. repeat split; try assumption. lia.
          -- destruct (P3 i a a' Ha Ha' N) as [Q1 Q2]. split; [exact Q1|apply Sub; exact Q2].
        * assert (Tail : forall i t, nth_error rest i = Some t -> Z.abs (sourceNo t) = Z.abs (sourceNo s) -> fc t <> f).
          { intros i t Ht Nt. destruct (f2_nth _ _ _ _ P1 Ht) as (t0 & Ht0 & (No & _)).
            destruct (P3 i t0 t Ht0 Ht ltac:(congruence)) as [_ Q]. apply Sub; exact Q. }
          intros [|i] [|j] a b Hij Ha Hb Na Nb; [congruence| | |].
          -- inversion Ha; subst. cbn. intros K. apply (Tail j b Hb Nb). symmetry. exact K.
          -- inversion Hb; subst. cbn. apply (Tail i a Ha Na).
          -- apply (P4 i j a b); auto.
      + apply bind_ok in H. destruct H as (((rest & p2) & u2) & R & H). inversion H; subst.
        destruct (IH p hist jf u rest p' u' Hl Hh Hn R) as (P1 & P2 & P3 & P4).
        split; [constructor; [apply same_refl|exact P1]|]. split; [|split].
        * intros [|i] a a' Ha Ha' N; [cbn in Ha, Ha'; congruence|exact (P2 i a a' Ha Ha' N)].
        * intros [|i] a a' Ha Ha' N; [inversion Ha; subst; contradiction|exact (P3 i a a' Ha Ha' N)].
        * intros [|i] [|j] a b Hij Ha Hb Na Nb; [congruence| | |].
          -- inversion Ha; subst. contradiction.
          -- inversion Hb; subst. contradiction.
          -- apply (P4 i j a b); auto.
  Qed.

  (** The result of all supershots. *)
  Definition selected (fc12 : list F) (done : Z -> Prop) l l' : Prop :=
    Forall2 same_but_signal l l' /\
    (forall i s s', nth_error l i = Some s -> nth_error l' i = Some s' -> ~ done (Z.abs (sourceNo s)) -> s' = s) /\
    (forall i s s', nth_error l i = Some s -> nth_error l' i = Some s' -> done (Z.abs (sourceNo s)) ->
       sine s' /\ In (fc s') fc12) /\
    (forall i j s t, i <> j -> nth_error l' i = Some s -> nth_error l' j = Some t ->
       Z.abs (sourceNo s) = Z.abs (sourceNo t) -> done (Z.abs (sourceNo s)) -> fc s <> fc t).

  Lemma same_trans (a b c : source F) : same_but_signal a b -> same_but_signal b c -> same_but_signal a c.
  Proof using. unfold same_but_signal. intuition congruence. Qed.
  Lemma f2_trans l1 l2 l3 : Forall2 same_but_signal l1 l2 -> Forall2 same_but_signal l2 l3 ->
    Forall2 same_but_signal l1 l3.
  Proof using.
    intros H. revert l3. induction H as [|a b l1 l2 Hab _ IH]; intros l3 K; inversion K; subst; [constructor|].
    constructor; [eapply same_trans; eassumption|apply IH; assumption].
  Qed.

  Lemma pick_all_lem fuel fc12 nos : NoDup fc12 -> NoDup nos -> (1 <= List.length fc12)%nat ->
    forall n k l p u l' fcs, 0 <= k ->
    pick_all rnd fuel fc12 nos n k l p u = Ok (l', fcs) ->
    selected fc12 (fun no => exists j, (Z.to_nat k <= j < Z.to_nat k + n)%nat /\ nth_error nos j = Some no) l l' /\
    (n = 0%nat \/ k + Z.of_nat n <= Z.of_nat (List.length nos)).
  Proof using rnd_pos.
    intros ND NN Hn. induction n as [|n IH]; intros k l p u l' fcs Hk H.
    - cbn in H. inversion H; subst. split; [|left; reflexivity]. split; [|split; [|split]].
      + clear. induction l'; constructor; auto using same_refl.
      + intros; congruence.
      + intros i s s' _ _ (j & Hj & _). lia.
      + intros i j s t _ _ _ _ (j' & Hj & _). lia.
    - cbn [pick_all] in H. apply bind_ok in H. destruct H as (no & Gno & H).
      apply bind_ok in H. destruct H as (((l1 & p1) & u1) & P & H).
      apply bind_ok in H. destruct H as ((l2 & fcs2) & R & H). inversion H; subst. clear H.
      apply (pick_lem fuel fc12 no ND) in P; [|apply repeat_length| |exact Hn].
      2: { apply Forall_forall. intros x Hx. apply repeat_spec in Hx. lia. }
      destruct P as (P1 & P2 & P3 & P4).
      destruct (IH (k + 1) l1 p1 u1 l' fcs2 ltac:(lia) R) as ((Q1 & Q2 & Q3 & Q4) & Q5).
      apply vget_inv with (d := no) in Gno. destruct Gno as [G1 G2].
      assert (Gk : nth_error nos (Z.to_nat k) = Some no).
      { rewrite (nth_error_nth' nos no) by lia. f_equal. congruence. }
      replace (Z.to_nat (k + 1)) with (S (Z.to_nat k)) in * by lia.
      set (k0 := Z.to_nat k) in *.
      assert (Only : forall j, nth_error nos j = Some no -> j = k0).
      { intros j Hj. apply (proj1 (NoDup_nth_error nos) NN j k0); [apply nth_error_Some; congruence|congruence]. }
      assert (Lk : forall i s', nth_error l' i = Some s' -> exists s1 s, nth_error l1 i = Some s1 /\
                nth_error l i = Some s /\ same_but_signal s s1 /\ same_but_signal s1 s').
      { intros i s' Hs'. destruct (f2_nth _ _ _ _ Q1 Hs') as (s1 & H1 & H2).
        destruct (f2_nth _ _ _ _ P1 H1) as (s0 & H3 & H4). exists s1, s0. auto. }
      assert (Keep : forall i s s', nth_error l1 i = Some s -> nth_error l' i = Some s' -> Z.abs (sourceNo s) = no -> s' = s).
      { intros i s s' Hs Hs' E. apply (Q2 i s s' Hs Hs'). rewrite E. intros (j & Hj & Hj').
        apply Only in Hj'. lia. }
      split; [|right; destruct Q5; lia].
      split; [eapply f2_trans; eassumption|]. split; [|split].
      + intros i s s' Hs Hs' N. destruct (Lk i s' Hs') as (s1 & s0 & H1 & H2 & (A1 & _) & (A2 & _)).
        assert (s0 = s) by congruence. subst s0.
        assert (s1 = s).
        { apply (P2 i s s1 Hs H1). intros E. apply N. exists k0. split; [lia|congruence]. }
        subst s1. apply (Q2 i s s' H1 Hs'). intros (j & Hj & Hj'). apply N. exists j. split; [lia|exact Hj'].
      + intros i s s' Hs Hs' (j & Hj & Hj'). destruct (Lk i s' Hs') as (s1 & s0 & H1 & H2 & (A1 & _) & (A2 & _)).
        assert (s0 = s) by congruence. subst s0.
        destruct (Nat.eq_dec j k0) as [->|Hne].
        * assert (E : Z.abs (sourceNo s) = no) by congruence.
          rewrite (Keep i s1 s' H1 Hs') by congruence.
          destruct (P3 i s s1 Hs H1 E) as [S1 (x & _ & S2 & _)]. split; [exact S1|]. eapply nth_error_In; eassumption.
        * apply (Q3 i s1 s' H1 Hs'). exists j. split; [lia|congruence].
      + intros i j s t Hij Hs Ht E (x & Hx & Hx').
        destruct (Lk i s Hs) as (s1 & s0 & H1 & H2 & (A1 & _) & (A2 & _)).
        destruct (Lk j t Ht) as (t1 & t0 & H3 & H4 & (A3 & _) & (A4 & _)).
        destruct (Nat.eq_dec x k0) as [->|Hne].
        * assert (E1 : Z.abs (sourceNo s) = no) by congruence.
          rewrite (Keep i s1 s H1 Hs) by congruence. rewrite (Keep j t1 t H3 Ht) by congruence.
          apply (P4 i j s1 t1 Hij H1 H3); congruence.
        * apply (Q4 i j s t Hij Hs Ht E). exists x. split; [lia|exact Hx'].
  Qed.
End Sel.

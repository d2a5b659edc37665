(** Averaging on regular and layered grids, application of rows, windows. *)
From Coq Require Import Reals Lra Permutation.
From Verif Require Import Base M_Grid L_Grid L_Grid2 L_Grid3 L_GridP M_Average S_Average S_Grid L_Average.

(** ** Regular grids *)
Lemma regular_steps nx ny nz g : mk_regular nx ny nz = Ok g -> steps g.
Proof.
  intros H. pose proof (mk_regular_inv _ _ _ _ H) as (Hx&Hy&Hz). rewrite mk_regular_ok in H by lia. injection H as <-.
  intros l acc y A B _. cbn [layers] in A. inversion A as [? ?|? ? ? ? A']; subst; [|inversion A'].
  cbn [lstart lend ldh] in *.
  assert (G : getLayer (mkG nx ny nz 1 (nx * ny * nz) [mkL 1 0 (ny - 1) 0 nx ny nz (nx * ny * nz)] [-1; ny - 1]) y = Ok 0).
  { unfold getLayer. cbn [interface numLayers getLayer_from layers].
    destruct ((y <? ny - 1) && (y >? -1)) eqn:E1; [reflexivity|]. destruct (Z.eqb_spec y (ny - 1)) as [->|N]; [reflexivity|lia]. }
  exists 1, 1. unfold getDHFactor, stepY. rewrite G. cbn [bind vget layers]. split; [reflexivity|]. split.
  { unfold locatedOnInterface. cbn [numLayers interface on_iface]. destruct (Z.eqb_spec y (-1)); [lia|]. reflexivity. }
  split; [lia|]. assert (N : next_row (mkG nx ny nz 1 (nx * ny * nz) [mkL 1 0 (ny - 1) 0 nx ny nz (nx * ny * nz)] [-1; ny - 1]) y 1).
  { unfold next_row. cbn [gNY layers]. destruct (Z_le_dec ny (y + 1)); [left; lia|right].
    exists (mkL 1 0 (ny - 1) 0 nx ny nz (nx * ny * nz)), 0. split; [constructor|]. cbn. lia. }
  split; [exact N|]. split; [lia|exact N].
Qed.

(** ** Layered grids *)
Lemma getLayer_at : forall r n k lo its ls y i l, (r < n)%nat -> nth_error its r = Some i -> nth_error ls r = Some l ->
  (forall q a, (q < r)%nat -> nth_error its q = Some a -> a < y) -> lo < y -> y <= i ->
  getLayer_from n k lo its ls y = Ok (k + Z.of_nat r + (if (y =? i) && (0 <? ltrans l) then 1 else 0)).
Proof.
  induction r as [|r IH]; intros n k lo its ls y i l Hn Hi Hl Hq Hlo Hy.
  - destruct n as [|n]; [lia|]. destruct its as [|i0 its]; [discriminate|]. destruct ls as [|l0 ls]; [discriminate|].
    simpl in Hi, Hl. injection Hi as ->. injection Hl as ->. cbn [getLayer_from].
    destruct ((y <? i) && (y >? lo)) eqn:E1.
    + replace (y =? i) with false by lia. cbn [andb]. f_equal. lia.
    + replace (y =? i) with true by lia. cbn [andb]. rewrite Z.gtb_ltb. destruct (0 <? ltrans l); f_equal; lia.
  - destruct n as [|n]; [lia|]. destruct its as [|i0 its]; [discriminate|]. destruct ls as [|l0 ls]; [discriminate|].
    assert (i0 < y) by (apply (Hq 0%nat); [lia|reflexivity]).
    cbn [getLayer_from]. replace ((y <? i0) && (y >? lo)) with false by lia. replace (y =? i0) with false by lia. cbn [tl].
    rewrite (IH n (k + 1) i0 its ls y i l); auto; try lia.
    + f_equal. lia.
    + intros q a Hq1 Hq2. apply (Hq (S q)); [lia|exact Hq2].
Qed.

(** How interfaces and layers meet. *)
Lemma build_links nx nz dhs : forall start is ls k l i, (forall d, In d dhs -> 1 <= d) -> length dhs = length is ->
  build_layers nx nz start dhs is = Ok ls -> nth_error ls k = Some l -> nth_error is k = Some i ->
  match nth_error ls (S k) with
  | None => lend l = i /\ length is = S k
  | Some l2 => (ldh l < ldh l2 /\ lend l = i /\ lstart l2 = i + ldh l2) \/ (ldh l2 <= ldh l /\ lend l = i - ldh l /\ lstart l2 = i)
  end.
Proof.
  induction dhs as [|d dhs IH]; intros start is ls k l i Hd L Hb Hk Hi.
  { simpl in Hb. injection Hb as <-. destruct k; discriminate. }
  destruct is as [|i0 is]; [discriminate|].
  destruct (build_head _ _ _ _ _ _ _ _ (Hd d (or_introl eq_refl)) Hb) as (l0&r&->&E1&E2&E3&E4&E5).
  destruct k as [|k]; simpl in Hk, Hi.
  - injection Hk as ->. injection Hi as ->. destruct dhs as [|d' dhs].
    + subst r. simpl. unfold need_of in E3. destruct is; [|discriminate]. split; [lia|reflexivity].
    + destruct is as [|i2 is]; [discriminate|].
      destruct (build_head _ _ _ _ _ _ _ _ (Hd d' (or_intror (or_introl eq_refl))) E5) as (l1&r1&->&F1&F2&_).
      cbn [nth_error]. unfold need_of in E3. unfold off_of in F2. destruct (Z.ltb_spec d d'); [left|right]; lia.
  - destruct dhs as [|d' dhs]; [subst r; destruct k; discriminate|].
    change (nth_error (l0 :: r) (S (S k))) with (nth_error r (S k)).
    pose proof (IH _ is r k l i ltac:(intros; apply Hd; now right) ltac:(simpl in *; lia) E5 Hk Hi) as R.
    destruct (nth_error r (S k)); [exact R|]. destruct R. split; [assumption|]. simpl. lia.
Qed.

(** Every inner layer is at least as thick as the spacing of the layer above it. *)
Definition roomy (ls : list layer) : Prop := forall k l l' l'', nth_error ls k = Some l -> nth_error ls (S k) = Some l' ->
  nth_error ls (S (S k)) = Some l'' -> ldh l <= lend l' - lstart l'.

Lemma at_layer_nth ls l acc : at_layer ls l acc -> exists j, nth_error ls j = Some l.
Proof. induction 1 as [|? ? ? ? ? (j&IH)]; [exists 0%nat; reflexivity|exists (S j); exact IH]. Qed.
Lemma nth_at_layer ls j l : nth_error ls j = Some l -> exists acc, at_layer ls l acc.
Proof. intros H. apply in_at_layer. eapply nth_error_In; eauto. Qed.

Lemma vget_nat {A} (l : list A) j x : nth_error l j = Some x -> vget l (Z.of_nat j) = Ok x.
Proof.
  intros H. unfold vget. replace (Z.of_nat j <? 0) with false by lia. rewrite Nat2Z.id, H. reflexivity.
Qed.

Lemma in_removelast (l : list Z) y : In y (removelast l) -> exists k, (S k < length l)%nat /\ nth_error l k = Some y.
Proof.
  rewrite removelast_firstn_len. intros H. apply In_nth_error in H as (k&Hk). exists k.
  assert (k < length (firstn (pred (length l)) l))%nat by (apply nth_error_Some; congruence).
  rewrite firstn_length in H. split; [lia|]. rewrite nth_error_firstn in Hk || idtac.
  revert Hk. clear. revert k. induction (pred (length l)) as [|n IH] in l |- *; intros k H; [destruct k; discriminate|].
  destruct l as [|a l]; [destruct k; discriminate|]. destruct k; simpl in *; auto.
Qed.
Lemma nth_removelast (l : list Z) k y : (S k < length l)%nat -> nth_error l k = Some y -> In y (removelast l).
Proof.
  revert k; induction l as [|a l IH]; intros k H E; [simpl in H; lia|]. destruct l as [|b l]; [simpl in H; lia|].
  change (In y (a :: removelast (b :: l))). destruct k; simpl in E; [injection E as ->; now left|right].
  apply (IH k); [simpl in *; lia|exact E].
Qed.

Lemma variable_steps fuel nx ny nz dhs ifs g : good_request nx ny nz dhs ifs -> enough fuel dhs ->
  init_variable fuel nx ny nz dhs ifs = Ok g -> roomy (layers g) -> wf g /\ steps g.
Proof.
  intros H Hf Eg Rm. destruct (init_variable_ok _ _ _ _ _ _ H Hf) as (g'&E&W&Dh&_&_&_&itf&I1&I2&I3&I4&I5&I6).
  rewrite Eg in E. injection E as <-. split; [exact W|].
  destruct (variable_queries _ _ _ _ _ _ H Hf) as (g'&itf'&E&J1&_&J2&_&J3&J4). rewrite Eg in E. injection E as <-.
  rewrite I1 in J1. injection J1 as <-.
  pose proof W as (Wn&Ws&Wl). destruct H as (Hp&L&_).
  assert (Hd1 : forall d, In d dhs -> 1 <= d) by (intros; apply pow3_pos; auto).
  assert (Hlen : length (layers g) = length itf) by (rewrite <- (map_length ldh), Dh; lia).
  assert (Hnl : numLayers g = length itf) by lia.
  pose proof (fun k l i => build_links _ _ dhs 0 itf (layers g) k l i Hd1 ltac:(lia) I4) as BL.
  assert (WL : forall j l, nth_error (layers g) j = Some l -> 1 <= ldh l /\ 0 <= lstart l <= lend l /\ (ldh l | lend l - lstart l)).
  { intros j l Hj. destruct (wf_layers_in _ _ _ _ _ l Wl) as (lo'&_&W1); [eapply nth_error_In; eauto|]. simpl in W1.
    destruct W1 as (W1&W2&W0&W3&W4&_). split; [exact W1|]. split; [nia|]. exists (lny l - 1). lia. }
  assert (NI : forall j l, nth_error (layers g) j = Some l -> exists i, nth_error itf j = Some i).
  { intros j l Hj. destruct (nth_error itf j) eqn:En; [eauto|]. apply nth_error_None in En.
    assert (j < length (layers g))%nat by (apply nth_error_Some; congruence). lia. }
  assert (NL : forall j i, nth_error itf j = Some i -> exists l, nth_error (layers g) j = Some l).
  { intros j i Hj. destruct (nth_error (layers g) j) eqn:En; [eauto|]. apply nth_error_None in En.
    assert (j < length itf)%nat by (apply nth_error_Some; congruence). lia. }
  (* ends and starts against the interfaces *)
  assert (EndI : forall j l i, nth_error (layers g) j = Some l -> nth_error itf j = Some i -> lend l <= i).
  { intros j l i Hj Hi. pose proof (BL j l i Hj Hi) as B. destruct (WL _ _ Hj) as (?&_). destruct (nth_error (layers g) (S j)); lia. }
  assert (StI : forall j l i, nth_error (layers g) (S j) = Some l -> nth_error itf j = Some i -> i <= lstart l).
  { intros j l i Hj Hi. destruct (NL _ _ Hi) as (l0&Hl0). pose proof (BL j l0 i Hl0 Hi) as B. rewrite Hj in B.
    destruct (WL _ _ Hj) as (?&_). lia. }
  (* interior interfaces increase strictly *)
  assert (Inc1 : forall j i i', nth_error itf j = Some i -> nth_error itf (S j) = Some i' ->
     i <= i' /\ ((S (S j) < length itf)%nat -> i < i')).
  { intros j i i' Hi Hi'. destruct (NL _ _ Hi) as (l&Hl). destruct (NL _ _ Hi') as (l'&Hl').
    pose proof (EndI _ _ _ Hl' Hi'). pose proof (StI _ _ _ Hl' Hi). destruct (WL _ _ Hl') as (?&?&_). destruct (WL _ _ Hl) as (?&_).
    split; [lia|]. intros Hn. destruct (nth_error (layers g) (S (S j))) as [l''|] eqn:E2; [|apply nth_error_None in E2; lia].
    pose proof (Rm j l l' l'' Hl Hl' E2). lia. }
  assert (Inc : forall d q i i', nth_error itf q = Some i -> nth_error itf (q + S d) = Some i' ->
     i <= i' /\ ((S (q + S d) < length itf)%nat -> i < i')).
  { induction d as [|d IHd]; intros q i i' Hi Hi'.
    - replace (q + 1)%nat with (S q) in * by lia. apply (Inc1 q); auto.
    - destruct (nth_error itf (S q)) as [i1|] eqn:E1.
      2:{ apply nth_error_None in E1. assert (q + S (S d) < length itf)%nat by (apply nth_error_Some; congruence). lia. }
      destruct (Inc1 q i i1 Hi E1) as (A1&A2). replace (q + S (S d))%nat with (S q + S d)%nat in * by lia.
      destruct (IHd (S q) i1 i' E1 Hi') as (B1&B2). split; [lia|]. intros Hn. specialize (B2 Hn). lia. }
  assert (Inc' : forall q r i i', (q < r)%nat -> nth_error itf q = Some i -> nth_error itf r = Some i' ->
     i <= i' /\ ((S r < length itf)%nat -> i < i')).
  { intros q r i i' Hq Hi Hi'. replace r with (q + S (r - S q))%nat in * by lia. eapply Inc; eauto. }
  assert (Last : forall j l, nth_error (layers g) j = Some l -> nth_error (layers g) (S j) = None -> lend l = gNY g - 1).
  { intros j l Hj Hn. destruct (NI _ _ Hj) as (i&Hi). pose proof (BL j l i Hj Hi) as B. rewrite Hn in B. destruct B as (B1&B2).
    rewrite I2. assert (X : last itf 0 = i); [|lia].
    clear - Hi B2. revert j Hi B2. induction itf as [|a l IH]; intros j Hi B; [discriminate|].
    destruct j; simpl in *; [injection Hi as ->; destruct l; [reflexivity|simpl in B; lia]|].
    destruct l as [|b l]; [destruct j; discriminate|]. apply (IH j); [exact Hi|simpl in *; lia]. }
  intros l acc y A Hy Dv. destruct (at_layer_nth _ _ _ A) as (j&Hj). destruct (NI _ _ Hj) as (i&Hi).
  destruct (WL _ _ Hj) as (P1&P2&P3). pose proof (EndI _ _ _ Hj Hi) as Ei. pose proof (BL j l i Hj Hi) as B.
  pose proof (build_trans _ _ dhs _ itf _ _ _ Hd1 ltac:(lia) I4 Hj) as Tr.
  assert (Hjl : (j < length itf)%nat) by (apply nth_error_Some; congruence).
  assert (GL : forall r i l, nth_error itf r = Some i -> nth_error (layers g) r = Some l ->
     (forall q a, (q < r)%nat -> nth_error itf q = Some a -> a < y) -> y <= i ->
     getLayer g y = Ok (Z.of_nat r + (if (y =? i) && (0 <? ltrans l) then 1 else 0))).
  { intros r i' l' Hr Hl' Hq Hle. unfold getLayer. rewrite I1, Hnl.
    rewrite (getLayer_at r (length itf) 0 (-1) itf (layers g) y i' l'); auto; try lia. apply nth_error_Some. congruence. }
  assert (DF : forall r l, nth_error (layers g) r = Some l -> dhFactorOfLayer g (Z.of_nat r) = Ok (ldh l)).
  { intros r l' Hr. unfold dhFactorOfLayer. now rewrite (vget_nat _ _ _ Hr). }
  (* where y lies relative to the interface above *)
  assert (C : (forall q a, (q < j)%nat -> nth_error itf q = Some a -> a < y) \/
              (exists j' , j = S j' /\ nth_error itf j' = Some y)).
  { destruct j as [|j']; [left; intros; lia|].
    destruct (nth_error itf j') as [a|] eqn:Ea; [|apply nth_error_None in Ea; lia].
    pose proof (StI _ _ _ Hj Ea). destruct (Z.eq_dec a y) as [->|]; [right; eauto|left].
    intros q b Hq Hb. destruct (Nat.eq_dec q j') as [->|]; [rewrite Ea in Hb; injection Hb as <-; lia|].
    pose proof (Inc' q j' b a ltac:(lia) Hb Ea). lia. }
  destruct C as [C|(j'&->&Hj')].
  - pose proof (GL j i l Hi Hj C ltac:(lia)) as G.
    destruct ((y =? i) && (0 <? ltrans l)) eqn:Ec.
    + (* the row lies on the interface to a coarser layer *)
      destruct (nth_error (layers g) (S j)) as [l2|] eqn:E2; [|lia].
      assert (ldh l < ldh l2) by lia. destruct B as [(B1&B2&B3)|]; [|lia].
      destruct (WL _ _ E2) as (Q1&Q2&_). replace (Z.of_nat j + 1) with (Z.of_nat (S j)) in G by lia.
      assert (Nr : next_row g y (ldh l2)).
      { right. destruct (nth_at_layer _ _ _ E2) as (acc2&A2). exists l2, acc2. split; [exact A2|]. lia. }
      exists (ldh l2), (ldh l2). split; [unfold getDHFactor; rewrite G; cbn [bind]; rewrite (vget_nat _ _ _ E2); reflexivity|].
      split; [|repeat (split; [lia || exact Nr|]); exact Nr].
      unfold stepY. rewrite G; cbn [bind]. destruct (J2 y ltac:(lia)) as (b&-> &Hb). cbn [bind].
      assert (Iny : In y (removelast itf)). { apply (nth_removelast itf j); [|rewrite Hi; f_equal; lia].
        assert (S j < length (layers g))%nat by (apply nth_error_Some; congruence). lia. }
      rewrite (proj2 Hb Iny). destruct (J3 y ltac:(lia) Iny) as (k&lk&lk'&T1&T2&T3&T4). rewrite T1. cbn [bind].
      assert (k = j).
      { destruct (Nat.lt_trichotomy k j) as [Hlt|[|Hlt]]; auto.
        - pose proof (C k y Hlt T2). lia.
        - assert (S j < length (layers g))%nat by (apply nth_error_Some; congruence). assert (E3 : nth_error itf (S j) <> None) by (apply nth_error_Some; lia). destruct (nth_error itf (S j)) as [i3|] eqn:E4; [|congruence].
          pose proof (EndI _ _ _ E2 E4). destruct (Nat.eq_dec k (S j)) as [->|].
          + rewrite E4 in T2. injection T2 as ->. lia.
          + pose proof (Inc' (S j) k i3 y ltac:(lia) E4 T2). lia. }
      subst k. rewrite Hj in T3. injection T3 as <-. rewrite E2 in T4. destruct T4 as [T4|(T4&_)]; [|discriminate]. injection T4 as <-.
      replace (Z.sgn (ldh l2 - ldh l) =? 0) with false by (destruct (Z.eqb_spec (Z.sgn (ldh l2 - ldh l)) 0); [lia|reflexivity]).
      cbn [bind]. apply DF. exact E2.
    + rewrite Z.add_0_r in G.
      assert (Nr : next_row g y (ldh l)).
      { unfold next_row. destruct (Z.eq_dec y (lend l)) as [->|Ny].
        - destruct (nth_error (layers g) (S j)) as [l2|] eqn:E2.
          + right. destruct (nth_at_layer _ _ _ E2) as (acc2&A2). exists l2, acc2. split; [exact A2|]. destruct (WL _ _ E2) as (Q1&Q2&_).
            destruct B as [(B1&B2&B3)|B]; [|lia]. exfalso. rewrite Tr in Ec. lia.
          + left. pose proof (Last _ _ Hj E2). lia.
        - right. exists l, acc. split; [exact A|]. split; [|lia].
          assert (ldh l <= lend l - y); [|lia].
          assert (Dy : (ldh l | lend l - y)) by (replace (lend l - y) with (lend l - lstart l - (y - lstart l)) by ring; now apply Z.divide_sub_r).
          apply Z.divide_pos_le; [lia|exact Dy]. }
      exists (ldh l), (ldh l). split; [unfold getDHFactor; rewrite G; cbn [bind]; rewrite (vget_nat _ _ _ Hj); reflexivity|].
      split; [|repeat (split; [lia || exact Nr|]); exact Nr].
      unfold stepY. rewrite G; cbn [bind]. destruct (J2 y ltac:(lia)) as (b&-> &Hb). cbn [bind].
      destruct b; [|cbn [bind]; now apply DF].
      destruct (in_removelast itf y (proj1 Hb eq_refl)) as (k&K1&K2). exfalso.
      destruct (Nat.lt_trichotomy k j) as [Hlt|[->|Hlt]].
      * pose proof (C k y Hlt K2). lia.
      * rewrite Hi in K2. injection K2 as ->. destruct (nth_error (layers g) (S j)) as [l2|] eqn:E2; [|apply nth_error_None in E2; lia].
        rewrite Tr in Ec. lia.
      * pose proof (proj2 (Inc' j k i y Hlt Hi K2) K1). lia.
  - (* the row lies on the interface to a layer that is not finer *)
    assert (C' : forall q a, (q < j')%nat -> nth_error itf q = Some a -> a < y).
    { intros q a Hq Ha. exact (proj2 (Inc' q j' a y Hq Ha Hj') ltac:(lia)). }
    destruct (NL _ _ Hj') as (l'&Hl'). pose proof (BL j' l' y Hl' Hj') as B'. rewrite Hj in B'.
    destruct B' as [B'|(B1&B2&B3)]; [lia|].
    pose proof (build_trans _ _ dhs _ itf _ _ _ Hd1 ltac:(lia) I4 Hl') as Tr'. rewrite Hj in Tr'.
    pose proof (GL j' y l' Hj' Hl' C' ltac:(lia)) as G.
    replace (0 <? ltrans l') with false in G by lia. rewrite andb_false_r, Z.add_0_r in G.
    assert (Nr : forall D, ldh l <= D <= ldh l' -> next_row g y D).
    { intros D HD. unfold next_row. destruct (nth_error (layers g) (S (S j'))) as [l3|] eqn:E3.
      - right. exists l, acc. split; [exact A|]. pose proof (Rm j' l' l l3 Hl' Hj E3). lia.
      - pose proof (Last _ _ Hj E3). destruct (Z_le_dec (gNY g) (y + D)); [now left|right]. exists l, acc. split; [exact A|]. lia. }
    assert (ED : getDHFactor g y = Ok (ldh l')) by (unfold getDHFactor; rewrite G; cbn [bind]; rewrite (vget_nat _ _ _ Hl'); reflexivity).
    assert (ES : stepY g y = Ok (ldh l') \/ stepY g y = Ok (ldh l)).
    { unfold stepY. rewrite G; cbn [bind]. destruct (J2 y ltac:(lia)) as (b&-> &Hb). cbn [bind].
      assert (Iny : In y (removelast itf)) by (apply (nth_removelast itf j'); [lia|exact Hj']).
      rewrite (proj2 Hb Iny). destruct (J3 y ltac:(lia) Iny) as (k&lk&lk'&T1&_). rewrite T1. cbn [bind].
      destruct (Z.sgn (ldh lk' - ldh lk) =? 0).
      - right. replace (Z.of_nat j' + 1) with (Z.of_nat (S j')) by lia. now apply DF.
      - left. now apply DF. }
    destruct ES as [ES|ES].
    + exists (ldh l'), (ldh l'). repeat (split; [first [assumption|lia|apply Nr; lia]|]). apply Nr; lia.
    + exists (ldh l'), (ldh l). repeat (split; [first [assumption|lia|apply Nr; lia]|]). apply Nr; lia.
Qed.

(** Derivative rows on layered grids. *)
From Verif Require Import Base M_Grid S_Grid L_Grid L_Grid2 L_Grid3 L_GridP M_Deriv S_Deriv S_DerivVar L_Deriv L_Deriv2 L_Fd L_Fd2.
Open Scope Z_scope.

(** ** Neighbouring layers and the interface between them *)
Lemma build_pair nx nz dhs : forall start is ls k l l', (forall d, In d dhs -> 1 <= d) -> length dhs = length is ->
  build_layers nx nz start dhs is = Ok ls -> nth_error ls k = Some l -> nth_error ls (S k) = Some l' ->
  exists i, nth_error is k = Some i /\
    if ldh l <? ldh l' then lend l = i /\ lstart l' = i + ldh l' else lend l = i - ldh l /\ lstart l' = i.
Proof.
  induction dhs as [|d dhs IH]; intros start is ls k l l' Hd L Hb Hk Hk'.
  { simpl in Hb. injection Hb as <-. destruct k; discriminate. }
  destruct is as [|i is]; [discriminate|].
  destruct (build_head _ _ _ _ _ _ _ _ (Hd d (or_introl eq_refl)) Hb) as (l0&r&->&E1&E2&E3&E4&E5).
  destruct dhs as [|d' dhs]; [subst r; destruct k; discriminate|].
  destruct is as [|i2 is]; [discriminate|].
  destruct k as [|k]; cbn [nth_error] in Hk, Hk'.
  - injection Hk as ->. destruct (build_head _ _ _ _ _ _ _ _ (Hd d' (or_intror (or_introl eq_refl))) E5) as (l1&r1&->&F1&F2&_).
    cbn [nth_error] in Hk'. injection Hk' as ->. exists i. split; [reflexivity|].
    unfold need_of, off_of in *. rewrite E1, F1. destruct (d <? d'); lia.
  - refine (IH _ (i2 :: is) r k l l' _ _ E5 Hk Hk'); [intros; apply Hd; now right|simpl in *; lia].
Qed.

Lemma build_last nx nz dhs : forall start is ls k l, (forall d, In d dhs -> 1 <= d) -> length dhs = length is ->
  build_layers nx nz start dhs is = Ok ls -> nth_error ls k = Some l -> nth_error ls (S k) = None -> nth_error is k = Some (lend l) /\ is <> [].
Proof.
  induction dhs as [|d dhs IH]; intros start is ls k l Hd L Hb Hk Hk'.
  { simpl in Hb. injection Hb as <-. destruct k; discriminate. }
  destruct is as [|i is]; [discriminate|]. split; [|discriminate].
  destruct (build_head _ _ _ _ _ _ _ _ (Hd d (or_introl eq_refl)) Hb) as (l0&r&->&E1&E2&E3&E4&E5).
  destruct dhs as [|d' dhs].
  - subst r. destruct k as [|k]; [|destruct k; discriminate]. injection Hk as ->. unfold need_of in E3. simpl. f_equal. lia.
  - destruct is as [|i2 is]; [discriminate|]. destruct k as [|k]; cbn [nth_error] in Hk, Hk'.
    + destruct (build_head _ _ _ _ _ _ _ _ (Hd d' (or_intror (or_introl eq_refl))) E5) as (l1&r1&->&_). discriminate.
    + refine (proj1 (IH _ (i2 :: is) r k l _ _ E5 Hk Hk')); [intros; apply Hd; now right|simpl in *; lia].
Qed.

Lemma build_first nx nz dhs start is ls l : (forall d, In d dhs -> 1 <= d) -> length dhs = length is ->
  build_layers nx nz start dhs is = Ok ls -> nth_error ls 0 = Some l -> lstart l = start.
Proof.
  intros Hd L Hb H0. destruct dhs as [|d dhs]; [simpl in Hb; injection Hb as <-; discriminate|]. destruct is as [|i is]; [discriminate|].
  destruct (build_head _ _ _ _ _ _ _ _ (Hd d (or_introl eq_refl)) Hb) as (l0&r&->&E1&E2&_). injection H0 as ->. exact E2.
Qed.

(** interfaces do not decrease *)
Lemma chain_mono base off dhs is k i : (forall d, In d dhs -> 1 <= d) -> 0 <= off -> length dhs = length is -> chain base off dhs is ->
  nth_error is k = Some i -> base <= i.
Proof.
  revert base off is k; induction dhs as [|d dhs IH]; intros base off is k Hd Ho L Hc Hk; destruct is as [|a is]; try discriminate; [destruct k; discriminate|].
  destruct Hc as (_&Hth&Hc). destruct (need_of_div d dhs (Hd d (or_introl eq_refl))) as (Hn0&_).
  destruct k as [|k]; simpl in Hk; [injection Hk as <-; lia|].
  assert (a <= i); [|lia]. eapply IH; [| | |exact Hc|exact Hk]; [intros; apply Hd; now right| |simpl in L; lia].
  destruct (off_of_ok d dhs); auto. intros; apply Hd; now right.
Qed.
Lemma chain_sorted base off dhs is k k' i i' : (forall d, In d dhs -> 1 <= d) -> 0 <= off -> length dhs = length is -> chain base off dhs is ->
  nth_error is k = Some i -> nth_error is k' = Some i' -> (k <= k')%nat -> i <= i'.
Proof.
  revert base off is k k'; induction dhs as [|d dhs IH]; intros base off is k k' Hd Ho L Hc Hk Hk' Hle; destruct is as [|a is]; try discriminate; [destruct k; discriminate|].
  destruct Hc as (_&Hth&Hc).
  assert (Hd' : forall d, In d dhs -> 1 <= d) by (intros; apply Hd; now right).
  assert (Ho' : 0 <= off_of d dhs) by (destruct (off_of_ok d dhs Hd'); auto).
  destruct k as [|k]; simpl in Hk.
  - injection Hk as <-. destruct k' as [|k']; simpl in Hk'; [injection Hk' as <-; lia|].
    eapply chain_mono; [exact Hd'|exact Ho'| |exact Hc|exact Hk']. simpl in L; lia.
  - destruct k' as [|k']; [lia|]. eapply IH; [exact Hd'|exact Ho'| |exact Hc|exact Hk|exact Hk'|lia]. simpl in L; lia.
Qed.

(** getLayer on an interface *)
Lemma getLayer_from_at k : forall its ls lo n k0 y l, nth_error its k = Some y -> (forall k' i, (k' < k)%nat -> nth_error its k' = Some i -> i < y) ->
  nth_error ls k = Some l -> (k < n)%nat ->
  getLayer_from n k0 lo its ls y = Ok (k0 + Z.of_nat k + if ltrans l >? 0 then 1 else 0).
Proof.
  induction k as [|k IH]; intros its ls lo n k0 y l Hk Hlt Hl Hn; destruct n as [|n]; try lia; destruct its as [|hi its]; try discriminate; destruct ls as [|l0 ls]; try discriminate; cbn [getLayer_from].
  - injection Hk as ->. injection Hl as ->. replace ((y <? y) && (y >? lo)) with false by lia. rewrite Z.eqb_refl.
    f_equal. destruct (ltrans l >? 0); lia.
  - cbn [nth_error] in Hk, Hl. pose proof (Hlt 0%nat hi ltac:(lia) eq_refl).
    replace ((y <? hi) && (y >? lo)) with false by lia. replace (y =? hi) with false by lia. cbn [tl].
    rewrite (IH its ls hi n (k0 + 1) y l Hk); [f_equal; lia| |exact Hl|lia].
    intros k' i Hk' Hi. apply (Hlt (S k') i); [lia|exact Hi].
Qed.

(** ** The facts about a layered grid used below *)
Record layered (g : grid) (itf : list Z) : Prop := {
  lay_if : interface g = -1 :: itf;
  lay_len : length itf = length (layers g);
  lay_num : numLayers g = length (layers g);
  lay_pow : forall l, In l (layers g) -> pow3 (ldh l);
  lay_rows : forall l, In l (layers g) -> 0 <= lstart l <= lend l /\ lend l < gNY g /\ (ldh l | lend l - lstart l);
  lay_pair : forall k l l', nth_error (layers g) k = Some l -> nth_error (layers g) (S k) = Some l' ->
    exists i, nth_error itf k = Some i /\
      if ldh l <? ldh l' then lend l = i /\ lstart l' = i + ldh l' else lend l = i - ldh l /\ lstart l' = i;
  lay_first : forall l, nth_error (layers g) 0 = Some l -> lstart l = 0;
  lay_last : forall k l, nth_error (layers g) k = Some l -> nth_error (layers g) (S k) = None -> lend l = gNY g - 1;
  lay_sorted : forall k k' i i', nth_error itf k = Some i -> nth_error itf k' = Some i' -> (k <= k')%nat -> i <= i';
  lay_trans : forall k l, nth_error (layers g) k = Some l ->
    ltrans l = match nth_error (layers g) (S k) with Some l' => Z.sgn (ldh l' - ldh l) | None => 0 end;
  lay_point : forall i c, 0 <= i < nGridpoints g -> index2coordinate g i = Ok c ->
    0 <= cx c < gNX g /\ 0 <= cy c < gNY g /\ 0 <= cz c < gNZ g /\ coordinate2index g c = Ok i;
  lay_lookup : forall c l, 0 <= cx c < gNX g -> 0 <= cz c < gNZ g -> In l (layers g) -> lstart l <= cy c <= lend l ->
       exists i, coordinate2index g c = Ok i /\ 0 <= i < nGridpoints g /\
         exists c', index2coordinate g i = Ok c' /\
           (cx c' <= cx c < cx c' + ldh l /\ (ldh l | cx c')) /\
           (cy c' <= cy c < cy c' + ldh l /\ (ldh l | cy c' - lstart l)) /\
           (cz c' <= cz c < cz c' + ldh l /\ (ldh l | cz c'));
  lay_gap : forall c, 0 <= cx c < gNX g /\ 0 <= cy c < gNY g /\ 0 <= cz c < gNZ g ->
       (forall l, In l (layers g) -> ~ (lstart l <= cy c <= lend l)) -> coordinate2index g c = UB;
  lay_getLayer : forall j l y, nth_error (layers g) j = Some l -> lstart l <= y <= lend l -> ~ In y (removelast itf) ->
       getLayer g y = Ok (Z.of_nat j);
  lay_onif : forall y, 0 <= y -> exists b, locatedOnInterface g y = Ok b /\ (b = true <-> In y (removelast itf));
  lay_dist : forall y, distToInterface g y <= gNY g /\ (forall i, In i (removelast itf) -> distToInterface g y <= Z.abs (y - i)) /\
       (distToInterface g y = gNY g \/ exists i, In i (removelast itf) /\ distToInterface g y = Z.abs (y - i));
  lay_gt : forall y, 0 <= y -> In y (removelast itf) -> exists k l l', getTransition g y = Ok (Z.sgn (ldh l' - ldh l)) /\
       nth_error itf k = Some y /\ nth_error (layers g) k = Some l /\
       (nth_error (layers g) (S k) = Some l' \/ (nth_error (layers g) (S k) = None /\ l' = l))
}.

Lemma removelast_nth {A} (l : list A) k x : nth_error l k = Some x -> (S k < length l)%nat -> In x (removelast l).
Proof.
  revert k; induction l as [|a l IH]; intros k Hk Hl; [destruct k; discriminate|]. destruct l as [|b l]; [simpl in Hl; lia|].
  change (removelast (a :: b :: l)) with (a :: removelast (b :: l)). destruct k as [|k]; simpl in Hk; [injection Hk as ->; now left|].
  right. apply (IH k); [exact Hk|simpl in *; lia].
Qed.
Lemma nth_removelast {A} (l : list A) x : In x (removelast l) -> exists k, nth_error l k = Some x /\ (S k < length l)%nat.
Proof.
  induction l as [|a l IH]; [intros []|]. destruct l as [|b l]; [intros []|].
  change (removelast (a :: b :: l)) with (a :: removelast (b :: l)). intros [->|H]; [exists 0%nat; split; [reflexivity|simpl; lia]|].
  destruct (IH H) as (k&H1&H2). exists (S k). split; [exact H1|simpl in *; lia].
Qed.

Lemma layered_ok fuel nx ny nz dhs ifs g : good_request nx ny nz dhs ifs -> enough fuel dhs -> init_variable fuel nx ny nz dhs ifs = Ok g ->
  exists itf, layered g itf /\ map ldh (layers g) = dhs.
Proof.
  intros H Hf E.
  destruct (init_variable_ok _ _ _ _ _ _ H Hf) as (g1&E1&W&D&_&_&_&itf&I1&I2&I3&I4&I5&I6).
  destruct (variable_roundtrip _ _ _ _ _ _ H Hf) as (g2&E2&R1&_).
  destruct (variable_lookup _ _ _ _ _ _ H Hf) as (g3&E3&K1&K2&_).
  destruct (variable_layers _ _ _ _ _ _ H Hf) as (g4&itf4&E4&_&_&Y1&_).
  destruct (variable_queries _ _ _ _ _ _ H Hf) as (g5&itf5&E5&Q0&Q1&Q2&Q3&Q4&_).
  assert (g1 = g) by congruence. assert (g2 = g) by congruence. assert (g3 = g) by congruence. assert (g4 = g) by congruence. assert (g5 = g) by congruence.
  subst g1 g2 g3 g4 g5. assert (itf5 = itf) by congruence. subst itf5. clear E1 E2 E3 E4 E5 Q0.
  destruct H as (Hp&L&_).
  assert (Hd1 : forall d, In d dhs -> 1 <= d) by (intros; apply pow3_pos; auto).
  assert (Hll : length (layers g) = length dhs) by (rewrite <- D; symmetry; apply map_length).
  assert (Hln : length dhs = length itf) by lia.
  exists itf. split; [|exact D]. constructor; auto.
  - lia.
  - apply W.
  - intros l Hl. apply Hp. rewrite <- D. now apply in_map.
  - intros l Hl. destruct (Y1 l Hl) as (A1&A2&A3&A4&_).
    assert (1 <= ldh l) by (apply Hd1; rewrite <- D; now apply in_map).
    split; [split; [assumption|nia]|]. split; [assumption|]. exists (lny l - 1). lia.
  - intros k l l'. eapply build_pair; eauto.
  - intros l. eapply build_first; eauto.
  - intros k l Hk Hk'. destruct (build_last _ _ _ _ _ _ _ _ Hd1 Hln I4 Hk Hk') as (B&Bn).
    rewrite I2. assert (Hkl : k = (length itf - 1)%nat).
    { apply nth_error_None in Hk'. assert (k < length (layers g))%nat by (apply nth_error_Some; congruence). lia. }
    assert (last itf 0 = lend l); [|lia].
    clear - B Bn Hkl. revert k B Hkl. induction itf as [|a itf IH]; intros k B Hkl; [congruence|].
    destruct itf as [|b itf]; [simpl in Hkl; subst k; simpl in B; injection B as ->; reflexivity|].
    change (last (a :: b :: itf) 0) with (last (b :: itf) 0). destruct k as [|k]; [simpl in Hkl; lia|].
    apply (IH ltac:(discriminate) k B). simpl in *. lia.
  - intros k k' i i'. apply (chain_sorted 0 0 dhs); auto. lia.
  - intros k l. eapply build_trans; eauto.
  - intros i c Hi Hc. destruct (R1 i Hi) as (c'&A&B&C). assert (c' = c) by congruence. subst. tauto.
  - intros j l y Hj Hy Hn. destruct (Q1 j l y Hj Hy) as (r&l'&A&B&[->|(C1&C2&C3)]); [exact A|]. exfalso. apply Hn.
    apply (removelast_nth itf (Nat.min r j)); [exact C2|].
    assert (r < length (layers g))%nat by (apply nth_error_Some; congruence). assert (j < length (layers g))%nat by (apply nth_error_Some; congruence). lia.
Qed.

(** ** Complete rows are central differences *)
Lemma nth_error_zseq s n j : nth_error (zseq s n) j = if (j <? n)%nat then Some (s + Z.of_nat j) else None.
Proof.
  revert s j; induction n as [|n IH]; intros s j; [destruct j; reflexivity|]. destruct j as [|j]; cbn [zseq nth_error].
  - cbn [Z.of_nat]. now rewrite Z.add_0_r.
  - rewrite IH. change (S j <? S n)%nat with (j <? n)%nat. destruct (j <? n)%nat; [f_equal; lia|reflexivity].
Qed.

Lemma map_central m s p h (P : Z -> Z -> Prop) (pos : Z -> Z) (colf : Z -> Z) : 0 <= p ->
  (forall j, 0 <= j < p -> 2 * pos j = m + s * (2 * j - (p - 1)) /\ P (colf (pos j)) (pos j)) ->
  central_row m s p h stencil_at P (map (fun i => (colf (pos i), (stencil_at p i / h)%Q)) (zseq 0 (Z.to_nat p))).
Proof.
  intros Hp H. split; [now rewrite map_length, zseq_length|].
  intros j k v Hj. rewrite nth_error_map, nth_error_zseq in Hj. destruct (Nat.ltb_spec j (Z.to_nat p)) as [Hlt|]; [|discriminate].
  cbn [option_map] in Hj. apply (f_equal (fun o => match o with Some x => x | None => (k, v) end)) in Hj. cbv beta iota in Hj.
  assert (E1 := f_equal fst Hj). assert (E2 := f_equal snd Hj). cbn [fst snd] in E1, E2. clear Hj.
  destruct (H (0 + Z.of_nat j) ltac:(lia)) as (A&B). exists (pos (0 + Z.of_nat j)).
  split; [rewrite A; f_equal|]. split; [now rewrite <- E1|]. rewrite <- E2. change (0 + Z.of_nat j) with (Z.of_nat j). reflexivity.
Qed.

Lemma fwd_central fuel s sh N h col x p m (P : Z -> Z -> Prop) : In p [2; 4; 6; 8; 10; 12] -> 15 <= Z.of_nat fuel -> 1 <= s ->
  m = 2 * (x + sh) + s -> central_fits m s p N ->
  (forall X, 0 <= X < N -> (s | X - (x + sh)) -> x + sh - s * (p / 2 - 1) <= X <= x + sh + s * (p / 2) -> exists k, col X = Ok k /\ P k X) ->
  exists row, row_fwd fuel s sh N h col x p 0 [] = Ok row /\ central_row m s p h stencil_at P row.
Proof.
  intros Hp Hf Hs Hm (F1&F2) Hcol. destruct (supported_even p Hp) as (k&->&Hk).
  replace (2 * k / 2) with k in Hcol by (rewrite Z.mul_comm, Z.div_mul; lia).
  set (colf := fun X => match col X with Ok c => c | _ => 0 end).
  assert (C : forall j, 0 <= j < 2 * k -> col (x + sh + s * (j - k + 1)) = Ok (colf (x + sh + s * (j - k + 1))) /\
              P (colf (x + sh + s * (j - k + 1))) (x + sh + s * (j - k + 1))).
  { intros j Hj. destruct (Hcol (x + sh + s * (j - k + 1))) as (c&E&HP); [nia|exists (j - k + 1); ring|nia|]. unfold colf. rewrite E. auto. }
  rewrite (row_fwd_fit s sh N h col colf (Z.to_nat (2 * k)) fuel x k 0 []); try lia; [|intros; now apply C].
  eexists. split; [reflexivity|]. cbn [app].
  apply (map_central m s (2 * k) h P (fun i => x + sh + s * (i - k + 1)) colf); [lia|].
  intros j Hj. split; [subst m; ring|]. now apply C.
Qed.

Lemma bwd_central fuel s sh N h col x p m (P : Z -> Z -> Prop) : In p [2; 4; 6; 8; 10; 12] -> 15 <= Z.of_nat fuel -> 1 <= s ->
  m = 2 * (x + sh) - s -> central_fits m s p N ->
  (forall X, 0 <= X < N -> (s | X - (x + sh)) -> x + sh - s * (p / 2) <= X <= x + sh + s * (p / 2 - 1) -> exists k, col X = Ok k /\ P k X) ->
  exists row, row_bwd fuel s sh N h col x p 0 [] = Ok row /\ central_row m s p h stencil_at P row.
Proof.
  intros Hp Hf Hs Hm (F1&F2) Hcol. destruct (supported_even p Hp) as (k&->&Hk).
  replace (2 * k / 2) with k in Hcol by (rewrite Z.mul_comm, Z.div_mul; lia).
  set (colf := fun X => match col X with Ok c => c | _ => 0 end).
  assert (C : forall j, 0 <= j < 2 * k -> col (x + sh + s * (j - k)) = Ok (colf (x + sh + s * (j - k))) /\
              P (colf (x + sh + s * (j - k))) (x + sh + s * (j - k))).
  { intros j Hj. destruct (Hcol (x + sh + s * (j - k))) as (c&E&HP); [nia|exists (j - k); ring|nia|]. unfold colf. rewrite E. auto. }
  rewrite (row_bwd_fit s sh N h col colf (Z.to_nat (2 * k)) fuel x k 0 []); try lia; [|intros; now apply C].
  eexists. split; [reflexivity|]. cbn [app].
  apply (map_central m s (2 * k) h P (fun i => x + sh + s * (i - k)) colf); [lia|].
  intros j Hj. split; [subst m; ring|]. now apply C.
Qed.

(** A central row differentiates polynomials of degree up to p exactly, at the position m/2 (orders up to 8). *)
Lemma central_exact m s p DH P row (l : list Q) (f : Z -> Q) : In p [2; 4; 6; 8] -> 1 <= s -> ~ (DH == 0)%Q -> Z.of_nat (length l) <= p + 1 ->
  central_row m s p (DH * inject_Z s) stencil_at P row ->
  (forall k X, P k X -> (f k == peval l (inject_Z X * DH))%Q) ->
  (apply_row row f == peval (pder l) (inject_Z m / 2 * DH))%Q.
Proof.
  intros Hp Hs HD Hl (Len&Hrow) Hf.
  assert (Hh : ~ (DH * inject_Z s == 0)%Q).
  { intros E. apply Qmult_integral in E. destruct E as [E|E]; [tauto|]. change 0%Q with (inject_Z 0) in E. rewrite <- inject_Z_injective in E || (unfold Qeq in E; simpl in E). lia. }
  rewrite <- (fd_exact p l (inject_Z m / 2 * DH) (DH * inject_Z s) Hp Hh Hl).
  unfold apply_row, qsum_to. rewrite <- Len. clear Hl Hp Hh.
  assert (G : forall r j0, (forall j k v, nth_error r j = Some (k, v) -> exists X, 2 * X = m + s * (2 * (j0 + Z.of_nat j) - (p - 1)) /\ P k X /\ (v == stencil_at p (j0 + Z.of_nat j) / (DH * inject_Z s))%Q) ->
     (qsum (map (fun e => snd e * f (fst e)) r) ==
      qsum (map (fun j => stencil_at p j / (DH * inject_Z s) * peval l (inject_Z m / 2 * DH + inject_Z (2 * j - (p - 1)) / 2 * (DH * inject_Z s))) (zseq j0 (length r))))%Q).
  { clear Hrow. induction r as [|(k, v) r IH]; intros j0 H; [reflexivity|]. cbn [map qsum fold_right length zseq fst snd].
    fold (qsum (map (fun e => (snd e * f (fst e))%Q) r)).
    rewrite (IH (j0 + 1)).
    2:{ intros j k' v' Hj. destruct (H (S j) k' v' Hj) as (X&A&B&C). exists X. replace (j0 + 1 + Z.of_nat j) with (j0 + Z.of_nat (S j)) by lia. auto. }
    destruct (H 0%nat k v eq_refl) as (X&A&B&C). cbn [Z.of_nat] in A, C. rewrite Z.add_0_r in A, C.
    rewrite (Hf k X B), C. apply Qplus_comp; [|reflexivity]. apply Qmult_comp; [reflexivity|].
    apply peval_comp. assert (E : (inject_Z 2 * inject_Z X == inject_Z m + inject_Z s * inject_Z (2 * j0 - (p - 1)))%Q) by (rewrite <- !inject_Z_mult, <- inject_Z_plus; now rewrite A).
    assert (E2 : (inject_Z X == (inject_Z m + inject_Z s * inject_Z (2 * j0 - (p - 1))) / 2)%Q) by (rewrite <- E; field).
    rewrite E2. field. }
  apply (G row 0). intros j k v Hj. exact (Hrow j k v Hj).
Qed.

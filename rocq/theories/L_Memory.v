(** Proofs about the memory estimates. *)
From Coq Require Import QArith.
From Verif Require Import Base M_Grid S_Grid L_Grid L_Grid2 M_Deriv S_Bound L_GridP M_Memory S_Memory.
From Verif Require M_PerShot M_Average.
Open Scope Z_scope.
Local Notation length := List.length.

(** ** Lengths of rows *)
Lemma row_fwd_len B : 2 <= B -> forall fuel dh sh N h col x p j acc row,
  row_fwd fuel dh sh N h col x p j acc = Ok row -> p <= B -> Z.of_nat (length acc) = j -> j <= B -> Z.of_nat (length row) <= B.
Proof.
  intros HB. induction fuel as [|f IH]; intros dh sh N h col x p j acc row E Hp Ha Hj; cbn [row_fwd] in E; [discriminate|].
  destruct (j <? p) eqn:Q0; cbn [negb] in E; [|injection E as <-; lia].
  destruct (x + sh + dh * (Z.quot (- p) 2 + 1) <? 0) eqn:Q1; [eapply IH; [exact E| | |]; lia|].
  destruct (x + sh + Z.quot (dh * p) 2 >=? N) eqn:Q2.
  - destruct (p - 2 * (x + sh + Z.quot (dh * p) 2 - N + 1) =? 0) eqn:Q3; (eapply IH; [exact E| | |]; lia).
  - destruct (col _) as [k| | |]; cbn [bind] in E; try discriminate. destruct (fdcoef p j) as [c| | |]; cbn [bind] in E; try discriminate.
    eapply IH; [exact E| |rewrite app_length; cbn [length]|]; lia.
Qed.
Lemma row_bwd_len B : 2 <= B -> forall fuel dh sh N h col x p j acc row,
  row_bwd fuel dh sh N h col x p j acc = Ok row -> p <= B -> Z.of_nat (length acc) = j -> j <= B -> Z.of_nat (length row) <= B.
Proof.
  intros HB. induction fuel as [|f IH]; intros dh sh N h col x p j acc row E Hp Ha Hj; cbn [row_bwd] in E; [discriminate|].
  destruct (j <? p) eqn:Q0; cbn [negb] in E; [|injection E as <-; lia].
  destruct (x + sh + dh * Z.quot (- p) 2 <? 0) eqn:Q1.
  - destruct (p + 2 * (x + sh + dh * Z.quot (- p) 2) =? 0) eqn:Q3; (eapply IH; [exact E| | |]; lia).
  - destruct (x + sh + dh * (Z.quot p 2 - 1) >=? N) eqn:Q2; [eapply IH; [exact E| | |]; lia|].
    destruct (col _) as [k| | |]; cbn [bind] in E; try discriminate. destruct (fdcoef p j) as [c| | |]; cbn [bind] in E; try discriminate.
    eapply IH; [exact E| |rewrite app_length; cbn [length]|]; lia.
Qed.
Lemma row_yb_len B : 2 <= B -> forall fuel g layer dh h col y p j acc row,
  row_yb fuel g layer dh h col y p j acc = Ok row -> p <= B -> Z.of_nat (length acc) = j -> j <= B -> Z.of_nat (length row) <= B.
Proof.
  intros HB. induction fuel as [|f IH]; intros g layer dh h col y p j acc row E Hp Ha Hj; cbn [row_yb] in E; [discriminate|].
  destruct (j <? p) eqn:Q0; cbn [negb] in E; [|injection E as <-; lia].
  destruct (locatedOnInterface g y) as [o| | |]; cbn [bind] in E; try discriminate.
  match type of E with bind ?a _ = _ => destruct a as [d1| | |] end; cbn [bind] in E; try discriminate.
  match type of E with bind ?a _ = _ => destruct a as [d2| | |] end; cbn [bind] in E; try discriminate.
  cbv zeta in E. destruct (y + dh * Z.quot (- p) 2 <? 0) eqn:Q1.
  - destruct (p + 2 * (y + dh * Z.quot (- p) 2) =? 0) eqn:Q3; (eapply IH; [exact E| | |]; lia).
  - destruct (y + dh * (Z.quot p 2 - 1) >=? gNY g) eqn:Q2; [eapply IH; [exact E| | |]; lia|].
    destruct (col _) as [k| | |]; cbn [bind] in E; try discriminate. destruct (fdcoef p j) as [c| | |]; cbn [bind] in E; try discriminate.
    eapply IH; [exact E| |rewrite app_length; cbn [length]|]; lia.
Qed.
Lemma row_fs_len n : forall base o hybrid dh NY h col y p j row, row_fs n base o hybrid dh NY h col y p j = Ok row -> (length row <= n)%nat.
Proof.
  induction n as [|n IH]; intros base o hybrid dh NY h col y p j row E; cbn [row_fs] in E; [injection E as <-; cbn; lia|].
  destruct (fdcoef p j) as [c| | |]; cbn [bind] in E; try discriminate. destruct (cdiv _ _) as [q| | |]; cbn [bind] in E; try discriminate.
  match type of E with bind ?a _ = _ => destruct a as [d| | |] end; cbn [bind] in E; try discriminate.
  match type of E with bind ?a _ = _ => destruct a as [e| | |] eqn:Ee end; cbn [bind] in E; try discriminate.
  match type of E with bind ?a _ = _ => destruct a as [r| | |] eqn:Er end; cbn [bind] in E; try discriminate.
  injection E as <-. apply IH in Er. rewrite app_length. enough (length e <= 1)%nat by lia.
  destruct ((y + dh * (j - Z.quot p 2 + o) >=? 0) && _); [|injection Ee as <-; cbn; lia].
  destruct (col _) as [k| | |]; cbn [bind] in Ee; try discriminate. injection Ee as <-. destruct (negb hybrid); [cbn; lia|].
  destruct (Qeq_bool d 0); cbn; lia.
Qed.
Lemma reduce_le b g y layer p q : reduce_order b g y layer p = Ok q -> q <= Z.max 2 p.
Proof.
  unfold reduce_order. destruct b; [|intros [= <-]; lia]. destruct (vget _ _) as [l| | |]; cbn [bind]; try discriminate.
  destruct (cdiv _ _) as [d| | |]; cbn [bind]; try discriminate. intros [= <-].
  destruct (d =? 0); [lia|]. destruct (p >? d * 2) eqn:Q; lia.
Qed.

(** Every row has at most as many entries as the order of the layer of its point. *)
Lemma drow_len m fuel g orders useVar useVarGrid hybrid DH i row : drow m fuel g orders useVar useVarGrid hybrid DH i = Ok row ->
  exists c k p, index2coordinate g i = Ok c /\ getLayer g (cy c) = Ok k /\ order_at orders useVar k = Ok p /\ Z.of_nat (length row) <= Z.max 2 p.
Proof.
  destruct m; cbn [drow]; intros E;
    unfold calcDxf, calcDyf, calcDzf, calcDxb, calcDyb, calcDzb, calcDyfFreeSurface, calcDybFreeSurface in E;
    destruct (index2coordinate g i) as [c| | |]; cbn [bind] in E; try discriminate;
    destruct (getLayer g (cy c)) as [k| | |] eqn:Ek; cbn [bind] in E; try discriminate; exists c, k.
  - destruct (vget _ _) as [l| | |]; cbn [bind] in E; try discriminate. destruct (order_at _ _ _) as [p| | |]; cbn [bind] in E; try discriminate.
    destruct (locatedOnInterface _ _) as [o| | |]; cbn [bind] in E; try discriminate. exists p. split; [reflexivity|split; [exact Ek|split; [reflexivity|]]].
    eapply row_fwd_len; [|exact E| | |]; cbn; lia.
  - destruct (order_at _ _ _) as [p| | |]; cbn [bind] in E; try discriminate.
    destruct (reduce_order _ _ _ _ _) as [q| | |] eqn:Eq; cbn [bind] in E; try discriminate. apply reduce_le in Eq.
    destruct (locatedOnInterface _ _) as [o| | |]; cbn [bind] in E; try discriminate.
    match type of E with bind ?a _ = _ => destruct a as [t| | |] end; cbn [bind] in E; try discriminate.
    destruct (vget _ _) as [l| | |]; cbn [bind] in E; try discriminate. exists p. split; [reflexivity|split; [exact Ek|split; [reflexivity|]]].
    eapply row_fwd_len; [|exact E| | |]; cbn; lia.
  - destruct (vget _ _) as [l| | |]; cbn [bind] in E; try discriminate. destruct (order_at _ _ _) as [p| | |]; cbn [bind] in E; try discriminate.
    destruct (locatedOnInterface _ _) as [o| | |]; cbn [bind] in E; try discriminate. exists p. split; [reflexivity|split; [exact Ek|split; [reflexivity|]]].
    eapply row_fwd_len; [|exact E| | |]; cbn; lia.
  - destruct (vget _ _) as [l| | |]; cbn [bind] in E; try discriminate. destruct (order_at _ _ _) as [p| | |]; cbn [bind] in E; try discriminate.
    destruct (locatedOnInterface _ _) as [o| | |]; cbn [bind] in E; try discriminate. exists p. split; [reflexivity|split; [exact Ek|split; [reflexivity|]]].
    eapply row_bwd_len; [|exact E| | |]; cbn; lia.
  - destruct (vget _ _) as [l| | |]; cbn [bind] in E; try discriminate. destruct (order_at _ _ _) as [p| | |]; cbn [bind] in E; try discriminate.
    destruct (reduce_order _ _ _ _ _) as [q| | |] eqn:Eq; cbn [bind] in E; try discriminate. apply reduce_le in Eq. exists p. split; [reflexivity|split; [exact Ek|split; [reflexivity|]]].
    eapply row_yb_len; [|exact E| | |]; cbn; lia.
  - destruct (vget _ _) as [l| | |]; cbn [bind] in E; try discriminate. destruct (order_at _ _ _) as [p| | |]; cbn [bind] in E; try discriminate.
    destruct (locatedOnInterface _ _) as [o| | |]; cbn [bind] in E; try discriminate. exists p. split; [reflexivity|split; [exact Ek|split; [reflexivity|]]].
    eapply row_bwd_len; [|exact E| | |]; cbn; lia.
  - destruct (locatedOnInterface _ _) as [o| | |]; cbn [bind] in E; try discriminate.
    match type of E with bind ?a _ = _ => destruct a as [t| | |] end; cbn [bind] in E; try discriminate.
    destruct (vget _ _) as [l| | |]; cbn [bind] in E; try discriminate. destruct (order_at _ _ _) as [p| | |]; cbn [bind] in E; try discriminate.
    destruct (reduce_order _ _ _ _ _) as [q| | |] eqn:Eq; cbn [bind] in E; try discriminate. apply reduce_le in Eq. exists p. split; [reflexivity|split; [exact Ek|split; [reflexivity|]]].
    apply row_fs_len in E. lia.
  - destruct (vget _ _) as [l| | |]; cbn [bind] in E; try discriminate. destruct (order_at _ _ _) as [p| | |]; cbn [bind] in E; try discriminate.
    exists p. split; [reflexivity|split; [exact Ek|split; [reflexivity|]]]. apply row_fs_len in E. lia.
Qed.

Lemma entries_le B rows : 0 <= B -> (forall r, In r rows -> Z.of_nat (length r) <= B) -> entries rows <= Z.of_nat (length rows) * B.
Proof.
  intros HB. unfold entries. induction rows as [|r rows IH]; intros H; cbn [map zsum fold_right length]; [lia|].
  specialize (IH (fun r' Hr => H r' (or_intror Hr))). pose proof (H r (or_introl eq_refl)). unfold zsum in IH. lia.
Qed.

(** ** The estimate *)
Lemma built_wf g : built g -> wf g.
Proof.
  intros [(nx&ny&nz&H)|(fuel&nx&ny&nz&dhs&ifs&H&Hf&E)].
  - apply (mk_regular_wf _ _ _ _ H).
  - destruct (init_variable_ok fuel nx ny nz dhs ifs H Hf) as (g'&E'&W&_). congruence.
Qed.
Lemma wf_counts NX NY NZ : forall ls lo, wf_layers NX NY NZ lo ls -> forall l, In l ls -> 0 <= lcnt l.
Proof.
  induction ls as [|l ls IH]; intros lo H a Ha; [destruct Ha|]. cbn [wf_layers] in H. destruct H as (_&_&_&H1&_&H2&H3&_&_&_&_&_&Hc&Hr).
  destruct Ha as [<-|Ha]; [rewrite Hc; apply Z.mul_nonneg_nonneg; nia|eauto].
Qed.
Definition layerTerm (sv si : Z) (lp : layer * Z) : Z := lcnt (fst lp) * snd lp * (sv + si) + 2 * lcnt (fst lp) * si.
Lemma sparseBytes_ok n p sv si : 0 <= n -> 2 <= p -> n * p < 2 ^ 31 -> sparseBytes n p sv si = Ok (n * p * (sv + si) + 2 * n * si).
Proof.
  intros Hn Hp H. assert (0 <= n * p /\ 2 * n <= n * p) by nia. unfold sparseBytes, imul.
  replace ((- 2 ^ 31 <=? n * p) && (n * p <? 2 ^ 31)) with true by lia. cbn [bind].
  replace ((- 2 ^ 31 <=? 2 * n) && (2 * n <? 2 ^ 31)) with true by lia. reflexivity.
Qed.
Lemma sparseBytes_ub n p sv si : 2 ^ 31 <= n * p -> sparseBytes n p sv si = UB.
Proof. intros H. unfold sparseBytes, imul. replace (n * p <? 2 ^ 31) with false by lia. rewrite andb_false_r. reflexivity. Qed.
Lemma layers_ok g orders (useVar : bool) p sv si : forall (ls : list layer) (ps : list Z) (pre : list layer), layers g = pre ++ ls -> length ps = length ls ->
  (forall k q, nth_error ps k = Some q -> (if useVar then M_PerShot.at_ orders (Z.of_nat (length pre + k)) else Ok p) = Ok q) ->
  (forall l, In l ls -> 0 <= lcnt l) -> (forall q, In q ps -> 2 <= q) ->
  (forall l q, In (l, q) (combine ls ps) -> lcnt l * q < 2 ^ 31) ->
  layersBytes g orders useVar p sv si (zseq (Z.of_nat (length pre)) (length ls)) = Ok (zsum (map (layerTerm sv si) (combine ls ps))).
Proof.
  induction ls as [|l ls IH]; intros [|q ps] pre E L Hq Hl Hp Hf; try discriminate; [reflexivity|]. cbn [length zseq layersBytes].
  pose proof (Hq 0%nat q eq_refl) as Q. rewrite Nat.add_0_r in Q. rewrite Q. cbn [bind].
  assert (V : vget (layers g) (Z.of_nat (length pre)) = Ok l).
  { unfold vget. replace (Z.of_nat (length pre) <? 0) with false by lia. rewrite Nat2Z.id, E, nth_error_app2, Nat.sub_diag by lia. reflexivity. }
  rewrite V. cbn [bind]. rewrite sparseBytes_ok; [|apply Hl; now left|apply Hp; now left|apply Hf; now left]. cbn [bind].
  replace (Z.of_nat (length pre) + 1) with (Z.of_nat (length (pre ++ [l]))) by (rewrite app_length; cbn; lia).
  rewrite (IH ps); [reflexivity| | | | | |].
  - rewrite E, <- app_assoc. reflexivity.
  - cbn in L. lia.
  - intros k q' Hk. specialize (Hq (S k) q' Hk). rewrite app_length. cbn [length]. replace (length pre + 1 + k)%nat with (length pre + S k)%nat by lia. exact Hq.
  - intros; apply Hl; now right.
  - intros; apply Hp; now right.
  - intros; apply Hf; now right.
Qed.
Lemma layers_ub g orders (useVar : bool) p sv si : forall (ls : list layer) (ps : list Z) (pre : list layer), layers g = pre ++ ls -> length ps = length ls ->
  (forall k q, nth_error ps k = Some q -> (if useVar then M_PerShot.at_ orders (Z.of_nat (length pre + k)) else Ok p) = Ok q) ->
  (forall l, In l ls -> 0 <= lcnt l) -> (forall q, In q ps -> 2 <= q) ->
  (exists l q, In (l, q) (combine ls ps) /\ 2 ^ 31 <= lcnt l * q) ->
  layersBytes g orders useVar p sv si (zseq (Z.of_nat (length pre)) (length ls)) = UB.
Proof.
  induction ls as [|l ls IH]; intros [|q ps] pre E L Hq Hl Hp (l'&q'&I&Hf); try discriminate; [destruct I|]. cbn [length zseq layersBytes].
  pose proof (Hq 0%nat q eq_refl) as Q. rewrite Nat.add_0_r in Q. rewrite Q. cbn [bind].
  assert (V : vget (layers g) (Z.of_nat (length pre)) = Ok l).
  { unfold vget. replace (Z.of_nat (length pre) <? 0) with false by lia. rewrite Nat2Z.id, E, nth_error_app2, Nat.sub_diag by lia. reflexivity. }
  rewrite V. cbn [bind]. destruct (Z.lt_ge_cases (lcnt l * q) (2 ^ 31)) as [F|F].
  - rewrite sparseBytes_ok; [|apply Hl; now left|apply Hp; now left|exact F]. cbn [bind].
    replace (Z.of_nat (length pre) + 1) with (Z.of_nat (length (pre ++ [l]))) by (rewrite app_length; cbn; lia).
    rewrite (IH ps); [reflexivity| | | | | |].
    + rewrite E, <- app_assoc. reflexivity.
    + cbn in L. lia.
    + intros k q1 Hk. specialize (Hq (S k) q1 Hk). rewrite app_length. cbn [length]. replace (length pre + 1 + k)%nat with (length pre + S k)%nat by lia. exact Hq.
    + intros; apply Hl; now right.
    + intros; apply Hp; now right.
    + destruct I as [I|I]; [injection I as -> ->; lia|eauto].
  - rewrite sparseBytes_ub by exact F. reflexivity.
Qed.
Lemma at_first {A} (a : A) r : M_PerShot.at_ (a :: r) 0 = Ok a.
Proof. reflexivity. Qed.
Lemma at_nth {A} (l : list A) k a : nth_error l k = Some a -> M_PerShot.at_ l (Z.of_nat k) = Ok a.
Proof. intros H. unfold M_PerShot.at_. replace (Z.of_nat k <? 0) with false by lia. rewrite Nat2Z.id, H. reflexivity. Qed.
Lemma combine_repeat {A B} (b : B) (l : list A) : combine l (repeat b (length l)) = map (fun a => (a, b)) l.
Proof. induction l as [|a l IH]; cbn; [reflexivity|]. rewrite IH. reflexivity. Qed.
Lemma sum_constant sv si p ls : zsum (map (layerTerm sv si) (map (fun l => (l, p)) ls)) =
  zsum (map lcnt ls) * p * (sv + si) + 2 * zsum (map lcnt ls) * si.
Proof.
  induction ls as [|l ls IH]; [cbn; lia|]. cbn [map]. unfold zsum in *. cbn [fold_right]. rewrite IH. unfold layerTerm. cbn [fst snd]. ring.
Qed.
Lemma rows_of_mapres m fuel g orders useVar useVarGrid hybrid DH rows : 0 <= nGridpoints g ->
  M_Average.mapres (drow m fuel g orders useVar useVarGrid hybrid DH) (zseq 0 (Z.to_nat (nGridpoints g))) = Ok rows ->
  rows_of m fuel g orders useVar useVarGrid hybrid DH rows.
Proof.
  intros H0 E. set (n := Z.to_nat (nGridpoints g)) in *. assert (Hn : nGridpoints g = Z.of_nat n) by lia. unfold rows_of. rewrite Hn. clearbody n. clear Hn H0.
  enough (X : forall s, M_Average.mapres (drow m fuel g orders useVar useVarGrid hybrid DH) (zseq s n) = Ok rows -> length rows = n /\
    forall i row, nth_error rows i = Some row -> drow m fuel g orders useVar useVarGrid hybrid DH (s + Z.of_nat i) = Ok row).
  { destruct (X 0 E) as (A&B). split; [lia|]. intros i row Hi. rewrite <- (B i row Hi). f_equal. }
  clear E. revert rows. induction n as [|n IH]; intros rows s E; cbn [zseq M_Average.mapres] in E.
  - injection E as <-. split; [reflexivity|]. intros [|i]; discriminate.
  - destruct (drow m fuel g orders useVar useVarGrid hybrid DH s) as [r| | |] eqn:Er; cbn [bind] in E; try discriminate.
    destruct (M_Average.mapres _ (zseq (s + 1) n)) as [rs| | |] eqn:Es; cbn [bind] in E; try discriminate. injection E as <-.
    destruct (IH _ _ Es) as (A&B). split; [cbn; lia|]. intros [|i] row Hi; cbn in Hi.
    + injection Hi as <-. rewrite Z.add_0_r. exact Er.
    + rewrite <- (B i row Hi). f_equal. lia.
Qed.

(** Proofs about getShrinkVector. *)
From Coq Require Import Reals Lra.
From Verif Require Import Base M_Grid L_Grid M_Average L_Average3 L_Acq M_Shrink S_Shrink.
Open Scope Z_scope.
Local Notation length := List.length.

Lemma setAt_length v : forall k x, length (setAt v k x) = length v.
Proof. induction v as [|a v IH]; intros [|k] x; cbn; auto. Qed.
Lemma setAt_nth v : forall k x j, (k < length v)%nat -> nth j (setAt v k x) 0%R = if Nat.eqb j k then x else nth j v 0%R.
Proof.
  induction v as [|a v IH]; intros [|k] x [|j] H; cbn [setAt nth length Nat.eqb] in *; try lia; auto.
  apply IH. lia.
Qed.

Definition ceqb (a b : coord) : bool := (cx a =? cx b) && (cy a =? cy b) && (cz a =? cz b).
Definition last_of (l : list (coord * R)) (p : coord) (d : R) : R := fold_left (fun d a => if ceqb (fst a) p then snd a else d) l d.
Lemma last_app l k p d : last_of (l ++ k) p d = last_of k p (last_of l p d).
Proof. apply fold_left_app. Qed.

Section Regular.
Variables (nx ny nz : Z) (big : grid).
Hypothesis Hb : mk_regular nx ny nz = Ok big.
Definition inr (c : coord) : Prop := 0 <= cx c < nx /\ 0 <= cy c < ny /\ 0 <= cz c < nz.
Definition num (c : coord) : Z := cx c + cz c * nx + cy c * nx * nz.
Lemma c2i_num c : inr c -> coordinate2index big c = Ok (num c) /\ 0 <= num c < nx * ny * nz.
Proof.
  destruct c as [x y z]. intros (A&B&C). cbn [cx cy cz] in *. unfold num; cbn [cx cy cz]. split; [now apply regular_formula with ny|].
  now apply num_range.
Qed.
Lemma num_inj a b : inr a -> inr b -> num a = num b -> a = b.
Proof.
  destruct a as [x y z], b as [x' y' z']. intros (A&B&C) (A'&B'&C') E. cbn [cx cy cz] in *. unfold num in E; cbn [cx cy cz] in E.
  pose proof (regular_i2c _ _ _ _ _ _ _ Hb A B C) as P. pose proof (regular_i2c _ _ _ _ _ _ _ Hb A' B' C') as Q. rewrite E in P. congruence.
Qed.
Lemma assigns_ok l : forall v, Z.of_nat (length v) = nx * ny * nz -> (forall a, In a l -> inr (fst a)) ->
  exists v', assigns big v l = Ok v' /\ Z.of_nat (length v') = nx * ny * nz /\
    forall p, inr p -> nth (Z.to_nat (num p)) v' 0%R = last_of l p (nth (Z.to_nat (num p)) v 0%R).
Proof.
  induction l as [|[c x] l IH]; intros v L H; cbn [assigns].
  - exists v. split; [reflexivity|]. split; [exact L|]. reflexivity.
  - unfold assign. cbn [fst snd]. pose proof (H (c, x) (or_introl eq_refl)) as Hc. cbn [fst] in Hc.
    destruct (c2i_num c Hc) as (E&Hk). rewrite E. cbn [bind].
    destruct (IH (setAt v (Z.to_nat (num c)) x)) as (v'&E1&E2&E3).
    { rewrite setAt_length. exact L. }
    { intros a Ha. apply H. now right. }
    exists v'. split; [exact E1|]. split; [exact E2|]. intros p Hp. rewrite E3 by exact Hp. unfold last_of. cbn [fold_left fst snd].
    f_equal. destruct (c2i_num p Hp) as (_&Hp'). rewrite setAt_nth by lia.
    destruct (Nat.eqb_spec (Z.to_nat (num p)) (Z.to_nat (num c))) as [Q|Q].
    + assert (c = p) by (apply num_inj; auto; lia). subst p. unfold ceqb. rewrite !Z.eqb_refl. reflexivity.
    + destruct (ceqb c p) eqn:Ec; [|reflexivity]. exfalso. unfold ceqb in Ec. destruct c as [a1 a2 a3], p as [b1 b2 b3]; cbn [cx cy cz] in Ec. apply Q. do 2 f_equal. f_equal; lia.
Qed.
Lemma assigns_throw l : forall v, (exists a, In a l /\ ~ inr (fst a)) -> assigns big v l = Throw.
Proof.
  destruct (regular_bijection _ _ _ _ Hb) as (_&B&T).
  induction l as [|[c x] l IH]; intros v (a&I&N); [destruct I|]. cbn [assigns]. unfold assign. cbn [fst snd].
  assert (D : inr c \/ ~ inr c) by (unfold inr; lia). destruct D as [D|D].
  - destruct (B c D) as (k&E&_). rewrite E. cbn [bind]. apply IH. destruct I as [<-|I]; [contradiction|eauto].
  - rewrite (T c D). reflexivity.
Qed.
End Regular.

(** The assignments *)
Lemma last_line n : forall a e y f s p d, e * e = 1 ->
  last_of (map (fun i => (mkC (a + e * i) y 0, f i)) (zseq s n)) p d =
  if (cy p =? y) && (cz p =? 0) && (s <=? e * (cx p - a)) && (e * (cx p - a) <? s + Z.of_nat n) then f (e * (cx p - a)) else d.
Proof.
  induction n as [|n IH]; intros a e y f s p d He.
  - unfold last_of. cbn [zseq map fold_left]. destruct ((cy p =? y) && (cz p =? 0)) eqn:Q; cbn [andb]; [|reflexivity].
    destruct ((s <=? e * (cx p - a)) && (e * (cx p - a) <? s + Z.of_nat 0)) eqn:Q'; [exfalso; lia|reflexivity].
  - cbn [zseq map]. unfold last_of in *. cbn [fold_left fst snd]. rewrite IH by exact He. unfold ceqb. cbn [cx cy cz].
    set (t := e * (cx p - a)). assert (Ht : (a + e * s =? cx p) = (t =? s)).
    { unfold t. clear t. assert (U : e = 1 \/ e = -1) by (clear - He; nia). destruct U as [->| ->]; lia. }
    rewrite Ht. clearbody t. clear Ht. rewrite (Z.eqb_sym y), (Z.eqb_sym 0).
    destruct (cy p =? y), (cz p =? 0); cbn [andb]; rewrite ?andb_false_r; cbn [andb]; try reflexivity.
    rewrite !andb_true_r. destruct (Z.eqb_spec t s) as [->|N].
    + replace (s + 1 <=? s) with false by lia. replace (s <=? s) with true by lia. replace (s <? s + Z.of_nat (S n)) with true by lia. reflexivity.
    + replace ((s + 1 <=? t) && (t <? s + 1 + Z.of_nat n)) with ((s <=? t) && (t <? s + Z.of_nat (S n))) by lia. reflexivity.
Qed.
Lemma last_border cut mx l r y p d : last_of (border cut mx l r y) p d =
  if (cy p =? y) && (cz p =? 0) then
    let dr := cx cut + mx - 1 - cx p in let dl := cx p - cx cut in
    if (0 <=? dr) && (dr <? r) then damp r dr else if (0 <=? dl) && (dl <? l) then damp l dl else d
  else d.
Proof.
  unfold border. rewrite last_app.
  replace (map (fun i => (mkC (cx cut + i) y 0, damp l i)) (zseq 0 (Z.to_nat l)))
    with (map (fun i => (mkC (cx cut + 1 * i) y 0, damp l i)) (zseq 0 (Z.to_nat l))).
  2:{ apply map_ext. intros i. do 2 f_equal; lia. }
  replace (map (fun i => (mkC (cx cut + mx - 1 - i) y 0, damp r i)) (zseq 0 (Z.to_nat r)))
    with (map (fun i => (mkC (cx cut + mx - 1 + (-1) * i) y 0, damp r i)) (zseq 0 (Z.to_nat r))).
  2:{ apply map_ext. intros i. do 2 f_equal; lia. }
  rewrite (last_line _ (cx cut) 1 y (damp l)), (last_line _ (cx cut + mx - 1) (-1) y (damp r)) by reflexivity.
  destruct ((cy p =? y) && (cz p =? 0)); cbn [andb]; [|reflexivity]. cbv zeta.
  replace (-1 * (cx p - (cx cut + mx - 1))) with (cx cut + mx - 1 - cx p) by lia. replace (1 * (cx p - cx cut)) with (cx p - cx cut) by lia.
  set (dr := cx cut + mx - 1 - cx p). set (dl := cx p - cx cut).
  replace ((0 <=? dr) && (dr <? 0 + Z.of_nat (Z.to_nat r))) with ((0 <=? dr) && (dr <? r)) by lia.
  replace ((0 <=? dl) && (dl <? 0 + Z.of_nat (Z.to_nat l))) with ((0 <=? dl) && (dl <? l)) by lia.
  reflexivity.
Qed.
Lemma last_borders cut mx l r n : forall s p d, last_of (flat_map (border cut mx l r) (zseq s n)) p d =
  if (s <=? cy p) && (cy p <? s + Z.of_nat n) && (cz p =? 0) then
    let dr := cx cut + mx - 1 - cx p in let dl := cx p - cx cut in
    if (0 <=? dr) && (dr <? r) then damp r dr else if (0 <=? dl) && (dl <? l) then damp l dl else d
  else d.
Proof.
  induction n as [|n IH]; intros s p d; cbn [zseq flat_map].
  - replace ((s <=? cy p) && (cy p <? s + Z.of_nat 0)) with false by lia. reflexivity.
  - rewrite last_app, IH, last_border. destruct (Z.eqb_spec (cy p) s) as [E|E]; cbn [andb].
    + replace ((s + 1 <=? cy p) && (cy p <? s + 1 + Z.of_nat n)) with false by lia.
      replace ((s <=? cy p) && (cy p <? s + Z.of_nat (S n))) with true by lia. reflexivity.
    + replace ((s + 1 <=? cy p) && (cy p <? s + 1 + Z.of_nat n)) with ((s <=? cy p) && (cy p <? s + Z.of_nat (S n))) by lia. reflexivity.
Qed.
Lemma last_ones l p d : (forall a, In a l -> snd a = 1%R) -> last_of l p d = if existsb (fun a => ceqb (fst a) p) l then 1%R else d.
Proof.
  revert d. induction l as [|a l IH]; intros d H; [reflexivity|]. unfold last_of in *. cbn [fold_left existsb].
  rewrite IH by (intros; apply H; now right). destruct (existsb _ l); [now rewrite orb_true_r|]. rewrite orb_false_r.
  destruct (ceqb (fst a) p); [apply H; now left|reflexivity].
Qed.

Lemma damp_taper w d : 0 < w -> damp w d = taper w d.
Proof.
  intros H. apply IZR_lt in H. unfold damp, taper, Rsqr. replace (IZR d * PI / (IZR w * 2))%R with (PI / 2 * (IZR d / IZR w))%R by (field; lra).
  reflexivity.
Qed.

(** The window: the moved coordinates *)
Lemma moved_all mx my mz sub cut : mk_regular mx my mz = Ok sub ->
  exists l, mapres (moved sub cut) (zseq 0 (Z.to_nat (nGridpoints sub))) = Ok l /\ (forall a, In a l -> snd a = 1%R) /\
    forall p, existsb (fun a => ceqb (fst a) p) l = true <->
      (cx cut <= cx p < cx cut + mx /\ cy cut <= cy p < cy cut + my /\ cz cut <= cz p < cz cut + mz).
Proof.
  intros Hs. destruct (mk_regular_wf _ _ _ _ Hs) as (_&_&_&_&Ns&_). pose proof (mk_regular_inv _ _ _ _ Hs) as (Px&Py&Pz).
  destruct (regular_bijection _ _ _ _ Hs) as (Bs&_&_). assert (N0 : 0 <= mx * my * mz) by (clear - Px Py Pz; nia).
  destruct (mapres_all (moved sub cut) (fun i a => exists c, index2coordinate sub i = Ok c /\
      (0 <= cx c < mx /\ 0 <= cy c < my /\ 0 <= cz c < mz) /\ a = (mkC (cx c + cx cut) (cy c + cy cut) (cz c + cz cut), 1%R))
    (zseq 0 (Z.to_nat (nGridpoints sub)))) as (l&E&F).
  { intros i Hi. apply zseq_in in Hi. rewrite Ns in Hi. destruct (Bs i ltac:(clear - Hi N0; lia)) as (c&Ec&Hc&_).
    eexists. unfold moved. rewrite Ec. cbn [bind]. split; [reflexivity|]. eauto. }
  exists l. split; [exact E|]. rewrite Ns in F. split; [|intros p; rewrite existsb_exists; split].
  - intros a Ha. assert (X : exists i, (fun i a => exists c, index2coordinate sub i = Ok c /\
      (0 <= cx c < mx /\ 0 <= cy c < my /\ 0 <= cz c < mz) /\ a = (mkC (cx c + cx cut) (cy c + cy cut) (cz c + cz cut), 1%R)) i a).
    { clear - F Ha. induction F; [destruct Ha|]. destruct Ha as [<-|Ha]; eauto. }
    destruct X as (i&c&_&_&->). reflexivity.
  - intros (a&Ha&Q). assert (X : exists i, (fun i a => exists c, index2coordinate sub i = Ok c /\
      (0 <= cx c < mx /\ 0 <= cy c < my /\ 0 <= cz c < mz) /\ a = (mkC (cx c + cx cut) (cy c + cy cut) (cz c + cz cut), 1%R)) i a).
    { clear - F Ha. induction F; [destruct Ha|]. destruct Ha as [<-|Ha]; eauto. }
    destruct X as (i&c&_&Hc&->). unfold ceqb in Q. cbn [fst cx cy cz] in Q. lia.
  - intros Hp. destruct (Forall2_zseq _ _ _ _ F) as (L&K).
    set (x := cx p - cx cut). set (y := cy p - cy cut). set (z := cz p - cz cut).
    assert (Hx : 0 <= x < mx) by lia. assert (Hy : 0 <= y < my) by lia. assert (Hz : 0 <= z < mz) by lia.
    pose proof (num_range mx my mz x y z Hx Hy Hz) as B.
    destruct (K (Z.to_nat (x + z * mx + y * mx * mz)) ltac:(lia)) as (a&Ea&c&Ec&_&->).
    rewrite Z2Nat.id in Ec by lia. rewrite Z.add_0_l in Ec. rewrite (regular_i2c _ _ _ _ _ _ _ Hs Hx Hy Hz) in Ec. injection Ec as <-.
    eexists. split; [eapply nth_error_In; exact Ea|]. unfold ceqb. cbn [fst cx cy cz]. lia.
Qed.

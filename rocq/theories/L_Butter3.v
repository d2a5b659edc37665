(** The coefficients computed by multiplication in the frequency domain are those of the product. *)
From Coq Require Import Reals Lra Lia Ring.
From Verif Require Import Base M_Seis M_Common L_Common M_Fft L_Fft S_Fft P_Fft S_Butter M_Butter L_Butter L_Butter2.
Open Scope Z_scope.
Local Notation length := List.length.

(** ** The transform of a coefficient list is its value at the roots of unity *)
Definition node (n j : nat) : C := cis (- (2 * PI * INR j / INR n)).
Definition at_nodes (n : nat) (P : C -> C) : list C := map (fun j => P (node n j)) (seq 0 n).
Lemma csum_app n m f : csum (n + m) f = Cadd (csum n f) (csum m (fun k => f (n + k)%nat)).
Proof. induction m as [|m IH]; [rewrite Nat.add_0_r; cbn; ring|]. rewrite Nat.add_succ_r. cbn. rewrite IH. ring. Qed.
Lemma fft_nodes n c : (length c <= n)%nat -> fft (resize n c) = at_nodes n (horner c).
Proof.
  intros H. unfold fft, dft, at_nodes. rewrite resize_length. apply map_ext_in. intros j Hj. apply in_seq in Hj.
  assert (PN : (INR n <> 0)%R) by (apply not_0_INR; lia).
  rewrite <- horner_csum. replace n with (length c + (n - length c))%nat at 1 by lia. rewrite csum_app.
  rewrite (csum_ext (n - length c) _ (fun _ => C0)), csum_zero.
  - transitivity (csum (length c) (fun k => Cmul (nth k (resize n c) C0) (cis (-1 * (2 * PI * INR k * INR j / INR n))))); [ring|].
    apply csum_ext. intros k Hk. rewrite resize_nth. replace (k <? n)%nat with true by (symmetry; apply Nat.ltb_lt; lia).
    f_equal. unfold node. rewrite cis_mult. f_equal. field. exact PN.
  - intros k Hk. rewrite resize_nth, (nth_overflow c) by lia. destruct (_ <? _)%nat; ring.
Qed.
Lemma at_nodes_length n P : length (at_nodes n P) = n.
Proof. unfold at_nodes. rewrite map_length, seq_length. reflexivity. Qed.
Lemma at_nodes_mul n P Q : map2 Cmul (at_nodes n P) (at_nodes n Q) = at_nodes n (fun z => Cmul (P z) (Q z)).
Proof. unfold at_nodes, map2. induction (seq 0 n) as [|j l IH]; [reflexivity|]. cbn. rewrite IH. reflexivity. Qed.
Lemma at_nodes_ext n P Q : (forall z, P z = Q z) -> at_nodes n P = at_nodes n Q.
Proof. intros H. unfold at_nodes. apply map_ext. intros. apply H. Qed.
Lemma inverse_nodes n c : (length c <= n)%nat -> ifft (map (Cscale (1 / INR n)) (at_nodes n (horner c))) = resize n c.
Proof.
  intros H. rewrite <- fft_nodes by exact H. rewrite <- (allpass n (resize n c)) at 2 by apply resize_length.
  unfold processed. do 2 f_equal. apply (nth_ext _ _ C0 C0).
  - rewrite map2_length', repeat_length. unfold fft. rewrite dft_length, resize_length. lia.
  - intros k Hk. unfold fft in *. rewrite dft_length, resize_length in Hk.
    rewrite (map2_nth Cmul _ _ k C0 C0) by (rewrite ?dft_length, ?resize_length, ?repeat_length; exact Hk).
    rewrite (nth_indep _ C0 C1) at 1 by (rewrite dft_length, resize_length; exact Hk).
    rewrite (nth_indep (repeat C1 n) C0 C1) by (rewrite repeat_length; exact Hk). rewrite nth_repeat.
    rewrite (nth_indep _ C1 C0) by (rewrite dft_length, resize_length; exact Hk). ring.
Qed.

(** ** Writing entries of short vectors *)
Lemma vput_0 {A} (a : A) l x : vput (a :: l) 0 x = Ok (x :: l).
Proof. reflexivity. Qed.
Lemma vput_1 {A} (a b : A) l x : vput (a :: b :: l) 1 x = Ok (a :: x :: l).
Proof. reflexivity. Qed.
Lemma vput_2 {A} (a b c : A) l x : vput (a :: b :: c :: l) 2 x = Ok (a :: b :: x :: l).
Proof. reflexivity. Qed.
Lemma map_repeat {A B} (f : A -> B) x n : map f (repeat x n) = repeat (f x) n.
Proof. induction n as [|n IH]; cbn; [reflexivity|]. rewrite IH. reflexivity. Qed.

(** ** The loop over the quadratic factors *)
Lemma butterLoop_ok n order ks : (3 <= n)%nat -> forall l P, exists l',
  butterLoop n order ks (1 :: l :: 1 :: repeat 0 (n - 3))%R (at_nodes n P) =
    Ok ((1 :: l' :: 1 :: repeat 0 (n - 3))%R, at_nodes n (fun z => fold_left (fun a k => Cmul a (quad (butterLinear order k) z)) ks (P z))).
Proof.
  intros H. induction ks as [|k ks IH]; intros l P; cbn [butterLoop].
  - exists l. reflexivity.
  - rewrite vput_1. cbn [bind]. rewrite fft_nodes by (cbn [map length]; rewrite map_length, repeat_length; lia).
    rewrite at_nodes_mul.
    rewrite (at_nodes_ext n (fun z => Cmul (P z) _) (fun z => Cmul (P z) (quad (butterLinear order k) z))).
    + apply IH.
    + intros z. f_equal. cbn [map]. rewrite map_repeat.
      change (Creal 1 :: Creal (butterLinear order k) :: Creal 1 :: repeat (Creal 0) (n - 3))
        with ([Creal 1; Creal (butterLinear order k); Creal 1] ++ repeat C0 (n - 3)).
      rewrite horner_zeros. cbn. unfold quad. change (Creal 1) with C1. ring.
Qed.
Lemma fold_cprod (f : nat -> C) m a : fold_left (fun a k => Cmul a (f k)) (seq 1 m) a = Cmul a (cprod m (fun k => f (S k))).
Proof.
  induction m as [|m IH]; [cbn; ring|]. rewrite seq_S, fold_left_app, IH. cbn. ring.
Qed.

(** ** A coefficient list of the product *)
Fixpoint raddp (a b : list R) : list R := match a, b with [], _ => b | _, [] => a | x :: a, y :: b => (x + y)%R :: raddp a b end.
Lemma raddp_map a b : map Creal (raddp a b) = padd (map Creal a) (map Creal b).
Proof.
  revert b. induction a as [|x a IH]; intros [|y b]; try reflexivity. cbn. rewrite IH. f_equal. unfold Creal, Cadd. cbn. f_equal. ring.
Qed.
Lemma raddp_length a b : length (raddp a b) = Nat.max (length a) (length b).
Proof. revert b. induction a as [|x a IH]; intros [|y b]; cbn; try lia. rewrite IH. lia. Qed.
Lemma product_coefs order ks : exists c, length c = (1 + 2 * length ks)%nat /\
  forall z, horner (map Creal c) z = fold_left (fun a k => Cmul a (quad (butterLinear order k) z)) ks C1.
Proof.
  induction ks as [|k ks IH] using rev_ind.
  - exists [1%R]. split; [reflexivity|]. intros z. cbn. change (Creal 1) with C1. ring.
  - destruct IH as (c & L & E). set (l := butterLinear order k).
    exists (raddp c (raddp (map (Rmult l) (0 :: c)) (0 :: 0 :: c)))%R. split.
    + rewrite app_length, !raddp_length. cbn [map length]. rewrite map_length. cbn [length]. lia.
    + intros z. rewrite fold_left_app. cbn [fold_left]. rewrite <- E. rewrite !raddp_map, !horner_padd.
      assert (M : map Creal (map (Rmult l) (0 :: c)%R) = map (Cmul (Creal l)) (map Creal (0 :: c)%R)).
      { rewrite !map_map. apply map_ext. intros x. unfold Creal, Cmul. cbn. f_equal; ring. }
      rewrite M, horner_map. cbn [map horner]. change (Creal 0) with C0. unfold quad, l. ring.
Qed.
Lemma map_fst_Creal l : map fst (map Creal l) = l.
Proof. rewrite map_map. cbn. apply map_id. Qed.
Lemma resize_resize n m c : length c = m -> (m <= n)%nat -> resize m (resize n c) = c.
Proof.
  intros H1 H2. apply (nth_ext _ _ C0 C0); [rewrite resize_length; lia|]. intros k Hk. rewrite resize_length in Hk.
  rewrite !resize_nth. replace (k <? m)%nat with true by (symmetry; apply Nat.ltb_lt; lia).
  replace (k <? n)%nat with true by (symmetry; apply Nat.ltb_lt; lia). reflexivity.
Qed.
Lemma poly_length order : (2 <= order)%nat -> let n := Z.to_nat (calcNextPowTwo (Z.of_nat order + 1)) in
  (S order <= n)%nat /\ IZR (calcNextPowTwo (Z.of_nat order + 1)) = INR n.
Proof.
  intros H n. destruct (nextPow_smallest (Z.of_nat order + 1) ltac:(lia)) as (_ & B & _). subst n. split; [lia|].
  rewrite INR_IZR_INZ, Z2Nat.id by lia. reflexivity.
Qed.
Lemma calcButterPoly_ok order : (2 <= order)%nat -> exists p, calcButterPoly order = Ok p /\ length p = S order /\
  forall s, pval p s = butterworth order s.
Proof.
  intros H. destruct (poly_length order H) as [HN HI]. unfold calcButterPoly.
  set (fl := calcNextPowTwo (Z.of_nat order + 1)) in *. set (n := Z.to_nat fl) in *. clearbody n.
  cbn [repeat]. rewrite vput_0. cbn [bind].
  destruct n as [|[|[|n']]] eqn:En; try lia. rewrite <- En in *. replace (repeat 0%R n) with (0 :: 0 :: 0 :: repeat 0 (n - 3))%R.
  2:{ rewrite En. cbn [repeat]. replace (S (S (S n')) - 3)%nat with n' by lia. reflexivity. }
  rewrite vput_0. cbn [bind]. rewrite vput_2. cbn [bind].
  assert (F0 : fft (resize n (map Creal (1 :: repeat 0 order)%R)) = at_nodes n (fun _ => C1)).
  { rewrite fft_nodes by (rewrite map_length; cbn [length]; rewrite repeat_length; lia). apply at_nodes_ext. intros z.
    cbn [map]. rewrite map_repeat. change (Creal 1 :: repeat (Creal 0) order) with ([C1] ++ repeat C0 order). rewrite horner_zeros. cbn. ring. }
  rewrite F0. clear F0.
  destruct (butterLoop_ok n order (seq 1 (order / 2)) ltac:(lia) 0%R (fun _ => C1)) as (l' & EL). rewrite EL. clear EL. cbn [bind].
  destruct (product_coefs order (seq 1 (order / 2))) as (c & Lc & Ec). rewrite seq_length in Lc.
  pose proof (Nat.div_mod order 2 ltac:(lia)) as D. rewrite <- Nat.bit0_mod, Nat.bit0_odd in D.
  assert (FIN : forall c', length c' = S order -> forall P, (forall z, P z = horner (map Creal c') z) ->
     map fst (resize (S order) (ifft (map (Cscale (1 / IZR fl)) (at_nodes n P)))) = c').
  { intros c' L' P EP. rewrite (at_nodes_ext n P _ EP). rewrite HI. rewrite inverse_nodes by (rewrite map_length; lia).
    rewrite resize_resize by (rewrite ?map_length; lia). apply map_fst_Creal. }
  assert (VAL : forall z, fold_left (fun a k => Cmul a (quad (butterLinear order k) z)) (seq 1 (order / 2)) C1 =
     cprod (order / 2) (fun k => quad (butterLinear order (S k)) z)).
  { intros z. rewrite (fold_cprod (fun k => quad (butterLinear order k) z)). ring. }
  rewrite <- Nat.negb_odd. destruct (Nat.odd order) eqn:O; cbn [negb Nat.b2n] in *.
  - rewrite vput_1. cbn [bind]. rewrite vput_2. cbn [bind].
    rewrite fft_nodes by (rewrite map_length; cbn [length]; rewrite repeat_length; lia). rewrite at_nodes_mul.
    exists (raddp c (0 :: c)%R). split; [|split].
    + f_equal. apply FIN; [rewrite raddp_length; cbn [length]; lia|]. intros z. rewrite raddp_map, horner_padd. cbn [map horner].
      rewrite <- Ec, map_repeat. change (repeat (Creal 0) (n - 3)) with ([] ++ repeat C0 (n - 3)). rewrite horner_zeros.
      cbn [horner]. change (Creal 0) with C0. change (Creal 1) with C1. ring.
    + rewrite raddp_length. cbn [length]. lia.
    + intros s. rewrite pval_horner, raddp_map, horner_padd. cbn [map horner]. rewrite !Ec, VAL.
      rewrite butterworth_factors by lia. rewrite <- Nat.negb_odd, O. cbn [negb]. change (Creal 0) with C0. ring.
  - cbn [bind]. exists c. split; [|split].
    + f_equal. apply FIN; [lia|]. intros z. symmetry. apply Ec.
    + lia.
    + intros s. rewrite pval_horner, Ec, VAL. rewrite butterworth_factors by lia. rewrite <- Nat.negb_odd, O. cbn [negb]. ring.
Qed.
Lemma calcButterPoly_small order : (order < 2)%nat -> calcButterPoly order = Throw.
Proof.
  intros H. unfold calcButterPoly. destruct order as [|[|?]]; [| |lia].
  - replace (calcNextPowTwo (Z.of_nat 0 + 1)) with 1 by (rewrite nextPow_log2 by lia; reflexivity). reflexivity.
  - replace (calcNextPowTwo (Z.of_nat 1 + 1)) with 2 by (rewrite nextPow_log2 by lia; reflexivity). reflexivity.
Qed.

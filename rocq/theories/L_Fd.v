(** Moments of the finite-difference stencils; polynomials; consistency of rows; adjointness; image method. *)
From Coq Require Import Qabs Lqa.
From Verif Require Import Base M_Grid L_Grid M_Deriv S_Deriv L_Deriv L_Deriv2.
Open Scope Q_scope.

(** Sums *)
Definition qs (s : Z) (n : nat) (F : Z -> Q) : Q := qsum (map F (zseq s n)).
Lemma qs_S s n F : qs s (S n) F = F s + qs (s + 1)%Z n F.
Proof. reflexivity. Qed.
Lemma qs_0 s F : qs s 0 F = 0.
Proof. reflexivity. Qed.
Lemma qs_ext n : forall s F G, (forall k, (s <= k < s + Z.of_nat n)%Z -> F k == G k) -> qs s n F == qs s n G.
Proof.
  induction n as [|n IH]; intros s F G H; [reflexivity|]. rewrite !qs_S. rewrite (H s) by lia. rewrite (IH _ F G); [reflexivity|].
  intros k Hk. apply H. lia.
Qed.
Lemma qs_plus n : forall s F G, qs s n (fun k => F k + G k) == qs s n F + qs s n G.
Proof. induction n as [|n IH]; intros; [cbn; lra|]. rewrite !qs_S, IH. lra. Qed.
Lemma qs_scal n : forall s a F, qs s n (fun k => a * F k) == a * qs s n F.
Proof. induction n as [|n IH]; intros; [cbn; lra|]. rewrite !qs_S, IH. lra. Qed.
Lemma qs_opp n : forall s F, qs s n (fun k => - F k) == - qs s n F.
Proof. induction n as [|n IH]; intros; [cbn; lra|]. rewrite !qs_S, IH. lra. Qed.
Lemma qs_zero n : forall s F, (forall k, (s <= k < s + Z.of_nat n)%Z -> F k == 0) -> qs s n F == 0.
Proof.
  induction n as [|n IH]; intros s F H; [reflexivity|]. rewrite !qs_S, (H s), (IH (s+1)%Z); [lra| |lia]. intros; apply H; lia.
Qed.
Lemma qs_split a b : forall s F, qs s (a + b) F == qs s a F + qs (s + Z.of_nat a)%Z b F.
Proof.
  induction a as [|a IH]; intros s F.
  - cbn [Nat.add]. rewrite Z.add_0_r, qs_0. lra.
  - cbn [Nat.add]. rewrite !qs_S, IH. replace (s + 1 + Z.of_nat a)%Z with (s + Z.of_nat (S a))%Z by lia. lra.
Qed.
Lemma qs_last n : forall s F, qs s (S n) F == qs s n F + F (s + Z.of_nat n)%Z.
Proof.
  intros. replace (S n) with (n + 1)%nat by lia. rewrite qs_split, (qs_S _ 0), qs_0. lra.
Qed.
Lemma qs_shift n : forall s t F, qs s n (fun k => F (k + t)%Z) == qs (s + t) n F.
Proof.
  induction n as [|n IH]; intros; [reflexivity|]. rewrite !qs_S, IH.
  replace (s + 1 + t)%Z with (s + t + 1)%Z by lia. reflexivity.
Qed.
Lemma qs_rev n : forall s F, qs s n (fun k => F (2 * s + Z.of_nat n - 1 - k)%Z) == qs s n F.
Proof.
  induction n as [|n IH]; intros s F; [reflexivity|].
  rewrite (qs_last n s F), qs_S. replace (2 * s + Z.of_nat (S n) - 1 - s)%Z with (s + Z.of_nat n)%Z by lia.
  rewrite <- (IH s F). rewrite Qplus_comm. apply Qplus_comp; [|reflexivity].
  rewrite <- (qs_shift n s 1). apply qs_ext. intros k Hk.
  replace (2 * s + Z.of_nat (S n) - 1 - (k + 1))%Z with (2 * s + Z.of_nat n - 1 - k)%Z by lia. reflexivity.
Qed.
Lemma qs_swap n m : forall s t F, qs s n (fun i => qs t m (F i)) == qs t m (fun k => qs s n (fun i => F i k)).
Proof.
  induction n as [|n IH]; intros s t F.
  - cbn. symmetry. apply qs_zero. intros. reflexivity.
  - rewrite qs_S, IH. rewrite <- qs_plus. apply qs_ext. intros. rewrite qs_S. reflexivity.
Qed.

(** Moments: position of coefficient j relative to the midpoint, in cells. *)
Definition pos (p j : Z) : Q := inject_Z (2 * j - (p - 1)) / 2.
Fixpoint pw (a : Q) (m : nat) : Q := match m with O => 1 | S m' => a * pw a m' end.
Definition moment (p : Z) (m : nat) : Q := qs 0 (Z.to_nat p) (fun j => stencil_at p j * pw (pos p j) m).

Definition exact_order (p : Z) : Prop := In p [2; 4; 6; 8]%Z.
Lemma exact_supported p : exact_order p -> supported p.
Proof. unfold exact_order, supported. simpl. tauto. Qed.

Definition target (m : nat) : Q := if Nat.eqb m 1 then 1 else 0.
Definition check_exact (p : Z) : bool := forallb (fun m => Qeq_bool (moment p m) (target m)) (seq 0 (Z.to_nat p + 1)).
Definition check_near (p : Z) : bool :=
  forallb (fun m => Qle_bool (Qabs (moment p m - target m)) (3 # 1000000000000)) (seq 0 (Z.to_nat p + 1)).

Lemma moments_exact p : exact_order p -> forall m, (Z.of_nat m <= p)%Z -> moment p m == target m.
Proof.
  intros Hp m Hm. assert (E : check_exact p = true) by (destruct Hp as [<-|[<-|[<-|[<-|[]]]]]; vm_compute; reflexivity).
  unfold check_exact in E. rewrite forallb_forall in E. apply Qeq_bool_iff. apply E. apply in_seq. lia.
Qed.
Lemma moments_near p : supported p -> forall m, (Z.of_nat m <= p)%Z -> Qabs (moment p m - target m) <= 3 # 1000000000000.
Proof.
  intros Hp m Hm. assert (E : check_near p = true) by (destruct Hp as [<-|[<-|[<-|[<-|[<-|[<-|[]]]]]]]; vm_compute; reflexivity).
  unfold check_near in E. rewrite forallb_forall in E. apply Qle_bool_iff. apply (E m). apply in_seq. lia.
Qed.
Lemma moment0 p : supported p -> qs 0 (Z.to_nat p) (fun j => stencil_at p j) == 0.
Proof. intros [<-|[<-|[<-|[<-|[<-|[<-|[]]]]]]]; apply Qeq_bool_iff; vm_compute; reflexivity. Qed.
Lemma moment1_exact p : exact_order p -> qs 0 (Z.to_nat p) (fun j => stencil_at p j * inject_Z j) == 1.
Proof. intros [<-|[<-|[<-|[<-|[]]]]]; apply Qeq_bool_iff; vm_compute; reflexivity. Qed.
Lemma moment1_near p : supported p -> Qabs (qs 0 (Z.to_nat p) (fun j => stencil_at p j * inject_Z j) - 1) <= 3 # 10000000000000000.
Proof. intros [<-|[<-|[<-|[<-|[<-|[<-|[]]]]]]]; apply Qle_bool_iff; vm_compute; reflexivity. Qed.
Lemma stencil_antisym p j : supported p -> stencil_at p (p - 1 - j) == - stencil_at p j.
Proof.
  intros Hp. assert (E : forallb (fun j => Qeq_bool (stencil_at p (p - 1 - j)) (- stencil_at p j)) (zseq 0 (Z.to_nat p)) = true)
    by (destruct Hp as [<-|[<-|[<-|[<-|[<-|[<-|[]]]]]]]; vm_compute; reflexivity).
  rewrite forallb_forall in E. destruct (Z_lt_le_dec j 0) as [H|H].
  - unfold stencil_at. replace ((0 <=? p - 1 - j) && (p - 1 - j <? p))%bool with false by lia. replace ((0 <=? j) && (j <? p))%bool with false by lia. reflexivity.
  - destruct (Z_lt_le_dec j p) as [H2|H2].
    + apply Qeq_bool_iff, E. apply zseq_In. lia.
    + unfold stencil_at. replace ((0 <=? p - 1 - j) && (p - 1 - j <? p))%bool with false by lia. replace ((0 <=? j) && (j <? p))%bool with false by lia. reflexivity.
Qed.

(** Polynomials *)
Lemma peval_comp l : forall x y, x == y -> peval l x == peval l y.
Proof. induction l as [|a l IH]; intros x y H; simpl; [reflexivity|]. rewrite (IH _ _ H), H. reflexivity. Qed.

Fixpoint addl (a b : list Q) : list Q :=
  match a, b with [], _ => b | _, [] => a | x :: a', y :: b' => (x + y) :: addl a' b' end.
Lemma peval_addl a : forall b x, peval (addl a b) x == peval a x + peval b x.
Proof.
  induction a as [|u a IH]; intros b x; simpl; [lra|]. destruct b as [|v b]; simpl; [lra|]. rewrite IH. lra.
Qed.
Lemma peval_scal c a x : peval (map (Qmult c) a) x == c * peval a x.
Proof. induction a as [|u a IH]; simpl; [lra|]. rewrite IH. lra. Qed.
Fixpoint taylor (c : Q) (l : list Q) : list Q :=
  match l with [] => [] | a :: l' => let s := taylor c l' in addl (a :: s) (map (Qmult c) s) end.
Lemma peval_taylor l : forall c t, peval (taylor c l) t == peval l (c + t).
Proof.
  induction l as [|a l IH]; intros c t; [reflexivity|]. cbn [taylor peval]. rewrite peval_addl, peval_scal. cbn [peval]. rewrite IH. lra.
Qed.
Lemma addl_length a : forall b, length (addl a b) = Nat.max (length a) (length b).
Proof. induction a as [|u a IH]; intros b; simpl; [reflexivity|]. destruct b; simpl; [lia|]. now rewrite IH. Qed.
Lemma taylor_length c l : length (taylor c l) = length l.
Proof. induction l as [|a l IH]; [reflexivity|]. cbn [taylor]. rewrite addl_length, map_length. cbn [length]. rewrite IH. lia. Qed.

(** derivative by the product rule, equal to the coefficient-wise derivative *)
Fixpoint pdev (l : list Q) (x : Q) : Q := match l with [] => 0 | _ :: l' => peval l' x + x * pdev l' x end.
Lemma pder_from_pdev l : forall n x, peval (pder_from n l) x == inject_Z n * peval l x + x * pdev l x.
Proof.
  induction l as [|a l IH]; intros n x; cbn [pder_from peval pdev]; [lra|]. rewrite IH, inject_Z_plus. change (inject_Z 1) with 1. lra.
Qed.
Lemma pder_pdev l x : peval (pder l) x == pdev l x.
Proof. destruct l as [|a l]; [reflexivity|]. cbn [pder pdev]. rewrite pder_from_pdev. change (inject_Z 1) with 1. lra. Qed.
Lemma nth_addl a : forall b n, nth n (addl a b) 0 == nth n a 0 + nth n b 0.
Proof.
  induction a as [|u a IH]; intros b n; cbn [addl]; [destruct n; cbn [nth]; lra|].
  destruct b as [|v b]; [destruct n; cbn [nth]; lra|]. destruct n; cbn [nth]; [lra|]. apply IH.
Qed.
Lemma nth_scal c a n : nth n (map (Qmult c) a) 0 == c * nth n a 0.
Proof. revert n; induction a as [|u a IH]; intros n; destruct n; cbn [map nth]; try lra. apply IH. Qed.
Lemma taylor_0 l c : nth 0 (taylor c l) 0 == peval l c.
Proof.
  induction l as [|a l IH]; [reflexivity|]. cbn [taylor]. rewrite nth_addl, nth_scal. rewrite IH. cbn [nth peval]. lra.
Qed.
Lemma taylor_1 l c : nth 1 (taylor c l) 0 == pdev l c.
Proof.
  induction l as [|a l IH]; [reflexivity|]. cbn [taylor]. rewrite nth_addl, nth_scal. rewrite IH. cbn [nth pdev].
  rewrite taylor_0. lra.
Qed.

(** the stencil applied to a polynomial around the midpoint *)
Definition apply_mid (p : Z) (h : Q) (F : Q -> Q) : Q := qs 0 (Z.to_nat p) (fun j => stencil_at p j / h * F (pos p j * h)).
Fixpoint msum (p : Z) (h : Q) (m : nat) (s : list Q) : Q :=
  match s with [] => 0 | a :: s' => a * pw h m * moment p m + msum p h (S m) s' end.
Lemma pw_mul a b m : pw (a * b) m == pw a m * pw b m.
Proof. induction m as [|m IH]; cbn [pw]; [lra|]. rewrite IH. ring. Qed.
Lemma msum_spec p h s : forall m,
  qs 0 (Z.to_nat p) (fun j => stencil_at p j * (pw (pos p j * h) m * peval s (pos p j * h))) == msum p h m s.
Proof.
  induction s as [|a s IH]; intros m; cbn [msum peval].
  - apply qs_zero. intros. ring.
  - rewrite <- (IH (S m)). unfold moment. rewrite <- qs_scal, <- qs_plus. apply qs_ext. intros k _.
    cbn [pw]. rewrite pw_mul. ring.
Qed.
Lemma apply_mid_msum p h s : ~ h == 0 -> apply_mid p h (peval s) == msum p h 0 s / h.
Proof.
  intros Hh. rewrite <- msum_spec. unfold apply_mid.
  transitivity (qs 0 (Z.to_nat p) (fun j => / h * (stencil_at p j * (pw (pos p j * h) 0 * peval s (pos p j * h))))).
  - apply qs_ext. intros. cbn [pw]. field. assumption.
  - rewrite qs_scal. field. assumption.
Qed.
Lemma msum_exact p h s : exact_order p -> forall m, (2 <= m)%nat -> (Z.of_nat m + Z.of_nat (length s) <= p + 1)%Z -> msum p h m s == 0.
Proof.
  intros Hp. induction s as [|a s IH]; intros m Hm Hl; cbn [msum]; [reflexivity|]. cbn [length] in Hl.
  rewrite IH by lia. rewrite (moments_exact p Hp) by lia. unfold target. replace (Nat.eqb m 1) with false by lia. ring.
Qed.
Lemma apply_mid_exact p h s : exact_order p -> ~ h == 0 -> (Z.of_nat (length s) <= p + 1)%Z -> apply_mid p h (peval s) == nth 1 s 0.
Proof.
  intros Hp Hh Hl. rewrite apply_mid_msum by assumption. assert (2 <= p)%Z by (destruct Hp as [<-|[<-|[<-|[<-|[]]]]]; lia).
  destruct s as [|a [|b s]]; cbn [msum nth length] in *.
  - field. assumption.
  - rewrite (moments_exact p Hp 0) by lia. cbn. field. assumption.
  - rewrite (moments_exact p Hp 0), (moments_exact p Hp 1) by lia. rewrite msum_exact by (auto; lia).
    unfold target; cbn [Nat.eqb pw]. field. assumption.
Qed.
Definition eps12 : Q := 3 # 1000000000000.
Lemma msum_near p h s : supported p -> forall m, (Z.of_nat m + Z.of_nat (length s) <= p + 1)%Z -> (2 <= m)%nat ->
  Qabs (msum p h m s) <= eps12 * (pw (Qabs h) m * wsize_from s (Qabs h)).
Proof.
  intros Hp. induction s as [|a s IH]; intros m Hm H2; cbn [msum wsize_from].
  - cbn. lra.
  - cbn [length] in Hm. eapply Qle_trans; [apply Qabs_triangle|]. specialize (IH (S m) ltac:(lia) ltac:(lia)). cbn [pw] in IH.
    assert (E : Qabs (a * pw h m * moment p m) <= Qabs a * pw (Qabs h) m * eps12).
    { rewrite !Qabs_Qmult. assert (Ep : Qabs (pw h m) == pw (Qabs h) m).
      { clear. induction m as [|m IH]; cbn [pw]; [reflexivity|]. rewrite Qabs_Qmult, IH. reflexivity. }
      rewrite Ep. pose proof (moments_near p Hp m ltac:(lia)) as B. unfold target in B. replace (Nat.eqb m 1) with false in B by lia.
      assert (B' : Qabs (moment p m) <= eps12) by (unfold eps12; setoid_replace (moment p m) with (moment p m - 0) by lra; exact B).
      rewrite <- Ep. rewrite !(Qmult_comm (_ * _)). apply Qmult_le_compat_r; [exact B'|].
      rewrite <- Qabs_Qmult. apply Qabs_nonneg. }
    lra.
Qed.
Lemma apply_mid_near p h s : supported p -> ~ h == 0 -> (Z.of_nat (length s) <= p + 1)%Z ->
  Qabs (apply_mid p h (peval s) - nth 1 s 0) <= eps12 * wsize s (Qabs h).
Proof.
  intros Hp Hh Hl. assert (Hpos : 0 < Qabs h) by (destruct (Qlt_le_dec 0 (Qabs h)) as [H|H]; [exact H|]; exfalso; apply Hh; 
    pose proof (Qabs_nonneg h); assert (Qabs h == 0) by lra; revert H1; apply (Qabs_case h (fun q => q == 0 -> h == 0)); intros; lra).
  assert (2 <= p)%Z by (destruct Hp as [<-|[<-|[<-|[<-|[<-|[<-|[]]]]]]]; lia).
  assert (M0 : moment p 0 == 0).
  { unfold moment. rewrite <- (moment0 p Hp). apply qs_ext. intros. cbn [pw]. ring. }
  destruct s as [|a s]; cbn [wsize].
  - rewrite apply_mid_msum by assumption. cbn [msum nth]. setoid_replace (0 / h - 0) with 0 by (field; assumption). cbn. lra.
  - assert (G : Qabs (apply_mid p h (peval (a :: s)) - nth 1 (a :: s) 0) * Qabs h <= eps12 * wsize_from s (Qabs h) * Qabs h).
    { rewrite <- Qabs_Qmult. rewrite apply_mid_msum by assumption. cbn [msum]. rewrite M0. 
      destruct s as [|b s]; cbn [msum nth wsize_from length] in *.
      - setoid_replace ((a * pw h 0 * 0 + 0) / h - 0) with 0 by (field; assumption). rewrite Qmult_0_l. cbn. lra.
      - setoid_replace (((a * pw h 0 * 0 + (b * pw h 1 * moment p 1 + msum p h 2 s)) / h - b) * h) with (b * h * (moment p 1 - 1) + msum p h 2 s)
          by (cbn [pw]; field; assumption).
        eapply Qle_trans; [apply Qabs_triangle|]. pose proof (msum_near p h s Hp 2 ltac:(lia) ltac:(lia)) as B. cbn [pw] in B.
        pose proof (moments_near p Hp 1 ltac:(lia)) as B1. unfold target in B1. cbn [Nat.eqb] in B1. fold eps12 in B1.
        rewrite !Qabs_Qmult. pose proof (Qmult_le_compat_r _ _ (Qabs b * Qabs h) B1 ltac:(rewrite <- Qabs_Qmult; apply Qabs_nonneg)). lra. }
    apply Qmult_le_r in G; assumption.
Qed.

Lemma fd_exact p l x h : exact_order p -> ~ h == 0 -> (Z.of_nat (length l) <= p + 1)%Z ->
  qs 0 (Z.to_nat p) (fun j => stencil_at p j / h * peval l (x + pos p j * h)) == peval (pder l) x.
Proof.
  intros Hp Hh Hl. rewrite pder_pdev, <- taylor_1. rewrite <- (apply_mid_exact p h) by (rewrite ?taylor_length; assumption).
  unfold apply_mid. apply qs_ext. intros. rewrite peval_taylor. reflexivity.
Qed.
Lemma fd_near p l x h : supported p -> ~ h == 0 -> (Z.of_nat (length l) <= p + 1)%Z ->
  exists s : list Q, (length s = length l)%nat /\ (forall t, peval s t == peval l (x + t)) /\ Qabs (qs 0 (Z.to_nat p) (fun j => stencil_at p j / h * peval l (x + pos p j * h)) - peval (pder l) x) <= eps12 * wsize s (Qabs h).
Proof.
  intros Hp Hh Hl. exists (taylor x l). split; [apply taylor_length|]. split; [intros; apply peval_taylor|].
  eapply Qle_trans; [|apply (apply_mid_near p h); rewrite ?taylor_length; assumption].
  rewrite pder_pdev, <- taylor_1. apply Qle_lteq. right. apply Qabs_wd. 
  apply Qplus_comp; [|reflexivity]. unfold apply_mid. apply qs_ext. intros. rewrite peval_taylor. reflexivity.
Qed.

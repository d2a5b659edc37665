(** C115-C118: arithmetic, initialisation, products and time derivative of wavefield objects. *)
From Coq Require Import Reals String Lra.
From Verif Require Import Base M_Average M_Common M_Model M_ModelEM S_ModelEM L_Acq2 L_AcqFile L_Model L_Model2 L_ModelEM L_ModelEM2 L_ModelEM3 M_Wave S_Wave L_Wave.
Open Scope string_scope.
Open Scope Z_scope.

(** ** C115 *)
Lemma combine_pw op fs rs k n L w v : complete k fs rs -> shaped k n L w -> shaped k n L v -> 0 <= L ->
  exists u, wcombine op fs rs k w v = Ok u /\ shaped k n L u /\ same_but (members k) (memory k) w u /\ pointwise2 op k n L w v u.
Proof.
  intros C Sw Sv PL. pose proof Sw as (A1&A2&A3). pose proof Sv as (B1&B2&B3).
  destruct (both_shaped k n L fs rs (fun f x => y <- ref k v f ;; zipR op x y) (fun f l x => ys <- refR k v f ;; y <- vget ys l ;; zipR op x y) w C Sw PL) as (u&Eu&Su&Bu&Hg&Hh).
  - intros f I. rewrite ref_member by exact I. cbn [bind]. apply zip_exists; auto.
  - intros f l x I K Ex. rewrite refR_memory by exact I. cbn [bind]. destruct (shaped_mem k n L v f l Sv I K) as (y&Ey&Ly).
    destruct (shaped_mem k n L w f l Sw I K) as (x'&Ex'&Lx). rewrite Ex in Ex'. injection Ex' as <-.
    rewrite (proj2 (vget_nth _ l y (proj1 K)) Ey). cbn [bind]. apply zip_exists; assumption.
  - exists u. split; [exact Eu|]. split; [exact Su|]. split; [exact Bu|]. split.
    + intros f i I Hi. specialize (Hg f I). rewrite ref_member in Hg by exact I. cbn [bind] in Hg. apply zipR_at in Hg as (_&_&N). unfold val. rewrite N.
      destruct (nth_error (wf w f) i) as [x|] eqn:Ex; [|apply nth_error_None in Ex; rewrite A1 in Ex by exact I; lia].
      destruct (nth_error (wf v f) i) as [y|] eqn:Ey; [|apply nth_error_None in Ey; rewrite B1 in Ey by exact I; lia]. eauto.
    + intros f l i I Kl Hi. destruct (Hh f (Z.of_nat l) I) as (x&y&Ex&E&Ey); [lia|]. rewrite refR_memory in E by exact I. cbn [bind] in E.
      destruct (shaped_mem k n L v f (Z.of_nat l) Sv I) as (z&Ez&Lz); [lia|]. rewrite (proj2 (vget_nth _ (Z.of_nat l) z ltac:(lia)) Ez) in E. cbn [bind] in E.
      apply zipR_at in E as (Q&_&N). rewrite Nat2Z.id in *. unfold valR. rewrite Ex, Ey, Ez, N.
      destruct (nth_error x i) as [a|] eqn:Ea; [|apply nth_error_None in Ea; lia]. destruct (nth_error z i) as [b|] eqn:Eb; [|apply nth_error_None in Eb; lia]. eauto.
Qed.
Theorem C115_plus k n L w v : shaped k n L w -> shaped k n L v -> 0 <= L ->
  exists u, wplus k k w v = Ok u /\ shaped k n L u /\ same_but (members k) (memory k) w u /\ pointwise2 fadd k n L w v u.
Proof. intros. apply combine_pw; auto. apply plus_complete. Qed.
Theorem C115_minus k n L w v : shaped k n L w -> shaped k n L v -> 0 <= L ->
  exists u, wminus k k w v = Ok u /\ shaped k n L u /\ same_but (members k) (memory k) w u /\ pointwise2 fsub k n L w v u.
Proof. intros. apply combine_pw; auto. apply minus_complete. Qed.

Lemma single_pw (F : nat -> fpv -> fpv) (op : vec -> res vec) fs rs k n L w : complete k fs rs -> shaped k n L w -> 0 <= L ->
  (forall x, length x = n -> exists y, op x = Ok y /\ length y = n /\ forall i a, nth_error x i = Some a -> nth_error y i = Some (F i a)) ->
  exists u, both fs rs (fun _ => op) (fun _ _ => op) w = Ok u /\ shaped k n L u /\ same_but (members k) (memory k) w u /\ pointwise1 F k n L w u.
Proof.
  intros C Sw PL HF. pose proof Sw as (A1&A2&A3).
  destruct (both_shaped k n L fs rs (fun _ => op) (fun _ _ => op) w C Sw PL) as (u&Eu&Su&Bu&Hg&Hh).
  - intros f I. destruct (HF (wf w f) (A1 f I)) as (y&E&Ly&_). eauto.
  - intros f l x I K Ex. destruct (shaped_mem k n L w f l Sw I K) as (x'&Ex'&Lx). rewrite Ex in Ex'. injection Ex' as <-. destruct (HF x Lx) as (y&E&Ly&_). eauto.
  - exists u. split; [exact Eu|]. split; [exact Su|]. split; [exact Bu|]. split.
    + intros f i I Hi. destruct (HF (wf w f) (A1 f I)) as (y&E&_&N). rewrite Hg in E by exact I. injection E as <-. unfold val.
      destruct (nth_error (wf w f) i) as [x|] eqn:Ex; [|apply nth_error_None in Ex; rewrite A1 in Ex by exact I; lia]. exists x. split; [reflexivity|]. now apply N.
    + intros f l i I Kl Hi. destruct (Hh f (Z.of_nat l) I) as (x&y&Ex&E&Ey); [lia|]. destruct (shaped_mem k n L w f (Z.of_nat l) Sw I) as (x'&Ex'&Lx); [lia|].
      rewrite Nat2Z.id in *. rewrite Ex in Ex'. injection Ex' as <-. destruct (HF x Lx) as (y'&E'&_&N). rewrite E in E'. injection E' as <-.
      unfold valR. rewrite Ex, Ey. destruct (nth_error x i) as [a|] eqn:Ea; [|apply nth_error_None in Ea; lia]. exists a. split; [reflexivity|]. now apply N.
Qed.
Theorem C115_scale k n L c w : shaped k n L w -> 0 <= L ->
  exists u, wtimes k c w = Ok u /\ shaped k n L u /\ same_but (members k) (memory k) w u /\ pointwise1 (fun _ x => fmul x (Num c)) k n L w u.
Proof.
  intros Sw PL. apply (single_pw (fun _ x => fmul x (Num c)) (fun x => Ok (timesBy c x))); auto; [apply timesS_complete|].
  intros x Lx. eexists. split; [reflexivity|]. rewrite timesBy_len. split; [exact Lx|]. intros i a E. unfold timesBy. rewrite map_at, E. reflexivity.
Qed.
Theorem C115_weight k n L c w : shaped k n L w -> 0 <= L -> length c = n ->
  exists u, wtimesV k c w = Ok u /\ shaped k n L u /\ same_but (members k) (memory k) w u /\ pointwise1 (fun i x => fmul x (nth i c NaN)) k n L w u.
Proof.
  intros Sw PL Lc. apply (single_pw (fun i x => fmul x (nth i c NaN)) (fun x => zipR fmul x c)); auto; [apply timesV_complete|].
  intros x Lx. destruct (zip_exists fmul x c n Lx Lc) as (y&E&Ly). exists y. split; [exact E|]. split; [exact Ly|]. intros i a Ea.
  apply zipR_at in E as (_&_&N). rewrite N, Ea. assert (i < n)%nat by (rewrite <- Lx; apply nth_error_Some; congruence).
  rewrite (nth_error_nth' c NaN) by lia. reflexivity.
Qed.
(** Assignment copies everything except the number of mechanisms of the target. *)
Lemma each_setR k v rs : forall w, (forall f, In f rs -> In f (memory k)) ->
  exists u, each (fun w f => l <- refR k v f ;; Ok (setR w f l)) rs w = Ok u /\ (forall f, In f rs -> wr u f = wr v f) /\ (forall f, ~ In f rs -> wr u f = wr w f) /\
    wf u = wf w /\ wn u = wn w.
Proof.
  induction rs as [|f rs IH]; intros w H.
  - exists w. cbn [each]. repeat split; auto. intros f [].
  - destruct (IH (setR w f (wr v f))) as (u&Eu&A&B&C&D); [intros g I; apply H; now right|].
    exists u. cbn [each]. rewrite refR_memory by (apply H; now left). cbn [bind]. rewrite Eu. repeat split.
    + intros g [<-|I]; [|now apply A]. destruct (in_dec string_dec f rs) as [I|NI]; [now apply A|]. rewrite B by exact NI. rewrite wr_setR, String.eqb_refl. reflexivity.
    + intros g NI. rewrite B by (intros I; apply NI; now right). rewrite wr_setR. destruct (String.eqb_spec g f) as [Eq|Ne]; [|reflexivity]. exfalso. apply NI. now left.
    + rewrite C. reflexivity.
    + rewrite D. reflexivity.
Qed.
Theorem C115_assign k w v : exists u, wassign k k w v = Ok u /\ (forall f, In f (members k) -> wf u f = wf v f) /\ (forall f, In f (memory k) -> wr u f = wr v f) /\
  same_but (members k) (memory k) w u.
Proof.
  destruct (assign_complete k) as (N1&N2&Q1&Q2). destruct (each_onF (fun f _ => ref k v f) (dAssign (cls k)) w N1) as (w1&E1&A&B&C&D).
  { intros f I. exists (wf v f). apply ref_member. now apply Q1. }
  destruct (each_setR k v (dAssignR (cls k)) w1) as (u&Eu&A2&B2&C2&D2); [intros f I; now apply Q2|].
  exists u. unfold wassign. rewrite E1. cbn [bind]. split; [exact Eu|]. split; [|split; [|split; [|split]]].
  - intros f I. rewrite C2. specialize (A f (proj2 (Q1 f) I)). rewrite ref_member in A by exact I. congruence.
  - intros f I. apply A2. now apply Q2.
  - intros f NI. rewrite C2. apply B. intros I. apply NI. now apply Q1.
  - intros f NI. rewrite B2, C; [reflexivity|]. intros I. apply NI. now apply Q2.
  - congruence.
Qed.
(** applyTransform: every member of the target becomes the matrix times the member of the source. *)
Theorem C115_transform k m n L w v : shaped k (length (mrows m)) L w -> shaped k n L v -> 0 <= L -> mcols m = Z.of_nat n ->
  exists u, wtransform k k m w v = Ok u /\ shaped k (length (mrows m)) L u /\ same_but (members k) (memory k) w u /\
    (forall f, In f (members k) -> wf u f = map (fun r => frowdot r (wf v f)) (mrows m)) /\
    (forall f l x, In f (memory k) -> nth_error (wr v f) l = Some x -> nth_error (wr u f) l = Some (map (fun r => frowdot r x) (mrows m))).
Proof.
  intros Sw Sv PL Cm. pose proof Sv as (B1&B2&B3). pose proof Sw as (_&A2&_).
  assert (M : forall x, length x = n -> fmatvec m x = Ok (map (fun r => frowdot r x) (mrows m))).
  { intros x Lx. unfold fmatvec. rewrite Cm, Lx, Z.eqb_refl. reflexivity. }
  destruct (both_shaped k (length (mrows m)) L (dTransform (cls k)) (dTransformR (cls k)) (fun f _ => x <- ref k v f ;; fmatvec m x)
    (fun f l _ => xs <- refR k v f ;; x <- vget xs l ;; fmatvec m x) w (transform_complete k) Sw PL) as (u&Eu&Su&Bu&Hg&Hh).
  - intros f I. rewrite ref_member by exact I. cbn [bind]. rewrite M by (apply B1, I). eexists. split; [reflexivity|apply map_length].
  - intros f l x I K _. rewrite refR_memory by exact I. cbn [bind]. destruct (shaped_mem k n L v f l Sv I K) as (y&Ey&Ly).
    rewrite (proj2 (vget_nth _ l y (proj1 K)) Ey). cbn [bind]. rewrite M by exact Ly. eexists. split; [reflexivity|apply map_length].
  - exists u. split; [exact Eu|]. split; [exact Su|]. split; [exact Bu|]. split.
    + intros f I. specialize (Hg f I). rewrite ref_member in Hg by exact I. cbn [bind] in Hg. rewrite M in Hg by (apply B1, I). congruence.
    + intros f l x I Ex. destruct (B2 f I) as (Lf&Ff). assert (l < length (wr v f))%nat by (apply nth_error_Some; congruence).
      destruct (Hh f (Z.of_nat l) I) as (a&y&_&E&Ey); [lia|]. rewrite refR_memory in E by exact I. cbn [bind] in E.
      rewrite (proj2 (vget_nth _ (Z.of_nat l) x ltac:(lia))) in E by (rewrite Nat2Z.id; exact Ex). cbn [bind] in E.
      rewrite M in E by (rewrite Forall_forall in Ff; apply Ff; eapply nth_error_In; eauto). rewrite Nat2Z.id in Ey. congruence.
Qed.

(** ** C116 *)
Lemma fold_setF n fs : forall w f, wf (fold_left (fun w f => setF w f (zeros n)) fs w) f = (if inb f fs then zeros n else wf w f) /\
  wr (fold_left (fun w f => setF w f (zeros n)) fs w) = wr w /\ wn (fold_left (fun w f => setF w f (zeros n)) fs w) = wn w.
Proof.
  induction fs as [|g fs IH]; intros w f; cbn [fold_left inb existsb]; [auto|]. destruct (IH (setF w g (zeros n)) f) as (A&B&C). rewrite A, B, C, wf_setF.
  fold (inb f fs). destruct (String.eqb f g); destruct (inb f fs); auto.
Qed.
Lemma fold_setR x fs : forall w f, wr (fold_left (fun w f => setR w f x) fs w) f = (if inb f fs then x else wr w f) /\
  wf (fold_left (fun w f => setR w f x) fs w) = wf w /\ wn (fold_left (fun w f => setR w f x) fs w) = wn w.
Proof.
  induction fs as [|g fs IH]; intros w f; cbn [fold_left inb existsb]; [auto|]. destruct (IH (setR w g x) f) as (A&B&C). rewrite A, B, C, wr_setR.
  fold (inb f fs). destruct (String.eqb f g); destruct (inb f fs); auto.
Qed.
Lemma zeros_zero n : all_zero (zeros n). Proof. intros x I. apply repeat_spec in I. exact I. Qed.
(** After init the object has the wanted shape, whatever it held before, and everything is zero. *)
Theorem C116_init k n L w : 0 <= L ->
  shaped k n L (winit k n L w) /\ (forall f, In f (members k) -> all_zero (wf (winit k n L w) f)) /\
  (forall f v, In f (memory k) -> In v (wr (winit k n L w) f) -> all_zero v).
Proof.
  intros PL. destruct (init_complete k) as (_&_&Q1&Q2).
  assert (F : forall f, In f (members k) -> wf (winit k n L w) f = zeros n).
  { intros f I. apply Q1, inb_in in I. unfold winit. destruct (fold_setF n (dInit (cls k)) w f) as (A&B&C). rewrite I in A.
    destruct (dInitR (cls k)) as [|r rs]; [exact A|]. destruct (fold_setR (repeat (zeros n) (Z.to_nat L)) (r :: rs) (mkW (wf (fold_left (fun w f => setF w f (zeros n)) (dInit (cls k)) w)) (wr (fold_left (fun w f => setF w f (zeros n)) (dInit (cls k)) w)) L) f) as (_&D&_).
    rewrite D. exact A. }
  assert (R : forall f, In f (memory k) -> wr (winit k n L w) f = repeat (zeros n) (Z.to_nat L) /\ wn (winit k n L w) = L).
  { intros f I. apply Q2, inb_in in I. unfold winit. destruct (dInitR (cls k)) as [|r rs]; [discriminate|].
    destruct (fold_setR (repeat (zeros n) (Z.to_nat L)) (r :: rs) (mkW (wf (fold_left (fun w f => setF w f (zeros n)) (dInit (cls k)) w)) (wr (fold_left (fun w f => setF w f (zeros n)) (dInit (cls k)) w)) L) f) as (E&_&D).
    rewrite D, E, I. auto. }
  split; [split; [|split]|split].
  - intros f I. rewrite F by exact I. apply repeat_length.
  - intros f I. destruct (R f I) as (E&_). rewrite E, repeat_length. split; [lia|]. apply Forall_forall. intros v Iv. apply repeat_spec in Iv as ->. apply repeat_length.
  - destruct (memory k) as [|f l] eqn:E; [contradiction|]. intros _. apply (R f). now left.
  - intros f I. rewrite F by exact I. apply zeros_zero.
  - intros f v I Iv. destruct (R f I) as (E&_). rewrite E in Iv. apply repeat_spec in Iv as ->. apply zeros_zero.
Qed.
Lemma reset_lists k : NoDup (dReset (cls k)) /\ NoDup (dResetR (cls k)) /\ (forall f, In f (dReset (cls k)) <-> In f (propagated k)) /\ (forall f, In f (dResetR (cls k)) <-> In f (memory k)).
Proof.
  assert (H : nodupb (dReset (cls k)) && nodupb (dResetR (cls k)) && subb (dReset (cls k)) (propagated k) && subb (propagated k) (dReset (cls k)) &&
    subb (dResetR (cls k)) (memory k) && subb (memory k) (dResetR (cls k)) = true) by (destruct k; vm_compute; reflexivity).
  repeat (apply andb_true_iff in H as (H&?)). split; [now apply nodupb_ok|]. split; [now apply nodupb_ok|]. split; intros f; split; apply subb_ok; assumption.
Qed.
Lemma wzero_zero v : all_zero (wzero v). Proof. intros x I. apply in_map_iff in I as (y&E&_). auto. Qed.
(** Reset zeroes the propagated fields and the memory variables; the directional parts keep their old values. *)
Theorem C116_reset k n L w : shaped k n L w -> 0 <= L ->
  exists u, wreset k w = Ok u /\ shaped k n L u /\ (forall f, In f (propagated k) -> all_zero (wf u f)) /\
    (forall f v, In f (memory k) -> In v (wr u f) -> all_zero v) /\ (forall f, In f (directional k) -> wf u f = wf w f) /\ same_but (members k) (memory k) w u.
Proof.
  intros Sw PL. pose proof Sw as (A1&A2&A3). destruct (reset_lists k) as (N1&N2&Q1&Q2).
  destruct (both_ok (dReset (cls k)) (dResetR (cls k)) (fun _ v => Ok (wzero v)) (fun _ _ v => Ok (wzero v)) w N1 N2) as (u&Eu&Hg&Len&Hh&Hj&B1&B2&B3).
  - intros f _. eauto.
  - intros f l I K. apply Q2 in I. rewrite (A3 (mem_ne _ _ I)) in K. destruct (shaped_mem k n L w f l Sw I K) as (x&Ex&_). eauto.
  - assert (F : forall f, In f (propagated k) -> wf u f = wzero (wf w f)). { intros f I. specialize (Hg f (proj2 (Q1 f) I)). congruence. }
    assert (D : forall f, In f (directional k) -> wf u f = wf w f).
    { intros f I. apply B1. intros I'. apply Q1 in I'. assert (X : forallb (fun f => negb (inb f (propagated k))) (directional k) = true) by (destruct k; vm_compute; reflexivity).
      rewrite forallb_forall in X. specialize (X f I). apply inb_in in I'. rewrite I' in X. discriminate. }
    assert (R : forall f v, In f (memory k) -> In v (wr u f) -> exists x, In x (wr w f) /\ v = wzero x).
    { intros f v I Iv. destruct (A2 f I) as (Lf&_). assert (Lu : length (wr u f) = length (wr w f)) by (apply Len; now apply Q2). apply In_nth_error in Iv as (j&Ej).
      assert (j < length (wr u f))%nat by (apply nth_error_Some; congruence). destruct (Hh f (Z.of_nat j) (proj2 (Q2 f) I)) as (x&y&Ex&E&Ey).
      { rewrite (A3 (mem_ne _ _ I)). lia. } rewrite Nat2Z.id in *. exists x. split; [eapply nth_error_In; eauto|congruence]. }
    exists u. split; [exact Eu|]. split; [split; [|split]|split; [|split; [|split; [exact D|split; [|split; [|exact B3]]]]]].
    + intros f I. unfold members in I. apply in_app_or in I as [I|I]; [rewrite F by exact I; unfold wzero; rewrite map_length|rewrite D by exact I]; apply A1; unfold members; apply in_or_app; auto.
    + intros f I. destruct (A2 f I) as (Lf&Ff). assert (Lu : length (wr u f) = length (wr w f)) by (apply Len; now apply Q2). split; [lia|]. apply Forall_forall. intros v Iv.
      destruct (R f v I Iv) as (x&Ix&->). unfold wzero. rewrite map_length. rewrite Forall_forall in Ff. now apply Ff.
    + intros Ne. rewrite B3. now apply A3.
    + intros f I. rewrite F by exact I. apply wzero_zero.
    + intros f v I Iv. destruct (R f v I Iv) as (x&_&->). apply wzero_zero.
    + intros f NI. apply B1. intros I. apply NI. unfold members. apply in_or_app. left. now apply Q1.
    + intros f NI. apply B2. intros I. apply NI. now apply Q2.
Qed.
(** So "reset zeroes the whole object" is false for the classes with directional parts. *)
Theorem C116_refuted : exists k n L w u, shaped k n L w /\ wreset k w = Ok u /\ exists f, In f (members k) /\ ~ all_zero (wf u f).
Proof.
  exists W2Dtmem, 1%nat, 0, (setF (winit W2Dtmem 1 0 wnew) "EZup" [Num 1]). eexists. split; [|split; [reflexivity|]].
  - split; [|split]; [|intros f []|intros H; contradiction H; reflexivity]. intros f I. rewrite wf_setF. destruct (String.eqb f "EZup"); [reflexivity|]. now apply (C116_init W2Dtmem 1 0 wnew).
  - exists "EZup". split; [cbn; tauto|]. intros H. specialize (H (Num 1)). assert (E : Num 1 = Num 0) by (apply H; left; reflexivity). injection E. lra.
Qed.

(** ** C117 *)
Lemma each_mulF (g : string -> res vec) fs : forall r, NoDup fs -> (forall f, In f fs -> exists x, g f = Ok x) ->
  exists u, each (fun r f => x <- g f ;; Ok (setF r f x)) fs r = Ok u /\ (forall f, In f fs -> g f = Ok (wf u f)) /\ (forall f, ~ In f fs -> wf u f = wf r f) /\ wr u = wr r /\ wn u = wn r.
Proof. intros r ND H. apply (each_onF (fun f _ => g f)); assumption. Qed.
(** The multiplied members: in the visco-elastic and 3D elastic classes also the pressure, which these classes never allocate. *)
Lemma mul_lists k : NoDup (dMulS (cls k)) /\ (forall f, In f (members k) -> In f (dMulS (cls k))) /\ dMulW (cls k) = dMulS (cls k) /\ dMulWR (cls k) = dMulSR (cls k).
Proof.
  assert (H : nodupb (dMulS (cls k)) && subb (members k) (dMulS (cls k)) = true) by (destruct k; vm_compute; reflexivity). apply andb_true_iff in H as (A&B).
  split; [now apply nodupb_ok|]. split; [now apply subb_ok|]. destruct k; split; reflexivity.
Qed.
Definition keeps_memory (k : wkind) : bool := match k with W3Dviscoelastic => false | _ => true end.
Lemma mulR_none k w g r : dMulSR (cls k) = [] -> mulR (dMulSR (cls k)) w g r = Ok r.
Proof. intros E. unfold mulR. rewrite E. generalize (zseq 0 (Z.to_nat (wn w))). induction l as [|x l IH]; cbn [each bind]; auto. Qed.
(** Classes without mechanisms: the product with a number holds the scaled members. *)
Theorem C117_product k n L w c : shaped k n L w -> 0 <= L -> memory k = [] \/ L = 0 \/ k = W3Dviscoelastic ->
  exists u, wmul k w c = Ok u /\ (forall f i x, In f (members k) -> val w f i = Some x -> val u f i = Some (fmul x (Num c))) /\
    (forall f, In f (members k) -> length (wf u f) = n) /\ (forall f, wr u f = []) /\ wn u = 0.
Proof.
  intros (A1&A2&A3) PL Hk. destruct (mul_lists k) as (N&I1&_).
  destruct (each_mulF (fun f => Ok (timesBy c (wf w f))) (dMulS (cls k)) wnew N) as (u&Eu&Hg&Hout&Hr&Hn); [intros f _; eauto|].
  assert (M : mulR (dMulSR (cls k)) w (fun _ _ x => Ok (timesBy c x)) u = Ok u).
  { destruct Hk as [Hm|[HL|Hk]].
    - apply mulR_none. destruct k; try reflexivity; discriminate.
    - destruct (memory k) as [|f l] eqn:Em; [apply mulR_none; destruct k; try reflexivity; discriminate|]. unfold mulR. rewrite A3 by discriminate. subst L. reflexivity.
    - subst k. apply mulR_none. reflexivity. }
  exists u. unfold wmul. replace (each (fun r f => Ok (setF r f (timesBy c (wf w f)))) (dMulS (cls k)) wnew) with (Ok u) by (symmetry; exact Eu). cbn [bind]. split; [exact M|].
  split; [|split; [|split]].
  - intros f i x I Ex. specialize (Hg f (I1 f I)). injection Hg as E. unfold val. rewrite <- E. unfold timesBy. rewrite map_at. unfold val in Ex. rewrite Ex. reflexivity.
  - intros f I. specialize (Hg f (I1 f I)). injection Hg as E. rewrite <- E, timesBy_len. now apply A1.
  - intros f. rewrite Hr. reflexivity.
  - rewrite Hn. reflexivity.
Qed.
(** With mechanisms the product writes through an empty std::vector. *)
Theorem C117_undefined k n L w c : shaped k n L w -> 0 < L -> memory k <> [] -> k <> W3Dviscoelastic -> wmul k w c = UB.
Proof.
  intros Sw PL Ne Nk. pose proof Sw as (A1&A2&A3). destruct (mul_lists k) as (N&_&_).
  destruct (each_mulF (fun f => Ok (timesBy c (wf w f))) (dMulS (cls k)) wnew N) as (u&Eu&Hg&Hout&Hr&Hn); [intros f _; eauto|].
  unfold wmul. replace (each (fun r f => Ok (setF r f (timesBy c (wf w f)))) (dMulS (cls k)) wnew) with (Ok u) by (symmetry; exact Eu). cbn [bind].
  assert (R : exists f rs, dMulSR (cls k) = f :: rs /\ In f (memory k)). { destruct k; try (contradiction Ne; reflexivity); try contradiction; eexists _, _; (split; [reflexivity|cbn; tauto]). }
  destruct R as (f&rs&E&I). unfold mulR. rewrite A3, E by exact Ne. destruct (Z.to_nat L) as [|m] eqn:Em; [lia|]. cbn [zseq each].
  destruct (shaped_mem k n L w f 0 Sw I) as (x&Ex&_); [lia|]. rewrite (proj2 (vget_nth _ 0 x ltac:(lia)) Ex). cbn [bind]. rewrite Hr. reflexivity.
Qed.
(** operator*= through an object of the class itself computes a product and leaves the object as it was. *)
Theorem C117_assign k w c u r : wmulAssign k w c = Ok (u, r) -> u = w /\ wmul k w c = Ok r.
Proof. unfold wmulAssign. destruct (wmul k w c); cbn; intros [= <- <-]; auto. Qed.

(** ** C118 *)
(** The auxiliary object of the time loop holds (new - old) / DT; its memory variables are those of the old wavefield. *)
Theorem C118_derivative k n L dt old new tmp : shaped k n L old -> shaped k n L new -> 0 <= L -> dt <> 0%R -> wn tmp = 0 ->
  exists u, timeDerivative k dt old new tmp = Ok u /\
    (forall f i a b, In f (members k) -> val old f i = Some (Num a) -> val new f i = Some (Num b) -> val u f i = Some (Num ((b - a) / dt))) /\
    (forall f, In f (members k) -> length (wf u f) = n) /\ (forall f, In f (memory k) -> wr u f = wr old f) /\ wn u = 0.
Proof.
  intros So Sn PL Hd Ht. destruct (C115_assign k tmp old) as (t1&E1&F1&R1&B1). unfold timeDerivative. rewrite E1. cbn [bind].
  assert (N1 : wn t1 = 0) by (destruct B1 as (_&_&B); congruence).
  destruct So as (A1&A2&A3). destruct Sn as (C1&C2&C3).
  destruct (minus_complete k) as (D1&D2&Q1&Q2). destruct (both_ok (dMinus (cls k)) (dMinusR (cls k)) (fun f x => y <- ref k new f ;; zipR fsub x y)
    (fun f l x => ys <- refR k new f ;; y <- vget ys l ;; zipR fsub x y) t1 D1 D2) as (t2&E2&G2&_&_&J2&B2).
  - intros f I. apply Q1 in I. rewrite ref_member by exact I. cbn [bind]. destruct (zip_exists fsub (wf t1 f) (wf new f) n) as (y&E&_); [rewrite F1 by exact I; now apply A1|now apply C1|eauto].
  - intros f l I K. lia.
  - fold (wcombine fsub (dMinus (cls k)) (dMinusR (cls k)) k t1 new) in E2. unfold wminus. rewrite E2. cbn [bind].
    assert (N2 : wn t2 = 0) by (destruct B2 as (_&_&B); congruence).
    destruct (timesS_complete k) as (G1&G2'&P1&P2). destruct (both_ok (dTimesS (cls k)) (dTimesSR (cls k)) (fun _ x => Ok (timesBy (- (1 / dt)) x)) (fun _ _ x => Ok (timesBy (- (1 / dt)) x)) t2 G1 G2') as (t3&E3&G3&_&_&J3&B3).
    + intros f _. eauto.
    + intros f l I K. lia.
    + exists t3. split; [exact E3|].
      assert (F : forall f, In f (members k) -> exists y, zipR fsub (wf old f) (wf new f) = Ok y /\ wf t3 f = timesBy (- (1 / dt)) y).
      { intros f I. specialize (G2 f (proj2 (Q1 f) I)). rewrite ref_member in G2 by exact I. cbn [bind] in G2. rewrite F1 in G2 by exact I. exists (wf t2 f). split; [exact G2|].
        specialize (G3 f (proj2 (P1 f) I)). congruence. }
      split; [|split; [|split]].
      * intros f i a b I Ea Eb. destruct (F f I) as (y&Ey&Ew). apply zipR_at in Ey as (_&_&Ny). unfold val in *. rewrite Ew. unfold timesBy. rewrite map_at, Ny, Ea, Eb. cbn. do 2 f_equal. field. exact Hd.
      * intros f I. destruct (F f I) as (y&Ey&->). rewrite timesBy_len. apply zipR_at in Ey as (_&Ly&_). rewrite Ly. now apply A1.
      * intros f I. rewrite <- R1 by exact I. assert (X : forall j, nth_error (wr t3 f) j = nth_error (wr t1 f) j) by (intros j; rewrite J3, J2 by lia; reflexivity).
        clear - X. revert X. generalize (wr t3 f) (wr t1 f). induction l as [|x l IH]; intros [|y l'] X; [reflexivity|specialize (X 0%nat); discriminate|specialize (X 0%nat); discriminate|].
        f_equal; [specialize (X 0%nat); cbn in X; congruence|]. apply IH. intros j. exact (X (S j)).
      * destruct B3 as (_&_&B). congruence.
Qed.

(** Objects that meet the hypotheses: after init, and with other values. *)
Example C115_example : exists w v u, shaped W2Dviscosh 2 1 w /\ shaped W2Dviscosh 2 1 v /\ wplus W2Dviscosh W2Dviscosh w v = Ok u /\
  wf u "VZ" = [Num (1 + 3); Num (2 + 4)]%R /\ wr u "Rxz" = [[Num (5 + 0); Num (6 + 0)]]%R.
Proof.
  set (z := winit W2Dviscosh 2 1 wnew). exists (setR (setF z "VZ" [Num 1; Num 2]) "Rxz" [[Num 5; Num 6]]), (setF z "VZ" [Num 3; Num 4]).
  assert (Sz : shaped W2Dviscosh 2 1 z) by (apply C116_init; lia). destruct Sz as (A&B&C).
  eexists. split; [|split; [|split; [reflexivity|split; reflexivity]]].
  - split; [|split]; [| |exact C].
    + intros f I. rewrite wf_setR, wf_setF. destruct (String.eqb f "VZ"); [reflexivity|now apply A].
    + intros f I. rewrite wr_setR. destruct (String.eqb f "Rxz"); [|now apply B]. split; [reflexivity|]. constructor; [reflexivity|constructor].
  - split; [|split]; [|exact B|exact C]. intros f I. rewrite wf_setF. destruct (String.eqb f "VZ"); [reflexivity|now apply A].
Qed.
Example C117_example : exists w, shaped W2Dviscotmem 1 1 w /\ wmul W2Dviscotmem w 2 = UB.
Proof. exists (winit W2Dviscotmem 1 1 wnew). split; [apply C116_init; lia|]. apply (C117_undefined W2Dviscotmem 1 1); [apply C116_init; lia|lia|discriminate|discriminate]. Qed.
Example C118_example : exists old new u, shaped W2Dviscotmem 1 1 old /\ shaped W2Dviscotmem 1 1 new /\ timeDerivative W2Dviscotmem 2 old new wnew = Ok u /\
  val u "EZ" 0 = Some (Num ((5 - 1) / 2)) /\ wr u "RZ" = [[Num 7]].
Proof.
  set (z := winit W2Dviscotmem 1 1 wnew). set (o := setR (setF z "EZ" [Num 1]) "RZ" [[Num 7]]). set (w := setF z "EZ" [Num 5]).
  assert (Sz : shaped W2Dviscotmem 1 1 z) by (apply C116_init; lia). destruct Sz as (A&B&C).
  assert (So : shaped W2Dviscotmem 1 1 o).
  { split; [|split]; [| |exact C].
    - intros f I. unfold o. rewrite wf_setR, wf_setF. destruct (String.eqb f "EZ"); [reflexivity|now apply A].
    - intros f I. unfold o. rewrite wr_setR. destruct (String.eqb f "RZ"); [|now apply B]. split; [reflexivity|]. constructor; [reflexivity|constructor]. }
  assert (Sw : shaped W2Dviscotmem 1 1 w). { split; [|split]; [|exact B|exact C]. intros f I. unfold w. rewrite wf_setF. destruct (String.eqb f "EZ"); [reflexivity|now apply A]. }
  destruct (C118_derivative W2Dviscotmem 1 1 2 o w wnew So Sw) as (u&E&V&_&R&_); [lia|lra|reflexivity|].
  exists o, w, u. split; [exact So|]. split; [exact Sw|]. split; [exact E|]. split.
  - apply V; [cbn; tauto|reflexivity|reflexivity].
  - rewrite R by (cbn; tauto). reflexivity.
Qed.

Print Assumptions C115_plus.
Print Assumptions C115_minus.
Print Assumptions C115_scale.
Print Assumptions C115_weight.
Print Assumptions C115_assign.
Print Assumptions C115_transform.
Print Assumptions C116_init.
Print Assumptions C116_reset.
Print Assumptions C116_refuted.
Print Assumptions C117_product.
Print Assumptions C117_undefined.
Print Assumptions C117_assign.
Print Assumptions C118_derivative.

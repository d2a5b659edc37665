(** Properties C109, C110, C113, C114: initialisation, per-shot models, re-meshing, least velocity of the electromagnetic classes. *)
From Coq Require Import Reals Lra.
From Verif Require Import Base M_Grid M_Average M_Common M_Model M_ModelEM S_Model S_ModelEM L_AcqFile L_Acq2 L_Acq L_Grid L_Average L_Average3 L_Model L_Model2 L_ModelEM L_ModelEM2 L_ModelEM3 P_Model2 P_ModelEM P_ModelEM2.

(** ** C109: initialisation *)
(** Which relaxation mechanisms are accepted: only the first frequency is looked at. *)
Theorem C109_mechanisms : forall p n fs c,
  (n < 1 -> initRelax p n fs c = Throw) /\
  (forall f l, fs = f :: l -> (f <= 0)%R -> initRelax p n fs c = Throw) /\
  (forall f l, 1 <= n -> fs = f :: l -> (0 < f)%R -> exists q, initRelax p n fs c = Ok q /\ enrel q = n /\ efreqs q = fs /\ ecf q = Some c /\ only [] p q).
Proof.
  intros p n fs c. unfold initRelax. split; [intros H; destruct (Z.ltb_spec n 1); [reflexivity|lia]|]. split.
  - intros f l -> H. destruct (n <? 1); [reflexivity|]. cbn. destruct (Rle_dec f 0); [reflexivity|lra].
  - intros f l Hn -> H. destruct (Z.ltb_spec n 1); [lia|]. cbn. destruct (Rle_dec f 0); [lra|]. eexists. split; [reflexivity|].
    destruct p. cbn. repeat (split; [reflexivity|]). intros []; reflexivity.
Qed.
Print Assumptions C109_mechanisms.
Lemma cst_units c x n : timesBy c (repeat (Num x) n) = repeat (Num (x * c)) n.
Proof. unfold timesBy. induction n; cbn in *; congruence. Qed.
Lemma cst_zero A (l : list A) : map (fun _ => Num 0) l = repeat (Num 0) (length l).
Proof. induction l; cbn; congruence. Qed.
(** Constants and files with these constants in all points agree without relaxation. *)
Theorem C109_plain : forall k n p mur s er tsr te nr fs c ts te', evisco k = false ->
  exists q, ehomogeneous k n p mur s er tsr te nr fs c = Ok q /\
    efromFiles k p (mkF (repeat (Num mur) n) (repeat (Num s) n) (repeat (Num er) n) ts te' None None) = Ok q /\
    mu q = repeat (Num (mur * vacuum_permeability)) n /\ sigma q = repeat (Num s) n /\ eps q = repeat (Num (er * vacuum_permittivity)) n /\
    por q = repeat (Num 0) n /\ sat q = repeat (Num 0) n /\ refl q = repeat (Num 0) n.
Proof.
  intros k n p mur s er tsr te nr fs c ts te' V. unfold ehomogeneous, efromFiles. rewrite V. cbn [f_petro f_refl f_mur f_sigma f_epsr f_tsr f_te].
  rewrite !cst_units, cst_zero, repeat_length. eexists. split; [reflexivity|]. split; [reflexivity|]. rewrite vacuum_mu, vacuum_eps. repeat (split; [reflexivity|]). reflexivity.
Qed.
Print Assumptions C109_plain.
Lemma cst_at x n i : (i < n)%nat -> at_ (repeat (Num x) n) i x.
Proof. unfold at_. revert i. induction n as [|n IH]; intros [|i] H; cbn; try lia; [reflexivity|apply IH; lia]. Qed.
(** With relaxation the constants are the static values, the files hold the effective values. *)
Theorem C109_visco : forall k n p mur s er tsr te nr fs c, evisco k = true -> 1 <= nr <= Z.of_nat (length fs) -> Forall (fun f => 0 < f)%R fs -> c <> 0%R ->
  let l := firstn (Z.to_nat nr) fs in let ts := (tsr / (2 * PI * c))%R in
  exists q r, ehomogeneous k n p mur s er tsr te nr fs c = Ok q /\
    efromFiles k q (mkF (repeat (Num mur) n) (repeat (Num s) n) (repeat (Num er) n) (repeat (Num tsr) n) (repeat (Num te) n) None None) = Ok r /\
    mu q = repeat (Num (mur * vacuum_permeability)) n /\ sigma q = repeat (Num s) n /\ eps q = repeat (Num (er * vacuum_permittivity)) n /\
    tauSig q = repeat (Num ts) n /\ tauEps q = repeat (Num te) n /\
    mu r = mu q /\ tauSig r = tauSig q /\ tauEps r = tauEps q /\ por r = por q /\ sat r = sat q /\ refl r = refl q /\
    (eff_det c l te ts <> 0 -> let st := Rmax vacuum_permittivity ((er * vacuum_permittivity - s * ts) / eff_det c l te ts) in
      forall i, (i < n)%nat -> at_ (eps r) i st /\ at_ (sigma r) i (Rmax 0 (s - relB c l * te * st)))%R.
Proof.
  intros k n p mur s er tsr te nr fs c V N F C l ts. unfold ehomogeneous, efromFiles. rewrite V.
  destruct fs as [|f fs]; [cbn in N; lia|]. pose proof (Forall_inv F) as F0. cbn beta in F0.
  destruct (C109_mechanisms p nr (f :: fs) c) as (_&_&H). destruct (H f fs ltac:(lia) eq_refl F0) as (q0&->&Q1&Q2&Q3&Q4). clear H. cbn [bind].
  assert (T : fquot (Num 1) (Num (2 * PI * c)) = Num (1 / (2 * PI * c))).
  { cbn. apply fdiv_num. pose proof PI_RGT_0. apply Rmult_integral_contrapositive_currified; lra. }
  assert (PC : (2 * PI * c <> 0)%R) by (pose proof PI_RGT_0; apply Rmult_integral_contrapositive_currified; lra).
  assert (TS : (tsr * (1 / (2 * PI * c)) = ts)%R) by (unfold ts; field; split; [lra|pose proof PI_RGT_0; lra]).
  rewrite T. cbn [fmul]. rewrite TS.
  set (q := mkE _ _ _ _ _ _ _ _ _ _ _ _ _). exists q. cbn [f_petro f_refl f_mur f_sigma f_epsr f_tsr f_te]. assert (QC : ecf q = Some c) by exact Q3. rewrite QC. cbn [bind]. rewrite T.
  assert (M : map (fun u => fmul u (Num (1 / (2 * PI * c)))) (repeat (Num tsr) n) = repeat (Num ts) n).
  { rewrite <- TS. clear. induction n; cbn in *; congruence. }
  rewrite M, !cst_units, cst_zero, repeat_length.
  set (p1 := mkE _ _ _ _ _ _ _ _ _ _ _ _ _).
  assert (R0 : relaxes q c l).
  { unfold relaxes. split; [exact QC|]. assert (enrel q = nr) as -> by exact Q1. assert (efreqs q = f :: fs) as -> by exact Q2. split; [exact N|]. split; [reflexivity|].
    apply Forall_forall. intros x Hx. pose proof (proj1 (Forall_forall _ _) F x). cbn in H. assert (In x (f :: fs)); [|specialize (H H0); lra].
    rewrite <- (firstn_skipn (Z.to_nat nr) (f :: fs)). apply in_or_app. left. exact Hx. }
  assert (R1 : relaxes p1 c l) by (apply (relaxes_same q); auto).
  destruct (epsStatic_exists p1 (repeat (Num (er * eps0)) n) (repeat (Num s) n) n _ _ (relaxMeans_spec _ _ _ R1)) as (e1&E1&LE); try apply repeat_length. rewrite E1. cbn [bind].
  assert (R2 : relaxes (setField p1 FEps e1) c l) by (apply (relaxes_same p1); auto).
  destruct (sigmaStatic_exists (setField p1 FEps e1) (repeat (Num (er * eps0)) n) (repeat (Num s) n) n _ _ (relaxMeans_spec _ _ _ R2)) as (s1&S1&LS); try apply repeat_length. rewrite S1. cbn [bind].
  eexists. split; [reflexivity|]. split; [reflexivity|]. split; [rewrite vacuum_mu; reflexivity|]. split; [reflexivity|]. split; [rewrite vacuum_eps; reflexivity|]. repeat (split; [reflexivity|]).
  intros D i Hi. cbn [eps sigma setField]. rewrite vacuum_eps.
  split; [apply (epsStatic_at p1 _ _ _ _ _ _ _ _ _ _ R1 E1 (cst_at _ _ _ Hi) (cst_at _ _ _ Hi) (cst_at _ _ _ Hi) (cst_at _ _ _ Hi) D)|
          apply (sigmaStatic_at (setField p1 FEps e1) _ _ _ _ _ _ _ _ _ _ R2 S1 (cst_at _ _ _ Hi) (cst_at _ _ _ Hi) (cst_at _ _ _ Hi) (cst_at _ _ _ Hi) D)].
Qed.
Print Assumptions C109_visco.
(** So the same numbers give another medium: relative permittivity 4, strength 1/2, one mechanism at the centre frequency. *)
Theorem C109_refuted : exists q r, ehomogeneous ViscoTMEM 1 noE 1 0 4 0 (1 / 2) 1 [1%R] 1 = Ok q /\
  efromFiles ViscoTMEM q (mkF [Num 1] [Num 0] [Num 4] [Num 0] [Num (1 / 2)] None None) = Ok r /\
  at_ (eps q) 0 (4 * vacuum_permittivity) /\ at_ (eps r) 0 (16 / 3 * vacuum_permittivity).
Proof.
  destruct (C109_visco ViscoTMEM 1 noE 1 0 4 0 (1 / 2) 1 [1%R] 1 eq_refl) as (q&r&H1&H2&_&_&H3&_&_&_&_&_&_&_&_&H4); [cbn; lia|repeat constructor; lra|lra|].
  exists q, r. split; [exact H1|]. split; [exact H2|]. split; [rewrite H3; reflexivity|].
  change (firstn (Z.to_nat 1) [1%R]) with [1%R] in H4. replace (0 / (2 * PI * 1))%R with 0%R in H4 by (pose proof PI_RGT_0; field; lra).
  assert (D : eff_det 1 [1%R] (1 / 2) 0 = (3 / 4)%R) by (unfold eff_det; rewrite relA_one by lra; field). rewrite D in H4.
  destruct (H4 ltac:(lra) 0%nat ltac:(lia)) as (H5&_). rewrite vacuum_eps in *. pose proof eps0_pos.
  replace ((4 * eps0 - 0 * 0) / (3 / 4))%R with (16 / 3 * eps0)%R in H5 by field. rewrite Rmax_right in H5 by lra. exact H5.
Qed.
Print Assumptions C109_refuted.
(** A later frequency of zero passes the check and makes every effective value not a number, so that the velocity is zero everywhere. *)
Lemma firstn_at {A} (l : list A) n i : (i < n)%nat -> nth_error (firstn n l) i = nth_error l i.
Proof. revert n i. induction l as [|x l IH]; intros [|n] [|i] H; cbn; try lia; try reflexivity. apply IH. lia. Qed.
Lemma zero_sums p c ls : ecf p = Some c -> c <> 0%R -> Forall (fun l => 0 <= l < Z.of_nat (length (efreqs p))) ls ->
  forall a b, exists a' b', relaxSums ls p a b = Ok (a', b') /\ (((a = NaN /\ b = NaN) \/ exists l, In l ls /\ nth_error (efreqs p) (Z.to_nat l) = Some 0%R) -> a' = NaN /\ b' = NaN).
Proof.
  intros C N. induction 1 as [|l ls Hl F IH]; intros a b; cbn [relaxSums].
  - exists a, b. split; [reflexivity|]. intros [(->&->)|(l&[]&_)]; auto.
  - destruct (nth_error (efreqs p) (Z.to_nat l)) as [f|] eqn:E; [|apply nth_error_None in E; lia].
    assert (V : vget (efreqs p) l = Ok f) by (rewrite vget_nth by lia; rewrite E; reflexivity).
    rewrite V, C. cbn [bind]. destruct (IH (fadd a (fquot (fmul (fmul (fmul (Num (2 * PI * c)) (Num (2 * PI * c))) (fquot (Num 1) (Num (2 * PI * f)))) (fquot (Num 1) (Num (2 * PI * f)))) (fadd (Num 1) (fmul (fmul (fmul (Num (2 * PI * c)) (Num (2 * PI * c))) (fquot (Num 1) (Num (2 * PI * f)))) (fquot (Num 1) (Num (2 * PI * f)))))))
      (fadd b (fquot (fmul (fmul (Num (2 * PI * c)) (Num (2 * PI * c))) (fquot (Num 1) (Num (2 * PI * f)))) (fadd (Num 1) (fmul (fmul (fmul (Num (2 * PI * c)) (Num (2 * PI * c))) (fquot (Num 1) (Num (2 * PI * f)))) (fquot (Num 1) (Num (2 * PI * f)))))))) as (a'&b'&S&H).
    exists a', b'. split; [exact S|]. intros K. apply H. destruct K as [(->&->)|(l'&[<-|L]&Z)]; [left; split; reflexivity| |right; eauto].
    left. rewrite E in Z. injection Z as ->. rewrite Rmult_0_r.
    assert (Q : fquot (Num 1) (Num 0) = PInf).
    { cbn. unfold fdiv. destruct (Req_EM_T 0 0); [|lra]. destruct (Req_EM_T 1 0); [lra|]. destruct (Rlt_dec 0 1); [reflexivity|lra]. }
    assert (PC : (2 * PI * c <> 0)%R) by (pose proof PI_RGT_0; apply Rmult_integral_contrapositive_currified; lra).
    assert (PP : (0 < 2 * PI * c * (2 * PI * c))%R) by nra.
    rewrite Q. cbn [fmul]. unfold fscale. destruct (Req_EM_T (2 * PI * c * (2 * PI * c)) 0); [lra|]. destruct (Rlt_dec 0 (2 * PI * c * (2 * PI * c))); [|lra].
    cbn. destruct a, b; auto.
Qed.
Theorem C109_zero : forall p c, ecf p = Some c -> c <> 0%R -> 1 <= enrel p <= Z.of_nat (length (efreqs p)) -> In 0%R (firstn (Z.to_nat (enrel p)) (efreqs p)) ->
  (forall e, epsRE p = Ok e -> Forall (eq NaN) e) /\ (forall s, sigmaRE p = Ok s -> Forall (eq NaN) s) /\
  (forall k v, evisco k = true -> computeV k p = Ok v -> Forall (eq (Num 0)) v).
Proof.
  intros p c C N L I. assert (M : relaxMeans p = Ok (NaN, NaN)).
  { destruct (zero_sums p c (zseq 0 (Z.to_nat (enrel p))) C N) with (a := Num 0) (b := Num 0) as (a&b&S&H).
    - apply Forall_forall. intros l Hl. apply zseq_in in Hl. lia.
    - unfold relaxMeans. rewrite S. cbn [bind]. destruct H as (->&->); [|reflexivity]. right.
      apply In_nth_error in I as (j&J). assert (Hj : (j < Z.to_nat (enrel p))%nat).
      { assert (j < length (firstn (Z.to_nat (enrel p)) (efreqs p)))%nat by (apply nth_error_Some; congruence). rewrite firstn_length in H. lia. }
      exists (Z.of_nat j). split; [apply zseq_in; lia|]. rewrite Nat2Z.id. rewrite <- J. symmetry. apply firstn_at. exact Hj. }
  assert (Z1 : forall a b e, zipR fmul a (map (fmul NaN) b) = Ok e -> Forall (eq NaN) e).
  { intros a b e E. apply zipR_at in E as (_&_&Q). apply Forall_forall. intros x Hx. apply In_nth_error in Hx as (i&Hi). rewrite Q, map_at in Hi.
    destruct (nth_error a i) as [u|], (nth_error b i) as [w|]; cbn in Hi; try discriminate. destruct u; cbn in Hi; congruence. }
  assert (Z2 : forall a b e, Forall (eq NaN) a -> zipR fadd a b = Ok e -> Forall (eq NaN) e).
  { intros a b e F E. apply zipR_at in E as (_&_&Q). apply Forall_forall. intros x Hx. apply In_nth_error in Hx as (i&Hi). rewrite Q in Hi.
    destruct (nth_error a i) as [u|] eqn:U, (nth_error b i) as [w|]; cbn in Hi; try discriminate. apply nth_error_In in U. pose proof (proj1 (Forall_forall _ _) F u U) as <-. cbn in Hi. congruence. }
  assert (Z3 : forall lo e, Forall (eq NaN) e -> Forall (eq NaN) (raise lo e)).
  { intros lo e F. unfold raise. apply Forall_forall. intros x Hx. apply in_map_iff in Hx as (y&<-&Hy). pose proof (proj1 (Forall_forall _ _) F y Hy) as <-. reflexivity. }
  assert (ZE : forall e, epsRE p = Ok e -> Forall (eq NaN) e).
  { intros e H. unfold epsRE in H. rewrite M in H. cbn [bind] in H. apply bind_ok in H as (x&E1&H). apply bind_ok in H as (y&E2&H). apply bind_ok in H as (z&E3&H). injection H as <-. apply Z3.
    eapply Z2; [|exact E3]. rewrite map_map in E1. eapply (Z1 (eps p)). rewrite <- E1. f_equal. }
  split; [exact ZE|]. split.
  - intros s H. unfold sigmaRE in H. rewrite M in H. cbn [bind] in H. apply bind_ok in H as (x&E1&H). apply bind_ok in H as (y&E2&H). injection H as <-. apply Z3. eapply Z2; [|exact E2]. eapply Z1; eauto.
  - intros k v V H. unfold computeV in H. rewrite V in H. apply bind_ok in H as (e&E&H). specialize (ZE e E). destruct (velocity_spec _ _ _ H) as (L1&L2&Q).
    apply Forall_forall. intros x Hx. apply In_nth_error in Hx as (i&Hi). assert (i < length v)%nat by (apply nth_error_Some; congruence).
    destruct (nth_error e i) as [u|] eqn:U; [|apply nth_error_None in U; lia]. destruct (nth_error (mu p) i) as [w|] eqn:W; [|apply nth_error_None in W; lia].
    rewrite (Q i u w U W) in Hi. apply nth_error_In in U. pose proof (proj1 (Forall_forall _ _) ZE u U) as <-. cbn in Hi. congruence.
Qed.
Print Assumptions C109_zero.
Example C109_zero_example : exists p, initRelax (mkE [Num 1] [Num 1] [Num 1] [Num 1] [Num 1] [] [] [] [] [] [] 0 None) 2 [1%R; 0%R] 1 = Ok p /\
  ecf p = Some 1%R /\ In 0%R (firstn (Z.to_nat (enrel p)) (efreqs p)) /\ exists e, epsRE p = Ok e /\ length e = 1%nat.
Proof.
  destruct (C109_mechanisms (mkE [Num 1] [Num 1] [Num 1] [Num 1] [Num 1] [] [] [] [] [] [] 0 None) 2 [1%R; 0%R] 1) as (_&_&H).
  destruct (H 1%R [0%R] ltac:(lia) eq_refl ltac:(lra)) as (p&E&E1&E2&E3&O). exists p. split; [exact E|]. split; [exact E3|]. rewrite E1, E2. split; [change (Z.to_nat 2) with 2%nat; cbn; auto|].
  apply (epsRE_exists ViscoTMEM 1 p); [|reflexivity]. unfold ecomplete. pose proof (O FMu (fun x => x)) as O1. pose proof (O FSigma (fun x => x)) as O2. pose proof (O FEps (fun x => x)) as O3.
  pose proof (O FTauSig (fun x => x)) as O4. pose proof (O FTauEps (fun x => x)) as O5. cbn in O1, O2, O3, O4, O5. rewrite O1, O2, O3, O4, O5, E1, E2, E3. do 3 (split; [reflexivity|]).
  intros _. do 2 (split; [reflexivity|]). right. split; [cbn; lia|discriminate].
Qed.

(** ** C110: per-shot models *)
(** The vectors handed over: those of the class and, with a rock matrix, its two vectors. *)
Definition handed (k : emkind) (rock : bool) (f : field) : bool :=
  held k f || match f with FSigW | FEpsRM => rock | _ => false end.
Definition fwindow (nx nz mx my mz : Z) (cut : coord) (big small : list fpv) : Prop :=
  Z.of_nat (length small) = mx * my * mz /\
  forall x y z, 0 <= x < mx -> 0 <= y < my -> 0 <= z < mz ->
    nth_error small (Z.to_nat (x + z * mx + y * mx * mz)) = nth_error big (Z.to_nat ((x + cx cut) + (z + cz cut) * nx + (y + cy cut) * nx * nz)).
(** All of them are numbers in all points. *)
Definition filled (k : emkind) (rock : bool) (n : nat) (p : eparams) : Prop := forall f, handed k rock f = true -> length (get p f) = n /\ numbers (get p f).
Lemma numbers_map v : numbers v -> exists l, v = map Num l.
Proof. induction 1 as [|x v (r&->) _ (l&->)]; [exists []; reflexivity|exists (r :: l); reflexivity]. Qed.
Lemma fmatvec_matvec w l : fmatvec w (map Num l) = match matvec w l with Ok u => Ok (map Num u) | Throw => Throw | UB => UB | Fuel => Fuel end.
Proof.
  unfold fmatvec, matvec. rewrite map_length. destruct (_ =? _); [|reflexivity]. f_equal. rewrite map_map. apply map_ext. intros r. rewrite frowdot_num. f_equal.
  unfold mean, rowdot. induction r as [|e r IH]; cbn; [reflexivity|]. rewrite IH. reflexivity.
Qed.
Theorem C110_window : forall k rock nx ny nz mx my mz sub big cut p,
  mk_regular mx my mz = Ok sub -> mk_regular nx ny nz = Ok big -> inside_window nx ny nz mx my mz cut -> filled k rock (Z.to_nat (nx * ny * nz)) p ->
  exists w ms, shrinkMatrix sub big cut = Ok w /\ egetModelPerShot k rock w p (efresh noE) = Ok ms /\
    (forall f, if handed k rock f then fwindow nx nz mx my mz cut (get p f) (get (epar ms) f) else get (epar ms) f = []) /\
    enrel (epar ms) = 0 /\ efreqs (epar ms) = [] /\ ecf (epar ms) = None /\ dV ms = true /\ dAv ms = true.
Proof.
  intros k rock nx ny nz mx my mz sub big cut p Hs Hb (C1&C2&C3&C4&C5&C6) F.
  destruct (shrink_ok _ _ _ _ _ _ _ _ _ Hs Hb C1 C2 C3 C4 C5 C6) as (w&E&H).
  pose proof (mk_regular_inv _ _ _ _ Hb) as (Qx&Qy&Qz).
  assert (N : 0 < nx * ny * nz) by (apply Z.mul_pos_pos; [apply Z.mul_pos_pos|]; lia).
  assert (W : forall f, handed k rock f = true -> exists u, fmatvec w (get p f) = Ok u /\ fwindow nx nz mx my mz cut (get p f) u).
  { intros f Hf. destruct (F f Hf) as (Lf&Nf). destruct (numbers_map _ Nf) as (l&El). rewrite El in *. rewrite map_length in Lf. rewrite fmatvec_matvec.
    destruct (H l ltac:(lia)) as (u&Eu&Lu&Nu). rewrite Eu. eexists. split; [reflexivity|]. split; [rewrite map_length; exact Lu|]. intros x y z Hx Hy Hz.
    rewrite !map_at. f_equal. apply Nu; assumption. }
  exists w. unfold egetModelPerShot.
  destruct (W FMu eq_refl) as (a&Ea&Wa). destruct (W FEps eq_refl) as (c&Ec&Wc). destruct (W FSigma eq_refl) as (b&Eb&Wb).
  destruct (W FPor eq_refl) as (x&Ex&Wx). destruct (W FSat eq_refl) as (y&Ey&Wy). destruct (W FRefl eq_refl) as (z&Ez&Wz).
  cbn [get] in *. rewrite Ea. cbn [bind]. rewrite Ec. cbn [bind]. rewrite Eb. cbn [bind]. rewrite Ex, Ey, Ez.
  destruct (evisco k) eqn:V.
  - destruct (W FTauEps) as (te&Ete&Wte); [unfold handed, held; rewrite V; reflexivity|]. destruct (W FTauSig) as (ts&Ets&Wts); [unfold handed, held; rewrite V; reflexivity|].
    cbn [get] in *. rewrite Ete. cbn [bind]. rewrite Ets. cbn [bind]. destruct rock.
    + destruct (W FEpsRM eq_refl) as (u&Eu&Wu). destruct (W FSigW eq_refl) as (v&Ev&Wv). cbn [get] in *. rewrite Eu. cbn [bind]. rewrite Ev. cbn [bind].
      eexists. split; [exact E|]. split; [reflexivity|]. split; [|repeat split]. intros f. unfold handed, held. rewrite V. destruct f; cbn; assumption.
    + eexists. split; [exact E|]. split; [reflexivity|]. split; [|repeat split]. intros f. unfold handed, held. rewrite V. destruct f; cbn; try assumption; reflexivity.
  - cbn [bind]. destruct rock.
    + destruct (W FEpsRM eq_refl) as (u&Eu&Wu). destruct (W FSigW eq_refl) as (v&Ev&Wv). cbn [get] in *. rewrite Eu. cbn [bind]. rewrite Ev. cbn [bind].
      eexists. split; [exact E|]. split; [reflexivity|]. split; [|repeat split]. intros f. unfold handed, held. rewrite V. destruct f; cbn; try assumption; reflexivity.
    + eexists. split; [exact E|]. split; [reflexivity|]. split; [|repeat split]. intros f. unfold handed, held. rewrite V. destruct f; cbn; try assumption; reflexivity.
Qed.
Print Assumptions C110_window.
(** Without relaxation the velocity of the submodel is the window of the velocity; *)
Theorem C110_velocity : forall k rock nx ny nz mx my mz sub big cut p, evisco k = false ->
  mk_regular mx my mz = Ok sub -> mk_regular nx ny nz = Ok big -> inside_window nx ny nz mx my mz cut -> filled k rock (Z.to_nat (nx * ny * nz)) p ->
  exists w ms m1 m2 V v, shrinkMatrix sub big cut = Ok w /\ egetModelPerShot k rock w p (efresh noE) = Ok ms /\
    getVelocityEM k (efresh p) = Ok (m1, V) /\ getVelocityEM k ms = Ok (m2, v) /\ fwindow nx nz mx my mz cut V v.
Proof.
  intros k rock nx ny nz mx my mz sub big cut p NV Hs Hb I F. destruct (C110_window k rock _ _ _ _ _ _ _ _ _ p Hs Hb I F) as (w&ms&E&G&W&_&_&_&D&_).
  pose proof (W FMu) as WM. pose proof (W FEps) as WE. cbn in WM, WE. destruct (F FMu eq_refl) as (LM&_). destruct (F FEps eq_refl) as (LE&_). cbn [get] in *.
  exists w, ms. unfold getVelocityEM. rewrite D. cbn [dV efresh]. unfold computeV. rewrite NV. cbn [bind epar efresh].
  destruct (velocity_exists (eps p) (mu p)) as (V&EV&LV); [lia|]. destruct (velocity_exists (eps (epar ms)) (mu (epar ms))) as (v&Ev&Lv); [destruct WM, WE; lia|].
  rewrite EV, Ev. cbn [bind]. do 4 eexists. split; [exact E|]. split; [exact G|]. split; [reflexivity|]. split; [reflexivity|].
  destruct (velocity_spec _ _ _ EV) as (_&_&N1). destruct (velocity_spec _ _ _ Ev) as (_&_&N2). destruct WM as (Lm&WM), WE as (Le&WE). split; [lia|].
  intros x y z Hx Hy Hz. specialize (WM x y z Hx Hy Hz). specialize (WE x y z Hx Hy Hz). pose proof (num_range mx my mz x y z Hx Hy Hz) as R1.
  set (j := Z.to_nat (x + z * mx + y * mx * mz)) in *. set (J := Z.to_nat _) in *.
  destruct (nth_error (mu (epar ms)) j) as [xa|] eqn:Ea; [|exfalso; apply nth_error_None in Ea; unfold j in Ea; lia].
  destruct (nth_error (eps (epar ms)) j) as [xb|] eqn:Eb; [|exfalso; apply nth_error_None in Eb; unfold j in Eb; lia].
  rewrite (N2 _ _ _ Eb Ea). symmetry. apply N1; symmetry; assumption.
Qed.
Print Assumptions C110_velocity.
(** with relaxation it is zero everywhere, because the mechanisms are not handed over. *)
Theorem C110_relaxation : forall k rock nx ny nz mx my mz sub big cut p, evisco k = true ->
  mk_regular mx my mz = Ok sub -> mk_regular nx ny nz = Ok big -> inside_window nx ny nz mx my mz cut -> filled k rock (Z.to_nat (nx * ny * nz)) p ->
  exists w ms m2 v, shrinkMatrix sub big cut = Ok w /\ egetModelPerShot k rock w p (efresh noE) = Ok ms /\
    getVelocityEM k ms = Ok (m2, v) /\ Z.of_nat (length v) = mx * my * mz /\ Forall (eq (Num 0)) v.
Proof.
  intros k rock nx ny nz mx my mz sub big cut p V Hs Hb I F. destruct (C110_window k rock _ _ _ _ _ _ _ _ _ p Hs Hb I F) as (w&ms&E&G&W&R1&R2&R3&D&_).
  assert (L : forall f, handed k rock f = true -> Z.of_nat (length (get (epar ms) f)) = mx * my * mz) by (intros f Hf; specialize (W f); rewrite Hf in W; apply W).
  assert (C : ecomplete k (Z.to_nat (mx * my * mz)) (epar ms)).
  { unfold ecomplete. pose proof (L FMu eq_refl). pose proof (L FSigma eq_refl). pose proof (L FEps eq_refl). cbn [get] in *. do 3 (split; [lia|]). intros _.
    assert (handed k rock FTauSig = true) as A1 by (unfold handed, held; rewrite V; reflexivity). assert (handed k rock FTauEps = true) as A2 by (unfold handed, held; rewrite V; reflexivity).
    specialize (L FTauSig A1) as B1. specialize (L FTauEps A2) as B2. cbn [get] in *. do 2 (split; [lia|]). left. lia. }
  destruct (computeV_exists k _ _ C) as (v&Ev&Lv). exists w, ms. unfold getVelocityEM. rewrite D, Ev. cbn [bind]. do 2 eexists. split; [exact E|]. split; [exact G|]. split; [reflexivity|].
  pose proof (computeV_spec _ _ _ Ev) as (e&Ee&L1&L2&Q). unfold effective in Ee. rewrite V in Ee. destruct Ee as (L3&_&Z0). specialize (Z0 R1).
  pose proof (L FEps eq_refl) as L4. pose proof (L FMu eq_refl) as L5. cbn [get] in L4, L5. split; [lia|].
  apply Forall_forall. intros x Hx. apply In_nth_error in Hx as (i&Hi). assert (i < length v)%nat by (apply nth_error_Some; congruence).
  destruct (nth_error e i) as [u|] eqn:U; [|apply nth_error_None in U; lia]. destruct (nth_error (mu (epar ms)) i) as [m|] eqn:M; [|apply nth_error_None in M; lia].
  rewrite (Q i u m U M) in Hi. apply nth_error_In in U. pose proof (proj1 (Forall_forall _ _) Z0 u U) as <-. cbn in Hi. congruence.
Qed.
Print Assumptions C110_relaxation.
Example C110_example : filled ViscoEMEM false 1 (mkE [Num 1] [Num 0] [Num 1] [Num 1] [Num 1] [Num 0] [Num 0] [Num 0] [] [] [1%R] 1 (Some 1%R)) /\ inside_window 1 1 1 1 1 1 (mkC 0 0 0).
Proof. split; [|unfold inside_window; cbn; lia]. intros []; cbn; try discriminate; intros _; split; try reflexivity; repeat constructor; eexists; reflexivity. Qed.

(** ** C113: re-meshing for a variable grid *)
(** Permeability, conductivity and permittivity are multiplied with the matrix, everything else stays as it was; so if the numbers of
    points differ the thresholds cannot be applied, and ViscoTMEM offers no velocity; ViscoEMEM is rejected. *)
Theorem C113_remesh : forall k w p n, filled k false n p -> mcols w = Z.of_nat n ->
  (k = ViscoEMEM -> eremesh k w p = Throw) /\
  (k <> ViscoEMEM -> exists q, eremesh k w p = Ok q /\ only [FMu; FSigma; FEps] p q /\ mechanisms_kept p q /\
     (forall f, In f [FMu; FSigma; FEps] -> fmatvec w (get p f) = Ok (get q f) /\ length (get q f) = length (mrows w)) /\
     (length (mrows w) <> n -> evisco k = false -> forall t, ethreshold k t q = Throw) /\
     (length (mrows w) <> n -> evisco k = true -> relaxMeans p <> UB -> computeV k q = Throw)).
Proof.
  intros k w p n F C. split; [intros ->; reflexivity|]. intros K.
  destruct (F FMu eq_refl) as (L1&_), (F FSigma eq_refl) as (L2&_), (F FEps eq_refl) as (L3&_), (F FPor eq_refl) as (L4&_). cbn [get] in *.
  destruct (fmatvec_exists w (mu p)) as (a&Ea&La); [lia|]. destruct (fmatvec_exists w (sigma p)) as (b&Eb&Lb); [lia|]. destruct (fmatvec_exists w (eps p)) as (c&Ec&Lc); [lia|].
  exists (setField (setField (setField p FMu a) FSigma b) FEps c).
  split. { unfold eremesh. destruct k; try congruence; rewrite Ea; cbn [bind]; rewrite Eb; cbn [bind]; rewrite Ec; reflexivity. }
  split. { destruct p. intros f Hf. destruct f; try reflexivity; exfalso; apply Hf; cbn; auto. } split; [destruct p; repeat split|].
  split. { intros f [<-|[<-|[<-|[]]]]; destruct p; cbn in *; auto. } split.
  - intros N V t. apply C107_sizes; destruct p; cbn in *; [exact V|lia|lia].
  - intros N V M. unfold computeV. rewrite V. unfold epsRE.
    assert (RM : relaxMeans (setField (setField (setField p FMu a) FSigma b) FEps c) = relaxMeans p) by (apply relaxMeans_same; destruct p; reflexivity). rewrite RM.
    destruct (relaxMeans p) as [(u&v)| | |] eqn:E; cbn [bind]; try reflexivity; try congruence.
    + destruct (F FTauEps) as (L5&_); [unfold handed, held; rewrite V; reflexivity|].
      assert (X : forall f (x : list fpv) (y : list fpv), length x <> length y -> zipR f x y = @Throw (list fpv)).
      { intros f x. induction x as [|h x IH]; intros [|h' y] L; cbn in *; try congruence; try reflexivity. rewrite IH by lia. reflexivity. }
      rewrite X; [reflexivity|]. rewrite !map_length. destruct p. cbn in *. lia.
    + exfalso. assert (X : forall l x y, relaxSums l p x y <> Fuel).
      { clear. intros l. induction l as [|i l IH]; intros x y; cbn; [discriminate|]. unfold vget. destruct (i <? 0); cbn; [discriminate|]. destruct (nth_error _ _); cbn; [|discriminate]. destruct (ecf p); cbn; [|discriminate]. apply IH. }
      unfold relaxMeans in E. specialize (X (zseq 0 (Z.to_nat (enrel p))) (Num 0) (Num 0)). destruct (relaxSums _ p (Num 0) (Num 0)) as [(?&?)| | |]; cbn in E; try discriminate. congruence.
Qed.
Print Assumptions C113_remesh.

(** ** C114: the smallest velocity above 1 *)
Definition least (P : R -> Prop) (l : list R) (v : R) : Prop := (In v l /\ P v /\ forall x, In x l -> P x -> v <= x)%R.
Definition greatest (l : list R) (v : R) : Prop := (In v l /\ forall x, In x l -> x <= v)%R.
Lemma minList_ok l : forall x, least (fun _ => True) (x :: l) (minList x l).
Proof.
  induction l as [|y l IH]; intros x; [split; [cbn; auto|split; [auto|intros z [<-|[]] _; cbn; lra]]|]. change (minList x (y :: l)) with (minList (Rmin x y) l).
  destruct (IH (Rmin x y)) as (A&_&B). split; [|split; [auto|]].
  - destruct A as [A|A]; [|right; right; exact A]. rewrite <- A. unfold Rmin. destruct (Rle_dec x y); cbn; auto.
  - intros z Hz _. pose proof (B (Rmin x y) (or_introl eq_refl) I). pose proof (Rmin_l x y). pose proof (Rmin_r x y). destruct Hz as [<-|[<-|Hz]]; try lra. apply B; [right; exact Hz|auto].
Qed.
Lemma maxList_ok l : forall x, greatest (x :: l) (maxList x l).
Proof.
  induction l as [|y l IH]; intros x; [split; [cbn; auto|intros z [<-|[]]; cbn; lra]|]. change (maxList x (y :: l)) with (maxList (Rmax x y) l).
  destruct (IH (Rmax x y)) as (A&B). split.
  - destruct A as [A|A]; [|right; right; exact A]. rewrite <- A. unfold Rmax. destruct (Rle_dec x y); cbn; auto.
  - intros z Hz. pose proof (B (Rmax x y) (or_introl eq_refl)). pose proof (Rmax_l x y). pose proof (Rmax_r x y). destruct Hz as [<-|[<-|Hz]]; try lra. apply B. right. exact Hz.
Qed.
Theorem C114_vmin : forall x l, exists v, vMin x l = Ok v /\
  ((exists y, In y (x :: l) /\ 1 < y)%R -> least (fun y => 1 < y)%R (x :: l) v) /\
  ((forall y, In y (x :: l) -> y <= 1)%R -> greatest (x :: l) v).
Proof.
  intros x l. unfold vMin. destruct (minList_ok l x) as (A&_&B). set (m := minList x l) in *. clearbody m. destruct (Rle_dec m 1) as [H|H].
  - unfold searchAndReplace. cbn [Z.eqb Pos.eqb bind map]. destruct (maxList_ok l x) as (M1&M2). set (M := maxList x l) in *. clearbody M.
    set (g := fun y => if Rle_dec y 1 then M else y). change (if Rle_dec x 1 then M else x) with (g x). eexists. split; [reflexivity|].
    destruct (minList_ok (map g l) (g x)) as (C&_&D). set (v := minList (g x) (map g l)) in *. clearbody v. change (g x :: map g l) with (map g (x :: l)) in *.
    apply in_map_iff in C as (y&C&Hy). split.
    + intros (z&Hz&Z1). assert (MM : (1 < M)%R) by (specialize (M2 z Hz); lra). unfold g in C. split; [|split].
      * destruct (Rle_dec y 1); subst v; assumption.
      * destruct (Rle_dec y 1); lra.
      * intros u Hu U1. apply D; [|auto]. apply in_map_iff. exists u. split; [|exact Hu]. unfold g. destruct (Rle_dec u 1); [lra|reflexivity].
    + intros N. assert (v = M) as -> by (unfold g in C; destruct (Rle_dec y 1); [congruence|specialize (N y Hy); lra]). split; assumption.
  - exists m. split; [reflexivity|]. split.
    + intros _. split; [exact A|]. split; [lra|]. intros u Hu _. apply B; auto.
    + intros N. specialize (N m A). lra.
Qed.
Print Assumptions C114_vmin.
(** Air of velocity 0.3 next to rock of velocity 3; and an all-slow model. *)
Example C114_example : (exists v, vMin (3 / 10) [3%R] = Ok v /\ v = 3%R) /\ (exists v, vMin (3 / 10) [(1 / 2)%R] = Ok v /\ v = (1 / 2)%R).
Proof.
  split; [destruct (C114_vmin (3 / 10) [3%R]) as (v&E&H&_)|destruct (C114_vmin (3 / 10) [(1 / 2)%R]) as (v&E&_&H)]; exists v; (split; [exact E|]).
  - destruct H as ([H|[H|[]]]&G&_); [exists 3%R; split; [cbn; auto|lra]|lra|auto].
  - destruct H as ([H|[H|[]]]&G); [intros y [<-|[<-|[]]]; lra| |auto]. specialize (G (1 / 2)%R). cbn in G. lra.
Qed.

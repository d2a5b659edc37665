(** Lemmas about the electromagnetic parameter objects: averages of numbers, preparation succeeds. *)
From Coq Require Import Reals Lra.
From Verif Require Import Base M_Grid M_Average M_Common M_Model M_ModelEM S_Model S_ModelEM L_AcqFile L_Acq2 L_Acq L_Model L_Model2 L_ModelEM.
Open Scope Z_scope.

Lemma vacuum_eps : vacuum_permittivity = eps0.
Proof. unfold vacuum_permittivity, eps0. lra. Qed.
Lemma vacuum_mu : vacuum_permeability = mu0.
Proof. unfold vacuum_permeability, mu0. lra. Qed.
Lemma eps0_pos : (0 < eps0)%R.
Proof. unfold eps0. lra. Qed.
Lemma mu0_pos : (0 < mu0)%R.
Proof. unfold mu0. lra. Qed.

Lemma frowdot_num r l : frowdot r (map Num l) = Num (mean r l).
Proof.
  unfold frowdot, mean. induction r as [|(j, c) r IH]; cbn [fold_right map]; [reflexivity|]. rewrite IH. cbn [fst snd].
  rewrite (map_nth Num). cbn. reflexivity.
Qed.
Lemma fmatvec_num M l w : fmatvec M (map Num l) = Ok w -> w = map Num (map (fun r => mean r l) (mrows M)).
Proof. unfold fmatvec. destruct (_ =? _); [|discriminate]. intros [= <-]. rewrite map_map. apply map_ext. intros r. apply frowdot_num. Qed.
Lemma fmatvec_len M v w : fmatvec M v = Ok w -> length w = length (mrows M).
Proof. unfold fmatvec. destruct (_ =? _); [|discriminate]. intros [= <-]. apply map_length. Qed.
Lemma fmatvec_exists M v : mcols M = Z.of_nat (length v) -> exists w, fmatvec M v = Ok w /\ length w = length (mrows M).
Proof. intros E. unfold fmatvec. rewrite E, Z.eqb_refl. eexists. split; [reflexivity|]. apply map_length. Qed.
Lemma average_len p q M v : average p q M = Ok v -> length v = length (mrows M).
Proof.
  unfold average, inverseAverage. destruct q; try apply fmatvec_len. intros H. apply bind_ok in H as (w&E&H). injection H as <-.
  unfold replaceInvalid. rewrite !map_length. eapply fmatvec_len; eauto.
Qed.
Lemma average_num p q M l v : average p q M = Ok v -> source p q = map Num l ->
  exists a, v = map Num a /\ match q with QInvMu => inverse_average (mrows M) l a | _ => plain_average (mrows M) l a end.
Proof.
  unfold average, inverseAverage. intros H E. rewrite E in H.
  assert (P : q <> QInvMu -> fmatvec M (map Num l) = Ok v -> exists a, v = map Num a /\ plain_average (mrows M) l a).
  { intros _ F. apply fmatvec_num in F as ->. eexists. split; [reflexivity|]. apply rows_give_map. }
  destruct q; try (apply P; [discriminate|exact H]).
  apply bind_ok in H as (w&F&H). injection H as <-. apply fmatvec_num in F as ->.
  exists (map (fun r => if Req_EM_T (mean r l) 0 then 0 else 1 / mean r l)%R (mrows M)). split; [|apply rows_give_map].
  unfold replaceInvalid. rewrite !map_map. apply map_ext. intros r. cbn. unfold fdiv. destruct (Req_EM_T (mean r l) 0); [|reflexivity].
  destruct (Req_EM_T 1 0); [reflexivity|]. destruct (Rlt_dec 0 1); reflexivity.
Qed.

(** Parameters of the size of the model, and relaxation mechanisms that exist. *)
Definition ecomplete (k : emkind) (n : nat) (p : eparams) : Prop :=
  length (mu p) = n /\ length (sigma p) = n /\ length (eps p) = n /\
  (evisco k = true -> length (tauSig p) = n /\ length (tauEps p) = n /\
     (enrel p <= 0 \/ (enrel p <= Z.of_nat (length (efreqs p)) /\ ecf p <> None))).
Lemma epsRE_exists k n p : ecomplete k n p -> evisco k = true -> exists e, epsRE p = Ok e /\ length e = n.
Proof.
  intros (L1&L2&L3&L4) V. destruct (L4 V) as (L5&L6&R). destruct (relaxMeans_exists p R) as (a&b&E). unfold epsRE. rewrite E. cbn [bind].
  destruct (zipR_exists fmul (eps p) (map (fsub (Num 1)) (map (fmul a) (tauEps p)))) as (x&Ex); [rewrite !map_length; lia|]. rewrite Ex. cbn [bind].
  destruct (zipR_exists fmul (sigma p) (tauSig p)) as (y&Ey); [lia|]. rewrite Ey. cbn [bind].
  apply zipR_at in Ex as (_&Lx&_), Ey as (_&Ly&_).
  destruct (zipR_exists fadd x y) as (z&Ez); [lia|]. rewrite Ez. cbn [bind]. eexists. split; [reflexivity|]. rewrite raise_length. apply zipR_at in Ez. lia.
Qed.
Lemma sigmaRE_exists k n p : ecomplete k n p -> evisco k = true -> exists e, sigmaRE p = Ok e /\ length e = n.
Proof.
  intros (L1&L2&L3&L4) V. destruct (L4 V) as (L5&L6&R). destruct (relaxMeans_exists p R) as (a&b&E). unfold sigmaRE. rewrite E. cbn [bind].
  destruct (zipR_exists fmul (eps p) (map (fmul b) (tauEps p))) as (x&Ex); [rewrite !map_length; lia|]. rewrite Ex. cbn [bind].
  apply zipR_at in Ex as (_&Lx&_).
  destruct (zipR_exists fadd x (sigma p)) as (z&Ez); [lia|]. rewrite Ez. cbn [bind]. eexists. split; [reflexivity|]. rewrite raise_length. apply zipR_at in Ez. lia.
Qed.
Lemma computeV_exists k n p : ecomplete k n p -> exists v, computeV k p = Ok v /\ length v = n.
Proof.
  intros C. unfold computeV. destruct (evisco k) eqn:V.
  - destruct (epsRE_exists k n p C V) as (e&->&L). cbn [bind]. destruct (velocity_exists e (mu p)) as (v&E&Lv); [destruct C; lia|]. exists v. split; [exact E|lia].
  - cbn [bind]. destruct C as (L1&_&L3&_). destruct (velocity_exists (eps p) (mu p)) as (v&E&Lv); [lia|]. exists v. split; [exact E|lia].
Qed.
Lemma source_len k n p q x a : ecomplete k n p -> In (q, x, a) (eplan k) -> length (source p q) = n.
Proof.
  intros (L1&L2&L3&L4) H. destruct q; cbn; auto; apply L4; destruct k; cbn in H; repeat (destruct H as [H|H]; [try discriminate H; reflexivity|]); try destruct H; reflexivity.
Qed.
Lemma average_exists p q M : mcols M = Z.of_nat (length (source p q)) -> exists v, average p q M = Ok v.
Proof.
  intros H. destruct (fmatvec_exists M (source p q) H) as (w&E&_). unfold average, inverseAverage. destruct q; eauto. rewrite E. cbn [bind]. eauto.
Qed.
Lemma eaverageAll_exists p n mats l : (forall q x a, In (q, x, a) l -> length (source p q) = n /\ mcols (mats a) = Z.of_nat n) ->
  forall f, exists f', eaverageAll p mats l f = Ok f'.
Proof.
  induction l as [|((q, x), a) l IH]; intros H f; cbn [eaverageAll]; [eauto|].
  destruct (H q x a (or_introl eq_refl)) as (L&C). destruct (average_exists p q (mats a)) as (v&->); [congruence|]. cbn [bind]. apply IH. intros. apply (H q0 x0 a0). right. assumption.
Qed.
Lemma ebuild_exists g l : (forall a, exists M, averageMatrix a g = Ok M) -> forall f, exists f', buildMatrices g l f = Ok f'.
Proof. intros H. induction l as [|a l IH]; intros f; cbn [buildMatrices]; [eauto|]. destruct (H a) as (M&->). cbn [bind]. apply IH. Qed.
Lemma eprepare_exists k g m n : EInv k g m -> ecomplete k n (epar m) ->
  (forall a, exists M, averageMatrix a g = Ok M /\ mcols M = Z.of_nat n) -> exists m', eprepare k g m = Ok m'.
Proof.
  intros I C A. unfold eprepare.
  assert (G : exists m1 v, getVelocityEM k m = Ok (m1, v)).
  { unfold getVelocityEM. destruct (dV m); [|eauto]. destruct (computeV_exists k n _ C) as (v&->&_). cbn. eauto. }
  destruct G as (m1&v&E1). rewrite E1. cbn [bind]. destruct (einv_getV _ _ _ _ _ I E1) as (I1&P1&_).
  assert (G : exists m2, einitializeMatrices k g m1 = Ok m2 /\ epar m2 = epar m /\ (dAv m2 = true -> forall q x a, In (q, x, a) (eplan k) -> mcols (emats m2 a) = Z.of_nat n)).
  { unfold einitializeMatrices. destruct (dAv m1) eqn:D; [|exists m1; split; [reflexivity|]; split; [exact P1|congruence]].
    destruct (ebuild_exists g (ekinds k)) with (f := emats m1) as (f&Ef). { intros a. destruct (A a) as (M&E&_). eauto. }
    rewrite Ef. cbn [bind]. eexists. split; [reflexivity|]. split; [exact P1|]. intros _ q x a Hi. cbn.
    destruct (A a) as (M&EM&CM). pose proof (proj1 (buildMatrices_ok _ _ _ _ Ef) a (eplan_kinds _ _ _ _ Hi)) as Q. rewrite EM in Q. injection Q as <-. exact CM. }
  destruct G as (m2&->&P2&M2). cbn [bind]. unfold ecalculateAveraging. destruct (dAv m2) eqn:D; [|cbn; eauto].
  destruct (eaverageAll_exists (epar m2) n (emats m2) (eplan k)) with (f := eavs m2) as (f&->); [|cbn; eauto].
  intros q x a Hi. split; [rewrite P2; eapply source_len; eauto|eauto].
Qed.

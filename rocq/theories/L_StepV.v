(** One time step of the viscoelastic solvers. *)
From Coq Require Import QArith Qreals Reals Lra Lia FunctionalExtensionality.
From Verif Require Import M_Prog M_Solvers M_Relax S_Solver S_Step L_Prog L_Step L_Loop L_LoopV.
Open Scope R_scope.
Open Scope list_scope.

(** the names a program may change *)
Definition within (T : list string) (p : list instr) : bool := forallb (fun b => existsb (String.eqb b) T) (bases p).
Lemma within_app T p q : within T (p ++ q) = within T p && within T q.
Proof. unfold within, bases. rewrite flat_map_app, map_app, forallb_app. reflexivity. Qed.
Lemma within_loop T L b : (forall l, within T (b l) = true) -> within T (loop L b) = true.
Proof. intros H. unfold loop. induction (seq 0 L) as [|l ls IH]; [reflexivity|]. cbn [flat_map]. rewrite within_app, H, IH. reflexivity. Qed.
Lemma within_keeps T p x : within T p = true -> existsb (String.eqb x) T = false -> keeps x p = true.
Proof.
  unfold within, keeps. intros H Hx. rewrite forallb_forall in H. apply negb_true_iff. destruct (existsb (String.eqb x) (bases p)) eqn:E; [|reflexivity].
  apply existsb_exists in E. destruct E as (b & Hb & E). apply String.eqb_eq in E. subst b. rewrite (H x Hb) in Hx. discriminate.
Qed.
Definition frame (T : list string) (s s' : state R_arith) : Prop := forall x k, existsb (String.eqb x) T = false -> s' (N x k) = s (N x k).
Lemma frame_exec e src t T p s : within T p = true -> frame T s (exec e src t (map unstag p) s).
Proof. intros H x k Hx. apply ex_keeps. eapply within_keeps; eauto. Qed.
Lemma frame_trans T s1 s2 s3 : frame T s1 s2 -> frame T s2 s3 -> frame T s1 s3.
Proof. intros H1 H2 x k Hx. rewrite H2, H1 by exact Hx. reflexivity. Qed.
Lemma frame_sub T T' s s' : forallb (fun b => existsb (String.eqb b) T') T = true -> frame T s s' -> frame T' s s'.
Proof.
  intros H F x k Hx. apply F. rewrite forallb_forall in H. destruct (existsb (String.eqb x) T) eqn:E; [|reflexivity].
  apply existsb_exists in E. destruct E as (b & Hb & E). apply String.eqb_eq in E. subst b. rewrite (H x Hb) in Hx. discriminate.
Qed.
Lemma frame_refl T s : frame T s s. Proof. intros x k _. reflexivity. Qed.

Lemma Rsum_plus {A} (f g : A -> R) l : Rsum (map (fun x => f x + g x) l) = Rsum (map f l) + Rsum (map g l).
Proof. unfold Rsum. induction l as [|x l IH]; cbn [map fold_right]; [ring|]. rewrite IH. ring. Qed.
Lemma Rsum_scale {A} k (f : A -> R) l : Rsum (map (fun x => k * f x) l) = k * Rsum (map f l).
Proof. unfold Rsum. induction l as [|x l IH]; cbn [map fold_right]; [ring|]. rewrite IH. ring. Qed.

(** A standard linear solid, Crank-Nicolson. *)
Lemma relax_eq DT f l R0 R1 u : 0 < f l -> 0 < DT ->
  R1 = viscoCoeff2 DT f l * (viscoCoeff1 DT f l * R0 - inverseRelaxationTime f l * u) ->
  relaxationTime f l * (R1 - R0) = - DT * (R1 + R0) / 2 - u.
Proof.
  intros Hf HD ->. unfold viscoCoeff1, viscoCoeff2, inverseRelaxationTime, relaxationTime. pose proof PI_RGT_0 as HPi.
  assert (0 < 2 * PI * f l) by (apply Rmult_lt_0_compat; [lra|auto]). set (w := 2 * PI * f l) in *. clearbody w.
  assert (0 < DT * w) by (apply Rmult_lt_0_compat; auto). field. repeat split; lra.
Qed.

Ltac framed0 T := first [apply frame_refl | (eapply frame_trans; [|apply frame_exec; first
  [reflexivity | (apply within_loop; intros; reflexivity) | (match goal with |- context [c_pml ?c] => destruct (c_pml c) end; reflexivity) |
   (match goal with |- context [(c_fs ?c =? 1)%Z] => destruct (c_fs c =? 1)%Z end; reflexivity)]]; framed0 T)].
Ltac framed s := unfold s; framed0 0.
(** reads registers of earlier states *)
Ltac back1 := match goal with
  | K : frame _ _ ?s |- context [?s (N ?x ?k)] => rewrite (K x k eq_refl)
  | H : ?s (N ?x ?k) = _ |- context [?s (N ?x ?k)] => rewrite H
  | H : ?s (N ?x ?k) ?i = _ |- context [?s (N ?x ?k) ?i] => rewrite H
  | H : forall i, ?s (N ?x ?k) i = _ |- context [?s (N ?x ?k) ?i] => rewrite (H i)
  | H : forall k i, ?s (N ?x k) i = _ |- context [?s (N ?x ?k) ?i] => rewrite (H k i) end.
Ltac back := repeat (progress (repeat back1)).

Ltac named H := cbv [rel sig up2 low2 low up append nm_s] in H.
Ltac loop_c e src t s0 L a b s1 HS HR :=
  let HR0 := fresh in let HS0 := fresh in
  pose proof (fun k i => loopC_R e src t s0 L a b k i ltac:(cbn [In]; tauto)) as HR;
  pose proof (fun i => loopC_S e src t s0 L a b i ltac:(cbn [In]; tauto)) as HS;
  change (exec e src t (map unstag (loop L (loopC a b))) s0) with s1 in HR, HS; named HR; named HS.
Ltac loop_a e src t s0 L cs a s1 HS HR :=
  pose proof (fun k i => loopA_R e src t cs s0 L a k i ltac:(cbn [In]; tauto) ltac:(cbn [In]; tauto)) as HR;
  pose proof (fun i => loopA_S e src t cs s0 L a i ltac:(cbn [In]; tauto) ltac:(cbn [In]; tauto)) as HS;
  change (exec e src t (map unstag (loop L (loopA cs))) s0) with s1 in HR, HS; named HR; named HS.
Ltac loop_b e src t s0 L a s1 HS HR :=
  pose proof (fun k i => loopB_R e src t s0 L a k i) as HR;
  pose proof (fun i => loopB_S e src t s0 L a i) as HS;
  change (exec e src t (map unstag (loop L (loopB a))) s0) with s1 in HR, HS; named HR; named HS.
(** values of straight parts: the facts of the previous state are functions *)
Ltac val s := apply functional_extensionality; intros i; unfold s; ev; back; names; unfold new_psi_vel, grad; names; flags; lazy beta iota zeta; change (num R_arith) with R;
  first [reflexivity | (atoms; rewrite ?Q2R_2, ?Q2R_m1; apply (Rplus_eq_reg_l 0); ring)].

Ltac as_loop b' := match goal with |- context [loop ?L ?b] => change (loop L b) with (loop L b') end.

Ltac facts_in F := unfold facts1, facts2, fv, fps, fpv in F; cbn [app map flat_map fst snd holds] in F;
  lazy beta iota zeta delta [vel sig psi_sig psi_vel low up low2 up2 append nm_s] in F; open F.

Lemma abs_value e c src t vs s x i : NoDup vs -> In x vs ->
  exec e src t (map unstag (when (c_damp c) (abs_apply vs))) s (N x 0) i = damped e c (s (N x 0) i) i.
Proof.
  intros HN Hx. unfold damped. destruct (c_damp c); [|reflexivity]. cbn [when]. revert s. induction vs as [|v vs IH]; intros s; [destruct Hx|].
  unfold abs_apply in *. cbn [map] in *. change (exec e src t ?p s) with (exec e src t (tl p) (exec1 e src t (hd (ISwap (N "" 0) (N "" 0)) p) s)). cbn [tl hd unstag exec1].
  apply NoDup_cons_iff in HN. destruct HN as [Hv HN]. unfold nm_s. destruct (String.string_dec x v) as [->|E].
  - rewrite ex_keeps. { rewrite upd_same. reflexivity. }
    unfold keeps. apply negb_true_iff. destruct (existsb _ _) eqn:EE; [|reflexivity]. exfalso. apply Hv. apply existsb_exists in EE.
    destruct EE as (y & Hy & E). apply String.eqb_eq in E. subst y. unfold bases in Hy. rewrite in_map_iff in Hy. destruct Hy as (n & En & Hn).
    apply in_flat_map in Hn. destruct Hn as (ins & Hi & Hn). apply in_map_iff in Hi. destruct Hi as (w & <- & Hw). cbn in Hn. destruct Hn as [<-|[]]. cbn in En. subst v. exact Hw.
  - rewrite IH; [|exact HN|destruct Hx as [->|Hx]; [contradiction E; reflexivity|exact Hx]]. rewrite upd_other; [reflexivity|]. intros X. injection X as ->. contradiction E; reflexivity.
Qed.
Lemma abs_frame e c src t vs s : frame vs s (exec e src t (map unstag (when (c_damp c) (abs_apply vs))) s).
Proof.
  apply frame_exec. destruct (c_damp c); [|reflexivity]. cbn [when]. unfold within, abs_apply, bases. apply forallb_forall. intros x Hx. rewrite in_map_iff in Hx. destruct Hx as (n & <- & Hn).
  apply in_flat_map in Hn. destruct Hn as (ins & Hi & Hn). apply in_map_iff in Hi. destruct Hi as (w & <- & Hw). cbn in Hn. destruct Hn as [<-|[]]. cbn [nm_s nstr].
  apply existsb_exists. exists w. split; [exact Hw|apply String.eqb_refl].
Qed.

Ltac names_v := lazy beta iota zeta delta [sig rel smod taus pmod low up low2 up2 append nm_s axis_eqb has existsb orb andb negb sum_axes map Rsum fold_right filter].
Ltac sums := match goal with |- context [Rsum (map ?f1 ?q)] => match goal with |- context [Rsum (map ?f2 q)] =>
  let E := fresh in (lazymatch f1 with f2 => fail | _ => idtac end); assert (E : Rsum (map f1 q) = Rsum (map f2 q)) by (apply Rsum_ext; intros l _; back; reflexivity);
  rewrite E; clear E end end.
Ltac hide_sums := repeat match goal with |- context [@Rsum ?l] => generalize (Rsum l); intros ? | |- context [Rsum ?l] => generalize (Rsum l); intros ? end.
Ltac grads := repeat match goal with |- context [grad ?x1 ?x2 ?x3 ?x4 ?x5 ?x6 ?x7 ?x8] => generalize (grad x1 x2 x3 x4 x5 x6 x7 x8); intros ? end.
(** The vectors of the viscoelastic free surface: [surface] are its points. *)
Record visco_surf (e : env R_arith) (c : cfg) (f : nat -> R) (DT : R) (surface : Z -> bool) : Prop := {
  vs_z : c_fs c = 1%Z -> forall i, e_coef e (N "setZeroFreeSurface" 0) i = if surface i then 0 else 1;
  vs_sel : c_fs c = 1%Z -> forall i, e_coef e (N "selectFreeSurface" 0) i = if surface i then 1 else 0;
  vs_sv : c_fs c = 1%Z -> forall i, e_coef e (N "scaleStressVerticalUpdate" 0) i =
            if surface i then unrelaxedP e (c_L c) i - 2 * unrelaxedM e (c_L c) AX AX i else 0;
  vs_sh : c_fs c = 1%Z -> forall i, e_coef e (N "scaleStressHorizontalUpdate" 0) i =
            if surface i then - ((unrelaxedP e (c_L c) i - 2 * unrelaxedM e (c_L c) AX AX i) * (unrelaxedP e (c_L c) i - 2 * unrelaxedM e (c_L c) AX AX i) / unrelaxedP e (c_L c) i) else 0;
  vs_rv : c_fs c = 1%Z -> forall l i, (l < c_L c)%nat -> e_coef e (N "scaleRelaxationVerticalUpdate" l) i =
            if surface i then (2 * relaxM e AX AX i - relaxP e i) * viscoCoeff2 DT f l * inverseRelaxationTime f l else 0;
  vs_rh : c_fs c = 1%Z -> forall l i, (l < c_L c)%nat -> e_coef e (N "scaleRelaxationHorizontalUpdate" l) i =
            if surface i then (2 * relaxM e AX AX i - relaxP e i) * (2 * unrelaxedM e (c_L c) AX AX i / unrelaxedP e (c_L c) i - 1) * viscoCoeff2 DT f l * inverseRelaxationTime f l else 0;
  vs_s : c_fs c <> 1%Z -> forall i, surface i = false;
  vs_p : forall i, unrelaxedP e (c_L c) i <> 0 }.

(** the exchange of the updates at the free surface *)
Definition exch (L : nat) (h : string) (cs : list axis) : list instr :=
  loop L (loopD cs) ++ 
  ([ICoef "fs_temp" "scaleStressHorizontalUpdate" h] ++ map (fun a => IAdd (sig a a) "fs_temp") cs ++
   [ICoef "fs_temp" "scaleStressVerticalUpdate" "vyy"] ++ map (fun a => ISub (sig a a) "fs_temp") cs) ++
  loop L (loopE h cs) ++ setSurfaceZero "Syy" ++ loop L loopF.

Section visco.
Variables (e : env R_arith) (c : cfg) (src : acq R_arith) (t : nat) (st : state R_arith) (surface : Z -> bool).
Hypotheses (HU : uniform e).
Variables (f : nat -> R) (DT : R).
Hypotheses (HD : 0 < DT) (Hf : forall l, (l < c_L c)%nat -> 0 < f l).
Hypothesis VP : visco_prepared e DT f (c_L c).
Notation ex p s := (exec e src t (map unstag p) s).
Notation uP := (unrelaxedP e (c_L c)).
Notation uM := (unrelaxedM e (c_L c)).
Notation step ax cm s' := (elastic_step e c st ax cm surface uP uM (c_L c) (relaxationTime f) DT (relaxP e) (relaxM e) s').

Lemma VH : e_sca e (N "DThalf" 0) = DT / 2. Proof. exact (vp_half _ _ _ _ VP). Qed.
Lemma VSi i : e_coef e (N "onePlusLtauS" 0) i = 1 + INR (c_L c) * e_coef e (N "tauS" 0) i. Proof. exact (vp_S _ _ _ _ VP i). Qed.
Lemma VPi i : e_coef e (N "onePlusLtauP" 0) i = 1 + INR (c_L c) * e_coef e (N "tauP" 0) i. Proof. exact (vp_P _ _ _ _ VP i). Qed.
Ltac opens := unfold hooke, grad_s, unrelaxedM, unrelaxedP, relaxM, relaxP; cbn [axis_eqb andb]; rewrite ?andb_false_r; cbn [andb];
  lazy beta iota zeta delta [smod taus pmod up2 up append nm_s axis_eqb sum_axes map Rsum fold_right negb]; grads.
Ltac stress_eq V := unfold normal_at_surface; cbn [axis_eqb]; rewrite ?andb_false_r; cbn [andb];
  lazy beta iota zeta delta [sig rel low up low2 up2 append nm_s]; rewrite V by (cbn; tauto); f_equal; back; sums; hide_sums;
  rewrite VH, ?VSi, ?VPi; opens; rring.
Ltac relax_rule Hk := unfold normal_at_surface; cbn [axis_eqb]; rewrite ?andb_false_r; cbn [andb];
  lazy beta iota zeta delta [sig rel low up low2 up2 append nm_s]; apply relax_eq; [apply Hf; exact Hk|exact HD|]; back;
  rewrite (proj2 (Nat.ltb_lt _ _) Hk), (vp_inv _ _ _ _ VP), (vp_c1 _ _ _ _ VP), (vp_c2 _ _ _ _ VP) by exact Hk; opens; rring.

Hypothesis VS : visco_surf e c f DT surface.
Notation half := (e_sca e (N "DThalf" 0)).
Definition exch_facts (h : string) (a : axis) (s s' : state R_arith) : Prop :=
  (forall k i, s' (rel a a k) i =
     if (k <? c_L c)%nat && surface i then s (rel a a k) i + e_coef e (N "scaleRelaxationHorizontalUpdate" k) i * s (N h 0) i - e_coef e (N "scaleRelaxationVerticalUpdate" k) i * s (N "vyy" 0) i
     else s (rel a a k) i) /\
   (forall i, s' (sig a a) i = if surface i then s (sig a a) i - half * Rsum (@map nat R (fun l => s (rel a a l) i) (seq 0 (c_L c)))
       + e_coef e (N "scaleStressHorizontalUpdate" 0) i * s (N h 0) i - e_coef e (N "scaleStressVerticalUpdate" 0) i * s (N "vyy" 0) i
       + half * Rsum (@map nat R (fun l => s' (rel a a l) i) (seq 0 (c_L c)))
     else s (sig a a) i).
Lemma exch_spec h cs s : c_fs c = 1%Z -> In (h, cs) [("vxx"%string, [AX]); ("update"%string, [AX; AZ])] ->
  let s' := ex (exch (c_L c) h cs) s in
  frame (["fs_temp"; "Syy"; "Ryy"] ++ flat_map (fun a => ["S" ++ low2 a a; "R" ++ low2 a a]%string) cs) s s' /\
  (forall i, s' (N "Syy" 0) i = if surface i then 0 else s (N "Syy" 0) i) /\
  (forall k i, s' (N "Ryy" k) i = if (k <? c_L c)%nat && surface i then 0 else s (N "Ryy" k) i) /\
  (forall a, In a cs -> exch_facts h a s s').
Proof.
  intros HF Hc s'. unfold s', exch, exch_facts. clear s'. 
  destruct VS as [Hz Hsel Hsv Hsh Hrv Hrh _ _]. specialize (Hz HF). specialize (Hsel HF). specialize (Hsv HF). specialize (Hsh HF). specialize (Hrv HF). specialize (Hrh HF).
  segs 4. set (s1 := ex (loop (c_L c) (loopD cs)) s).
  assert (K1 : frame ("fs_temp"%string :: map (fun a => "S" ++ low2 a a)%string cs) s s1).
  { destruct Hc as [E|[E|[]]]; injection E as <- <-; framed s1. }
  pose proof (fun a i (H : In a cs) => loopD_S e src t cs s (c_L c) a i ltac:(destruct Hc as [E|[E|[]]]; injection E as <- <-; cbn; tauto) H) as S1.
  fold s1 in S1. clearbody s1.
  match goal with |- context [ex (loop (c_L c) (loopE h cs)) ?q] => set (s2 := q) end.
  assert (K2 : frame ("fs_temp"%string :: map (fun a => "S" ++ low2 a a)%string cs) s1 s2).
  { destruct Hc as [E|[E|[]]]; injection E as <- <-; framed s2. }
  assert (S2 : forall a i, In a cs -> s2 (sig a a) i = s1 (sig a a) i + e_coef e (N "scaleStressHorizontalUpdate" 0) i * s1 (N h 0) i - e_coef e (N "scaleStressVerticalUpdate" 0) i * s1 (N "vyy" 0) i).
  { intros a i Ha. unfold s2. destruct Hc as [E|[E|[]]]; injection E as <- <-; destruct a; cbn [In] in Ha; try (exfalso; intuition discriminate); names_r; ev; rring. }
  clearbody s2. set (s3 := ex (loop (c_L c) (loopE h cs)) s2).
  assert (K3 : frame ("fs_temp"%string :: flat_map (fun a => ["S" ++ low2 a a; "R" ++ low2 a a]%string) cs) s2 s3).
  { destruct Hc as [E|[E|[]]]; injection E as <- <-; framed s3. }
  assert (R3 := fun a k i (H : In a cs) => loopE_R e src t h cs s2 (c_L c) a k i Hc H).
  assert (S3 := fun a i (H : In a cs) => loopE_S e src t h cs s2 (c_L c) a i Hc H).
  fold s3 in R3, S3. clearbody s3. set (s4 := ex (setSurfaceZero "Syy") s3).
  assert (K4 : frame ["Syy"%string] s3 s4) by framed s4.
  assert (S4 : forall i, s4 (N "Syy" 0) i = s3 (N "Syy" 0) i * e_coef e (N "setZeroFreeSurface" 0) i) by (intros i; unfold s4; ev; reflexivity).
  clearbody s4. set (s5 := ex (loop (c_L c) loopF) s4).
  assert (K5 : frame ["Ryy"%string] s4 s5) by framed s5.
  assert (R5 := fun k i => loopF_R e src t s4 (c_L c) k i). fold s5 in R5. clearbody s5.
  repeat apply conj.
  - destruct Hc as [E|[E|[]]]; injection E as <- <-; 
    (eapply frame_trans; [eapply frame_sub; [|exact K1]; reflexivity|]; eapply frame_trans; [eapply frame_sub; [|exact K2]; reflexivity|];
     eapply frame_trans; [eapply frame_sub; [|exact K3]; reflexivity|]; eapply frame_trans; [eapply frame_sub; [|exact K4]; reflexivity|];
     eapply frame_sub; [|exact K5]; reflexivity).
  - intros i. destruct Hc as [E|[E|[]]]; injection E as <- <-; back; rewrite ?Hz; destruct (surface i); rring.
  - intros k i. destruct Hc as [E|[E|[]]]; injection E as <- <-; back; rewrite ?Hz; destruct (k <? c_L c)%nat, (surface i); cbn [andb]; rring || reflexivity.
  - intros a Ha.
    assert (R5a : forall k i, s5 (rel a a k) i = if (k <? c_L c)%nat && surface i then s (rel a a k) i + e_coef e (N "scaleRelaxationHorizontalUpdate" k) i * s (N h 0) i - e_coef e (N "scaleRelaxationVerticalUpdate" k) i * s (N "vyy" 0) i
     else s (rel a a k) i).
    { intros k i. specialize (R3 a k i Ha). clear S1 S2 S3 S4 R5. specialize (Hrv k i). specialize (Hrh k i). 
      destruct Hc as [E|[E|[]]]; injection E as <- <-; destruct a; cbn [In] in Ha; try (exfalso; intuition discriminate); named R3; names_r; back;
      (destruct (Nat.ltb_spec k (c_L c)) as [Hk|Hk]; cbn [andb]; [rewrite (Hrv Hk), (Hrh Hk); destruct (surface i);  rring|reflexivity]). }
    split; [exact R5a|]. intros i. pose proof (S1 a i Ha) as S1a. pose proof (S2 a i Ha) as S2a. pose proof (S3 a i Ha) as S3a. clear S1 S2 S3 R5.
    assert (Q : forall k, s5 (rel a a k) = s3 (rel a a k)).
    { intros k. destruct Hc as [E|[E|[]]]; injection E as <- <-; destruct a; cbn [In] in Ha; try (exfalso; intuition discriminate); names_r; back; reflexivity. }
    replace (s5 (sig a a) i) with (s3 (sig a a) i) by
     (destruct Hc as [E|[E|[]]]; injection E as <- <-; destruct a; cbn [In] in Ha; try (exfalso; intuition discriminate); names_r; unfold nm_s; clear S1a S2a S3a; back; reflexivity).
    rewrite S3a, S2a, S1a, Hsh, Hsv, Hsel.
    replace (s1 (N h 0)) with (s (N h 0)) by (destruct Hc as [E|[E|[]]]; injection E as <- <-; back; reflexivity).
    replace (s1 (N "vyy" 0)) with (s (N "vyy" 0)) by (destruct Hc as [E|[E|[]]]; injection E as <- <-; back; reflexivity).
    destruct (surface i).
    + rewrite (Rsum_ext (fun l => 1 * s (rel a a l) i) (fun l => s (rel a a l) i)) by (intros; rring).
      rewrite (Rsum_ext (fun l => 1 * s3 (rel a a l) i) (fun l => s5 (rel a a l) i)) by (intros; rewrite Q; rring). rring.
    + rewrite (Rsum_scale 0 (fun l => s (rel a a l) i)), (Rsum_scale 0 (fun l => s3 (rel a a l) i)). rring.
Qed.

Lemma step_2Dviscosh : step [AX; AY] [AZ] (exec e src t (run_2Dviscosh c) st).
Proof.
  rewrite exec_unstag by exact HU. unfold run_2Dviscosh.
  change [IAdd "update" "update_temp"; IMulV "update" "inverseDensity"; IAdd "vZ" "update"; IMv "update" "Dxf" "vZ"]
    with ([IAdd "update" "update_temp"; IMulV "update" "inverseDensity"; IAdd "vZ" "update"] ++ [IMv "update" "Dxf" "vZ"]).
  rewrite <- (app_assoc [IAdd "update" "update_temp"; IMulV "update" "inverseDensity"; IAdd "vZ" "update"]).
  as_loop (loopC AX AZ). as_loop (loopC AY AZ).
  segs 4. cut st1.
  assert (F : holds st1 (fv e c st [AX; AY] [AZ] ++ fps e c st [AX; AY] [AZ])) by abstract (clear HD Hf VP; stage1 st1).
  assert (K1 : frame ["update"; "update_temp"; "cpml_temp"; "vZ"; "psi_sxz_x"; "psi_syz_y"]%string st st1) by (clear F; framed st1).
  clearbody st1. facts_in F.
  segs 3. cut st2.
  assert (K2 : frame ["update"; "cpml_temp"; "psi_vzx"]%string st1 st2) by framed st2.
  assert (U2 : st2 (N "update" 0) = fun i => smod e AX AZ i * (grad e c st [AX; AY] [AZ] AX AZ i + grad e c st [AX; AY] [AZ] AZ AX i)).
  { clear K2; destruct (c_pml c) eqn:EP; val st2. }
  assert (P2 : st2 (N "psi_vzx" 0) = new_psi_vel e c st [AX; AY] AZ AX).
  { clear K2 U2; destruct (c_pml c) eqn:EP; val st2. }
  clearbody st2. segs 1. cut st3.
  assert (K3 : frame ["update2"; "Sxz"; "Rxz"]%string st2 st3) by framed st3.
  loop_c e src t st2 (c_L c) AX AZ st3 S3 R3. clearbody st3. segs 3. cut st4.
  assert (K4 : frame ["update"; "cpml_temp"; "psi_vzy"; "Sxz"]%string st3 st4) by framed st4.
  assert (S4 : forall i, st4 (N "Sxz" 0) i = st3 (N "Sxz" 0) i + st3 (N "update" 0) i * e_coef e (N "onePlusLtauS" 0) i).
  { intros i. unfold st4. destruct (c_pml c); ev; reflexivity. }
  assert (U4 : st4 (N "update" 0) = fun i => smod e AY AZ i * (grad e c st [AX; AY] [AZ] AY AZ i + grad e c st [AX; AY] [AZ] AZ AY i)).
  { clear K4 S4; destruct (c_pml c) eqn:EP; val st4. }
  assert (P4 : st4 (N "psi_vzy" 0) = new_psi_vel e c st [AX; AY] AZ AY).
  { clear K4 S4 U4; destruct (c_pml c) eqn:EP; val st4. }
  clearbody st4. segs 1. cut st5.
  assert (K5 : frame ["update2"; "Syz"; "Ryz"]%string st4 st5) by framed st5.
  loop_c e src t st4 (c_L c) AY AZ st5 S5 R5. clearbody st5. segs 1. cut st6.
  assert (K6 : frame ["update"; "Syz"]%string st5 st6) by framed st6.
  assert (S6 : forall i, st6 (N "Syz" 0) i = st5 (N "Syz" 0) i + st5 (N "update" 0) i * e_coef e (N "onePlusLtauS" 0) i).
  { intros i. unfold st6. ev; reflexivity. }
  clearbody st6. 
  match goal with |- step _ _ ?s' => set (s7 := s') end.
  pose proof (abs_frame e c src t ["Sxz"; "Syz"; "vZ"]%string st6 : frame _ st6 s7) as K7.
  assert (V7 : forall x i, In x ["Sxz"; "Syz"; "vZ"]%string -> s7 (N x 0) i = damped e c (st6 (N x 0) i) i).
  { intros x i Hx. apply abs_value; [|exact Hx]. repeat constructor; cbn; intuition discriminate. }
  clearbody s7. unfold elastic_step. repeat apply conj.
  - intros [] i; cbn [has existsb axis_eqb orb]; intros K; try discriminate K. names0. rewrite V7 by (cbn; tauto). back. reflexivity.
  - intros [] [] i; unfold stress; cbn [has existsb axis_eqb orb andb]; intros K; try discriminate K; stress_eq V7.
  - intros [] [] i k; unfold stress; cbn [has existsb axis_eqb orb andb]; intros K Hk; try discriminate K; relax_rule Hk.
  - intros HPml [] [] i; cbn [has existsb axis_eqb orb]; intros H1 H2; try discriminate H1; try discriminate H2;
    (split; names0; back; unfold new_psi_sig, new_psi_vel; rewrite HPml; names0; reflexivity).
Qed.

Lemma uP_factors i : pmod e i <> 0 /\ 1 + INR (c_L c) * e_coef e (N "tauP" 0) i <> 0.
Proof. pose proof (vs_p _ _ _ _ _ VS i) as H. unfold unrelaxedP, nm_s in H. split; intros E; apply H; rewrite E; ring. Qed.
Lemma on_surface i : surface i = true -> c_fs c = 1%Z.
Proof. intros H. destruct (Z.eq_dec (c_fs c) 1) as [E|E]; [exact E|]. rewrite (vs_s _ _ _ _ _ VS E) in H. discriminate. Qed.
Ltac vecs ES := let E1 := fresh in pose proof (on_surface _ ES) as E1; rewrite ?(vs_sv _ _ _ _ _ VS E1), ?(vs_sh _ _ _ _ _ VS E1), ES; clear E1.
Ltac opens2 i ES := unfold hooke, grad_s, unrelaxedM, unrelaxedP, relaxM, relaxP; rewrite ?ES; cbn [axis_eqb andb filter negb];
  let H := fresh in pose proof (uP_factors i) as H; revert H;
  lazy beta iota zeta delta [smod taus pmod up2 up append nm_s axis_eqb sum_axes map Rsum fold_right negb andb]; rewrite ?ES; lazy beta iota delta [andb]; grads; intros [? ?]; real; apply (Rplus_eq_reg_l 0); 
  first [ring | (field; repeat split; assumption)].
Ltac norm_x V r i sA sB sE sF sL := unfold normal_at_surface; cbn [axis_eqb]; rewrite ?andb_false_r; cbn [andb];
  lazy beta iota zeta delta [sig rel low up low2 up2 append nm_s]; rewrite V by (cbn; tauto); f_equal; rewrite Rsum_plus;
  let E1 := fresh in let E2 := fresh in let E3 := fresh in let ES := fresh in 
  assert (E1 : Rsum (@map nat R (fun l => sA (N r l) i) (seq 0 (c_L c))) = Rsum (@map nat R (fun l => st (N r l) i) (seq 0 (c_L c)))) by (apply Rsum_ext; intros l _; back; reflexivity);
  assert (E2 : Rsum (@map nat R (fun l => sE (N r l) i) (seq 0 (c_L c))) = Rsum (@map nat R (fun l => sB (N r l) i) (seq 0 (c_L c)))) by (apply Rsum_ext; intros l _; back; reflexivity);
  assert (E3 : Rsum (@map nat R (fun l => sF (N r l) i) (seq 0 (c_L c))) = Rsum (@map nat R (fun l => sL (N r l) i) (seq 0 (c_L c)))) by (apply Rsum_ext; intros l _; back; reflexivity);
  destruct (surface i) eqn:ES;
  [back; rewrite ES; back; rewrite E1, E2, E3; clear E1 E2 E3; hide_sums; vecs ES; rewrite VH, ?VSi, ?VPi; opens2 i ES
  |let E4 := fresh in
   assert (E4 : Rsum (@map nat R (fun l => sB (N r l) i) (seq 0 (c_L c))) = Rsum (@map nat R (fun l => sL (N r l) i) (seq 0 (c_L c)))) by (apply Rsum_ext; intros l _; back; rewrite ES, ?andb_false_r; back; reflexivity);
   back; rewrite ES; back; rewrite E1, E4; clear E1 E2 E3 E4; hide_sums; rewrite VH, ?VSi, ?VPi; opens2 i ES].
Ltac norm_y V r i sA sB sL := unfold normal_at_surface; cbn [axis_eqb]; rewrite ?andb_true_r; 
  lazy beta iota zeta delta [sig rel low up low2 up2 append nm_s]; rewrite V by (cbn; tauto); rewrite Rsum_plus;
  let E1 := fresh in let ES := fresh in 
  assert (E1 : Rsum (@map nat R (fun l => sA (N r l) i) (seq 0 (c_L c))) = Rsum (@map nat R (fun l => st (N r l) i) (seq 0 (c_L c)))) by (apply Rsum_ext; intros l _; back; reflexivity);
  destruct (surface i) eqn:ES;
  [back; rewrite ES; unfold damped; destruct (c_damp c); rring
  |f_equal; let E4 := fresh in
   assert (E4 : Rsum (@map nat R (fun l => sB (N r l) i) (seq 0 (c_L c))) = Rsum (@map nat R (fun l => sL (N r l) i) (seq 0 (c_L c)))) by (apply Rsum_ext; intros l _; back; rewrite ES, ?andb_false_r; back; reflexivity);
   back; rewrite ES; back; rewrite E1, E4; clear E1 E4; hide_sums; rewrite VH, ?VSi, ?VPi; opens2 i ES].
Ltac coeffs Hk := rewrite ?(vp_inv _ _ _ _ VP), ?(vp_c1 _ _ _ _ VP), ?(vp_c2 _ _ _ _ VP) by exact Hk.
Ltac relax_x i k Hk := unfold normal_at_surface; cbn [axis_eqb]; rewrite ?andb_false_r; cbn [andb];
  lazy beta iota zeta delta [sig rel low up low2 up2 append nm_s]; apply relax_eq; [apply Hf; exact Hk|exact HD|]; 
  let ES := fresh in destruct (surface i) eqn:ES; back; rewrite (proj2 (Nat.ltb_lt _ _) Hk), ES; cbn [andb]; back; rewrite ?(proj2 (Nat.ltb_lt _ _) Hk);
  coeffs Hk; [let E1 := fresh in pose proof (on_surface _ ES) as E1; rewrite (vs_rv _ _ _ _ _ VS E1), (vs_rh _ _ _ _ _ VS E1), ES by exact Hk|]; opens2 i ES.
Ltac relax_y i k Hk := unfold normal_at_surface; cbn [axis_eqb]; rewrite ?andb_true_r; 
  lazy beta iota zeta delta [sig rel low up low2 up2 append nm_s];
  let ES := fresh in destruct (surface i) eqn:ES; [back; rewrite (proj2 (Nat.ltb_lt _ _) Hk), ES; reflexivity|];
  apply relax_eq; [apply Hf; exact Hk|exact HD|]; back; rewrite (proj2 (Nat.ltb_lt _ _) Hk), ES; cbn [andb]; back; rewrite ?(proj2 (Nat.ltb_lt _ _) Hk); coeffs Hk; opens2 i ES.

Lemma step_2Dviscoelastic : c_fs c = 0%Z \/ c_fs c = 1%Z -> step [AX; AY] [AX; AY] (exec e src t (run_2Dviscoelastic c) st).
Proof.
  intros HFS. rewrite exec_unstag by exact HU. unfold run_2Dviscoelastic.
  change [IAdd "update" "update_temp"; IMulV "update" "inverseDensityAverageY"; IAdd "vY" "update"; IMv "vxx" "Dxb" "vX"; IMv "vyy" "Dyb" "vY"]
    with ([IAdd "update" "update_temp"; IMulV "update" "inverseDensityAverageY"; IAdd "vY" "update"] ++ [IMv "vxx" "Dxb" "vX"; IMv "vyy" "Dyb" "vY"]).
  rewrite <- (app_assoc [IAdd "update" "update_temp"; IMulV "update" "inverseDensityAverageY"; IAdd "vY" "update"]).
  as_loop (loopA [AX; AY]). as_loop (loopB AX). as_loop (loopB AY). as_loop (loopC AX AY).
  match goal with |- context [when (negb (c_fs c =? 0)%Z) ?p] => replace p with (exch (c_L c) "vxx" [AX]) by (unfold exchange_2Dviscoelastic; rewrite <- !app_assoc; reflexivity) end.
  segs 9. cut st1.
  assert (F : holds st1 (fv e c st [AX; AY] [AX; AY] ++ fps e c st [AX; AY] [AX; AY])) by abstract (clear HD Hf VP VS HFS; stage1 st1).
  assert (K1 : frame ["update"; "update_temp"; "cpml_temp"; "vX"; "vY"; "psi_sxx_x"; "psi_sxy_x"; "psi_sxy_y"; "psi_syy_y"]%string st st1) by (clear F; framed st1).
  clearbody st1. facts_in F.
  segs 3. cut st2.
  assert (K2 : frame ["update"; "cpml_temp"; "vxx"; "vyy"; "psi_vxx"; "psi_vyy"]%string st1 st2) by framed st2.
  assert (U2 : st2 (N "update" 0) = fun i => pmod e i * (grad e c st [AX; AY] [AX; AY] AX AX i + grad e c st [AX; AY] [AX; AY] AY AY i)) by abstract (clear K2; destruct (c_pml c) eqn:EP; val st2).
  assert (X2 : st2 (N "vxx" 0) = grad e c st [AX; AY] [AX; AY] AX AX) by abstract (clear K2; destruct (c_pml c) eqn:EP; val st2).
  assert (Y2 : st2 (N "vyy" 0) = grad e c st [AX; AY] [AX; AY] AY AY) by abstract (clear K2; destruct (c_pml c) eqn:EP; val st2).
  assert (P2 : st2 (N "psi_vxx" 0) = new_psi_vel e c st [AX; AY] AX AX) by abstract (clear K2; destruct (c_pml c) eqn:EP; val st2).
  assert (Q2 : st2 (N "psi_vyy" 0) = new_psi_vel e c st [AX; AY] AY AY) by abstract (clear K2; destruct (c_pml c) eqn:EP; val st2).
  clearbody st2. segs 1. cut st3.
  assert (K3 : frame ["update2"; "Sxx"; "Syy"; "Rxx"; "Ryy"]%string st2 st3) by framed st3.
  loop_a e src t st2 (c_L c) [AX; AY] AX st3 S3x R3x. loop_a e src t st2 (c_L c) [AX; AY] AY st3 S3y R3y.
  clearbody st3. segs 1. cut st4.
  assert (K4 : frame ["update"; "Sxx"; "Syy"]%string st3 st4) by framed st4.
  assert (S4x : forall i, st4 (N "Sxx" 0) i = st3 (N "Sxx" 0) i + st3 (N "update" 0) i * e_coef e (N "onePlusLtauP" 0) i) by (intros i; unfold st4; ev; reflexivity).
  assert (S4y : forall i, st4 (N "Syy" 0) i = st3 (N "Syy" 0) i + st3 (N "update" 0) i * e_coef e (N "onePlusLtauP" 0) i) by (intros i; unfold st4; ev; reflexivity).
  assert (U4 : forall i, st4 (N "update" 0) i = 2 * smod e AX AX i * st3 (N "vyy" 0) i) by (intros i; unfold st4; ev; names; rewrite ?Q2R_2; rring).
  clearbody st4. segs 1. cut st5.
  assert (K5 : frame ["update2"; "Sxx"; "Rxx"]%string st4 st5) by framed st5.
  loop_b e src t st4 (c_L c) AX st5 S5 R5. clearbody st5. segs 1. cut st6.
  assert (K6 : frame ["update"; "Sxx"]%string st5 st6) by framed st6.
  assert (S6 : forall i, st6 (N "Sxx" 0) i = st5 (N "Sxx" 0) i - st5 (N "update" 0) i * e_coef e (N "onePlusLtauS" 0) i) by (intros i; unfold st6; ev; reflexivity).
  assert (U6 : forall i, st6 (N "update" 0) i = 2 * smod e AX AX i * st5 (N "vxx" 0) i) by (intros i; unfold st6; ev; names; rewrite ?Q2R_2; rring).
  clearbody st6. segs 1. cut st7.
  assert (K7 : frame ["update2"; "Syy"; "Ryy"]%string st6 st7) by framed st7.
  loop_b e src t st6 (c_L c) AY st7 S7 R7. clearbody st7. segs 5. cut st8.
  assert (K8 : frame ["update"; "update_temp"; "cpml_temp"; "psi_vxy"; "psi_vyx"; "Syy"]%string st7 st8) by framed st8.
  assert (S8 : forall i, st8 (N "Syy" 0) i = st7 (N "Syy" 0) i - st7 (N "update" 0) i * e_coef e (N "onePlusLtauS" 0) i) by (intros i; unfold st8; destruct (c_pml c); ev; reflexivity).
  assert (U8 : st8 (N "update" 0) = fun i => smod e AX AY i * (grad e c st [AX; AY] [AX; AY] AX AY i + grad e c st [AX; AY] [AX; AY] AY AX i)) by abstract (clear K8 S8; destruct (c_pml c) eqn:EP; val st8).
  assert (P8 : st8 (N "psi_vxy" 0) = new_psi_vel e c st [AX; AY] AX AY) by abstract (clear K8 S8 U8; destruct (c_pml c) eqn:EP; val st8).
  assert (Q8 : st8 (N "psi_vyx" 0) = new_psi_vel e c st [AX; AY] AY AX) by abstract (clear K8 S8 U8; destruct (c_pml c) eqn:EP; val st8).
  clearbody st8. segs 1. cut st9.
  assert (K9 : frame ["update2"; "Sxy"; "Rxy"]%string st8 st9) by framed st9.
  loop_c e src t st8 (c_L c) AX AY st9 S9 R9. clearbody st9. segs 1. cut st10.
  assert (K10 : frame ["update"; "Sxy"]%string st9 st10) by framed st10.
  assert (S10 : forall i, st10 (N "Sxy" 0) i = st9 (N "Sxy" 0) i + st9 (N "update" 0) i * e_coef e (N "onePlusLtauS" 0) i) by (intros i; unfold st10; ev; reflexivity).
  clearbody st10. segs 1. cut st11.
  assert (EX : frame ["fs_temp"; "Syy"; "Ryy"; "Sxx"; "Rxx"]%string st10 st11 /\
    (forall i, st11 (N "Syy" 0) i = if surface i then 0 else st10 (N "Syy" 0) i) /\
    (forall k i, st11 (N "Ryy" k) i = if (k <? c_L c)%nat && surface i then 0 else st10 (N "Ryy" k) i) /\ exch_facts "vxx" AX st10 st11).
  { destruct HFS as [E|E].
    - unfold st11. rewrite E. cbn [Z.eqb negb when map]. change (ex [] st10) with st10. assert (SF : forall i, surface i = false) by (intros i; apply (vs_s _ _ _ _ _ VS); rewrite E; discriminate).
      repeat apply conj; first [apply frame_refl | intros; rewrite ?SF, ?andb_false_r; reflexivity].
    - destruct (exch_spec "vxx" [AX] st10 E ltac:(cbn; tauto)) as (E1 & E2 & E3 & E4). unfold st11. rewrite E. cbn [Z.eqb Pos.eqb negb when].
      repeat (split; [first [exact E1|exact E2|exact E3]|]). apply E4. left; reflexivity. }
  destruct EX as (K11 & S11y & R11y & R11x & S11x). named R11x. named S11x. clearbody st11.
  match goal with |- step _ _ ?s' => set (s12 := s') end.
  pose proof (abs_frame e c src t ["Sxx"; "Syy"; "Sxy"; "vX"; "vY"]%string st11 : frame _ st11 s12) as K12.
  assert (V12 : forall x i, In x ["Sxx"; "Syy"; "Sxy"; "vX"; "vY"]%string -> s12 (N x 0) i = damped e c (st11 (N x 0) i) i).
  { intros x i Hx. apply abs_value; [|exact Hx]. repeat constructor; cbn; intuition discriminate. }
  clearbody s12. unfold elastic_step. repeat apply conj.
  - intros [] i; cbn [has existsb axis_eqb orb]; intros K; try discriminate K; names0; rewrite V12 by (cbn; tauto); back; reflexivity.
  - intros [] [] i; unfold stress; cbn [has existsb axis_eqb orb andb]; intros K; try discriminate K.
    + norm_x V12 "Rxx"%string i st2 st5 st10 st11 s12.
    + stress_eq V12.
    + stress_eq V12.
    + norm_y V12 "Ryy"%string i st2 st7 s12.
  - intros [] [] i k; unfold stress; cbn [has existsb axis_eqb orb andb]; intros K Hk; try discriminate K.
    + relax_x i k Hk.
    + relax_rule Hk.
    + relax_rule Hk.
    + relax_y i k Hk.
  - intros HPml [] [] i; cbn [has existsb axis_eqb orb]; intros H1 H2; try discriminate H1; try discriminate H2;
    (split; names0; back; unfold new_psi_sig, new_psi_vel; rewrite HPml; names0; reflexivity).
Qed.
(** The three dimensional solver tests the free surface with [== 1]. *)
Lemma step_3Dviscoelastic : step [AX; AY; AZ] [AX; AY; AZ] (exec e src t (run_3Dviscoelastic c) st).
Proof.
  rewrite exec_unstag by exact HU. unfold run_3Dviscoelastic.
  change [IAdd "update" "update_temp"; IMulV "update" "inverseDensityAverageZ"; IAdd "vZ" "update"; IMv "vxx" "Dxb" "vX"; IMv "vyy" "Dyb" "vY"; IMv "vzz" "Dzb" "vZ"]
    with ([IAdd "update" "update_temp"; IMulV "update" "inverseDensityAverageZ"; IAdd "vZ" "update"] ++ [IMv "vxx" "Dxb" "vX"; IMv "vyy" "Dyb" "vY"; IMv "vzz" "Dzb" "vZ"]).
  rewrite <- (app_assoc [IAdd "update" "update_temp"; IMulV "update" "inverseDensityAverageZ"; IAdd "vZ" "update"]).
  as_loop (loopA [AX; AY; AZ]). as_loop (loopB AX). as_loop (loopB AY). as_loop (loopB AZ). as_loop (loopC AX AY). as_loop (loopC AX AZ). as_loop (loopC AY AZ).
  match goal with |- context [when (c_fs c =? 1)%Z ([ISum ?u ?v ?w] ++ ?p)] => replace p with (exch (c_L c) "update" [AX; AZ]) by (unfold exchange_3Dviscoelastic; rewrite <- !app_assoc; reflexivity) end.
  segs 19. cut st1.
  assert (F : holds st1 (fv e c st [AX; AY; AZ] [AX; AY; AZ] ++ fps e c st [AX; AY; AZ] [AX; AY; AZ])) by abstract (clear HD Hf VP VS; stage1 st1).
  assert (K1 : frame ["update"; "update_temp"; "cpml_temp"; "vX"; "vY"; "vZ"; "psi_sxx_x"; "psi_sxy_x"; "psi_sxz_x"; "psi_sxy_y"; "psi_syy_y"; "psi_syz_y"; "psi_sxz_z"; "psi_syz_z"; "psi_szz_z"]%string st st1) by (clear F; framed st1).
  clearbody st1. facts_in F.
  segs 3. cut st2.
  assert (K2 : frame ["update"; "cpml_temp"; "vxx"; "vyy"; "vzz"; "psi_vxx"; "psi_vyy"; "psi_vzz"]%string st1 st2) by framed st2.
  assert (U2 : st2 (N "update" 0) = fun i => pmod e i * (grad e c st [AX; AY; AZ] [AX; AY; AZ] AX AX i + grad e c st [AX; AY; AZ] [AX; AY; AZ] AY AY i + grad e c st [AX; AY; AZ] [AX; AY; AZ] AZ AZ i)) by abstract (clear K2; destruct (c_pml c) eqn:EP; val st2).
  assert (X2x : st2 (N "vxx" 0) = grad e c st [AX; AY; AZ] [AX; AY; AZ] AX AX) by abstract (clear K2; destruct (c_pml c) eqn:EP; val st2).
  assert (P2x : st2 (N "psi_vxx" 0) = new_psi_vel e c st [AX; AY; AZ] AX AX) by abstract (clear K2; destruct (c_pml c) eqn:EP; val st2).
  assert (X2y : st2 (N "vyy" 0) = grad e c st [AX; AY; AZ] [AX; AY; AZ] AY AY) by abstract (clear K2; destruct (c_pml c) eqn:EP; val st2).
  assert (P2y : st2 (N "psi_vyy" 0) = new_psi_vel e c st [AX; AY; AZ] AY AY) by abstract (clear K2; destruct (c_pml c) eqn:EP; val st2).
  assert (X2z : st2 (N "vzz" 0) = grad e c st [AX; AY; AZ] [AX; AY; AZ] AZ AZ) by abstract (clear K2; destruct (c_pml c) eqn:EP; val st2).
  assert (P2z : st2 (N "psi_vzz" 0) = new_psi_vel e c st [AX; AY; AZ] AZ AZ) by abstract (clear K2; destruct (c_pml c) eqn:EP; val st2).
  clearbody st2. segs 1. cut st3.
  assert (K3 : frame ["update2"; "Sxx"; "Syy"; "Szz"; "Rxx"; "Ryy"; "Rzz"]%string st2 st3) by framed st3.
  loop_a e src t st2 (c_L c) [AX; AY; AZ] AX st3 S3x R3x. loop_a e src t st2 (c_L c) [AX; AY; AZ] AY st3 S3y R3y. loop_a e src t st2 (c_L c) [AX; AY; AZ] AZ st3 S3z R3z.
  clearbody st3. segs 1. cut st4.
  assert (K4 : frame ["update"; "Sxx"; "Syy"; "Szz"]%string st3 st4) by framed st4.
  assert (S4x : forall i, st4 (N "Sxx" 0) i = st3 (N "Sxx" 0) i + st3 (N "update" 0) i * e_coef e (N "onePlusLtauP" 0) i) by (intros i; unfold st4; ev; reflexivity).
  assert (S4y : forall i, st4 (N "Syy" 0) i = st3 (N "Syy" 0) i + st3 (N "update" 0) i * e_coef e (N "onePlusLtauP" 0) i) by (intros i; unfold st4; ev; reflexivity).
  assert (S4z : forall i, st4 (N "Szz" 0) i = st3 (N "Szz" 0) i + st3 (N "update" 0) i * e_coef e (N "onePlusLtauP" 0) i) by (intros i; unfold st4; ev; reflexivity).
  assert (U4 : forall i, st4 (N "update" 0) i = 2 * smod e AX AX i * (st3 (N "vyy" 0) i + st3 (N "vzz" 0) i)) by (intros i; unfold st4; ev; names; rewrite ?Q2R_2; rring).
  clearbody st4. segs 1. cut st5.
  assert (K5 : frame ["update2"; "Sxx"; "Rxx"]%string st4 st5) by framed st5.
  loop_b e src t st4 (c_L c) AX st5 S5 R5. clearbody st5. segs 1. cut st6.
  assert (K6 : frame ["update"; "Sxx"]%string st5 st6) by framed st6.
  assert (S6 : forall i, st6 (N "Sxx" 0) i = st5 (N "Sxx" 0) i - st5 (N "update" 0) i * e_coef e (N "onePlusLtauS" 0) i) by (intros i; unfold st6; ev; reflexivity).
  assert (U6 : forall i, st6 (N "update" 0) i = 2 * smod e AX AX i * (st5 (N "vxx" 0) i + st5 (N "vzz" 0) i)) by (intros i; unfold st6; ev; names; rewrite ?Q2R_2; rring).
  clearbody st6. segs 1. cut st7.
  assert (K7 : frame ["update2"; "Syy"; "Ryy"]%string st6 st7) by framed st7.
  loop_b e src t st6 (c_L c) AY st7 S7 R7. clearbody st7. segs 1. cut st8.
  assert (K8 : frame ["update"; "Syy"]%string st7 st8) by framed st8.
  assert (S8 : forall i, st8 (N "Syy" 0) i = st7 (N "Syy" 0) i - st7 (N "update" 0) i * e_coef e (N "onePlusLtauS" 0) i) by (intros i; unfold st8; ev; reflexivity).
  assert (U8 : forall i, st8 (N "update" 0) i = 2 * smod e AX AX i * (st7 (N "vxx" 0) i + st7 (N "vyy" 0) i)) by (intros i; unfold st8; ev; names; rewrite ?Q2R_2; rring).
  clearbody st8. segs 1. cut st9.
  assert (K9 : frame ["update2"; "Szz"; "Rzz"]%string st8 st9) by framed st9.
  loop_b e src t st8 (c_L c) AZ st9 S9 R9. clearbody st9.
  segs 5. cut st10.
  assert (K10 : frame ["update"; "update_temp"; "cpml_temp"; "psi_vxy"; "psi_vyx"; "Szz"]%string st9 st10) by framed st10.
  assert (S10 : forall i, st10 (N "Szz" 0) i = st9 (N "Szz" 0) i - st9 (N "update" 0) i * e_coef e (N "onePlusLtauS" 0) i) by (intros i; unfold st10; destruct (c_pml c); ev; reflexivity).
  assert (U10 : st10 (N "update" 0) = fun i => smod e AX AY i * (grad e c st [AX; AY; AZ] [AX; AY; AZ] AX AY i + grad e c st [AX; AY; AZ] [AX; AY; AZ] AY AX i)) by abstract (clear K10 S10; destruct (c_pml c) eqn:EP; val st10).
  assert (P10 : st10 (N "psi_vxy" 0) = new_psi_vel e c st [AX; AY; AZ] AX AY) by abstract (clear K10 S10 U10; destruct (c_pml c) eqn:EP; val st10).
  assert (Q10 : st10 (N "psi_vyx" 0) = new_psi_vel e c st [AX; AY; AZ] AY AX) by abstract (clear K10 S10 U10; destruct (c_pml c) eqn:EP; val st10).
  clearbody st10. segs 1. cut st11.
  assert (K11 : frame ["update2"; "Sxy"; "Rxy"]%string st10 st11) by framed st11.
  loop_c e src t st10 (c_L c) AX AY st11 S11 R11. clearbody st11.
  segs 5. cut st12.
  assert (K12 : frame ["update"; "update_temp"; "cpml_temp"; "psi_vxz"; "psi_vzx"; "Sxy"]%string st11 st12) by framed st12.
  assert (S12 : forall i, st12 (N "Sxy" 0) i = st11 (N "Sxy" 0) i + st11 (N "update" 0) i * e_coef e (N "onePlusLtauS" 0) i) by (intros i; unfold st12; destruct (c_pml c); ev; reflexivity).
  assert (U12 : st12 (N "update" 0) = fun i => smod e AX AZ i * (grad e c st [AX; AY; AZ] [AX; AY; AZ] AX AZ i + grad e c st [AX; AY; AZ] [AX; AY; AZ] AZ AX i)) by abstract (clear K12 S12; destruct (c_pml c) eqn:EP; val st12).
  assert (P12 : st12 (N "psi_vxz" 0) = new_psi_vel e c st [AX; AY; AZ] AX AZ) by abstract (clear K12 S12 U12; destruct (c_pml c) eqn:EP; val st12).
  assert (Q12 : st12 (N "psi_vzx" 0) = new_psi_vel e c st [AX; AY; AZ] AZ AX) by abstract (clear K12 S12 U12; destruct (c_pml c) eqn:EP; val st12).
  clearbody st12. segs 1. cut st13.
  assert (K13 : frame ["update2"; "Sxz"; "Rxz"]%string st12 st13) by framed st13.
  loop_c e src t st12 (c_L c) AX AZ st13 S13 R13. clearbody st13.
  segs 5. cut st14.
  assert (K14 : frame ["update"; "update_temp"; "cpml_temp"; "psi_vyz"; "psi_vzy"; "Sxz"]%string st13 st14) by framed st14.
  assert (S14 : forall i, st14 (N "Sxz" 0) i = st13 (N "Sxz" 0) i + st13 (N "update" 0) i * e_coef e (N "onePlusLtauS" 0) i) by (intros i; unfold st14; destruct (c_pml c); ev; reflexivity).
  assert (U14 : st14 (N "update" 0) = fun i => smod e AY AZ i * (grad e c st [AX; AY; AZ] [AX; AY; AZ] AY AZ i + grad e c st [AX; AY; AZ] [AX; AY; AZ] AZ AY i)) by abstract (clear K14 S14; destruct (c_pml c) eqn:EP; val st14).
  assert (P14 : st14 (N "psi_vyz" 0) = new_psi_vel e c st [AX; AY; AZ] AY AZ) by abstract (clear K14 S14 U14; destruct (c_pml c) eqn:EP; val st14).
  assert (Q14 : st14 (N "psi_vzy" 0) = new_psi_vel e c st [AX; AY; AZ] AZ AY) by abstract (clear K14 S14 U14; destruct (c_pml c) eqn:EP; val st14).
  clearbody st14. segs 1. cut st15.
  assert (K15 : frame ["update2"; "Syz"; "Ryz"]%string st14 st15) by framed st15.
  loop_c e src t st14 (c_L c) AY AZ st15 S15 R15. clearbody st15.
  segs 1. cut st16.
  assert (K16 : frame ["update"; "Syz"]%string st15 st16) by framed st16.
  assert (S16 : forall i, st16 (N "Syz" 0) i = st15 (N "Syz" 0) i + st15 (N "update" 0) i * e_coef e (N "onePlusLtauS" 0) i) by (intros i; unfold st16; ev; reflexivity).
  clearbody st16. segs 1. cut st17.
  assert (EX : frame ["update"; "fs_temp"; "Syy"; "Ryy"; "Sxx"; "Rxx"; "Szz"; "Rzz"]%string st16 st17 /\
    (forall i, st17 (N "Syy" 0) i = if surface i then 0 else st16 (N "Syy" 0) i) /\
    (forall k i, st17 (N "Ryy" k) i = if (k <? c_L c)%nat && surface i then 0 else st16 (N "Ryy" k) i) /\
    (forall i, st17 (N "Sxx" 0) i = if surface i then st16 (N "Sxx" 0) i - half * Rsum (@map nat R (fun l => st16 (N "Rxx" l) i) (seq 0 (c_L c)))
       + e_coef e (N "scaleStressHorizontalUpdate" 0) i * (st16 (N "vxx" 0) i + st16 (N "vzz" 0) i) - e_coef e (N "scaleStressVerticalUpdate" 0) i * st16 (N "vyy" 0) i
       + half * Rsum (@map nat R (fun l => st17 (N "Rxx" l) i) (seq 0 (c_L c))) else st16 (N "Sxx" 0) i) /\
    (forall k i, st17 (N "Rxx" k) i = if (k <? c_L c)%nat && surface i then st16 (N "Rxx" k) i + e_coef e (N "scaleRelaxationHorizontalUpdate" k) i * (st16 (N "vxx" 0) i + st16 (N "vzz" 0) i)
       - e_coef e (N "scaleRelaxationVerticalUpdate" k) i * st16 (N "vyy" 0) i else st16 (N "Rxx" k) i) /\
    (forall i, st17 (N "Szz" 0) i = if surface i then st16 (N "Szz" 0) i - half * Rsum (@map nat R (fun l => st16 (N "Rzz" l) i) (seq 0 (c_L c)))
       + e_coef e (N "scaleStressHorizontalUpdate" 0) i * (st16 (N "vxx" 0) i + st16 (N "vzz" 0) i) - e_coef e (N "scaleStressVerticalUpdate" 0) i * st16 (N "vyy" 0) i
       + half * Rsum (@map nat R (fun l => st17 (N "Rzz" l) i) (seq 0 (c_L c))) else st16 (N "Szz" 0) i) /\
    (forall k i, st17 (N "Rzz" k) i = if (k <? c_L c)%nat && surface i then st16 (N "Rzz" k) i + e_coef e (N "scaleRelaxationHorizontalUpdate" k) i * (st16 (N "vxx" 0) i + st16 (N "vzz" 0) i)
       - e_coef e (N "scaleRelaxationVerticalUpdate" k) i * st16 (N "vyy" 0) i else st16 (N "Rzz" k) i)).
  { destruct (Z.eq_dec (c_fs c) 1) as [E|E].
    - unfold st17. rewrite E. cbn [Z.eqb Pos.eqb when]. rewrite map_app, exec_app. set (sm := ex [ISum "update" "vxx" "vzz"] st16).
      destruct (exch_spec "update" [AX; AZ] sm E ltac:(cbn; tauto)) as (E1 & E2 & E3 & E4).
      assert (KM : frame ["update"]%string st16 sm) by framed sm. assert (UM : forall i, sm (N "update" 0) i = st16 (N "vxx" 0) i + st16 (N "vzz" 0) i) by (intros i; unfold sm; ev; reflexivity).
      clearbody sm. match goal with |- context [exec ?a1 ?a2 ?a3 ?a4 sm] => set (sx := exec a1 a2 a3 a4 sm) in * end. clearbody sx.
      destruct (E4 AX ltac:(cbn; tauto)) as [R1 S1]. destruct (E4 AZ ltac:(cbn; tauto)) as [R2 S2]. clear E4. named R1. named S1. named R2. named S2.
      assert (ER : forall x i, (forall l, sm (N x l) = st16 (N x l)) -> Rsum (@map nat R (fun l => sm (N x l) i) (seq 0 (c_L c))) = Rsum (@map nat R (fun l => st16 (N x l) i) (seq 0 (c_L c))))
        by (intros x i Hl; apply Rsum_ext; intros l _; rewrite Hl; reflexivity).
      split; [|split; [|split; [|split; [|split; [|split]]]]].
      + eapply frame_trans; [eapply frame_sub; [|exact KM]; reflexivity|eapply frame_sub; [|exact E1]; reflexivity].
      + intros i. rewrite E2, (KM "Syy"%string 0%nat eq_refl). reflexivity.
      + intros k i. rewrite E3, (KM "Ryy"%string k eq_refl). reflexivity.
      + intros i. rewrite S1, UM, ER, (KM "Sxx"%string 0%nat eq_refl), (KM "vyy"%string 0%nat eq_refl) by (intros l; apply KM; reflexivity). reflexivity.
      + intros k i. rewrite R1, UM, (KM "Rxx"%string k eq_refl), (KM "vyy"%string 0%nat eq_refl). reflexivity.
      + intros i. rewrite S2, UM, ER, (KM "Szz"%string 0%nat eq_refl), (KM "vyy"%string 0%nat eq_refl) by (intros l; apply KM; reflexivity). reflexivity.
      + intros k i. rewrite R2, UM, (KM "Rzz"%string k eq_refl), (KM "vyy"%string 0%nat eq_refl). reflexivity.
    - unfold st17. replace (c_fs c =? 1)%Z with false by (symmetry; apply Z.eqb_neq; exact E). cbn [when map]. change (ex [] st16) with st16. pose proof (vs_s _ _ _ _ _ VS E) as SF. 
      repeat apply conj; first [apply frame_refl | intros; rewrite ?SF, ?andb_false_r; reflexivity]. }
  destruct EX as (K17 & S17y & R17y & S17x & R17x & S17z & R17z). clearbody st17.
  match goal with |- step _ _ ?s' => set (s18 := s') end.
  pose proof (abs_frame e c src t ["Sxx"; "Syy"; "Szz"; "Sxy"; "Sxz"; "Syz"; "vX"; "vY"; "vZ"]%string st17 : frame _ st17 s18) as K18.
  assert (V18 : forall x i, In x ["Sxx"; "Syy"; "Szz"; "Sxy"; "Sxz"; "Syz"; "vX"; "vY"; "vZ"]%string -> s18 (N x 0) i = damped e c (st17 (N x 0) i) i).
  { intros x i Hx. apply abs_value; [|exact Hx]. repeat constructor; cbn; intuition discriminate. }
  clearbody s18. unfold elastic_step. repeat apply conj.
  - intros [] i; cbn [has existsb axis_eqb orb]; intros K; try discriminate K; names0; rewrite V18 by (cbn; tauto); back; reflexivity.
  - intros [] [] i; unfold stress; cbn [has existsb axis_eqb orb andb]; intros K; try discriminate K.
    + abstract norm_x V18 "Rxx"%string i st2 st5 st16 st17 s18.
    + abstract stress_eq V18.
    + abstract stress_eq V18.
    + abstract stress_eq V18.
    + abstract norm_y V18 "Ryy"%string i st2 st7 s18.
    + abstract stress_eq V18.
    + abstract stress_eq V18.
    + abstract stress_eq V18.
    + abstract norm_x V18 "Rzz"%string i st2 st9 st16 st17 s18.
  - intros [] [] i k; unfold stress; cbn [has existsb axis_eqb orb andb]; intros K Hk; try discriminate K.
    + abstract relax_x i k Hk.
    + abstract relax_rule Hk.
    + abstract relax_rule Hk.
    + abstract relax_rule Hk.
    + abstract relax_y i k Hk.
    + abstract relax_rule Hk.
    + abstract relax_rule Hk.
    + abstract relax_rule Hk.
    + abstract relax_x i k Hk.
  - intros HPml [] [] i; cbn [has existsb axis_eqb orb]; intros H1 H2; try discriminate H1; try discriminate H2;
    (split; names0; back; unfold new_psi_sig, new_psi_vel; rewrite HPml; names0; reflexivity).
Qed.
End visco.

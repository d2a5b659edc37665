(** Free surface: zeroing of the pressure / normal stress. *)
From Coq Require Import QArith Qreals Reals Lra.
From Verif Require Import M_Grid S_Deriv L_Deriv2 M_Prog M_Solvers M_Surface S_Solver L_Prog L_Lin L_Src.
Open Scope R_scope.

Lemma exec_app A (e : env A) src t p q st : exec e src t (p ++ q) st = exec e src t q (exec e src t p st).
Proof. apply fold_left_app. Qed.

(** Is register r certainly zero (at an index where setZeroFreeSurface is 0) after a program? *)
Definition zflag1 (r : nm) (z : bool) (ins : instr) : bool :=
  match ins with
  | IMulV r' c => if nm_eqb r' r then (z || nm_eqb c "setZeroFreeSurface")%bool else z
  | IMulS r' _ => z
  | IMv r' _ _ | ICp r' _ | IScal r' _ _ | ICoef r' _ _ | ISum r' _ _ | IDif r' _ _ | IAdd r' _ | ISub r' _
  | IAddS r' _ _ | ISubS r' _ _ | ISrc r' _ => if nm_eqb r' r then false else z
  | ISwap r' s' => if (nm_eqb r' r || nm_eqb s' r)%bool then false else z
  end.
Definition zflag (r : nm) (p : list instr) (z : bool) : bool := fold_left (zflag1 r) p z.

Lemma zflag_app r p q z : zflag r (p ++ q) z = zflag r q (zflag r p z).
Proof. apply fold_left_app. Qed.
Lemma zflag_loop r L body : (forall l, zflag r (body l) true = true) -> zflag r (loop L body) true = true.
Proof.
  intros H. unfold loop. induction (seq 0 L) as [|a l IH]; [reflexivity|]. cbn [flat_map]. rewrite zflag_app, H. exact IH.
Qed.
Lemma zflag_when r b p : zflag r p true = true -> zflag r (when b p) true = true.
Proof. destruct b; auto. Qed.

Lemma zflag_sound (e : env R_arith) src t r i : e_coef e "setZeroFreeSurface"%string i = 0 -> forall p z st,
  (z = true -> st r i = 0) -> zflag r p z = true -> exec e src t p st r i = 0.
Proof.
  intros Hm. induction p as [|ins p IH]; intros z st Hz H; [apply Hz, H|].
  unfold exec. cbn [fold_left]. apply (IH (zflag1 r z ins)); [|exact H]. clear H IH.
  destruct ins; cbn [zflag1 exec1]; unfold upd; try (destruct (nm_eqb r0 r) eqn:E; [discriminate|exact Hz]).
  - destruct (nm_eqb r0 r) eqn:E; [|exact Hz]. apply nm_eqb_eq in E. subst r0. intros Hc.
    apply Bool.orb_true_iff in Hc. cbn. destruct Hc as [Hc|Hc]; [rewrite (Hz Hc); lra|].
    apply nm_eqb_eq in Hc. subst c. rewrite Hm. lra.
  - destruct (nm_eqb r0 r) eqn:E; [|exact Hz]. apply nm_eqb_eq in E. subst r0. intros Hc. cbn. rewrite (Hz Hc). lra.
  - destruct (nm_eqb r0 r) eqn:E, (nm_eqb s r) eqn:E'; try discriminate. exact Hz.
Qed.

(** sources elsewhere do not change a register at i *)
Lemma src_none A (e : env A) src t s n i st :
  (forall ty rs js, s_inj s ty = Some rs -> In n rs -> In js (src ty) -> fst js <> i) ->
  exec e src t (src_prog s) st n i = st n i.
Proof.
  intros H. rewrite src_prog_pairs.
  assert (K : forall q, In q (src_pairs s) -> fst q = n -> forall js, In js (src (snd q)) -> fst js <> i).
  { intros q Hq Hn js Hj. unfold src_pairs in Hq. apply in_flat_map in Hq. destruct Hq as (ty&Ht&Hq).
    destruct (s_inj s ty) as [rs|] eqn:E; [|destruct Hq]. apply in_map_iff in Hq. destruct Hq as (r&<-&Hr). cbn in *. subst r.
    eapply H; eauto. }
  clear H. unfold exec. revert st. induction (src_pairs s) as [|q l IH]; intros st; [reflexivity|].
  cbn [map fold_left]. rewrite IH by (intros; eapply K; eauto; right; auto).
  destruct (nm_eqb (fst q) n) eqn:E.
  - apply nm_eqb_eq in E. apply inject_none. apply K; [left; reflexivity|exact E].
  - cbn [exec1]. unfold upd. rewrite E. reflexivity.
Qed.

(** the vectors each solver sets to zero at the surface *)
Definition surface_zero (s : solver) (c : cfg) (r : nm) : Prop :=
  (In s [FD2Dacoustic; FD3Dacoustic] /\ r = "p"%string) \/
  (In s [FD2Delastic; FD3Delastic; FD2Dviscoelastic; FD3Dviscoelastic] /\ r = "Syy"%string) \/
  (In s [FD2Dviscoelastic; FD3Dviscoelastic] /\ exists l, (l < c_L c)%nat /\ r = N "Ryy" l).

Lemma zflag_seq r L body l : (l < L)%nat -> (forall z, zflag r (body l) z = true) -> (forall k, zflag r (body k) true = true) ->
  forall z, zflag r (loop L body) z = true.
Proof.
  intros Hl H1 H2 z. unfold loop. assert (Hin : In l (seq 0 L)) by (apply in_seq; lia). revert z Hin.
  induction (seq 0 L) as [|a q IH]; intros z Hin; [destruct Hin|]. cbn [flat_map]. rewrite zflag_app.
  destruct Hin as [->|Hin]; [|apply IH; auto]. rewrite H1. clear -H2. induction q as [|b q IH]; [reflexivity|].
  cbn [flat_map]. rewrite zflag_app, H2. exact IH.
Qed.

Lemma zflag_suffix r p q : (forall z, zflag r q z = true) -> forall z, zflag r (p ++ q) z = true.
Proof. intros H z. rewrite zflag_app. apply H. Qed.
Lemma zflag_prefix r p q : (forall z, zflag r p z = true) -> zflag r q true = true -> forall z, zflag r (p ++ q) z = true.
Proof. intros H K z. rewrite zflag_app, H. exact K. Qed.

Ltac peel := repeat match goal with
  | |- forall z, zflag _ (?A ++ ?B) z = true =>
    lazymatch A with
    | context [setSurfaceZero] => fail
    | _ => apply (zflag_suffix _ A B)
    end
  end.
Lemma zero_set r : forall z, zflag r (setSurfaceZero r) z = true.
Proof. intros z. unfold setSurfaceZero, zflag. cbn [fold_left zflag1]. rewrite (proj2 (nm_eqb_eq r r) eq_refl). apply Bool.orb_true_r. Qed.

Lemma run_zero s c r : surface_zero s c r -> c_fs c = 1%Z -> forall z, zflag r (s_run s c) z = true.
Proof.
  intros H Hfs. destruct H as [[H ->]|[[H ->]|[H (l&Hl&->)]]]; cbn [In] in H.
  - destruct H as [<-|[<-|[]]]; cbn [s_run FD2Dacoustic FD3Dacoustic]; unfold run_2Dacoustic, run_3Dacoustic; peel;
    rewrite Hfs; apply zero_set.
  - destruct H as [<-|[<-|[<-|[<-|[]]]]]; cbn [s_run FD2Delastic FD3Delastic FD2Dviscoelastic FD3Dviscoelastic];
    unfold run_2Delastic, run_3Delastic, run_2Dviscoelastic, run_3Dviscoelastic; peel; rewrite Hfs;
    (apply zflag_prefix; [cbn [Z.eqb Pos.eqb negb when]|apply zflag_when; reflexivity]); peel.
    + apply zero_set.
    + apply zflag_prefix; [apply zero_set|reflexivity].
    + apply zflag_prefix; [apply zero_set|]. apply zflag_loop. reflexivity.
    + apply zflag_prefix; [apply zero_set|]. apply zflag_loop. reflexivity.
  - destruct H as [<-|[<-|[]]]; cbn [s_run FD2Dviscoelastic FD3Dviscoelastic];
    unfold run_2Dviscoelastic, run_3Dviscoelastic; peel; rewrite Hfs;
    (apply zflag_prefix; [cbn [Z.eqb Pos.eqb negb when]|apply zflag_when; reflexivity]); peel;
    apply zflag_suffix, (zflag_seq _ _ _ l Hl); try apply zero_set;
    intros k; unfold setSurfaceZero, zflag; cbn [fold_left zflag1]; destruct (nm_eqb _ _); reflexivity.
Qed.

Lemma surface_zero_lem (e : env R_arith) g s c r src t st i : surface_zero s c r -> c_fs c = 1%Z -> surface_vectors e g ->
  locatedOnSurface g i = Ok true ->
  (forall ty rs js, s_inj s ty = Some rs -> In r rs -> In js (src ty) -> fst js <> i) ->
  exec e src t (step_prog s c) st r i = 0.
Proof.
  intros Hr Hfs [HZ _] Hi Hsrc. unfold step_prog. rewrite exec_app.
  rewrite src_none by exact Hsrc. apply (zflag_sound e src t r i) with (z := false).
  - rewrite HZ. unfold setZeroFreeSurface. rewrite Hi. reflexivity.
  - discriminate.
  - apply run_zero; auto.
Qed.

(** programs that do not read a model vector *)
Definition uses_coef (n : nm) (ins : instr) : bool :=
  match ins with ICoef _ c _ | IMulV _ c => nm_eqb c n | _ => false end.
Lemma exec_ext A (e e' : env A) src t n : (forall m k, e_mat e m k = e_mat e' m k) -> (forall m, e_sca e m = e_sca e' m) ->
  (forall m i, nm_eqb m n = false -> e_coef e m i = e_coef e' m i) ->
  forall p st st', forallb (fun ins => negb (uses_coef n ins)) p = true ->
  (forall r i, st r i = st' r i) -> forall r i, exec e src t p st r i = exec e' src t p st' r i.
Proof.
  intros HM HS HC. induction p as [|ins p IH]; intros st st' Hp H; [exact H|].
  cbn [forallb] in Hp. apply andb_prop in Hp. destruct Hp as [H1 H2]. unfold exec. cbn [fold_left]. apply IH; [exact H2|].
  assert (Hsc : forall k, scal e k = scal e' k) by (intros [q|m]; [reflexivity|apply HS]).
  assert (Hmv : forall row x x', (forall i, x i = x' i) -> @mv A row x = mv row x').
  { intros row x x' Hx. unfold mv. generalize (a_q A 0). induction row as [|kc row IHr]; intros z; [reflexivity|].
    cbn [fold_left]. rewrite Hx. apply IHr. }
  intros r i. destruct ins; cbn [exec1]; unfold upd; cbn [uses_coef] in H1;
  repeat match goal with |- context [nm_eqb ?a ?b] => destruct (nm_eqb a b) end; rewrite ?H, ?Hsc, ?HM; auto.
  - rewrite HC; [reflexivity|]. destruct (nm_eqb c n); [discriminate|reflexivity].
  - rewrite HC; [reflexivity|]. destruct (nm_eqb c n); [discriminate|reflexivity].
  - unfold scatter. rewrite H. reflexivity.
Qed.

(** the environment without the zeroing *)
Definition no_zeroing (e : env R_arith) : env R_arith :=
  Env R_arith (e_mat e) (fun m i => if nm_eqb m "setZeroFreeSurface" then 1 else e_coef e m i) (e_sca e).

Lemma surface_other_lem (e : env R_arith) g s c src t st n i : In s [FD2Dacoustic; FD3Dacoustic] -> c_fs c = 1%Z ->
  surface_vectors e g -> (n <> "p"%string :> nm \/ locatedOnSurface g i = Ok false) ->
  exec e src t (step_prog s c) st n i = exec (no_zeroing e) src t (step_prog s c) st n i.
Proof.
  intros Hs Hfs [HZ _] Hn.
  assert (E : exists p0, s_run s c = p0 ++ setSurfaceZero "p"%string /\ forallb (fun ins => negb (uses_coef "setZeroFreeSurface"%string ins)) p0 = true).
  { destruct c as [pml dmp fs itF itX itZ itXZ L]. cbn [c_fs] in Hfs. subst fs.
    destruct Hs as [<-|[<-|[]]]; cbn [s_run FD2Dacoustic FD3Dacoustic];
    [exists (removelast (run_2Dacoustic (Cfg pml dmp 1 itF itX itZ itXZ L)))|exists (removelast (run_3Dacoustic (Cfg pml dmp 1 itF itX itZ itXZ L)))];
    destruct pml, dmp, itF, itX, itZ; split; reflexivity. }
  destruct E as (p0&E&H0). unfold step_prog. rewrite E, <- app_assoc, !exec_app.
  rewrite src_prog_pairs, !inject_all. f_equal.
  assert (G : forall r k, exec e src t p0 st r k = exec (no_zeroing e) src t p0 st r k).
  { apply (exec_ext R_arith e (no_zeroing e) src t "setZeroFreeSurface"%string); auto. intros m k Hm. cbn. rewrite Hm. reflexivity. }
  unfold setSurfaceZero. change (exec ?e src t [?i] ?s) with (exec1 e src t i s). cbn [exec1]. unfold upd. destruct (nm_eqb "p"%string n) eqn:En; [|apply G].
  apply nm_eqb_eq in En. rewrite G. f_equal. rewrite HZ. unfold setZeroFreeSurface.
  destruct Hn as [Hn|Hn]; [destruct Hn; auto|rewrite Hn; reflexivity].
Qed.

Lemma regular_surface nx ny nz g x y z : mk_regular nx ny nz = Ok g -> (0 <= x < nx)%Z -> (0 <= y < ny)%Z -> (0 <= z < nz)%Z ->
  locatedOnSurface g (reg_index nx nz x y z) = Ok (Z.eqb y 0).
Proof. intros Hg Hx Hy Hz. unfold locatedOnSurface. rewrite (regular_i2c _ _ _ _ _ _ _ Hg Hx Hy Hz). reflexivity. Qed.

(** Source injection, dependence on the current sample, zero runs, shot sequences. *)
From Coq Require Import QArith Qreals Reals Lra.
From Verif Require Import M_Prog M_Solvers S_Solver L_Prog L_Shape L_Indep L_Live L_Lin.
Open Scope R_scope.

Lemma inject_one (e : env R_arith) src t r ty st n i :
  exec1 e src t (ISrc r ty) st n i = st n i + (if nm_eqb r n then injected (src ty) t i else 0).
Proof.
  cbn [exec1]. unfold upd. destruct (nm_eqb r n) eqn:E; [|cbn; lra].
  apply nm_eqb_eq in E; subst. apply scatter_R.
Qed.

Lemma inject_all (e : env R_arith) src t (l : list (nm * stype)) st n i :
  exec e src t (map (fun q => ISrc (fst q) (snd q)) l) st n i =
  st n i + Rsum (map (fun q => if nm_eqb (fst q) n then injected (src (snd q)) t i else 0) l).
Proof.
  unfold exec, Rsum. revert st. induction l as [|q l IH]; intros st; cbn [map fold_left fold_right]; [cbn; lra|].
  rewrite IH. rewrite inject_one. cbn. lra.
Qed.

Definition src_pairs (s : solver) : list (nm * stype) :=
  flat_map (fun ty => match s_inj s ty with Some rs => map (fun r => (r, ty)) rs | None => [] end) (s_types s).
Lemma src_prog_pairs s : src_prog s = map (fun q => ISrc (fst q) (snd q)) (src_pairs s).
Proof.
  unfold src_prog, src_pairs. induction (s_types s) as [|ty l IH]; [reflexivity|]. cbn [flat_map]. rewrite map_app, <- IH. f_equal.
  destruct (s_inj s ty) as [rs|]; [|reflexivity]. rewrite map_map. reflexivity.
Qed.

Definition stype_eq_dec (a b : stype) : {a = b} + {a <> b}.
Proof. decide equality. Defined.

(** a change of the injected amount changes the reading by the same amount *)
Lemma reading_change s ty o rs (e : env R_arith) src src' t st st' i d :
  In s all_solvers -> s_out s ty = Some o -> s_inj s ty = Some rs -> In ty (s_types s) ->
  (forall n, In n (fst o) -> st n i = st' n i) ->
  (forall ty', ty' <> ty -> injected (src' ty') t i = injected (src ty') t i) ->
  injected (src' ty) t i = injected (src ty) t i + d ->
  @readout R_arith o (exec e src' t (src_prog s) st') i = @readout R_arith o (exec e src t (src_prog s) st) i + d.
Proof.
  intros Hs Ho Hi Hty H Hne Hd. rewrite src_prog_pairs.
  assert (Hx : forall ty', injected (src' ty') t i = injected (src ty') t i + (if stype_eq_dec ty' ty then d else 0)).
  { intros ty'. destruct (stype_eq_dec ty' ty) as [->|Hn]; [exact Hd|rewrite Hne by exact Hn; lra]. }
  assert (G : forall n, In n (fst o) -> exec e src' t (map (fun q => ISrc (fst q) (snd q)) (src_pairs s)) st' n i =
     exec e src t (map (fun q => ISrc (fst q) (snd q)) (src_pairs s)) st n i +
     Rsum (map (fun q => if nm_eqb (fst q) n then (if stype_eq_dec (snd q) ty then d else 0) else 0) (src_pairs s))).
  { intros n Hn. rewrite !inject_all, (H n Hn). rewrite Rplus_assoc. f_equal. unfold Rsum.
    induction (src_pairs s) as [|q l IH]; cbn [map fold_right]; [lra|]. rewrite IH.
    destruct (nm_eqb (fst q) n); [rewrite Hx; cbn; lra|cbn; lra]. }
  assert (G2 : forall n, In n (fst o) -> Rsum (map (fun q => if nm_eqb (fst q) n then (if stype_eq_dec (snd q) ty then d else 0) else 0) (src_pairs s)) = d).
  { clear - Hs Ho Hi Hty. intros n Hn. unfold all_solvers in Hs. cbn [In] in Hs.
    repeat destruct Hs as [<-|Hs]; [..|destruct Hs];
      destruct ty; cbn in Ho, Hi; try discriminate; injection Ho as <-; cbn [fst In] in Hn;
      repeat destruct Hn as [<-|Hn]; try destruct Hn; cbn; lra. }
  assert (G3 : forall n, In n (fst o) -> exec e src' t (map (fun q => ISrc (fst q) (snd q)) (src_pairs s)) st' n i =
     exec e src t (map (fun q => ISrc (fst q) (snd q)) (src_pairs s)) st n i + d).
  { intros n Hn. rewrite (G n Hn), (G2 n Hn). reflexivity. }
  revert G3. generalize (exec e src' t (map (fun q => ISrc (fst q) (snd q)) (src_pairs s)) st').
  generalize (exec e src t (map (fun q => ISrc (fst q) (snd q)) (src_pairs s)) st).
  clear - Hs Ho Hi. intros u u' G. unfold all_solvers in Hs. cbn [In] in Hs.
  repeat destruct Hs as [<-|Hs]; [..|destruct Hs];
      destruct ty; cbn in Ho, Hi; try discriminate; injection Ho as <-; cbn [fst In] in G; unfold readout; cbn;
      rewrite ?G by (cbn; auto 6); unfold Q2R; cbn; lra.
Qed.

(** splitting a run at a time *)
Fixpoint state_at {A} (s : solver) (c : cfg) (sh : shot A) (t0 n : nat) (st : state A) : state A :=
  match n with O => st | S n' => state_at s c sh (S t0) n' (exec (sh_env sh) (sh_src sh) t0 (step_prog s c) st) end.
Lemma steps_nth A s c (sh : shot A) : forall n t0 t st, (t < n)%nat ->
  nth_error (snd (steps s c sh t0 n st)) t = Some (gather s (sh_rec sh) (state_at s c sh t0 (S t) st)).
Proof.
  induction n as [|n IH]; intros t0 t st Ht; [lia|]. cbn [steps]. unfold run_step.
  specialize (IH (S t0)). destruct t as [|t].
  - destruct (steps s c sh (S t0) n _) as [a b]. reflexivity.
  - specialize (IH t (exec (sh_env sh) (sh_src sh) t0 (step_prog s c) st) ltac:(lia)).
    destruct (steps s c sh (S t0) n _) as [a b]. exact IH.
Qed.
Lemma state_at_S A s c (sh : shot A) : forall n t0 st,
  state_at s c sh t0 (S n) st = exec (sh_env sh) (sh_src sh) (t0 + n) (step_prog s c) (state_at s c sh t0 n st).
Proof.
  induction n as [|n IH]; intros t0 st; [cbn; rewrite Nat.add_0_r; reflexivity|].
  cbn [state_at] in *. rewrite IH. f_equal. lia.
Qed.
Lemma steps_state_at A s c (sh : shot A) : forall n t0 st, fst (steps s c sh t0 n st) = state_at s c sh t0 n st.
Proof.
  induction n as [|n IH]; intros t0 st; [reflexivity|]. cbn [steps state_at]. unfold run_step.
  specialize (IH (S t0) (exec (sh_env sh) (sh_src sh) t0 (step_prog s c) st)).
  destruct (steps s c sh (S t0) n _) as [a b]. exact IH.
Qed.
Lemma state_at_live A s c (sh sh' : shot A) : In s all_solvers -> sh_env sh = sh_env sh' ->
  forall n t0 st st', (forall t, (t0 <= t < t0 + n)%nat -> same_at (sh_src sh) (sh_src sh') t) -> live_eq s c st st' ->
  live_eq s c (state_at s c sh t0 n st) (state_at s c sh' t0 n st').
Proof.
  intros Hs He. induction n as [|n IH]; intros t0 st st' Hsrc H; cbn [state_at]; [exact H|].
  apply IH; [intros; apply Hsrc; lia|]. rewrite <- He. apply step_live_eq; auto. apply Hsrc; lia.
Qed.

Definition nosrc (p : list instr) : bool := forallb (fun i => match i with ISrc _ _ => false | _ => true end) p.
Lemma nosrc_app p q : nosrc p = true -> nosrc q = true -> nosrc (p ++ q) = true.
Proof. unfold nosrc. rewrite forallb_app. intros -> ->. reflexivity. Qed.
Lemma nosrc_when b p : nosrc p = true -> nosrc (when b p) = true.
Proof. destruct b; auto. Qed.
Lemma nosrc_if (b : bool) p q : nosrc p = true -> nosrc q = true -> nosrc (if b then p else q) = true.
Proof. destruct b; auto. Qed.
Lemma nosrc_loop L body : (forall l, nosrc (body l) = true) -> nosrc (loop L body) = true.
Proof. intros H. unfold loop. induction (seq 0 L) as [|a l IH]; [reflexivity|]. cbn [flat_map]. apply nosrc_app; auto. Qed.
Lemma run_nosrc s c : In s all_solvers -> nosrc (s_run s c) = true.
Proof.
  intros Hs. unfold all_solvers in Hs. cbn [In] in Hs.
  repeat destruct Hs as [<-|Hs]; [..|destruct Hs]; cbn [s_run FD2Dacoustic FD2Delastic FD2Dviscoelastic FD2Dsh FD2Dviscosh
    FD3Dacoustic FD3Delastic FD3Dviscoelastic FD2Demem FD2Dtmem FD2Dviscoemem FD2Dviscotmem FD3Demem FD3Dviscoemem];
  match goal with |- nosrc (?f c) = true => unfold f end;
  unfold exchange_2Dviscoelastic, exchange_3Dviscoelastic;
  repeat first [apply nosrc_app | apply nosrc_when | apply nosrc_if | apply nosrc_loop; intros l | reflexivity].
Qed.

Lemma run_live_eq A (e : env A) src src' t c s st st' : In s all_solvers ->
  live_eq s c st st' -> 
  live_eq s c (exec e src t (s_run s c) st) (exec e src' t (s_run s c) st').
Proof.
  intros Hs H.
  (* the run part executes no ISrc: pass through step_live with empty sources *)
  assert (E : forall src0 st0, live_eq s c (exec e (fun _ => []) t (step_prog s c) st0) (exec e src0 t (s_run s c) st0)).
  { intros src0 st0. unfold step_prog, exec. rewrite fold_left_app.
    assert (E1 : forall (p : list instr) u, (forall i, In i p -> match i with ISrc _ _ => True | _ => False end) ->
       forall n i, fold_left (fun (st : state A) ins => exec1 e (fun _ => []) t ins st) p u n i = u n i).
    { induction p as [|ins p IH]; intros u Hp n i; cbn; [reflexivity|]. rewrite IH by (intros; apply Hp; right; auto).
      specialize (Hp ins (or_introl eq_refl)). destruct ins; try contradiction. cbn. unfold upd.
      destruct (nm_eqb r n) eqn:Er; [apply nm_eqb_eq in Er; subst|]; reflexivity. }
    intros n Hn i. rewrite E1.
    - assert (E2 : forall (p : list instr), (forall i, In i p -> match i with ISrc _ _ => False | _ => True end) -> forall u,
        fold_left (fun (st : state A) ins => exec1 e (fun _ => []) t ins st) p u = fold_left (fun (st : state A) ins => exec1 e src0 t ins st) p u).
      { induction p as [|ins p IH]; intros Hp u; cbn; [reflexivity|]. rewrite IH by (intros; apply Hp; right; auto).
        specialize (Hp ins (or_introl eq_refl)). destruct ins; try contradiction; reflexivity. }
      rewrite E2; [reflexivity|]. 
      assert (F : forallb (fun i => match i with ISrc _ _ => false | _ => true end) (s_run s c) = true).
      { apply run_nosrc, Hs. }
      rewrite forallb_forall in F. intros ins Hin. specialize (F ins Hin). destruct ins; auto; discriminate.
    - rewrite src_prog_pairs. intros ins Hin. apply in_map_iff in Hin. destruct Hin as (q&<-&_). exact I. }
  intros n Hn i. rewrite <- (E src st n Hn i), <- (E src' st' n Hn i).
  apply (step_live_eq A e (fun _ => []) (fun _ => []) t c s st st' Hs (fun ty => eq_refl) H n Hn i).
Qed.

Lemma C16_dep_lem s c (sh sh' : shot R_arith) st st' t ty i d o rs k r : In s all_solvers ->
  sh_env sh = sh_env sh' -> sh_rec sh = sh_rec sh' -> (t < sh_n sh)%nat -> (t < sh_n sh')%nat ->
  (forall u, (u < t)%nat -> same_sources_at (sh_src sh) (sh_src sh') u) ->
  (forall ty', ty' <> ty -> injected (sh_src sh' ty') t i = injected (sh_src sh ty') t i) ->
  injected (sh_src sh' ty) t i = injected (sh_src sh ty) t i + d ->
  s_out s ty = Some o -> s_inj s ty = Some rs -> nth_error (s_types s) k = Some ty -> nth_error (sh_rec sh ty) r = Some i ->
  pml_memory_zero s c st -> pml_memory_zero s c st' ->
  exists x, sample (seismograms s c sh st) t k r = Some x /\ sample (seismograms s c sh' st') t k r = Some (x + d).
Proof.
  intros Hs He Hr Hn Hn' Hsrc Hne Hd Ho Hi Hk Hrec P P'.
  assert (HL : live_eq s c (state_at s c sh 0 t (zero_regs (s_fields s c) st)) (state_at s c sh' 0 t (zero_regs (s_fields s c) st'))).
  { apply state_at_live; auto; [|apply zero_live; auto]. intros u Hu; apply Hsrc; lia. }
  exists (@readout R_arith o (state_at s c sh 0 (S t) (zero_regs (s_fields s c) st)) i).
  assert (G : forall (sh0 : shot R_arith) st0, (t < sh_n sh0)%nat -> nth_error (sh_rec sh0 ty) r = Some i ->
     sample (seismograms s c sh0 st0) t k r = Some (@readout R_arith o (state_at s c sh0 0 (S t) (zero_regs (s_fields s c) st0)) i)).
  { intros sh0 st0 Hn0 Hr0. unfold seismograms, run_shot.
    pose proof (steps_nth R_arith s c sh0 (sh_n sh0) 0 t (zero_regs (s_fields s c) st0) Hn0) as E.
    destruct (steps s c sh0 _ _ _) as [a b]. cbn [snd] in *. unfold sample. rewrite E. unfold gather.
    rewrite nth_error_map, Hk. cbn [option_map]. rewrite Ho, nth_error_map, Hr0. reflexivity. }
  split; [apply G; auto|]. rewrite G by (auto; rewrite <- Hr; auto). f_equal.
  rewrite !state_at_S. rewrite <- He. unfold step_prog, exec. rewrite !fold_left_app.
  apply (reading_change s ty o rs); auto.
  - apply nth_error_In in Hk. exact Hk.
  - intros n Hnm. apply (run_live_eq R_arith (sh_env sh) (sh_src sh) (sh_src sh') (0 + t) c s _ _ Hs HL).
    destruct (out_live s c Hs ty o Ho) as [Hin _]. auto.
Qed.

(** zero runs *)
Lemma C23_zero_lem s c (sh : shot R_arith) (st : rstate) m : In s all_solvers ->
  (forall ty t i, injected (sh_src sh ty) t i = 0) ->
  (forall n, In n (s_fields s c) -> forall i, st n i = 0) -> pml_memory_zero s c st ->
  forall n, (In n (s_fields s c) \/ c_pml c = true /\ In n (s_psi s)) -> forall i, fst (steps s c sh 0 m st) n i = 0.
Proof.
  intros Hs Hz H P n Hn i.
  assert (L0 : live_lin 0 0 s c st st st).
  { intros q Hq j. apply live_fields in Hq. destruct Hq as [Hq|[Hp Hq]]; [rewrite (H q Hq j); cbn; ring|].
    rewrite (P Hp q Hq j). cbn. rewrite Q2R_0. ring. }
  destruct (steps_lin 0 0 s c sh sh sh Hs eq_refl eq_refl eq_refl eq_refl
     (fun ty t j => eq_trans (Hz ty t j) (eq_sym (eq_trans (f_equal2 Rplus (Rmult_0_l _) (Rmult_0_l _)) (Rplus_0_l 0)))) m 0 st st st L0) as [G _].
  rewrite (G n (proj2 (live_fields s c n) Hn) i). cbn; ring.
Qed.

Lemma C22_lem (e : env R_arith) s c src t st n i : In s all_solvers ->
  exec e src t (step_prog s c) st n i =
  exec e src t (s_run s c) st n i +
  Rsum (map (fun q => if nm_eqb (fst q) n then injected (src (snd q)) t i else 0) (src_pairs s)).
Proof.
  intros Hs. unfold step_prog. unfold exec at 1. rewrite fold_left_app.
  change (fold_left _ (s_run s c) st) with (exec e src t (s_run s c) st).
  change (fold_left _ (src_prog s) ?u) with (exec e src t (src_prog s) u).
  rewrite src_prog_pairs. apply inject_all.
Qed.

Lemma C17_lem A s c (pre post : list (shot A)) (sh : shot A) st st0 : In s all_solvers ->
  pml_memory_zero s c st -> pml_memory_zero s c st0 ->
  nth_error (snd (run_shots s c (pre ++ sh :: post) st)) (length pre) = Some (seismograms s c sh st0).
Proof.
  intros Hs P P0. rewrite (run_shots_indep A s c _ st Hs P st0 P0), nth_error_map.
  rewrite nth_error_app2 by lia. rewrite Nat.sub_diag. reflexivity.
Qed.

Lemma inject_none A (e : env A) src t r ty st n i : (forall js, In js (src ty) -> fst js <> i) -> exec1 e src t (ISrc r ty) st n i = st n i.
Proof.
  intros H. cbn [exec1]. unfold upd. destruct (nm_eqb r n) eqn:E; [|reflexivity]. apply nm_eqb_eq in E. subst r.
  unfold scatter. generalize (st n i). induction (src ty) as [|a l IH]; intros x; [reflexivity|]. cbn.
  destruct (Z.eqb_spec (fst a) i) as [E|E]; [destruct (H a (or_introl eq_refl) E)|].
  apply IH. intros js Hj. apply H. right; auto.
Qed.

Lemma Rsum_app l l' : Rsum (l ++ l') = Rsum l + Rsum l'.
Proof. unfold Rsum. rewrite fold_right_app. induction l as [|a l IH]; cbn [fold_right]; [lra|]. rewrite IH. lra. Qed.

Lemma inject_step (e : env R_arith) s c src t st n i : In s all_solvers ->
  exec e src t (step_prog s c) st n i =
  exec e src t (s_run s c) st n i +
  Rsum (map (fun ty => match s_inj s ty with
                       | Some rs => Rsum (map (fun r => if nm_eqb r n then injected (src ty) t i else 0) rs)
                       | None => 0 end) (s_types s)).
Proof.
  intros Hs. rewrite (C22_lem e s c src t st n i Hs). f_equal. unfold src_pairs. clear.
  induction (s_types s) as [|ty l IH]; [reflexivity|]. cbn [flat_map map]. rewrite map_app, Rsum_app, IH.
  change (Rsum (?a :: ?b)) with (a + Rsum b). f_equal. destruct (s_inj s ty) as [rs|]; [|reflexivity].
  rewrite map_map. reflexivity.
Qed.

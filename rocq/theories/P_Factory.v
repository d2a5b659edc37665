(** The classes chosen by the factories: C157. *)
From Coq Require Import Ascii String Reals Lra.
From Verif Require Import Base M_Prog M_Solvers M_Wave M_Model M_ModelEM M_Acq M_Conf S_Conf L_Conf M_Factory S_Factory M_Grid M_Deriv M_Check S_Check P_Check.
Open Scope Z_scope.

Lemma same_txt s n : lower (txt n) = txt n -> same_name s (txt n) <-> lower s = txt n.
Proof. intros H. rewrite <- lower_same, H. reflexivity. Qed.
Lemma same_2d s : same_name s (txt "2D") <-> lower s = txt "2d".
Proof. rewrite <- lower_same. reflexivity. Qed.
Lemma same_3d s : same_name s (txt "3D") <-> lower s = txt "3d".
Proof. rewrite <- lower_same. reflexivity. Qed.

Lemma known_names t : known_type t = true <->
  In t (map txt ["acoustic"; "elastic"; "viscoelastic"; "sh"; "viscosh"; "emem"; "tmem"; "viscoemem"; "viscotmem"]%string).
Proof.
  unfold known_type. rewrite !orb_true_iff, !str_eqb_true. cbn [map In]. intuition congruence.
Qed.

Lemma startup_table dimension type d t o : In (d, t, o) table -> lower dimension = lower (txt d) -> lower type = lower (txt t) ->
  startup dimension type = Ok o.
Proof.
  intros Hin Hd Ht.
  unfold startup, create_deriv, create_model, create_wave, create_solver. rewrite Hd, Ht.
  unfold table in Hin. cbn [In] in Hin.
  repeat (destruct Hin as [Hin|Hin]; [injection Hin as <- <- <-; reflexivity|]). destruct Hin.
Qed.

Local Ltac entry := unfold table; cbn [In]; repeat first [left; reflexivity | right].
Local Ltac found E K H d t :=
  let X := fresh in
  eassert (X : In (d, t, _) table) by entry;
  let Y := fresh in
  pose proof (startup_table _ _ d t _ X E (eq_sym K)) as Y; rewrite Y in H; injection H as <-;
  exists d, t; split; [exact X|split; apply lower_same; [exact E|exact (eq_sym K)]].

(** The program gets past the creation of its objects exactly for the simulations of the table, and then every object
    has the class of the table. *)
Theorem C157_classes : forall dimension type o,
  startup dimension type = Ok o <-> exists d t, In (d, t, o) table /\ names dimension type d t.
Proof.
  intros dimension type o. split.
  - intros H.
    destruct (known_type (lower type)) eqn:K.
    2:{ exfalso. revert H. unfold startup, create_deriv, create_model. rewrite K. cbn [assert bind].
        destruct (str_eqb (lower dimension) (txt "2d")), (str_eqb (lower dimension) (txt "3d")); discriminate. }
    apply known_names in K. cbn [map In] in K.
    destruct (list_eq_dec ascii_dec (lower dimension) (txt "2d")) as [E|E];
      [|destruct (list_eq_dec ascii_dec (lower dimension) (txt "3d")) as [F|F]].
    3:{ exfalso. revert H. unfold startup, create_deriv.
        rewrite (proj2 (str_eqb_false _ _) E), (proj2 (str_eqb_false _ _) F). discriminate. }
    + change (txt "2d") with (lower (txt "2D")) in E.
      destruct K as [K|[K|[K|[K|[K|[K|[K|[K|[K|[]]]]]]]]]].
      * found E K H "2D"%string "acoustic"%string.
      * found E K H "2D"%string "elastic"%string.
      * found E K H "2D"%string "viscoelastic"%string.
      * found E K H "2D"%string "sh"%string.
      * found E K H "2D"%string "viscosh"%string.
      * found E K H "2D"%string "emem"%string.
      * found E K H "2D"%string "tmem"%string.
      * found E K H "2D"%string "viscoemem"%string.
      * found E K H "2D"%string "viscotmem"%string.
    + change (txt "3d") with (lower (txt "3D")) in F.
      destruct K as [K|[K|[K|[K|[K|[K|[K|[K|[K|[]]]]]]]]]].
      * found F K H "3D"%string "acoustic"%string.
      * found F K H "3D"%string "elastic"%string.
      * found F K H "3D"%string "viscoelastic"%string.
      * exfalso. revert H. unfold startup, create_deriv, create_model, create_wave, create_solver. rewrite F, <- K. discriminate.
      * exfalso. revert H. unfold startup, create_deriv, create_model, create_wave, create_solver. rewrite F, <- K. discriminate.
      * found F K H "3D"%string "emem"%string.
      * exfalso. revert H. unfold startup, create_deriv, create_model, create_wave, create_solver. rewrite F, <- K. discriminate.
      * found F K H "3D"%string "viscoemem"%string.
      * exfalso. revert H. unfold startup, create_deriv, create_model, create_wave, create_solver. rewrite F, <- K. discriminate.
  - intros (d & t & Hin & Hd & Ht). apply lower_same in Hd, Ht. apply (startup_table _ _ d t); assumption.
Qed.
Print Assumptions C157_classes.

(** A known equation that exists in two dimensions only leads to the use of a null pointer in three dimensions; every
    other text is rejected with an exception. *)
Theorem C157_rejected : forall dimension type,
  (startup dimension type = UB <-> exists t, In t only2D /\ names dimension type "3D" t) /\
  startup dimension type <> Fuel.
Proof.
  intros dimension type. split; [split|].
  - intros H.
    destruct (known_type (lower type)) eqn:K.
    2:{ exfalso. revert H. unfold startup, create_deriv, create_model. rewrite K. cbn [assert bind].
        destruct (str_eqb (lower dimension) (txt "2d")), (str_eqb (lower dimension) (txt "3d")); discriminate. }
    apply known_names in K. cbn [map In] in K.
    destruct (list_eq_dec ascii_dec (lower dimension) (txt "2d")) as [E|E];
      [|destruct (list_eq_dec ascii_dec (lower dimension) (txt "3d")) as [F|F]].
    3:{ exfalso. revert H. unfold startup, create_deriv.
        rewrite (proj2 (str_eqb_false _ _) E), (proj2 (str_eqb_false _ _) F). discriminate. }
    + exfalso. revert H. unfold startup, create_deriv, create_model, create_wave, create_solver. rewrite E.
      destruct K as [K|[K|[K|[K|[K|[K|[K|[K|[K|[]]]]]]]]]]; rewrite <- K; discriminate.
    + unfold names. setoid_rewrite <- lower_same. rewrite F. unfold only2D.
      destruct K as [K|[K|[K|[K|[K|[K|[K|[K|[K|[]]]]]]]]]]; rewrite <- K;
        try (exfalso; revert H; unfold startup, create_deriv, create_model, create_wave, create_solver; rewrite F, <- K; discriminate).
      * exists "sh"%string; cbn [In]; intuition reflexivity.
      * exists "viscosh"%string; cbn [In]; intuition reflexivity.
      * exists "tmem"%string; cbn [In]; intuition reflexivity.
      * exists "viscotmem"%string; cbn [In]; intuition reflexivity.
  - intros (t & Ht & Hd & Hn). apply lower_same in Hd, Hn.
    unfold startup, create_deriv, create_model, create_wave, create_solver. rewrite Hd, Hn.
    unfold only2D in Ht. cbn [In] in Ht.
    destruct Ht as [<-|[<-|[<-|[<-|[]]]]]; reflexivity.
  - unfold startup, create_deriv, create_model, create_wave, create_solver.
    repeat match goal with
    | |- context [str_eqb (lower dimension) ?x] => destruct (str_eqb (lower dimension) x)
    | |- context [known_type ?x] => destruct (known_type x)
    end; cbn [assert bind orb andb]; try discriminate;
    repeat match goal with |- context [str_eqb ?x ?y] => destruct (str_eqb x y); cbn [deref bind]; try discriminate end.
Qed.
Print Assumptions C157_rejected.

Lemma vec_1 v l l1 w : In (M_Prog.N v l) (nms l1) ->
  forallb (fun v => existsb (fun n => str_eqb (lower (txt v)) (lower (txt n))) (dInit (cls w) ++ dInitR (cls w))) l1 = true ->
  exists n, In n (dInit (cls w) ++ dInitR (cls w)) /\ lower (txt v) = lower (txt n).
Proof.
  intros Hv H. unfold nms in Hv. apply in_map_iff in Hv. destruct Hv as (s & E & Hs). injection E as <- <-.
  rewrite forallb_forall in H. specialize (H _ Hs). apply existsb_exists in H. destruct H as (n & Hn & E).
  exists n. split; [exact Hn|]. apply str_eqb_true. exact E.
Qed.
Lemma vec_2 v l l1 l2 L w : In (M_Prog.N v l) (nms l1 ++ relax l2 L) ->
  forallb (fun v => existsb (fun n => str_eqb (lower (txt v)) (lower (txt n))) (dInit (cls w) ++ dInitR (cls w))) (l1 ++ l2) = true ->
  exists n, In n (dInit (cls w) ++ dInitR (cls w)) /\ lower (txt v) = lower (txt n).
Proof.
  intros Hv H. apply in_app_iff in Hv. destruct Hv as [Hv|Hv].
  - apply (vec_1 v l l1 w Hv). rewrite forallb_app in H. apply andb_true_iff in H. apply H.
  - rewrite forallb_app in H. apply andb_true_iff in H. destruct H as [_ H].
    unfold relax in Hv. apply in_flat_map in Hv. destruct Hv as (k & _ & Hv). apply in_map_iff in Hv.
    destruct Hv as (s & E & Hs). injection E as <- <-. rewrite forallb_forall in H. specialize (H _ Hs).
    apply existsb_exists in H. destruct H as (n & Hn & E). exists n. split; [exact Hn|]. apply str_eqb_true. exact E.
Qed.

(** The wavefields of the chosen class have every vector that the chosen solver advances. *)
Theorem C157_vectors : forall dimension type o c v l,
  startup dimension type = Ok o -> In (M_Prog.N v l) (s_fields (o_solver o) c) ->
  exists n, In n (dInit (cls (o_wave o)) ++ dInitR (cls (o_wave o))) /\ same_name (txt v) (txt n).
Proof.
  intros dimension type o c v l H Hv. apply C157_classes in H. destruct H as (d & t & Hin & _).
  setoid_rewrite <- lower_same.
  unfold table in Hin. cbn [In] in Hin.
  destruct Hin as [H|[H|[H|[H|[H|[H|[H|[H|[H|[H|[H|[H|[H|[H|[]]]]]]]]]]]]]]]; injection H as <- <- <-; cbn [o_solver o_wave] in *;
    unfold FD2Dacoustic, FD2Delastic, FD2Dviscoelastic, FD2Dsh, FD2Dviscosh, FD3Dacoustic, FD3Delastic, FD3Dviscoelastic,
      FD2Demem, FD2Dtmem, FD2Dviscoemem, FD2Dviscotmem, FD3Demem, FD3Dviscoemem in Hv; cbn [s_fields] in Hv;
    first [refine (vec_1 _ _ _ _ Hv _); reflexivity | refine (vec_2 _ _ _ _ _ _ Hv _); reflexivity].
Qed.
Print Assumptions C157_vectors.

(** The check before the first time step on the first process of the shot accepts only the exact names of the dimension, and of the
    equations without one of the two velocities only the lower-case names: other letter cases pass the factories and
    end in an exception. *)
Theorem C157_spelling : forall dimension type o g dt DHs orders fcs vP vS vEM procs ws,
  startup dimension type = Ok o ->
  (forall k, o_model o = Seismic k -> (hasP k = false -> vP = Throw) /\ (hasS k = false -> vS = Throw)) ->
  (numLayers g > 0)%nat ->
  checkArtefacts g 0 type dimension dt DHs orders fcs vP vS vEM procs = Ok ws ->
  In dimension [txt "2D"; txt "3D"] /\
  (forall n, In n ["acoustic"; "sh"; "viscosh"]%string -> same_name type (txt n) -> type = txt n).
Proof.
  intros dimension type o g dt DHs orders fcs vP vS vEM procs ws Hs Hm Hl H.
  unfold checkArtefacts in H.
  destruct (checkEquationType type) as [seis| | |] eqn:Ht; try discriminate. cbn [bind] in H.
  match type of H with bind ?x _ = _ => destruct x as [[vhi vlo]| | |] eqn:Hv; try discriminate end.
  cbn [bind] in H.
  match type of H with bind ?x _ = _ => destruct x as [p| | |] eqn:Hp; try discriminate end.
  cbn [bind] in H. split.
  - destruct (numLayers g) as [|nl]; [lia|]. cbn [zseq check_layers] in H.
    destruct (vget orders 0) as [od| | |]; try discriminate. cbn [bind] in H.
    unfold checkStabilityCriterion in H. cbn [Z.eqb] in H. unfold cfl_dim in H.
    destruct (str_eqb dimension (txt "2D")) eqn:E2; [apply str_eqb_true in E2; left; congruence|].
    destruct (str_eqb dimension (txt "3D")) eqn:E3; [apply str_eqb_true in E3; right; left; congruence|].
    discriminate.
  - apply C157_classes in Hs. destruct Hs as (d & t & Hin & Hd & Hn).
    intros n Hin' Hsame.
    assert (E : lower (txt t) = lower (txt n)).
    { apply lower_same in Hn, Hsame. congruence. }
    assert (S : seis = true).
    { unfold checkEquationType in Ht. apply lower_same in Hsame. rewrite Hsame in Ht.
      cbn [In] in Hin'. destruct Hin' as [<-|[<-|[<-|[]]]]; vm_compute in Ht; congruence. }
    subst seis.
    cbn [In] in Hin'. unfold table in Hin. cbn [In] in Hin.
    destruct (str_eqb type (txt n)) eqn:X; [apply str_eqb_true; exact X|exfalso]. apply str_eqb_false in X.
    apply lower_same in Hsame.
    destruct Hin' as [<-|[<-|[<-|[]]]].
    + assert (M : o_model o = Seismic Acoustic).
      { repeat (destruct Hin as [Hin|Hin]; [injection Hin as <- <- <-; first [reflexivity|discriminate E]|]). destruct Hin. }
      destruct (Hm _ M) as [_ HS]. rewrite (HS eq_refl) in Hv.
      rewrite (proj2 (str_eqb_false type (txt "acoustic")) X) in Hv.
      destruct (_ || _); [|destruct vP]; discriminate.
    + assert (M : o_model o = Seismic SH).
      { repeat (destruct Hin as [Hin|Hin]; [injection Hin as <- <- <-; first [reflexivity|discriminate E]|]). destruct Hin. }
      destruct (Hm _ M) as [HP _]. rewrite (HP eq_refl) in Hv.
      rewrite (proj2 (str_eqb_false type (txt "sh")) X) in Hv.
      destruct (str_eqb type (txt "viscosh")) eqn:Y; [apply str_eqb_true in Y; rewrite Y in Hsame; discriminate Hsame|].
      cbn [orb bind] in Hv. discriminate.
    + assert (M : o_model o = Seismic ViscoSH).
      { repeat (destruct Hin as [Hin|Hin]; [injection Hin as <- <- <-; first [reflexivity|discriminate E]|]). destruct Hin. }
      destruct (Hm _ M) as [HP _]. rewrite (HP eq_refl) in Hv.
      rewrite (proj2 (str_eqb_false type (txt "viscosh")) X) in Hv.
      destruct (str_eqb type (txt "sh")) eqn:Y; [apply str_eqb_true in Y; rewrite Y in Hsame; discriminate Hsame|].
      cbn [orb bind] in Hv. discriminate.
Qed.
Print Assumptions C157_spelling.

Example C157_ex :
  startup (txt "2D") (txt "ViscoSH") = Ok {| o_deriv := false; o_model := Seismic ViscoSH; o_wave := W2Dviscosh; o_solver := FD2Dviscosh |} /\
  startup (txt "3d") (txt "TMEM") = UB /\ startup (txt "4D") (txt "sh") = Throw /\ startup (txt "2D") (txt "elastc") = Throw.
Proof. repeat split; reflexivity. Qed.
(** An acoustic model of one layer that passes the check. *)
Example C157_spelling_ex : exists g, mk_regular 4 4 1 = Ok g /\ (numLayers g > 0)%nat /\
  exists ws, checkArtefacts g 0 (txt "acoustic") (txt "2D") (1 / 2) (fun _ => 1%R) [2] [] (Ok (fun _ => 1%R)) Throw Throw [[0; 5]] = Ok ws.
Proof.
  eexists. split; [reflexivity|]. split; [cbn; lia|].
  apply (C77_model_check _ _ _ 2 _ _ _ _ _ _ _ (fun _ => 1%R) (fun _ => 1%R)); try reflexivity.
  - right. left. repeat split; reflexivity.
  - left. split; reflexivity.
  - repeat constructor.
  - intros. lra.
  - lra.
  - intros owned i [<-|[]] [<-|[<-|[]]]; exists 0; (split; [eexists; split; reflexivity|vm_compute; split; [discriminate|reflexivity]]).
  - intros owned i k _ _ _. split; [|intros H; cbn in H; destruct H as [H|[H|[]]]; discriminate].
    assert (S2 : (0 <= sqrt 2 < 2)%R).
    { split; [apply sqrt_pos|]. pose proof (sqrt_sqrt 2 ltac:(lra)). pose proof (sqrt_pos 2). nra. }
    change (IZR 2) with 2%R. lra.
Qed.

(** C172: writing and reading model files.  C173: the model files created by TwoLayer. *)
From Coq Require Import Ascii String Reals Lra.
From Verif Require Import Base M_Acq M_Conf M_Model M_ModelEM M_Factory M_ModelFiles S_ModelFiles L_ModelFiles.
Open Scope Z_scope.
Local Notation length := List.length.

(** Reading a model of class [c] succeeds exactly when each quantity of the class has a file with one number per grid point; the
    object then holds what the files hold, zeros for the optional quantities not in use, and is otherwise unchanged.  Nothing but an
    exception can happen instead. *)
Theorem C172_read : forall V (zero : V) c fs n base t o,
  ((exists o', initFromFiles zero c fs n base (code t) o = Ok o') <->
   (forall f, kept c o f -> exists v, fs (file base f t) = Some v /\ length v = n)) /\
  (forall o', initFromFiles zero c fs n base (code t) o = Ok o' ->
     same_settings o' o /\
     (forall f, kept c o f -> fs (file base f t) = Some (vecs o' f)) /\
     (forall f, optional f -> ~ kept c o f -> vecs o' f = repeat zero n) /\
     (forall f, ~ optional f -> ~ kept c o f -> vecs o' f = vecs o f)) /\
  ((forall o', initFromFiles zero c fs n base (code t) o <> Ok o') -> initFromFiles zero c fs n base (code t) o = Throw).
Proof.
  intros V zero c fs n base t o.
  destruct (init_spec V zero c fs n base t o) as [[o' [E [S [A [B C]]]]]|[E [f [K F]]]]; rewrite E.
  - split; [|split].
    + split; [|eauto]. intros _ f K. destruct (A f K). eauto.
    + intros o2 H. injection H as <-. split; [exact S|]. split; [|split]; auto. intros f K. apply A, K.
    + intros H. now destruct (H o').
  - split; [|split].
    + split; [intros [o' H]; discriminate|]. intros H. destruct (H f K) as [v [H1 H2]]. now destruct (F v H1).
    + discriminate.
    + reflexivity.
Qed.

(** Writing a model succeeds; afterwards each quantity of the class is in its file, and no other file has changed. *)
Theorem C172_write : forall V rnd c fs base t (o : pobj V),
  exists fs', writeFiles rnd c fs base (code t) o = Ok fs' /\
    (forall f, kept c o f -> fs' (file base f t) = Some (map (rnd (code t)) (vecs o f))) /\
    (forall name, (forall f, kept c o f -> name <> file base f t) -> fs' name = fs name).
Proof. exact write_spec. Qed.

(** A model written by one object is read back by another of the same class and settings. *)
Theorem C172_roundtrip : forall V (zero : V) rnd c fs n base t o o2,
  (forall f, kept c o f -> length (vecs o f) = n) -> same_settings o2 o ->
  exists fs' o', writeFiles rnd c fs base (code t) o = Ok fs' /\ initFromFiles zero c fs' n base (code t) o2 = Ok o' /\
    same_settings o' o /\ forall f, kept c o f -> vecs o' f = map (rnd (code t)) (vecs o f).
Proof.
  intros V zero rnd c fs n base t o o2 L S. destruct (C172_write V rnd c fs base t o) as [fs' [E [A _]]].
  destruct (C172_read V zero c fs' n base t o2) as [[_ R] [U _]].
  destruct R as [o' Ho'].
  { intros f K. apply (kept_settings V c o2 o f S) in K. eexists. split; [apply A, K|]. rewrite map_length. auto. }
  exists fs', o'. split; [exact E|]. split; [exact Ho'|]. destruct (U o' Ho') as [S' [B _]]. split; [eapply same_trans; eauto|].
  intros f K. specialize (B f (proj2 (kept_settings V c o2 o f S) K)). rewrite (A f K) in B. congruence.
Qed.

(** A model written by an object of class [c1] can be read as a model of class [c2] exactly when all quantities of the reader are
    quantities of the writer (for a base name that has no files yet). *)
Theorem C172_cross : forall V (zero : V) rnd c1 c2 fs n base t o1 o2 fs',
  (forall f, kept c1 o1 f -> length (vecs o1 f) = n) -> (forall f, fs (file base f t) = None) ->
  writeFiles rnd c1 fs base (code t) o1 = Ok fs' ->
  ((exists o', initFromFiles zero c2 fs' n base (code t) o2 = Ok o') <-> (forall f, kept c2 o2 f -> kept c1 o1 f)).
Proof.
  intros V zero rnd c1 c2 fs n base t o1 o2 fs' L N H. destruct (C172_write V rnd c1 fs base t o1) as [fs2 [E [A B]]].
  rewrite H in E. injection E as <-. destruct (C172_read V zero c2 fs' n base t o2) as [R _]. rewrite R. split.
  - intros Q f K. destruct (kept_dec V c1 o1 f) as [k|nk]; [exact k|]. exfalso. destruct (Q f K) as [v [Hv _]].
    rewrite B in Hv; [rewrite N in Hv; discriminate|]. intros g Hg F. apply file_inj in F. subst. contradiction.
  - intros Q f K. eexists. split; [apply A, Q, K|]. rewrite map_length. auto.
Qed.

(** Any other number of the file format makes both throw. *)
Theorem C172_format : forall V (zero : V) rnd c fs n base m o, ~ 1 <= m <= 3 ->
  writeFiles rnd c fs base m o = Throw /\ initFromFiles zero c fs n base m o = Throw.
Proof. intros. split; [now apply write_bad|now apply init_bad]. Qed.

(** A viscoelastic model of two points, written as text and read back, then read as an SH model; an elastic one cannot be read as
    viscoelastic. *)
Definition ex_vecs (f : fld) : list Z := match f with VP => [5; 6] | VS => [3; 4] | RHO => [2; 2] | TAUP => [1; 0] | TAUS => [0; 1] | _ => [] end.
Definition ex_obj : pobj Z := mkO ex_vecs 0 0 0 0.
Definition ex_blank : pobj Z := mkO (fun _ => []) 0 0 0 0.
Example C172_ex :
  (exists fs, writeFiles (fun _ x => x) (Seismic Viscoelastic) (fun _ => None) (txt "model") 1 ex_obj = Ok fs /\
     fs (txt "model.tauS.mtx") = Some [0; 1] /\
     (exists o, initFromFiles 0 (Seismic Viscoelastic) fs 2 (txt "model") 1 ex_blank = Ok o /\ vecs o TAUP = [1; 0] /\ vecs o POR = [0; 0]) /\
     (exists o, initFromFiles 0 (Seismic SH) fs 2 (txt "model") 1 ex_blank = Ok o /\ vecs o VS = [3; 4] /\ vecs o VP = [])) /\
  (exists fs, writeFiles (fun _ x => x) (Seismic Elastic) (fun _ => None) (txt "model") 1 ex_obj = Ok fs /\
     initFromFiles 0 (Seismic Viscoelastic) fs 2 (txt "model") 1 ex_blank = Throw).
Proof.
  split.
  - eexists. split; [reflexivity|]. split; [reflexivity|]. split; eexists; repeat split.
  - eexists. split; reflexivity.
Qed.

(** ** TwoLayer *)
(** What a model of two layers should be: the upper 40 grid points of each column have the first value, the others the second. *)
Definition first_layer (f : fld) : R := match f with VP => 3500 | VS => 2000 | RHO => 2000 | _ => / 10 end%R.
Definition second_layer (f : fld) : R := match f with VP => 4550 | VS => 2600 | RHO => 2600 | _ => / 10 end%R.

Lemma model_of_type : forall type c, create_model type = Ok (Some c) ->
  (type = txt "sh" -> c = Seismic SH) /\ (type = txt "acoustic" -> c = Seismic Acoustic) /\
  (type = txt "viscoelastic" -> c = Seismic Viscoelastic).
Proof.
  intros type c H.
  assert (A : create_model (txt "sh") = Ok (Some (Seismic SH))) by reflexivity.
  assert (B : create_model (txt "acoustic") = Ok (Some (Seismic Acoustic))) by reflexivity.
  assert (C : create_model (txt "viscoelastic") = Ok (Some (Seismic Viscoelastic))) by reflexivity.
  repeat split; intros ->; congruence.
Qed.

(** The tool writes with each of the three formats, whatever the equation type, and touches no file of another name. *)
Theorem C173_writes : forall rnd fs NX NY NZ type base t,
  exists fs', twoLayer rnd fs NX NY NZ type base (code t) = Ok fs' /\
    forall name, (forall f, name <> file base f t) -> fs' name = fs name.
Proof.
  intros rnd fs NX NY NZ type base t. destruct (twoLayer_spec rnd fs NX NY NZ type base t) as [fs' [E [_ B]]].
  exists fs'. split; [exact E|]. intros name H. apply B. intros f _. apply H.
Qed.

(** The files created for the equation type of the configuration can be read by the class that the simulation creates for it exactly
    for acoustic, elastic and SH modelling, and for viscoelastic modelling if the type is written in small letters. *)
Theorem C173_readable : forall rnd zero fs NX NY NZ type base t c o fs',
  0 < NX -> 0 < NY -> 0 < NZ -> (forall f, fs (file base f t) = None) -> ~ usesPetro o -> ~ usesRefl o ->
  create_model type = Ok (Some c) -> twoLayer rnd fs NX NY NZ type base (code t) = Ok fs' ->
  ((exists o', initFromFiles zero c fs' (Z.to_nat (NX * NY * NZ)) base (code t) o = Ok o') <->
   (c = Seismic Acoustic \/ c = Seismic Elastic \/ c = Seismic SH \/ type = txt "viscoelastic")).
Proof.
  intros rnd zero fs NX NY NZ type base t c o fs' Hx Hy Hz N P Q Hc H.
  destruct (twoLayer_spec rnd fs NX NY NZ type base t) as [fs2 [E [A B]]]. rewrite H in E. injection E as <-.
  destruct (model_of_type type c Hc) as [T1 [T2 T3]].
  destruct (C172_read R zero c fs' (Z.to_nat (NX * NY * NZ)) base t o) as [R _]. rewrite R. clear R.
  assert (W : forall f, (exists v, fs' (file base f t) = Some v /\ length v = Z.to_nat (NX * NY * NZ)) <-> written type f).
  { intro f. split.
    - intros [v [Hv _]].
      assert (D : {written type f} + {~ written type f})
        by (destruct f; cbn [written]; auto; destruct (list_eq_dec ascii_dec type (txt "sh")), (list_eq_dec ascii_dec type (txt "acoustic")),
              (list_eq_dec ascii_dec type (txt "viscoelastic")); auto).
      destruct D as [d|nd]; [exact d|]. exfalso. rewrite B in Hv; [rewrite N in Hv; discriminate|].
      intros g Hg F. apply file_inj in F. subst. contradiction.
    - intros Wf. eexists. split; [apply A, Wf|]. rewrite map_length. apply layers_spec; lia. }
  split.
  - intros K.
    assert (K' : forall f, kept c o f -> written type f) by (intros f Kf; apply W, K, Kf). clear K.
    destruct c as [[]|k]; auto.
    + exfalso. specialize (K' TAUS ltac:(right; reflexivity)). cbn in K'. specialize (T3 K'). discriminate.
    + right. right. right. apply (K' TAUS). left. reflexivity.
    + exfalso. apply (K' MUR). now exists k.
  - intros K f Kf. apply W.
    assert (C3 : type = txt "viscoelastic" -> c = Seismic Viscoelastic) by exact T3.
    destruct f; cbn [written kept] in *; auto; try contradiction.
    + intros ->. specialize (T1 eq_refl). subst. destruct Kf as [F|[F|F]]; discriminate.
    + intros ->. specialize (T2 eq_refl). subst. destruct Kf as [k [F G]]. congruence.
    + destruct Kf as [[F|F] _]; subst; destruct K as [K|[K|[K|K]]]; try discriminate; exact K.
    + destruct Kf as [F|F]; subst; destruct K as [K|[K|[K|K]]]; try discriminate; exact K.
    + destruct Kf as [k F]. subst. destruct K as [K|[K|[K|K]]]; try discriminate. specialize (T3 K). discriminate.
    + destruct Kf as [k F]. subst. destruct K as [K|[K|[K|K]]]; try discriminate. specialize (T3 K). discriminate.
    + destruct Kf as [k F]. subst. destruct K as [K|[K|[K|K]]]; try discriminate. specialize (T3 K). discriminate.
    + destruct Kf as [F|F]; subst; destruct K as [K|[K|[K|K]]]; try discriminate; specialize (T3 K); discriminate.
    + destruct Kf as [F|F]; subst; destruct K as [K|[K|[K|K]]]; try discriminate; specialize (T3 K); discriminate.
Qed.

(** The values the simulation then has at the grid point (x, y, z), whose index is x + z NX + y NX NZ (C01). *)
Theorem C173_layers : forall rnd zero fs NX NY NZ type base t c o o' fs' f,
  0 < NX -> 0 < NY -> 0 < NZ -> (forall f, fs (file base f t) = None) ->
  twoLayer rnd fs NX NY NZ type base (code t) = Ok fs' ->
  initFromFiles zero c fs' (Z.to_nat (NX * NY * NZ)) base (code t) o = Ok o' -> kept c o f ->
  forall x y z, 0 <= x < NX -> 0 <= y < NY -> 0 <= z < NZ ->
    nth_error (vecs o' f) (Z.to_nat (x + z * NX + y * NX * NZ)) =
      Some (rnd (code t) (if y <? 40 then first_layer f else second_layer f)).
Proof.
  intros rnd zero fs NX NY NZ type base t c o o' fs' f Hx Hy Hz N H I K x y z Bx By Bz.
  destruct (twoLayer_spec rnd fs NX NY NZ type base t) as [fs2 [E [A B]]]. rewrite H in E. injection E as <-.
  destruct (C172_read R zero c fs' (Z.to_nat (NX * NY * NZ)) base t o) as [_ [U _]].
  destruct (U o' I) as [_ [V _]]. specialize (V f K).
  assert (D : {written type f} + {~ written type f})
    by (destruct f; cbn [written]; auto; destruct (list_eq_dec ascii_dec type (txt "sh")), (list_eq_dec ascii_dec type (txt "acoustic")),
          (list_eq_dec ascii_dec type (txt "viscoelastic")); auto).
  destruct D as [d|nd].
  2:{ exfalso. rewrite B in V; [rewrite N in V; discriminate|]. intros g Hg F. apply file_inj in F. subst. contradiction. }
  rewrite (A f d) in V. injection V as V. rewrite <- V.
  destruct (layers_spec R NX NY NZ 40 (upper_value f) (lower_value f) Hx Hy Hz ltac:(lia)) as [L M].
  rewrite nth_error_map. rewrite (nth_error_nth' _ 0%R).
  - cbn [option_map]. rewrite (M x y z 0%R Bx By Bz). f_equal. f_equal.
    destruct (y <? 40), f; cbn; lra.
  - rewrite L. pose proof (cell_bounds NX NY NZ x y z Bx By Bz). assert (0 <= y * (NZ * NX)) by nia.
    replace (NX * NY * NZ) with (NY * (NZ * NX)) by ring. apply Z2Nat.inj_lt; lia.
Qed.

(** So the tool does not serve every equation type: for viscoelastic SH modelling the file with the attenuation is missing, and so it
    is for "Viscoelastic", although the simulation accepts that name. *)
Theorem C173_refuted : exists type c rnd NX NY NZ base fs',
  create_model type = Ok (Some c) /\ c = Seismic ViscoSH /\ twoLayer rnd (fun _ => None) NX NY NZ type base 1 = Ok fs' /\
  forall o, ~ usesPetro o -> ~ usesRefl o -> initFromFiles 0%R c fs' (Z.to_nat (NX * NY * NZ)) base 1 o = Throw.
Proof.
  set (type := txt "viscosh"). destruct (twoLayer_spec (fun _ x => x) (fun _ => None) 2 2 2 type (txt "m") Text) as [fs' [E _]].
  exists type, (Seismic ViscoSH), (fun _ x => x), 2, 2, 2, (txt "m"), fs'.
  split; [reflexivity|]. split; [reflexivity|]. split; [exact E|]. intros o P Q.
  destruct (C172_read R 0%R (Seismic ViscoSH) fs' (Z.to_nat (2 * 2 * 2)) (txt "m") Text o) as [_ [_ T]]. apply T. clear T.
  intros o' Ho'.
  assert (G : exists o', initFromFiles 0%R (Seismic ViscoSH) fs' (Z.to_nat (2 * 2 * 2)) (txt "m") 1 o = Ok o') by eauto.
  apply (C173_readable (fun _ x => x) 0%R (fun _ => None) 2 2 2 type (txt "m") Text (Seismic ViscoSH) o fs') in G; auto; try lia.
  destruct G as [G|[G|[G|G]]]; discriminate.
Qed.
Theorem C173_case_refuted : exists type rnd NX NY NZ base fs',
  M_Conf.lower type = txt "viscoelastic" /\ create_model type = Ok (Some (Seismic Viscoelastic)) /\
  twoLayer rnd (fun _ => None) NX NY NZ type base 1 = Ok fs' /\
  forall o, ~ usesPetro o -> ~ usesRefl o -> initFromFiles 0%R (Seismic Viscoelastic) fs' (Z.to_nat (NX * NY * NZ)) base 1 o = Throw.
Proof.
  set (type := txt "Viscoelastic"). destruct (twoLayer_spec (fun _ x => x) (fun _ => None) 2 2 2 type (txt "m") Text) as [fs' [E _]].
  exists type, (fun _ x => x), 2, 2, 2, (txt "m"), fs'.
  split; [reflexivity|]. split; [reflexivity|]. split; [exact E|]. intros o P Q.
  destruct (C172_read R 0%R (Seismic Viscoelastic) fs' (Z.to_nat (2 * 2 * 2)) (txt "m") Text o) as [_ [_ T]]. apply T. clear T.
  intros o' Ho'.
  assert (G : exists o', initFromFiles 0%R (Seismic Viscoelastic) fs' (Z.to_nat (2 * 2 * 2)) (txt "m") 1 o = Ok o') by eauto.
  apply (C173_readable (fun _ x => x) 0%R (fun _ => None) 2 2 2 type (txt "m") Text (Seismic Viscoelastic) o fs') in G; auto; try lia.
  destruct G as [G|[G|[G|G]]]; discriminate.
Qed.

(** Two columns of 41 points for acoustic modelling: the last point of a column is in the second layer. *)
Example C173_ex : exists fs o, twoLayer (fun _ x => x) (fun _ => None) 2 41 1 (txt "acoustic") (txt "m") 2 = Ok fs /\
  initFromFiles 0%R (Seismic Acoustic) fs 82 (txt "m") 2 (mkO (fun _ => []) 0 0 0 0) = Ok o /\
  nth_error (vecs o VP) 79 = Some 3500%R /\ nth_error (vecs o VP) 80 = Some 4550%R.
Proof.
  destruct (twoLayer_spec (fun _ x => x) (fun _ => None) 2 41 1 (txt "acoustic") (txt "m") Lama) as [fs [E _]].
  assert (NP : ~ usesPetro (mkO (fun _ => @nil R) 0 0 0 0)) by (unfold usesPetro; cbn; lia).
  assert (NR : ~ usesRefl (mkO (fun _ => @nil R) 0 0 0 0)) by (unfold usesRefl; cbn; lia).
  destruct (proj2 (C173_readable (fun _ x => x) 0%R (fun _ => None) 2 41 1 (txt "acoustic") (txt "m") Lama (Seismic Acoustic)
    (mkO (fun _ => []) 0 0 0 0) fs ltac:(lia) ltac:(lia) ltac:(lia) ltac:(auto) NP NR eq_refl E)) as [o Ho]; [auto|].
  exists fs, o. split; [exact E|]. split; [exact Ho|].
  pose proof (C173_layers (fun _ x => x) 0%R (fun _ => None) 2 41 1 (txt "acoustic") (txt "m") Lama (Seismic Acoustic) _ o fs VP
    ltac:(lia) ltac:(lia) ltac:(lia) ltac:(auto) E Ho ltac:(left; reflexivity)) as Q.
  split; [exact (Q 1 39 0 ltac:(lia) ltac:(lia) ltac:(lia))|exact (Q 0 40 0 ltac:(lia) ltac:(lia) ltac:(lia))].
Qed.

Print Assumptions C172_read.
Print Assumptions C172_write.
Print Assumptions C172_roundtrip.
Print Assumptions C172_cross.
Print Assumptions C172_format.
Print Assumptions C173_writes.
Print Assumptions C173_readable.
Print Assumptions C173_layers.
Print Assumptions C173_refuted.
Print Assumptions C173_case_refuted.

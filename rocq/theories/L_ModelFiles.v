(** Lemmas for the model files. *)
From Coq Require Import Ascii String Reals.
From Verif Require Import Base M_Acq M_Conf M_Model M_ModelEM M_Factory M_ModelFiles S_ModelFiles.
Open Scope Z_scope.
Local Notation length := List.length.

Lemma str_eqb_eq : forall a b, str_eqb a b = true <-> a = b.
Proof. intros a b. unfold str_eqb. destruct (list_eq_dec ascii_dec a b); split; congruence. Qed.
Lemma str_eqb_refl : forall a, str_eqb a a = true.
Proof. intro a. now apply str_eqb_eq. Qed.
Lemma str_eqb_ne : forall a b, a <> b -> str_eqb a b = false.
Proof. intros a b H. destruct (str_eqb a b) eqn:E; auto. apply str_eqb_eq in E. contradiction. Qed.
Lemma fld_eqb_eq : forall a b, fld_eqb a b = true <-> a = b.
Proof. intros [] []; cbn; split; congruence. Qed.

Lemma fld_dec : forall a b : fld, {a = b} + {a <> b}.
Proof. decide equality. Defined.

Definition dotted (s : string) : str := txt ("." ++ s)%string.
Lemma ending_code : forall t, ending (code t) = Ok (dotted (extension t)).
Proof. now intros []. Qed.
Lemma ending_bad : forall m, ~ 1 <= m <= 3 -> ending m = Throw.
Proof. intros m H. unfold ending. destruct (m =? 1) eqn:A, (m =? 2) eqn:B, (m =? 3) eqn:C; auto; lia. Qed.
Lemma file_eq : forall base f t, file base f t = (base ++ dotted (quantity f)) ++ dotted (extension t).
Proof. intros base f t. unfold file. rewrite <- app_assoc. f_equal. now destruct f, t. Qed.
Lemma quantity_inj : forall f g, dotted (quantity f) = dotted (quantity g) -> f = g.
Proof. intros [] []; cbv; intro H; try reflexivity; discriminate H. Qed.
Lemma file_inj : forall base f g t, file base f t = file base g t -> f = g.
Proof.
  intros base f g t H. rewrite !file_eq in H. apply app_inv_tail in H. apply app_inv_head in H. now apply quantity_inj.
Qed.

(** The lists of the model in terms of the quantities. *)
Definition named (l : list fld) : list (fld * str) := map (fun f => (f, dotted (quantity f))) l.
Definition petroPart {V} (o : pobj V) : list fld := if petroFiles o then [POR; SAT] else [].
Definition reflPart {V} (o : pobj V) : list fld := if reflFile o then [REFL] else [].
Lemma initList_named : forall c, initList c = named (map fst (initList c)).
Proof. now intros [[]|[]]. Qed.
Lemma writeList_named : forall c, writeList c = named (map fst (writeList c)).
Proof. now intros [[]|[]]. Qed.

Lemma petro_iff : forall V (o : pobj V), petroFiles o = true <-> usesPetro o.
Proof. intros V o. unfold petroFiles, usesPetro. lia. Qed.
Lemma refl_iff : forall V (o : pobj V), reflFile o = true <-> usesRefl o.
Proof. intros V o. unfold reflFile, usesRefl. lia. Qed.
Lemma petroPart_in : forall V (o : pobj V) f, In f (petroPart o) <-> usesPetro o /\ (f = POR \/ f = SAT).
Proof.
  intros V o f. rewrite <- petro_iff. unfold petroPart. destruct (petroFiles o); cbn; intuition (try congruence; auto).
Qed.
Lemma reflPart_in : forall V (o : pobj V) f, In f (reflPart o) <-> usesRefl o /\ f = REFL.
Proof.
  intros V o f. rewrite <- refl_iff. unfold reflPart. destruct (reflFile o); cbn; intuition (try congruence; auto).
Qed.

Lemma base_in : forall V (o : pobj V) c f l, l = map fst (initList c) \/ l = map fst (writeList c) ->
  (In f l <-> kept c o f /\ ~ optional f).
Proof.
  intros V o c f l Hl.
  assert (D : (compressional c <-> match c with Seismic (Acoustic | Elastic | Viscoelastic) => True | _ => False end) /\
              (shear c <-> match c with Seismic Acoustic => False | Seismic _ => True | _ => False end) /\
              ((exists k, c = Seismic k) <-> match c with Seismic _ => True | _ => False end) /\
              (attenuating c <-> match c with Seismic (Viscoelastic | ViscoSH) => True | _ => False end) /\
              (electromagnetic c <-> match c with Electromagnetic _ => True | _ => False end) /\
              (relaxing c <-> match c with Electromagnetic (ViscoEMEM | ViscoTMEM) => True | _ => False end)).
  { unfold compressional, shear, attenuating, electromagnetic, relaxing.
    destruct c as [[]|[]]; repeat split; intros; auto; try contradiction;
      repeat match goal with H : _ \/ _ |- _ => destruct H | H : exists _, _ |- _ => destruct H | H : _ /\ _ |- _ => destruct H end;
      try discriminate; try congruence; eauto; eexists; split; try reflexivity; discriminate. }
  destruct D as [D1 [D2 [D3 [D4 [D5 D6]]]]].
  assert (O : optional f <-> match f with POR | SAT | REFL => True | _ => False end)
    by (unfold optional; destruct f; intuition discriminate).
  rewrite O; clear O.
  unfold kept; destruct f; rewrite ?D1, ?D2, ?D3, ?D4, ?D5, ?D6; clear D1 D2 D3 D4 D5 D6;
    destruct Hl as [-> | ->]; destruct c as [[]|[]]; cbn; intuition (try discriminate; auto).
Qed.
Lemma all_in : forall V (o : pobj V) c f l, l = map fst (initList c) \/ l = map fst (writeList c) ->
  (In f (l ++ petroPart o ++ reflPart o) <-> kept c o f).
Proof.
  intros V o c f l Hl. rewrite !in_app_iff, (base_in V o c f l Hl), petroPart_in, reflPart_in.
  unfold optional, kept. destruct f; intuition (try congruence; try discriminate).
Qed.

(** Writing a list of quantities. *)
Lemma writeAll_named : forall V rnd base t (o : pobj V) l fs,
  exists fs', writeAll rnd fs base (code t) (named l) o = Ok fs' /\
    (forall f, In f l -> fs' (file base f t) = Some (map (rnd (code t)) (vecs o f))) /\
    (forall name, (forall f, In f l -> name <> file base f t) -> fs' name = fs name).
Proof.
  intros V rnd base t o l. induction l as [|f l IH]; intro fs.
  - exists fs. repeat split; auto. intros f [].
  - cbn [named map writeAll]. unfold writeVector. rewrite ending_code. cbn [bind].
    destruct (IH (fun name => if str_eqb name ((base ++ dotted (quantity f)) ++ dotted (extension t))
                              then Some (map (rnd (code t)) (vecs o f)) else fs name)) as [fs' [E [A B]]].
    exists fs'. split; [exact E|]. split.
    + intros g [<- | Hg]; [|auto].
      destruct (in_dec fld_dec f l) as [i|n]; [auto|].
      rewrite B. { rewrite <- file_eq, str_eqb_refl. reflexivity. }
      intros g Hg Q. apply file_inj in Q. congruence.
    + intros name H. rewrite B by (intros g Hg; apply H; now right).
      rewrite <- file_eq. rewrite str_eqb_ne; auto. apply H. now left.
Qed.
Lemma writeAll_app : forall V rnd base m (o : pobj V) l1 l2 fs,
  writeAll rnd fs base m (l1 ++ l2) o = (fs <- writeAll rnd fs base m l1 o ;; writeAll rnd fs base m l2 o).
Proof.
  intros V rnd base m o l1 l2. induction l1 as [|[f s] l1 IH]; intro fs; [reflexivity|].
  cbn [app writeAll]. destruct (writeVector rnd fs (vecs o f) (base ++ s) m); cbn [bind]; auto.
Qed.
Lemma named_app : forall a b, named (a ++ b) = named a ++ named b.
Proof. intros. apply map_app. Qed.
Lemma writeFiles_eq : forall V rnd c fs base m (o : pobj V),
  writeFiles rnd c fs base m o = writeAll rnd fs base m (named (map fst (writeList c) ++ petroPart o ++ reflPart o)) o.
Proof.
  intros V rnd c fs base m o. unfold writeFiles. rewrite !named_app, <- writeList_named, !writeAll_app.
  destruct (writeAll rnd fs base m (writeList c) o); cbn [bind]; try reflexivity.
  rewrite writeAll_app.
  unfold petroPart, reflPart. destruct (petroFiles o); cbn [named map].
  - change [(POR, dotted (quantity POR)); (SAT, dotted (quantity SAT))] with [(POR, txt ".porosity"); (SAT, txt ".saturation")].
    match goal with |- bind ?x _ = bind ?y _ => destruct y end; cbn [bind]; try reflexivity; destruct (reflFile o); reflexivity.
  - cbn [bind writeAll]. destruct (reflFile o); reflexivity.
Qed.

(** Reading a list of quantities. *)
Lemma setv_settings : forall V (o : pobj V) f v, same_settings (setv o f v) o.
Proof. intros. repeat split. Qed.
Lemma same_trans : forall V (a b c : pobj V), same_settings a b -> same_settings b c -> same_settings a c.
Proof. unfold same_settings. intros V a b c H1 H2. intuition congruence. Qed.
Lemma readAll_named : forall V (fs : fsys V) n base t l o,
  (exists o', readAll fs n base (code t) (named l) o = Ok o' /\ same_settings o' o /\
     (forall f, In f l -> fs (file base f t) = Some (vecs o' f) /\ length (vecs o' f) = n) /\
     (forall f, ~ In f l -> vecs o' f = vecs o f))
  \/ (readAll fs n base (code t) (named l) o = Throw /\
      exists f, In f l /\ forall v, fs (file base f t) = Some v -> length v <> n).
Proof.
  intros V fs n base t l. induction l as [|f l IH]; intro o.
  - left. exists o. repeat split; auto; contradiction.
  - cbn [named map readAll]. unfold readVector. rewrite ending_code. cbn [bind]. rewrite <- file_eq.
    destruct (fs (file base f t)) as [v|] eqn:E; cbn [bind].
    + unfold assert. destruct (Nat.eqb (length v) n) eqn:L; cbn [bind].
      * apply Nat.eqb_eq in L. destruct (IH (setv o f v)) as [[o' [A [S [B C]]]]|[A [g [G H]]]].
        -- left. exists o'. split; [exact A|]. split; [exact (same_trans _ _ _ _ S (setv_settings V o f v))|]. split.
           ++ intros g [<- | Hg]; [|auto].
              destruct (in_dec fld_dec f l) as [i|ni]; [auto|].
              rewrite (C f ni). cbn. rewrite (proj2 (fld_eqb_eq f f) eq_refl). auto.
           ++ intros g Hg. rewrite C by (intro; apply Hg; now right). cbn.
              destruct (fld_eqb g f) eqn:Q; auto. apply fld_eqb_eq in Q. exfalso. apply Hg. now left.
        -- right. split; [exact A|]. exists g. split; [now right|auto].
      * right. split; [reflexivity|]. exists f. split; [now left|]. intros v' Hv. apply Nat.eqb_neq in L. congruence.
    + right. split; [reflexivity|]. exists f. split; [now left|]. intros v' Hv. congruence.
Qed.
Lemma readAll_app : forall V (fs : fsys V) n base m l1 l2 o,
  readAll fs n base m (l1 ++ l2) o = (o <- readAll fs n base m l1 o ;; readAll fs n base m l2 o).
Proof.
  intros V fs n base m l1 l2. induction l1 as [|[f s] l1 IH]; intro o; [reflexivity|].
  cbn [app readAll]. destruct (readVector fs n (base ++ s) m); cbn [bind]; auto.
Qed.

Lemma settings_flags : forall V (a b : pobj V), same_settings a b -> petroFiles a = petroFiles b /\ reflFile a = reflFile b.
Proof. intros V a b [H1 [H2 [H3 H4]]]. unfold petroFiles, reflFile. now rewrite H1, H2, H3, H4. Qed.

Lemma init_spec : forall V (zero : V) c fs n base t o,
  (exists o', initFromFiles zero c fs n base (code t) o = Ok o' /\ same_settings o' o /\
     (forall f, kept c o f -> fs (file base f t) = Some (vecs o' f) /\ length (vecs o' f) = n) /\
     (forall f, optional f -> ~ kept c o f -> vecs o' f = repeat zero n) /\
     (forall f, ~ optional f -> ~ kept c o f -> vecs o' f = vecs o f))
  \/ (initFromFiles zero c fs n base (code t) o = Throw /\
      exists f, kept c o f /\ forall v, fs (file base f t) = Some v -> length v <> n).
Proof.
  intros V zero c fs n base t o. unfold initFromFiles. rewrite initList_named.
  pose proof (fun f => base_in V o c f _ (or_introl eq_refl)) as BI.
  destruct (readAll_named V fs n base t (map fst (initList c)) o) as [[o1 [E1 [S1 [A1 B1]]]]|[E1 [f [F1 F2]]]];
    rewrite E1; cbn [bind].
  2:{ right. split; [reflexivity|]. exists f. apply BI in F1. tauto. }
  assert (P2 : (exists o2, (if petroFiles o1 then readAll fs n base (code t) [(POR, txt ".porosity"); (SAT, txt ".saturation")] o1
            else Ok (setv (setv o1 POR (repeat zero n)) SAT (repeat zero n))) = Ok o2 /\ same_settings o2 o /\
            (usesPetro o -> forall f, f = POR \/ f = SAT -> fs (file base f t) = Some (vecs o2 f) /\ length (vecs o2 f) = n) /\
            (~ usesPetro o -> forall f, f = POR \/ f = SAT -> vecs o2 f = repeat zero n) /\
            (forall f, f <> POR -> f <> SAT -> vecs o2 f = vecs o1 f)) \/
       ((if petroFiles o1 then readAll fs n base (code t) [(POR, txt ".porosity"); (SAT, txt ".saturation")] o1
            else Ok (setv (setv o1 POR (repeat zero n)) SAT (repeat zero n))) = Throw /\ usesPetro o /\
            exists f, (f = POR \/ f = SAT) /\ forall v, fs (file base f t) = Some v -> length v <> n)).
  { rewrite (proj1 (settings_flags V o1 o S1)). destruct (petroFiles o) eqn:P.
    - pose proof (proj1 (petro_iff V o) P) as U.
      change [(POR, txt ".porosity"); (SAT, txt ".saturation")] with (named [POR; SAT]).
      destruct (readAll_named V fs n base t [POR; SAT] o1) as [[o2 [E2 [S2 [A2 B2]]]]|[E2 [f [F1 F2]]]]; rewrite E2.
      + left. exists o2. split; [reflexivity|]. split; [eapply same_trans; eauto|]. split; [|split].
        * intros _ f Hf. apply A2. destruct Hf as [-> | ->]; cbn; auto.
        * tauto.
        * intros f H1 H2. apply B2. cbn. intuition congruence.
      + right. split; [reflexivity|]. split; [exact U|]. exists f. split; [|exact F2]. destruct F1 as [<-|[<-|[]]]; auto.
    - left. eexists. split; [reflexivity|]. split; [|split; [|split]].
      + eapply same_trans; [apply setv_settings|]. eapply same_trans; [apply setv_settings|]. exact S1.
      + intros U. apply petro_iff in U. congruence.
      + intros _ f [-> | ->]; reflexivity.
      + intros f H1 H2. destruct f; try reflexivity; congruence. }
  destruct P2 as [[o2 [-> [S2 [A2 [Z2 B2]]]]]|[-> [U [f [F1 F2]]]]]; cbn [bind].
  2:{ right. split; [reflexivity|]. exists f. split; [|exact F2]. destruct F1 as [-> | ->]; exact U. }
  rewrite (proj2 (settings_flags V o2 o S2)).
  assert (K1 : forall f, kept c o f -> ~ optional f -> fs (file base f t) = Some (vecs o1 f) /\ length (vecs o1 f) = n)
    by (intros f K O; apply A1, BI; auto).
  assert (K0 : forall f, ~ kept c o f -> ~ optional f -> vecs o1 f = vecs o f)
    by (intros f K O; apply B1; rewrite BI; tauto).
  assert (NO : forall f, ~ optional f -> f <> POR /\ f <> SAT /\ f <> REFL) by (unfold optional; intros; tauto).
  destruct (reflFile o) eqn:P.
  - pose proof (proj1 (refl_iff V o) P) as U.
    change [(REFL, txt ".reflectivity")] with (named [REFL]).
    destruct (readAll_named V fs n base t [REFL] o2) as [[o3 [E3 [S3 [A3 B3]]]]|[E3 [f [F1 F2]]]]; rewrite E3.
    + left. exists o3. split; [reflexivity|]. split; [eapply same_trans; eauto|].
      assert (C3 : forall f, f <> REFL -> vecs o3 f = vecs o2 f) by (intros; apply B3; cbn; intuition congruence).
      split; [|split].
      * intros f K. destruct (fld_dec f REFL) as [->|n1]; [apply A3; cbn; auto|]. rewrite C3 by auto.
        destruct (fld_dec f POR) as [->|n2]; [apply A2; auto|]. destruct (fld_dec f SAT) as [->|n3]; [apply A2; auto|].
        rewrite B2 by auto. apply K1; auto. unfold optional; tauto.
      * intros f O K. destruct O as [->|[->| ->]]; [| |contradiction]; rewrite C3 by discriminate; apply Z2; auto.
      * intros f O K. destruct (NO f O) as [N1 [N2 N3]]. rewrite C3, B2 by auto. auto.
    + right. split; [reflexivity|]. exists f. destruct F1 as [<-|[]]. split; auto.
  - assert (U : ~ usesRefl o) by (intro U; apply refl_iff in U; congruence).
    left. eexists. split; [reflexivity|]. split; [eapply same_trans; [apply setv_settings|exact S2]|].
    assert (C3 : forall f, f <> REFL -> vecs (setv o2 REFL (repeat zero n)) f = vecs o2 f) by (intros []; cbn; congruence).
    split; [|split].
    + intros f K. destruct (fld_dec f REFL) as [->|n1]; [contradiction|]. rewrite C3 by auto.
      destruct (fld_dec f POR) as [->|n2]; [apply A2; auto|]. destruct (fld_dec f SAT) as [->|n3]; [apply A2; auto|].
      rewrite B2 by auto. apply K1; auto. unfold optional; tauto.
    + intros f O K. destruct O as [->|[->| ->]]; [| |reflexivity]; rewrite C3 by discriminate; apply Z2; auto.
    + intros f O K. destruct (NO f O) as [N1 [N2 N3]]. rewrite C3, B2 by auto. auto.
Qed.

Lemma write_spec : forall V rnd c fs base t (o : pobj V),
  exists fs', writeFiles rnd c fs base (code t) o = Ok fs' /\
    (forall f, kept c o f -> fs' (file base f t) = Some (map (rnd (code t)) (vecs o f))) /\
    (forall name, (forall f, kept c o f -> name <> file base f t) -> fs' name = fs name).
Proof.
  intros V rnd c fs base t o. rewrite writeFiles_eq.
  destruct (writeAll_named V rnd base t o (map fst (writeList c) ++ petroPart o ++ reflPart o) fs) as [fs' [E [A B]]].
  pose proof (fun f => all_in V o c f _ (or_intror eq_refl)) as I.
  exists fs'. split; [exact E|]. split.
  - intros f K. apply A, I, K.
  - intros name H. apply B. intros f Hf. apply H, I, Hf.
Qed.

Lemma kept_settings : forall V c (a b : pobj V) f, same_settings a b -> (kept c a f <-> kept c b f).
Proof.
  intros V c a b f [H1 [H2 [H3 H4]]]. unfold kept, usesPetro, usesRefl. rewrite H1, H2, H3, H4. destruct f; tauto.
Qed.
Lemma kept_dec : forall V c (o : pobj V) f, {kept c o f} + {~ kept c o f}.
Proof.
  intros V c o f. destruct (in_dec fld_dec f (map fst (initList c) ++ petroPart o ++ reflPart o)) as [i|ni].
  - left. apply (all_in V o c f _ (or_introl eq_refl)), i.
  - right. intro K. apply ni, (all_in V o c f _ (or_introl eq_refl)), K.
Qed.

(** Other formats. *)
Lemma write_bad : forall V rnd c fs base m (o : pobj V), ~ 1 <= m <= 3 -> writeFiles rnd c fs base m o = Throw.
Proof. intros V rnd c fs base m o H. unfold writeFiles. destruct c as [[]|[]]; cbn; unfold writeVector; now rewrite ending_bad. Qed.
Lemma init_bad : forall V (zero : V) c fs n base m o, ~ 1 <= m <= 3 -> initFromFiles zero c fs n base m o = Throw.
Proof. intros V zero c fs n base m o H. unfold initFromFiles. destruct c as [[]|[]]; cbn; unfold readVector; now rewrite ending_bad. Qed.

(** The layers. *)
Lemma setPlane_length : forall V NZ NX y (b : V) v, 0 <= y -> 0 <= NZ * NX -> (Z.to_nat (y + 1) * Z.to_nat (NZ * NX) <= length v)%nat ->
  length (setPlane NZ NX y b v) = length v.
Proof.
  intros V NZ NX y b v H0 H1 H2. unfold setPlane. rewrite !app_length, firstn_length, repeat_length, skipn_length.
  replace (Z.to_nat (y + 1)) with (S (Z.to_nat y)) in * by lia. cbn [Nat.mul] in *. lia.
Qed.
Lemma setPlane_nth : forall V NZ NX y (b d : V) v i, 0 <= y -> 0 <= NZ * NX ->
  (Z.to_nat (y + 1) * Z.to_nat (NZ * NX) <= length v)%nat ->
  nth i (setPlane NZ NX y b v) d =
  if (Nat.leb (Z.to_nat y * Z.to_nat (NZ * NX)) i && Nat.ltb i (Z.to_nat (y + 1) * Z.to_nat (NZ * NX)))%bool then b else nth i v d.
Proof.
  intros V NZ NX y b d v i H0 H1 H2. unfold setPlane.
  replace (Z.to_nat (y + 1)) with (S (Z.to_nat y)) in * by lia. cbn [Nat.mul] in *.
  set (m := Z.to_nat (NZ * NX)) in *. set (q := (Z.to_nat y * m)%nat) in *.
  assert (Lf : length (firstn q v) = q) by (rewrite firstn_length; lia).
  destruct (Nat.leb q i) eqn:A; cbn [andb]; [apply Nat.leb_le in A|apply Nat.leb_gt in A].
  - rewrite app_nth2, Lf by lia. destruct (Nat.ltb i (m + q)) eqn:B; [apply Nat.ltb_lt in B|apply Nat.ltb_ge in B].
    + rewrite app_nth1 by (rewrite repeat_length; lia). clear - B A.
      assert (K : (i - q < m)%nat) by lia. revert K. generalize (i - q)%nat. clear.
      induction m as [|m IH]; intros [|k] H; cbn; try lia; auto. apply IH. lia.
    + rewrite app_nth2 by (rewrite repeat_length; lia). rewrite repeat_length.
      rewrite <- (firstn_skipn (m + q) v) at 2. rewrite app_nth2; rewrite firstn_length; [|lia]. f_equal. lia.
  - rewrite app_nth1 by lia. rewrite <- (firstn_skipn q v) at 2. rewrite app_nth1 by lia. reflexivity.
Qed.
Lemma fold_planes : forall V NZ NX (b d : V) k depth v, 0 <= depth -> 0 <= NZ * NX ->
  (Z.to_nat (depth + Z.of_nat k) * Z.to_nat (NZ * NX) <= length v)%nat ->
  length (fold_left (fun v y => setPlane NZ NX y b v) (zseq depth k) v) = length v /\
  forall i, nth i (fold_left (fun v y => setPlane NZ NX y b v) (zseq depth k) v) d =
    if (Nat.leb (Z.to_nat depth * Z.to_nat (NZ * NX)) i && Nat.ltb i (Z.to_nat (depth + Z.of_nat k) * Z.to_nat (NZ * NX)))%bool
    then b else nth i v d.
Proof.
  intros V NZ NX b d k. induction k as [|k IH]; intros depth v Hd Hm Hl.
  - split; [reflexivity|]. intro i. cbn [zseq fold_left]. rewrite Z.add_0_r.
    destruct (Nat.leb _ i) eqn:A, (Nat.ltb i _) eqn:B; auto. apply Nat.leb_le in A. apply Nat.ltb_lt in B. lia.
  - cbn [zseq fold_left].
    assert (M : (Z.to_nat (depth + 1) * Z.to_nat (NZ * NX) <= length v)%nat)
      by (eapply Nat.le_trans; [|exact Hl]; apply Nat.mul_le_mono_r; lia).
    pose proof (setPlane_length V NZ NX depth b v Hd Hm M) as L.
    assert (Hl2 : (Z.to_nat (depth + 1 + Z.of_nat k) * Z.to_nat (NZ * NX) <= length (setPlane NZ NX depth b v))%nat).
    { rewrite L. replace (depth + 1 + Z.of_nat k) with (depth + Z.of_nat (S k)) by lia. exact Hl. }
    destruct (IH (depth + 1) (setPlane NZ NX depth b v) ltac:(lia) Hm Hl2) as [L2 N2].
    split; [congruence|]. intro i. rewrite N2, (setPlane_nth V NZ NX depth b d v i Hd Hm M).
    replace (depth + 1 + Z.of_nat k) with (depth + Z.of_nat (S k)) by lia.
    set (m := Z.to_nat (NZ * NX)).
    assert (Q1 : (Z.to_nat depth * m <= Z.to_nat (depth + 1) * m)%nat) by (apply Nat.mul_le_mono_r; lia).
    assert (Q2 : (Z.to_nat (depth + 1) * m <= Z.to_nat (depth + Z.of_nat (S k)) * m)%nat) by (apply Nat.mul_le_mono_r; lia).
    destruct (Nat.leb (Z.to_nat (depth + 1) * m) i) eqn:A, (Nat.ltb i (Z.to_nat (depth + Z.of_nat (S k)) * m)) eqn:B,
             (Nat.leb (Z.to_nat depth * m) i) eqn:C, (Nat.ltb i (Z.to_nat (depth + 1) * m)) eqn:D; cbn [andb]; try reflexivity;
      rewrite ?Nat.leb_le, ?Nat.ltb_lt, ?Nat.leb_gt, ?Nat.ltb_ge in *; lia.
Qed.
Lemma repeat_nth : forall V (a d : V) n i, (i < n)%nat -> nth i (repeat a n) d = a.
Proof. intros V a d n. induction n as [|n IH]; intros [|i] H; cbn; try lia; auto. apply IH. lia. Qed.

Lemma cell_bounds : forall NX NY NZ x y z, 0 <= x < NX -> 0 <= y < NY -> 0 <= z < NZ ->
  y * (NZ * NX) <= x + z * NX + y * NX * NZ < (y + 1) * (NZ * NX) /\ (y + 1) * (NZ * NX) <= NY * (NZ * NX).
Proof.
  intros NX NY NZ x y z Hx Hy Hz.
  assert ((z + 1) * NX <= NZ * NX) by (apply Z.mul_le_mono_nonneg_r; lia).
  assert (0 <= z * NX) by (apply Z.mul_nonneg_nonneg; lia).
  replace (y * NX * NZ) with (y * (NZ * NX)) by ring.
  split; [lia|]. apply Z.mul_le_mono_nonneg_r; lia.
Qed.
Lemma layers_spec : forall V NX NY NZ depth (a b : V), 0 < NX -> 0 < NY -> 0 < NZ -> 0 <= depth ->
  length (layers NX NY NZ depth a b) = Z.to_nat (NX * NY * NZ) /\
  forall x y z d, 0 <= x < NX -> 0 <= y < NY -> 0 <= z < NZ ->
    nth (Z.to_nat (x + z * NX + y * NX * NZ)) (layers NX NY NZ depth a b) d = if y <? depth then a else b.
Proof.
  intros V NX NY NZ depth a b Hx Hy Hz Hd. unfold layers.
  replace (NY * NZ * NX) with (NX * NY * NZ) by ring.
  destruct (Z_le_gt_dec NY depth) as [G|G].
  { replace (Z.to_nat (NY - depth)) with O by lia. cbn [zseq fold_left]. rewrite repeat_length. split; [reflexivity|].
    intros x y z d Bx By Bz. replace (y <? depth) with true by lia. apply repeat_nth.
    pose proof (cell_bounds NX NY NZ x y z Bx By Bz). assert (0 <= y * (NZ * NX)) by nia.
    replace (NX * NY * NZ) with (NY * (NZ * NX)) by ring. apply Z2Nat.inj_lt; lia. }
  assert (P : 0 <= NZ * NX) by nia.
  assert (Q : Z.to_nat (NX * NY * NZ) = (Z.to_nat NY * Z.to_nat (NZ * NX))%nat)
    by (rewrite <- Z2Nat.inj_mul by lia; f_equal; ring).
  assert (L : (Z.to_nat (depth + Z.of_nat (Z.to_nat (NY - depth))) * Z.to_nat (NZ * NX) <=
               length (repeat a (Z.to_nat (NX * NY * NZ))))%nat).
  { rewrite repeat_length, Q. replace (depth + Z.of_nat (Z.to_nat (NY - depth))) with NY by lia. lia. }
  split.
  - rewrite (proj1 (fold_planes V NZ NX b a _ depth _ Hd P L)). apply repeat_length.
  - intros x y z d Bx By Bz. rewrite (proj2 (fold_planes V NZ NX b d _ depth _ Hd P L)).
    replace (depth + Z.of_nat (Z.to_nat (NY - depth))) with NY by lia.
    pose proof (cell_bounds NX NY NZ x y z Bx By Bz) as CB. assert (0 <= y * (NZ * NX)) by nia.
    rewrite repeat_nth by (replace (NX * NY * NZ) with (NY * (NZ * NX)) by ring; apply Z2Nat.inj_lt; lia).
    rewrite <- !Z2Nat.inj_mul by lia.
    replace (Nat.ltb (Z.to_nat (x + z * NX + y * NX * NZ)) (Z.to_nat (NY * (NZ * NX)))) with true
      by (symmetry; apply Nat.ltb_lt, Z2Nat.inj_lt; lia).
    rewrite andb_true_r.
    destruct (y <? depth) eqn:Y.
    + replace (Nat.leb _ _) with false; [reflexivity|]. symmetry. apply Nat.leb_gt. 
      assert ((y + 1) * (NZ * NX) <= depth * (NZ * NX)) by (apply Z.mul_le_mono_nonneg_r; lia).
      apply Z2Nat.inj_lt; lia.
    + replace (Nat.leb _ _) with true; [reflexivity|]. symmetry. apply Nat.leb_le. 
      assert (depth * (NZ * NX) <= y * (NZ * NX)) by (apply Z.mul_le_mono_nonneg_r; lia).
      assert (0 <= depth * (NZ * NX)) by nia. apply Z2Nat.inj_le; lia.
Qed.

(** What TwoLayer writes. *)
Definition written (type : str) (f : fld) : Prop :=
  match f with
  | RHO => True
  | VP => type <> txt "sh"
  | VS => type <> txt "acoustic"
  | TAUP | TAUS => type = txt "viscoelastic"
  | _ => False
  end.
Definition upper_value (f : fld) : R := match f with VP => 3500 | VS | RHO => 2000 | _ => 1 / 10 end%R.
Definition lower_value (f : fld) : R := match f with VP => 4550 | VS | RHO => 2600 | _ => 1 / 10 end%R.
Lemma str_eqb_file : forall base f g t, str_eqb (file base f t) (file base g t) = fld_eqb f g.
Proof.
  intros base f g t. destruct (fld_eqb f g) eqn:E.
  - apply fld_eqb_eq in E. subst. apply str_eqb_refl.
  - apply str_eqb_ne. intro H. apply file_inj in H. subst. rewrite (proj2 (fld_eqb_eq g g) eq_refl) in E. discriminate.
Qed.
Lemma writeVector_file : forall V rnd (fs : fsys V) v base f t,
  writeVector rnd fs v (base ++ dotted (quantity f)) (code t) =
  Ok (fun name => if str_eqb name (file base f t) then Some (map (rnd (code t)) v) else fs name).
Proof. intros. unfold writeVector. rewrite ending_code. cbn [bind]. now rewrite file_eq. Qed.
Lemma twoLayer_spec : forall rnd fs NX NY NZ type base t,
  exists fs', twoLayer rnd fs NX NY NZ type base (code t) = Ok fs' /\
    (forall f, written type f ->
       fs' (file base f t) = Some (map (rnd (code t)) (layers NX NY NZ 40 (upper_value f) (lower_value f)))) /\
    (forall name, (forall f, written type f -> name <> file base f t) -> fs' name = fs name).
Proof.
  intros rnd fs NX NY NZ type base t. unfold twoLayer. cbv zeta.
  change (txt ".density") with (dotted (quantity RHO)). change (txt ".vp") with (dotted (quantity VP)).
  change (txt ".vs") with (dotted (quantity VS)). change (txt ".tauP") with (dotted (quantity TAUP)).
  change (txt ".tauS") with (dotted (quantity TAUS)).
  rewrite writeVector_file. cbn [bind].
  assert (D : forall s, {type = txt s /\ str_eqb type (txt s) = true} + {type <> txt s /\ str_eqb type (txt s) = false}).
  { intro s. destruct (str_eqb type (txt s)) eqn:E; [left|right]; split; auto.
    - now apply str_eqb_eq.
    - intros ->. now rewrite str_eqb_refl in E. }
  destruct (D "sh"%string) as [[E1 ->]|[E1 ->]]; destruct (D "acoustic"%string) as [[E2 ->]|[E2 ->]];
    destruct (D "viscoelastic"%string) as [[E3 ->]|[E3 ->]]; try (exfalso; congruence);
    try (exfalso; subst type; discriminate);
    cbn [negb]; do 4 (rewrite ?writeVector_file; cbn [bind]);
    eexists; (split; [reflexivity|]); (split; [|]);
    try (intros f Hf; destruct f; cbn [written] in Hf; try contradiction; try congruence;
         rewrite ?str_eqb_file; reflexivity);
    intros name Hn; repeat (rewrite str_eqb_ne; [|apply Hn; cbn [written]; auto; congruence]); reflexivity.
Qed.

(** C120: the files that the snapshots of a wavefield consist of. *)
From Coq Require Import Reals String Ascii Lra Decimal DecimalString DecimalZ DecimalPos.
From Verif Require Import Base M_Grid M_Average M_Common M_Model M_ModelEM S_Model S_ModelEM L_AcqFile L_Acq L_Acq2 L_Average3 L_Model L_Model2 L_ModelEM L_ModelEM2 L_ModelEM3 P_ModelEM4 M_Wave S_Wave L_Wave P_Wave P_Wave2.
Open Scope string_scope.
Open Scope Z_scope.

(** ** Decimal strings *)
Lemma to_int_norm z : Z.to_int z <> Pos Nil /\ Z.to_int z <> Neg Nil.
Proof. destruct z as [|p|p]; cbn; (split; [|]); try discriminate; intros [= E]; exact (Unsigned.to_uint_nonnil p E). Qed.
Lemma decStr_inj a b : decStr a = decStr b -> a = b.
Proof.
  unfold decStr. intros E. destruct (to_int_norm a) as (A1&A2), (to_int_norm b) as (B1&B2). apply to_int_inj.
  pose proof (NilZero.isi _ A1 A2) as Ia. rewrite E, (NilZero.isi _ B1 B2) in Ia. congruence.
Qed.
Fixpoint nodot (s : string) : Prop := match s with EmptyString => True | String c s => c <> "."%char /\ nodot s end.
Lemma nodot_uint d : nodot (NilEmpty.string_of_uint d).
Proof. induction d; cbn; try exact I; (split; [discriminate|assumption]). Qed.
Lemma nodot_dec z : nodot (decStr z).
Proof.
  unfold decStr. assert (G : forall d, nodot (NilZero.string_of_uint d)) by (intros d; destruct d; try apply nodot_uint; cbn; split; [discriminate|exact I]).
  destruct (Z.to_int z) as [d|d]; cbn; [apply G|split; [discriminate|apply G]].
Qed.
Lemma last_dot a b x y : nodot x -> nodot y -> a ++ String "." x = b ++ String "." y -> a = b /\ x = y.
Proof.
  assert (N : forall l s t, nodot s -> s = l ++ String "." t -> False).
  { induction l as [|c l IH]; intros s t H E; cbn in E; subst s; destruct H as (H1&H2); [now apply H1|]. exact (IH _ _ H2 eq_refl). }
  intros Hx Hy. revert b. induction a as [|c a IH]; intros [|c' b] E; cbn in E; injection E as E.
  - split; [reflexivity|exact E].
  - destruct (N _ _ _ Hx H).
  - symmetry in H. destruct (N _ _ _ Hy H).
  - destruct (IH _ H) as (->&->). subst c'. auto.
Qed.
Lemma app_cancel a x y : a ++ x = a ++ y -> x = y.
Proof. induction a as [|c a IH]; cbn; [auto|]. intros [= E]. auto. Qed.
Lemma app_split a b x y : String.length a = String.length b -> a ++ x = b ++ y -> a = b /\ x = y.
Proof. revert b. induction a as [|c a IH]; intros [|c' b] L E; try discriminate; [split; auto|]. injection L as L. injection E as -> E. destruct (IH _ L E) as (->&->). auto. Qed.
(** Different components and different time steps go to different files. *)
Theorem C120_names base l t l' t' : snapFile base l t = snapFile base l' t' -> l = l' /\ t = t'.
Proof.
  unfold snapFile. intros E. apply app_cancel in E. injection E as E. destruct (last_dot l l' (decStr t) (decStr t')) as (A&B); [apply nodot_dec|apply nodot_dec|exact E|]. split; [exact A|]. now apply decStr_inj.
Qed.

(** ** Contents *)
Lemma simple_ok fs rs w : (forall f, In f rs -> Z.of_nat (length (wr w f)) = wn w) ->
  exists a, simple fs rs w = Ok a /\
    (forall lab v, In (lab, v) a <-> (In lab fs /\ v = wf w lab) \/ exists f l, In f rs /\ nth_error (wr w f) l = Some v /\ lab = f ++ decStr (Z.of_nat l + 1)) /\
    map fst a = (fs ++ flat_map (fun l => map (fun f => f ++ decStr (l + 1))%string rs) (zseq 0 (Z.to_nat (wn w))))%list.
Proof.
  intros S. unfold simple.
  assert (G : forall ls, (forall l, In l ls -> 0 <= l < wn w) -> exists m, mapres (fun l => mapres (fun f => x <- vget (wr w f) l ;; Ok (f ++ decStr (l + 1), x)) rs) ls = Ok m /\
    (forall lab v, In (lab, v) (concat m) <-> exists f l, In f rs /\ In l ls /\ nth_error (wr w f) (Z.to_nat l) = Some v /\ lab = f ++ decStr (l + 1)) /\
    map fst (concat m) = flat_map (fun l => map (fun f => f ++ decStr (l + 1))%string rs) ls).
  { induction ls as [|l ls IH]; intros B.
    - exists []. split; [reflexivity|]. split; [|reflexivity]. intros lab v. split; [intros []|]. intros (f&l&_&[]&_).
    - destruct IH as (m&Em&Hm&Nm); [intros j Ij; apply B; now right|]. cbn [mapres].
      assert (R : forall q, (forall f, In f q -> In f rs) -> exists r, mapres (fun f => x <- vget (wr w f) l ;; Ok (f ++ decStr (l + 1), x)) q = Ok r /\
         (forall lab v, In (lab, v) r <-> exists f, In f q /\ nth_error (wr w f) (Z.to_nat l) = Some v /\ lab = f ++ decStr (l + 1)) /\ map fst r = map (fun f => f ++ decStr (l + 1)) q).
      { induction q as [|f q IHq]; intros Q.
        - exists []. split; [reflexivity|]. split; [|reflexivity]. intros lab v. split; [intros []|intros (f&[]&_)].
        - destruct IHq as (r&Er&Hr&Nr); [intros g Ig; apply Q; now right|]. assert (Lf := S f (Q f (or_introl eq_refl))). pose proof (B l (or_introl eq_refl)) as Bl.
          destruct (nth_error (wr w f) (Z.to_nat l)) as [x|] eqn:Ex; [|apply nth_error_None in Ex; lia].
          cbn [mapres]. rewrite (proj2 (vget_nth _ l x ltac:(lia)) Ex). cbn [bind]. rewrite Er. cbn [bind]. eexists. split; [reflexivity|]. split; [|cbn [map fst]; now rewrite Nr].
          intros lab v. cbn [In]. rewrite Hr. split.
          + intros [[= <- <-]|(g&Ig&Eg&El)]; [exists f; split; [now left|auto]|exists g; split; [now right|auto]].
          + intros (g&[<-|Ig]&Eg&El); [left; rewrite Ex in Eg; injection Eg as <-; now subst lab|right; exists g; auto]. }
      destruct (R rs (fun f I => I)) as (r&Er&Hr&Nr). rewrite Er. cbn [bind]. rewrite Em. cbn [bind]. eexists. split; [reflexivity|]. split; [|cbn [concat flat_map]; rewrite map_app, Nr, Nm; reflexivity].
      intros lab v. cbn [concat]. rewrite in_app_iff, Hr, Hm. split.
      + intros [(f&If&Ef&El)|(f&j&If&Ij&Ef&El)]; [exists f, l|exists f, j]; (split; [exact If|]); (split; [|auto]); [now left|now right].
      + intros (f&j&If&[<-|Ij]&Ef&El); [left; exists f; auto|right; exists f, j; auto]. }
  destruct (G (zseq 0 (Z.to_nat (wn w)))) as (m&Em&Hm&Nm). { intros l Il. apply zseq_in in Il. lia. }
  rewrite Em. cbn [bind]. eexists. split; [reflexivity|]. split.
  - intros lab v. rewrite in_app_iff, Hm, in_map_iff. split.
    + intros [(f&[= -> <-]&If)|(f&l&If&Il&Ef&El)]; [left; auto|right]. apply zseq_in in Il. exists f, (Z.to_nat l). rewrite Z2Nat.id by lia. auto.
    + intros [(If&->)|(f&l&If&Ef&El)]; [left; exists lab; auto|right]. exists f, (Z.of_nat l). rewrite Nat2Z.id. split; [exact If|]. split; [|auto].
      apply zseq_in. assert (l < length (wr w f))%nat by (apply nth_error_Some; congruence). specialize (S f If). lia.
  - rewrite map_app, map_map, map_id, Nm. reflexivity.
Qed.
Lemma simple_none fs w : simple fs [] w = Ok (map (fun f => (f, wf w f)) fs).
Proof.
  unfold simple. assert (G : forall (F : Z -> res (list (string * vec))) ls, (forall l, F l = Ok []) -> exists m, mapres F ls = Ok m /\ concat m = []).
  { intros F ls H. induction ls as [|l ls (m&Em&Cm)]; [exists []; auto|]. cbn [mapres]. rewrite H. cbn [bind]. rewrite Em. cbn [bind]. eexists. split; [reflexivity|]. exact Cm. }
  edestruct (G (fun l => mapres (fun f => x <- vget (wr w f) l ;; Ok (f ++ decStr (l + 1), x)) []) (zseq 0 (Z.to_nat (wn w)))) as (m&Em&Cm); [reflexivity|]. rewrite Em. cbn [bind]. rewrite Cm, app_nil_r. reflexivity.
Qed.
(** Types 1 and 2 in every class: the moving fields, and the other fields with the memory variables. *)
Lemma write12 k d m w : wwrite k 1 d m w = simple (filter moving (propagated k)) [] w /\
  exists fs, (forall f, In f fs <-> In f (filter (fun f => negb (moving f)) (propagated k))) /\ NoDup fs /\ wwrite k 2 d m w = simple fs (memory k) w.
Proof.
  destruct k; (split; [reflexivity|]); eexists; (split; [|split; [|reflexivity]]); try (intros f; cbn; tauto); apply nodupb_ok; vm_compute; reflexivity.
Qed.
Lemma nodup_app {A} (a b : list A) : NoDup a -> NoDup b -> (forall x, In x a -> ~ In x b) -> NoDup (a ++ b)%list.
Proof.
  induction 1 as [|x a Nx Na IH]; intros Nb D; cbn; [exact Nb|]. constructor; [|apply IH; [exact Nb|intros y Iy; apply D; now right]].
  rewrite in_app_iff. intros [I|I]; [contradiction|]. apply (D x); [now left|exact I].
Qed.
Lemma labels_nodup rs ls : NoDup rs -> NoDup ls -> (forall f g, In f rs -> In g rs -> String.length f = String.length g) ->
  NoDup (flat_map (fun l => map (fun f => f ++ decStr (l + 1))%string rs) ls).
Proof.
  intros Nr Nl Q. induction Nl as [|l ls Nin Nl IH]; cbn [flat_map]; [constructor|]. apply nodup_app; [| exact IH|].
  - apply NoDup_map_inj; [exact Nr|]. intros f g If Ig E. now destruct (app_split f g _ _ (Q f g If Ig) E).
  - intros x I1 I2. apply in_map_iff in I1 as (f&<-&If). apply in_flat_map in I2 as (j&Ij&I2). apply in_map_iff in I2 as (g&E&Ig).
    destruct (app_split g f _ _ (Q g f Ig If) E) as (_&E2). apply decStr_inj in E2. assert (j = l) by lia. subst j. contradiction.
Qed.
(** Types 1 and 2 together write every propagated field and every memory variable, each under a name of its own. *)
Theorem C120_complete k n L d m w : shaped k n L w ->
  exists a b, wwrite k 1 d m w = Ok a /\ wwrite k 2 d m w = Ok b /\
    (forall lab v, In (lab, v) a <-> In lab (propagated k) /\ moving lab = true /\ v = wf w lab) /\
    (forall lab v, In (lab, v) b <-> (In lab (propagated k) /\ moving lab = false /\ v = wf w lab) \/
        exists f l, In f (memory k) /\ nth_error (wr w f) l = Some v /\ lab = f ++ decStr (Z.of_nat l + 1)) /\
    NoDup (map fst (a ++ b)%list).
Proof.
  intros (_&S&Sn). destruct (write12 k d m w) as (E1&fs&Hfs&Nfs&E2). rewrite E1, E2, simple_none.
  destruct (simple_ok fs (memory k) w) as (b&Eb&Hb&Nb). { intros f I. destruct (S f I) as (Lf&_). rewrite Lf. symmetry. apply Sn. intros E. rewrite E in I. destruct I. }
  eexists. exists b. split; [reflexivity|]. split; [exact Eb|]. split; [|split].
  - intros lab v. rewrite in_map_iff. split.
    + intros (f&[= -> <-]&I). apply filter_In in I. tauto.
    + intros (I&M&->). exists lab. split; [reflexivity|]. apply filter_In. auto.
  - intros lab v. rewrite Hb, Hfs, filter_In, negb_true_iff. tauto.
  - rewrite map_app, map_map, map_id, Nb.
    assert (P : NoDup (propagated k)) by (apply nodupb_ok; destruct k; vm_compute; reflexivity).
    assert (Mn : NoDup (memory k)) by (apply nodupb_ok; destruct k; vm_compute; reflexivity).
    assert (ML : forall f, In f (memory k) -> exists c, f = String "R" c). { destruct k; cbn; intros f I; intuition; subst; eexists; reflexivity. }
    assert (PL : forall f, In f (propagated k) -> forall c, f <> String "R" c). { destruct k; cbn; intros f I c; repeat (destruct I as [<-|I]; [discriminate|]); destruct I. }
    assert (MM : forall f g, In f (memory k) -> In g (memory k) -> String.length f = String.length g). { destruct k; cbn; intros f g I J; repeat (destruct I as [<-|I]; [repeat (destruct J as [<-|J]; [reflexivity|]); destruct J|]); destruct I. }
    assert (XR : forall x, In x (flat_map (fun l => map (fun f => f ++ decStr (l + 1)) (memory k)) (zseq 0 (Z.to_nat (wn w)))) -> exists c, x = String "R" c).
    { intros x I. apply in_flat_map in I as (l&_&I). apply in_map_iff in I as (f&<-&If). destruct (ML f If) as (c&->). eexists. reflexivity. }
    apply nodup_app; [apply NoDup_filter; exact P| |].
    + apply nodup_app; [exact Nfs|apply labels_nodup; [exact Mn|apply zseq_NoDup|exact MM]|]. intros x I1 I2. apply Hfs, filter_In in I1 as (I1&_). destruct (XR x I2) as (c&Ec). exact (PL x I1 c Ec).
    + intros x I1 I2. apply filter_In in I1 as (I1&M1). apply in_app_iff in I2 as [I2|I2].
      * apply Hfs, filter_In in I2 as (_&M2). rewrite M1 in M2. discriminate.
      * destruct (XR x I2) as (c&Ec). exact (PL x I1 c Ec).
Qed.
(** Two time steps never write to the same file. *)
Theorem C120_steps k st hil dec d m d' m' w w' base t t' a b x y : snapshot k st hil dec d m w base t = Ok a -> snapshot k st hil dec d' m' w' base t' = Ok b ->
  In x a -> In y b -> fst x = fst y -> t = t'.
Proof.
  unfold snapshot. destruct (_ && _).
  - intros Ea Eb. apply bind_ok in Ea as (a1&_&Ea). apply bind_ok in Ea as (a2&_&Ea). injection Ea as <-. apply bind_ok in Eb as (b1&_&Eb). apply bind_ok in Eb as (b2&_&Eb). injection Eb as <-.
    rewrite !in_app_iff, !in_map_iff. intros [(p&<-&_)|(p&<-&_)] [(q&<-&_)|(q&<-&_)] E; cbn [fst] in E; now destruct (C120_names _ _ _ _ _ E).
  - intros Ea Eb. apply bind_ok in Ea as (a1&_&Ea). injection Ea as <-. apply bind_ok in Eb as (b1&_&Eb). injection Eb as <-. rewrite !in_map_iff. intros (p&<-&_) (q&<-&_) E. cbn [fst] in E. now destruct (C120_names _ _ _ _ _ E).
Qed.

(** ** Other types *)
Theorem C120_rejected k t d m w : ~ supported k t -> wwrite k t d m w = Throw.
Proof.
  intros H. unfold supported in H.
  assert (t <> 1) by tauto. assert (t <> 2) by tauto. apply Z.eqb_neq in H0, H1.
  assert (H3 : match k with W2Dacoustic | W3Dacoustic | W2Dsh | W2Dviscosh | W2Demem | W2Dviscoemem => True | _ => (t =? 3) = false end).
  { destruct k; try exact I; apply Z.eqb_neq; intros ->; apply H; right; right; left; (split; [reflexivity|exact I]). }
  assert (H4 : directional k <> [] -> (t =? 0) = false /\ (t =? 4) = false /\ (t =? 5) = false). { intros D. rewrite !Z.eqb_neq. repeat split; intros ->; apply H; tauto. }
  unfold wwrite. rewrite H0, H1. destruct k; cbn [directional] in H4; rewrite ?H3; try reflexivity; (destruct H4 as (A&B&C); [discriminate|]); rewrite A, B, C; try reflexivity; destruct (t =? 3); reflexivity.
Qed.
Ltac pick_end f := first [exists f, "up"; split; [cbn; tauto|split; [cbn; tauto|split; reflexivity]] | exists f, "down"; split; [cbn; tauto|split; [cbn; tauto|split; reflexivity]]
  | exists f, "left"; split; [cbn; tauto|split; [cbn; tauto|split; reflexivity]] | exists f, "right"; split; [cbn; tauto|split; [cbn; tauto|split; reflexivity]]].
Ltac pick_dir := first [pick_end "P" | pick_end "VX" | pick_end "VY" | pick_end "EZ"].
Theorem C120_directions k t d m w : directional k <> [] -> t = 4 \/ t = 5 ->
  exists a, wwrite k t d m w = Ok a /\
    let fs := match k with W2Dacoustic => ["P"; "VX"; "VY"] | _ => ["EZ"] end in
    let ends := if t =? 4 then ["up"; "down"] else ["left"; "right"] in
    (forall lab v, In (lab, v) a <-> (In lab fs /\ v = wf w lab) \/ exists f e, In f fs /\ In e ends /\ lab = f ++ "." ++ e /\ v = wf w (f ++ e)) /\
    (forall f e, In f fs -> In e ends -> In (f ++ e) (directional k)).
Proof.
  intros D T. destruct k; try (exfalso; apply D; reflexivity); destruct T as [-> | ->]; (eexists; split; [reflexivity|]; cbv zeta; split; [|cbn; intros f e If Ie; intuition; subst; cbn; tauto]);
    intros lab v; unfold named; cbn [map fst snd Z.eqb Pos.eqb]; (split;
    [ intros I; repeat (destruct I as [E|I]; [injection E as <- <-; first [left; split; [cbn; tauto|reflexivity] | right; pick_dir]|]); destruct I
    | intros [(I&->)|(f&e&If&Ie&->&->)];
      [ cbn in I; repeat (destruct I as [<-|I]; [cbn; tauto|]); destruct I
      | cbn in If, Ie; repeat (destruct If as [<-|If]; [repeat (destruct Ie as [<-|Ie]; [cbn; tauto|]); destruct Ie|]); destruct If ] ]).
Qed.
Theorem C120_nothing k d m w : directional k <> [] -> wwrite k 0 d m w = Ok [].
Proof. intros D. destruct k; try (exfalso; apply D; reflexivity); reflexivity. Qed.
(** A decomposition switches the snapshot type; classes without decomposition reject it although their decompose does nothing. *)
Theorem C120_decomposed k st dec d m w sn k' der dx dy : dec = 1 \/ dec = 2 ->
  (directional k <> [] -> supported k (snapTypeOf st dec)) /\
  (directional k = [] -> wdecompose sn k k' dec der dx dy w = Ok w /\ wwrite k (snapTypeOf st dec) d m w = Throw).
Proof.
  intros D. assert (T : snapTypeOf st dec = 4 \/ snapTypeOf st dec = 5) by (destruct D as [-> | ->]; cbn; auto). split.
  - intros N. right; right; right. split; [tauto|exact N].
  - intros N. split; [destruct k; try discriminate; reflexivity|]. apply C120_rejected. unfold supported. rewrite N. intuition; try lia.
Qed.

(** ** Curl and divergence *)
Lemma applied_at M v n : square M n -> length v = n -> numbers v -> exists r, fmatvec M v = Ok r /\ length r = n /\ forall i, (i < n)%nat -> at_ r i (applied M v i).
Proof.
  intros (Q1&Q2) Lv N. destruct (fmatvec_exists M v) as (r&E&Lr); [lia|]. exists r. split; [exact E|]. split; [lia|]. intros i Hi.
  destruct (numbers_list v N) as (l&->). apply fmatvec_num in E as ->. unfold at_, applied. rewrite nums_map, !map_at.
  assert (Q : exists q : list (Z * R), @nth_error (list (Z * R)) (mrows M) i = Some q).
  { destruct (@nth_error (list (Z * R)) (mrows M) i) as [q|] eqn:Eq; [eauto|]. apply nth_error_None in Eq. unfold row in *. lia. }
  destruct Q as (q&Eq). rewrite Eq. cbn [option_map]. do 3 f_equal. symmetry. apply nth_error_nth. exact Eq.
Qed.
Lemma zip_all (f : fpv -> fpv -> fpv) (h : R -> R -> R) a b n (A B : nat -> R) : (forall x y, f (Num x) (Num y) = Num (h x y)) -> length a = n -> length b = n ->
  (forall i, (i < n)%nat -> at_ a i (A i)) -> (forall i, (i < n)%nat -> at_ b i (B i)) -> exists r, zipR f a b = Ok r /\ length r = n /\ forall i, (i < n)%nat -> at_ r i (h (A i) (B i)).
Proof.
  intros Q La Lb Ha Hb. destruct (zip_exists f a b n La Lb) as (r&E&Lr). exists r. split; [exact E|]. split; [exact Lr|]. intros i Hi. apply (zip_num f h a b r i _ _ Q E); auto.
Qed.
Lemma map_all (f : fpv -> fpv) (h : R -> R) a n (A : nat -> R) : length a = n -> (forall i, (i < n)%nat -> at_ a i (A i)) -> (forall i, (i < n)%nat -> f (Num (A i)) = Num (h (A i))) -> length (map f a) = n /\ forall i, (i < n)%nat -> at_ (map f a) i (h (A i)).
Proof. intros La Ha Q. split; [now rewrite map_length|]. intros i Hi. unfold at_. rewrite map_at, (Ha i Hi). cbn. f_equal. now apply Q. Qed.
Lemma num_at v n : length v = n -> numbers v -> forall i, (i < n)%nat -> at_ v i (num v i).
Proof. intros L N i Hi. destruct (numbers_list v N) as (l&->). rewrite num_nth. unfold at_. rewrite map_at. rewrite map_length in L. rewrite (nth_error_nth' l 0%R) by lia. reflexivity. Qed.
Lemma sqrt_ok x : (0 <= x)%R -> fsqrt (Num x) = Num (sqrt x).
Proof. intros H. cbn. destruct (Rlt_dec x 0); [lra|reflexivity]. Qed.

Section Values.
  Context (d : derivs) (n : nat).
  Hypothesis SD : square (Dxf d) n /\ square (Dyf d) n /\ square (Dzf d) n /\ square (Dxb d) n /\ square (Dyb d) n /\ square (Dzb d) n.
  Context (m : vec) (Lm : length m = n) (Nm : numbers m) (Pm : forall i, (i < n)%nat -> (0 <= num m i)%R).
  Context (x y z : vec) (Lx : length x = n) (Ly : length y = n) (Nx : numbers x) (Ny : numbers y).
  Lemma curl2_val : exists c, curl2 d m x y = Ok c /\ length c = n /\ forall i, (i < n)%nat -> at_ c i (curlOf2 d x y i * sqrt (num m i)).
  Proof using SD Lm Nm Pm Lx Ly Nx Ny.
    destruct SD as (S1&S2&S3&S4&S5&S6). unfold curl2. destruct (applied_at _ x n S2 Lx Nx) as (a&Ea&La&Ha). rewrite Ea. cbn [bind]. destruct (applied_at _ y n S1 Ly Ny) as (b&Eb&Lb&Hb). rewrite Eb. cbn [bind].
    destruct (zip_all fsub Rminus a b n _ _ ltac:(reflexivity) La Lb Ha Hb) as (c&Ec&Lc&Hc). rewrite Ec. cbn [bind].
    destruct (map_all fsqrt sqrt m n (num m) Lm (num_at m n Lm Nm) (fun i Hi => sqrt_ok _ (Pm i Hi))) as (Lq&Hq).
    exact (zip_all fmul Rmult c (map fsqrt m) n _ _ ltac:(reflexivity) Lc Lq Hc Hq).
  Qed.
  Lemma div2_val : exists c, div2 d m x y = Ok c /\ length c = n /\ forall i, (i < n)%nat -> at_ c i (divOf2 d x y i * sqrt (num m i)).
  Proof using SD Lm Nm Pm Lx Ly Nx Ny.
    destruct SD as (S1&S2&S3&S4&S5&S6). unfold div2. destruct (applied_at _ x n S4 Lx Nx) as (a&Ea&La&Ha). rewrite Ea. cbn [bind]. destruct (applied_at _ y n S5 Ly Ny) as (b&Eb&Lb&Hb). rewrite Eb. cbn [bind].
    destruct (zip_all fadd Rplus a b n _ _ ltac:(reflexivity) La Lb Ha Hb) as (c&Ec&Lc&Hc). rewrite Ec. cbn [bind].
    destruct (map_all fsqrt sqrt m n (num m) Lm (num_at m n Lm Nm) (fun i Hi => sqrt_ok _ (Pm i Hi))) as (Lq&Hq).
    exact (zip_all fmul Rmult c (map fsqrt m) n _ _ ltac:(reflexivity) Lc Lq Hc Hq).
  Qed.
  Context (Lz : length z = n) (Nz : numbers z).
  Lemma diff_val A B u v : square A n -> square B n -> length u = n -> length v = n -> numbers u -> numbers v ->
    exists a b c, fmatvec A u = Ok a /\ fmatvec B v = Ok b /\ zipR fsub a b = Ok c /\ length c = n /\ forall i, (i < n)%nat -> at_ c i (applied A u i - applied B v i).
  Proof using Type.
    intros SA SB Lu Lv Nu Nv. destruct (applied_at _ u n SA Lu Nu) as (a&Ea&La&Ha). destruct (applied_at _ v n SB Lv Nv) as (b&Eb&Lb&Hb).
    destruct (zip_all fsub Rminus a b n _ _ ltac:(reflexivity) La Lb Ha Hb) as (c&Ec&Lc&Hc). exists a, b, c. auto.
  Qed.
  Lemma squared_val c (C : nat -> R) : length c = n -> (forall i, (i < n)%nat -> at_ c i (C i)) -> length (squared c) = n /\ forall i, (i < n)%nat -> at_ (squared c) i (C i * C i).
  Proof using Type. intros L H. apply (map_all (fun x => fpow x 2) (fun x => x * x)%R c n C L H). intros i _. apply pow2. Qed.
  Lemma curl3_val : exists c, curl3 d m x y z = Ok c /\ length c = n /\ forall i, (i < n)%nat -> at_ c i (sqrt (curlSq3 d x y z i * num m i)).
  Proof using SD Lm Nm Pm Lx Ly Nx Ny Lz Nz.
    destruct SD as (S1&S2&S3&S4&S5&S6). unfold curl3.
    destruct (diff_val _ _ z y S2 S3 Lz Ly Nz Ny) as (a1&b1&u1&E1&F1&G1&L1&H1). rewrite E1. cbn [bind]. rewrite F1. cbn [bind]. rewrite G1. cbn [bind].
    destruct (diff_val _ _ x z S3 S1 Lx Lz Nx Nz) as (a2&b2&u2&E2&F2&G2&L2&H2). rewrite E2. cbn [bind]. rewrite F2. cbn [bind]. rewrite G2. cbn [bind].
    destruct (diff_val _ _ y x S1 S2 Ly Lx Ny Nx) as (a3&b3&u3&E3&F3&G3&L3&H3). rewrite E3. cbn [bind]. rewrite F3. cbn [bind]. rewrite G3. cbn [bind].
    destruct (squared_val _ _ L1 H1) as (M1&Q1), (squared_val _ _ L2 H2) as (M2&Q2), (squared_val _ _ L3 H3) as (M3&Q3).
    destruct (zip_all fadd Rplus _ _ n _ _ ltac:(reflexivity) M1 M2 Q1 Q2) as (c1&C1&D1&V1). rewrite C1. cbn [bind].
    destruct (zip_all fadd Rplus _ _ n _ _ ltac:(reflexivity) D1 M3 V1 Q3) as (c2&C2&D2&V2). rewrite C2. cbn [bind].
    destruct (zip_all fmul Rmult _ _ n _ _ ltac:(reflexivity) D2 Lm V2 (num_at m n Lm Nm)) as (c3&C3&D3&V3). rewrite C3. cbn [bind].
    eexists. split; [reflexivity|]. edestruct (map_all fsqrt sqrt c3 n _ D3 V3) as (Lr&Hr).
    { intros i Hi. apply sqrt_ok. apply Rmult_le_pos; [|now apply Pm]. assert (G : forall r, (0 <= r * r)%R) by (intros r; apply Rle_0_sqr). repeat apply Rplus_le_le_0_compat; apply G. }
    split; [exact Lr|]. intros i Hi. specialize (Hr i Hi). unfold curlSq3. unfold at_ in *. rewrite Hr. do 3 f_equal. ring.
  Qed.
  Lemma div3_val : exists c, div3 d m x y z = Ok c /\ length c = n /\ forall i, (i < n)%nat -> at_ c i (sqrt (divOf3 d x y z i ^ 2 * num m i)).
  Proof using SD Lm Nm Pm Lx Ly Nx Ny Lz Nz.
    destruct SD as (S1&S2&S3&S4&S5&S6). unfold div3. destruct (applied_at _ x n S4 Lx Nx) as (a&Ea&La&Ha). rewrite Ea. cbn [bind]. destruct (applied_at _ y n S5 Ly Ny) as (b&Eb&Lb&Hb). rewrite Eb. cbn [bind].
    destruct (zip_all fadd Rplus a b n _ _ ltac:(reflexivity) La Lb Ha Hb) as (c&Ec&Lc&Hc). rewrite Ec. cbn [bind]. destruct (applied_at _ z n S6 Lz Nz) as (b'&Eb'&Lb'&Hb'). rewrite Eb'. cbn [bind].
    destruct (zip_all fadd Rplus c b' n _ _ ltac:(reflexivity) Lc Lb' Hc Hb') as (c'&Ec'&Lc'&Hc'). rewrite Ec'. cbn [bind]. destruct (squared_val _ _ Lc' Hc') as (Ls&Hs).
    destruct (zip_all fmul Rmult _ _ n _ _ ltac:(reflexivity) Ls Lm Hs (num_at m n Lm Nm)) as (c3&C3&D3&V3). rewrite C3. cbn [bind].
    eexists. split; [reflexivity|]. edestruct (map_all fsqrt sqrt c3 n _ D3 V3) as (Lr&Hr).
    { intros i Hi. apply sqrt_ok. apply Rmult_le_pos; [apply Rle_0_sqr|now apply Pm]. }
    split; [exact Lr|]. intros i Hi. specialize (Hr i Hi). unfold divOf3. unfold at_ in *. rewrite Hr. do 3 f_equal. ring.
  Qed.
End Values.
(** Type 3: in 2D the curl and the divergence with their signs, in 3D their magnitudes, times the square root of the model vector. *)
Theorem C120_curl k n L d m w : supported k 3 -> shaped k n L w ->
  square (Dxf d) n /\ square (Dyf d) n /\ square (Dzf d) n /\ square (Dxb d) n /\ square (Dyb d) n /\ square (Dzb d) n ->
  (forall v, v = curlWeight k m \/ v = divWeight k m -> length v = n /\ numbers v /\ forall i, (i < n)%nat -> (0 <= num v i)%R) ->
  (forall f, In f (propagated k) -> numbers (wf w f)) ->
  exists lc ld c v, wwrite k 3 d m w = Ok [(lc, c); (ld, v)] /\ In (lc, ld) [("curl", "div"); ("CURL", "DIV")] /\ length c = n /\ length v = n /\
    let '(fx, fy, fz) := flow k in let x := wf w fx in let y := wf w fy in let z := wf w fz in
    forall i, (i < n)%nat ->
      at_ c i (if spatial k then sqrt (curlSq3 d x y z i * num (curlWeight k m) i) else curlOf2 d x y i * sqrt (num (curlWeight k m) i)) /\
      at_ v i (if spatial k then sqrt (divOf3 d x y z i ^ 2 * num (divWeight k m) i) else divOf2 d x y i * sqrt (num (divWeight k m) i)).
Proof.
  intros U (S&_) SD W N. destruct (W _ (or_introl eq_refl)) as (Wc1&Wc2&Wc3), (W _ (or_intror eq_refl)) as (Wd1&Wd2&Wd3).
  assert (P : forall f, In f (propagated k) -> length (wf w f) = n /\ numbers (wf w f)). { intros f I. split; [apply S; unfold members; apply in_app_iff; now left|now apply N]. }
  destruct U as [U|[U|[(_&U)|(U&_)]]]; try lia. destruct (flow k) as ((fx&fy)&fz) eqn:F. cbv zeta.
  assert (G : forall a b, spatial k = false -> In fx (propagated k) -> In fy (propagated k) -> wwrite k 3 d m w = pair2 a b (curl2 d (curlWeight k m) (wf w fx) (wf w fy)) (div2 d (divWeight k m) (wf w fx) (wf w fy)) ->
     In (a, b) [("curl", "div"); ("CURL", "DIV")] -> exists lc ld c v, wwrite k 3 d m w = Ok [(lc, c); (ld, v)] /\ In (lc, ld) [("curl", "div"); ("CURL", "DIV")] /\ length c = n /\ length v = n /\
     forall i, (i < n)%nat -> at_ c i (curlOf2 d (wf w fx) (wf w fy) i * sqrt (num (curlWeight k m) i)) /\ at_ v i (divOf2 d (wf w fx) (wf w fy) i * sqrt (num (divWeight k m) i))).
  { intros a b Sp Ix Iy E Il. destruct (P _ Ix) as (Lx&Nx), (P _ Iy) as (Ly&Ny). destruct (curl2_val d n SD _ Wc1 Wc2 Wc3 _ _ Lx Ly Nx Ny) as (c&Ec&Lc&Hc). destruct (div2_val d n SD _ Wd1 Wd2 Wd3 _ _ Lx Ly Nx Ny) as (v&Ev&Lv&Hv).
    exists a, b, c, v. rewrite E. unfold pair2. rewrite Ec. cbn [bind]. rewrite Ev. cbn [bind]. split; [reflexivity|]. split; [exact Il|]. split; [exact Lc|]. split; [exact Lv|]. intros i Hi. split; [now apply Hc|now apply Hv]. }
  assert (G3 : forall a b, spatial k = true -> In fx (propagated k) -> In fy (propagated k) -> In fz (propagated k) -> wwrite k 3 d m w = pair2 a b (curl3 d (curlWeight k m) (wf w fx) (wf w fy) (wf w fz)) (div3 d (divWeight k m) (wf w fx) (wf w fy) (wf w fz)) ->
     In (a, b) [("curl", "div"); ("CURL", "DIV")] -> exists lc ld c v, wwrite k 3 d m w = Ok [(lc, c); (ld, v)] /\ In (lc, ld) [("curl", "div"); ("CURL", "DIV")] /\ length c = n /\ length v = n /\
     forall i, (i < n)%nat -> at_ c i (sqrt (curlSq3 d (wf w fx) (wf w fy) (wf w fz) i * num (curlWeight k m) i)) /\ at_ v i (sqrt (divOf3 d (wf w fx) (wf w fy) (wf w fz) i ^ 2 * num (divWeight k m) i))).
  { intros a b Sp Ix Iy Iz E Il. destruct (P _ Ix) as (Lx&Nx), (P _ Iy) as (Ly&Ny), (P _ Iz) as (Lz&Nz). destruct (curl3_val d n SD _ Wc1 Wc2 Wc3 _ _ _ Lx Ly Nx Ny Lz Nz) as (c&Ec&Lc&Hc). destruct (div3_val d n SD _ Wd1 Wd2 Wd3 _ _ _ Lx Ly Nx Ny Lz Nz) as (v&Ev&Lv&Hv).
    exists a, b, c, v. rewrite E. unfold pair2. rewrite Ec. cbn [bind]. rewrite Ev. cbn [bind]. split; [reflexivity|]. split; [exact Il|]. split; [exact Lc|]. split; [exact Lv|]. intros i Hi. split; [now apply Hc|now apply Hv]. }
  destruct k; try contradiction; cbn [flow isSeismicW] in F; injection F as <- <- <-;
    first [eapply G; [reflexivity|cbn; tauto|cbn; tauto|reflexivity|cbn; tauto] | eapply G3; [reflexivity|cbn; tauto|cbn; tauto|cbn; tauto|reflexivity|cbn; tauto] ].
Qed.
(** The stress snapshot of a viscoelastic SH wavefield with one point and two mechanisms. *)
Example C120_example d m : snapshot W2Dviscosh 2 0 0 d m (winit W2Dviscosh 1 2 wnew) "w" 7 =
  Ok (map (fun s => (s, [Num 0])) ["w.Sxz.7"; "w.Syz.7"; "w.Rxz1.7"; "w.Ryz1.7"; "w.Rxz2.7"; "w.Ryz2.7"]).
Proof. reflexivity. Qed.
Example C120_curl_example : exists d m w c v, supported W2Delastic 3 /\ shaped W2Delastic 1 0 w /\ wwrite W2Delastic 3 d m w = Ok [("curl", c); ("div", v)] /\ at_ c 0 (5 * sqrt 4) /\ at_ v 0 (7 * sqrt 9).
Proof.
  set (D := fun r => mkMat 1 [[(0, r)]]). set (d := mkD (D 1%R) (D 2%R) (D 1%R) (D 1%R) (D 1%R) (D 1%R)). set (m := mkSM [Num 4] [Num 9] [] [] []).
  set (w := setF (setF (winit W2Delastic 1 0 wnew) "VX" [Num 4]) "VY" [Num 3]).
  assert (Sh : shaped W2Delastic 1 0 w). { unfold w. apply shaped_setF; [apply shaped_setF; [apply C116_init; lia|reflexivity]|reflexivity]. }
  destruct (C120_curl W2Delastic 1 0 d m w) as (lc&ld&c&v&E&_&_&_&V).
  - right; right; left. split; [reflexivity|exact I].
  - exact Sh.
  - repeat split; reflexivity.
  - intros u [->| ->]; (split; [reflexivity|]); (split; [repeat constructor; eexists; reflexivity|]); intros [|i] Hi; try lia; cbn; lra.
  - intros f I. unfold w. rewrite !wf_setF. destruct (String.eqb f "VY"); [repeat constructor; eexists; reflexivity|]. destruct (String.eqb f "VX"); [repeat constructor; eexists; reflexivity|].
    cbn in I. repeat (destruct I as [<-|I]; [cbn; repeat constructor; eexists; reflexivity|]). destruct I.
  - exists d, m, w, c, v. assert (lc = "curl" /\ ld = "div") as (->&->).
    { unfold wwrite in E. cbn [Z.eqb Pos.eqb] in E. unfold pair2 in E. apply bind_ok in E as (?&_&E). apply bind_ok in E as (?&_&E). injection E as E1 E2 E3 E4. auto. }
    split; [right; right; left; split; [reflexivity|exact I]|]. split; [exact Sh|]. split; [exact E|]. cbn [flow isSeismicW spatial] in V. destruct (V 0%nat ltac:(lia)) as (V1&V2).
    assert (A1 : curlOf2 d (wf w "VX") (wf w "VY") 0 = 5%R) by (unfold curlOf2, applied, mean; cbn; ring). assert (A2 : divOf2 d (wf w "VX") (wf w "VY") 0 = 7%R) by (unfold divOf2, applied, mean; cbn; ring).
    rewrite A1 in V1. rewrite A2 in V2. split; [exact V1|exact V2].
Qed.

Print Assumptions C120_names.
Print Assumptions C120_complete.
Print Assumptions C120_steps.
Print Assumptions C120_rejected.
Print Assumptions C120_directions.
Print Assumptions C120_nothing.
Print Assumptions C120_decomposed.
Print Assumptions C120_curl.

(** C119, C121-C124: decomposition into directions, the check for invalid values, the memory estimate, the compensation of damping and the
    reordering matrix of wavefield objects. *)
From Coq Require Import Reals String Lra.
From Verif Require Import Base M_Grid L_Grid M_Average L_Average L_Average3 M_Common M_Model M_ModelEM S_Model S_ModelEM L_AcqFile L_Acq L_Acq2 L_Model L_Model2 L_ModelEM L_ModelEM2 L_ModelEM3 M_Wave S_Wave L_Wave P_Wave.
Open Scope string_scope.
Open Scope Z_scope.

(** ** C119 *)
Lemma num_nth l i : num (map Num l) i = nth i l 0%R.
Proof. unfold num, nums. rewrite map_map, map_id. reflexivity. Qed.
Lemma numbers_list v : numbers v -> exists l, v = map Num l.
Proof. induction 1 as [|x v (r&->) _ (l&->)]; [exists []; reflexivity|exists (r :: l); reflexivity]. Qed.
Lemma nums_map l : nums (map Num l) = l. Proof. unfold nums. rewrite map_map, map_id. reflexivity. Qed.

Lemma maxnorm_aux l : forall m, (0 <= m)%R -> exists m', fold_left (fun m x => if flt m (fabs x) then fabs x else m) (map Num l) (Num m) = Num m' /\ (m <= m')%R /\
  (forall x, In x l -> Rabs x <= m')%R /\ (m' = m \/ exists x, In x l /\ m' = Rabs x).
Proof.
  induction l as [|x l IH]; intros m Hm; cbn [map fold_left].
  - exists m. repeat split; auto; [lra|intros x []].
  - cbn [fabs flt]. destruct (Rlt_dec m (Rabs x)) as [K|K].
    + destruct (IH (Rabs x)) as (m'&E&A&B&C); [lra|]. exists m'. rewrite E. repeat split; [lra| |].
      * intros y [<-|I]; [lra|now apply B].
      * destruct C as [->|(y&I&->)]; right; [exists x|exists y]; split; auto; [left; reflexivity|now right].
    + destruct (IH m Hm) as (m'&E&A&B&C). exists m'. rewrite E. repeat split; [lra| |].
      * intros y [<-|I]; [lra|now apply B].
      * destruct C as [->|(y&I&->)]; [auto|]. right. exists y. split; auto. now right.
Qed.
Lemma maxnorm_num l : exists m, fmaxnorm (map Num l) = Num m /\ largest m (fun i => nth i l 0%R) (length l).
Proof.
  destruct (maxnorm_aux l 0) as (m&E&A&B&C); [lra|]. exists m. split; [exact E|]. split.
  - intros i Hi. apply B. now apply nth_In.
  - destruct C as [->|(x&I&->)]; [auto|]. right. apply In_nth with (d := 0%R) in I as (i&Hi&Ei). exists i. rewrite Ei. auto.
Qed.
Lemma largest_unique a b f n : largest a f n -> largest b f n -> a = b.
Proof.
  intros (A1&A2) (B1&B2). destruct A2 as [->|(i&Hi&->)], B2 as [->|(j&Hj&->)].
  - reflexivity.
  - specialize (A1 j Hj). pose proof (Rabs_pos (f j)). lra.
  - specialize (B1 i Hi). pose proof (Rabs_pos (f i)). lra.
  - specialize (A1 j Hj). specialize (B1 i Hi). lra.
Qed.
Lemma largest_ext a f g n : (forall i, (i < n)%nat -> f i = g i) -> largest a f n -> largest a g n.
Proof.
  intros E (A&B). split; [intros i Hi; rewrite <- E by exact Hi; auto|]. destruct B as [B|(i&Hi&B)]; [auto|]. right. exists i. rewrite <- E by exact Hi. auto.
Qed.
Lemma map2_list (op : fpv -> fpv -> fpv) (h : R -> R -> R) a b : (forall x y, op (Num x) (Num y) = Num (h x y)) -> length a = length b ->
  exists r, zipR op (map Num a) (map Num b) = Ok (map Num r) /\ length r = length a /\ forall i, (i < length a)%nat -> nth i r 0%R = h (nth i a 0%R) (nth i b 0%R).
Proof.
  intros Q. revert b. induction a as [|x a IH]; intros [|y b] L; try discriminate.
  - exists []. repeat split. intros i Hi. cbn in Hi. lia.
  - injection L as L. destruct (IH b L) as (r&E&Lr&N). exists (h x y :: r). cbn [map zipR]. rewrite E. cbn [bind]. rewrite Q. split; [reflexivity|]. split; [cbn; now rewrite Lr|]. intros [|i] Hi; [reflexivity|]. cbn in *. apply N. lia.
Qed.

(** The second flux after scaling, in numbers. *)
Lemma poynting_num d p f df n : length p = n -> length f = n -> length df = n -> length (mrows d) = n -> mcols d = Z.of_nat n ->
  exists r m1 m2, poynting d (map Num p) (map Num f) (map Num df) = Ok r /\ length r = n /\ largest m1 (fun i => nth i p 0%R) n /\
    largest m2 (fun i => (mean (nth i (mrows d) []) f * nth i df 0 * -1)%R) n /\
    (m2 <> 0%R -> forall i, (i < n)%nat -> nth_error r i = Some (Num (mean (nth i (mrows d) []) f * nth i df 0 * -1 * (m1 / m2) + nth i p 0)%R)) /\
    (m2 = 0%R -> forall i, (i < n)%nat -> nth_error r i = Some NaN).
Proof.
  intros Lp Lf Ld Lr Cd. unfold poynting.
  assert (Em : fmatvec d (map Num f) = Ok (map Num (map (fun r => mean r f) (mrows d)))).
  { unfold fmatvec. rewrite map_length, Cd, Lf, Z.eqb_refl. rewrite map_map. f_equal. apply map_ext. intros r. apply frowdot_num. }
  rewrite Em. cbn [bind]. set (a := map (fun r => mean r f) (mrows d)). assert (La : length a = n) by (unfold a; rewrite map_length; exact Lr).
  assert (Na : forall i, (i < n)%nat -> nth i a 0%R = mean (nth i (mrows d) []) f).
  { intros i Hi. unfold a. rewrite nth_indep with (d' := mean [] f) by (fold a; rewrite La; exact Hi). apply (map_nth (fun r => mean r f)). }
  destruct (map2_list fmul Rmult a df) as (b&Eb&Lb&Nb); [reflexivity|lia|]. rewrite Eb. cbn [bind].
  assert (Et : timesBy (-1) (map Num b) = map Num (map (fun x => (x * -1)%R) b)). { unfold timesBy. rewrite !map_map. reflexivity. }
  rewrite Et. set (c := map (fun x => (x * -1)%R) b). assert (Lc : length c = n) by (unfold c; rewrite map_length; lia).
  assert (Nc : forall i, (i < n)%nat -> nth i c 0%R = (mean (nth i (mrows d) []) f * nth i df 0 * -1)%R).
  { intros i Hi. unfold c. rewrite nth_indep with (d' := (0 * -1)%R) by (rewrite map_length; lia). rewrite (map_nth (fun x => (x * -1)%R)). rewrite Nb by lia. rewrite Na by exact Hi. reflexivity. }
  destruct (maxnorm_num p) as (m1&E1&G1). destruct (maxnorm_num c) as (m2&E2&G2). rewrite E1, E2, Lp, Lc in *.
  assert (G2' : largest m2 (fun i => (mean (nth i (mrows d) []) f * nth i df 0 * -1)%R) n) by (apply (largest_ext m2 (fun i => nth i c 0%R)); assumption).
  cbn [fquot]. destruct (zip_exists fadd (map (fun x => fmul x (fdiv m1 m2)) (map Num c)) (map Num p) n) as (r&Er&Lr'); [rewrite !map_length; exact Lc|rewrite map_length; exact Lp|].
  exists r, m1, m2. split; [exact Er|]. split; [exact Lr'|]. split; [exact G1|]. split; [exact G2'|]. apply zipR_at in Er as (_&_&Nr).
  assert (Atc : forall i, (i < n)%nat -> nth_error c i = Some (nth i c 0%R)) by (intros i Hi; apply nth_error_nth'; lia).
  assert (Atp : forall i, (i < n)%nat -> nth_error p i = Some (nth i p 0%R)) by (intros i Hi; apply nth_error_nth'; lia).
  split.
  - intros Hm i Hi. rewrite Nr, !map_at, (Atc i Hi), (Atp i Hi). cbn [option_map]. unfold fdiv. destruct (Req_EM_T m2 0); [contradiction|]. cbn [fmul fadd]. rewrite Nc by exact Hi. reflexivity.
  - intros -> i Hi. rewrite Nr, !map_at, (Atc i Hi), (Atp i Hi). cbn [option_map].
    assert (Z : nth i c 0%R = 0%R). { destruct G2 as (G&_). specialize (G i Hi). pose proof (Rabs_pos (nth i c 0%R)). destruct (Req_dec (nth i c 0%R) 0) as [E|E]; [exact E|]. pose proof (Rabs_pos_lt _ E). lra. }
    rewrite Z. unfold fdiv. destruct (Req_EM_T 0 0); [|lra]. destruct (Req_EM_T m1 0); [reflexivity|]. destruct (Rlt_dec 0 m1); cbn [fmul]; unfold fscale; destruct (Req_EM_T 0 0); try lra; reflexivity.
Qed.

(** The passes over the fields. *)
Lemma split_each sn d p1 k' der lo up fs : forall w, NoDup (fs ++ map (fun f => (f ++ lo)%string) fs ++ map (fun f => (f ++ up)%string) fs)%list ->
  (forall f, In f fs -> ref k' der f = Ok (wf der f) /\ exists p2, poynting d p1 (wf w f) (wf der f) = Ok p2 /\ length p2 = length (wf w f)) ->
  exists u, each (splitField sn d p1 k' der lo up) fs w = Ok u /\
    (forall f, In f fs -> exists p2, poynting d p1 (wf w f) (wf der f) = Ok p2 /\ lowerPart sn p2 (wf w f) = Ok (wf u (f ++ lo)) /\ upperPart sn p2 (wf w f) = Ok (wf u (f ++ up))) /\
    same_but (map (fun f => (f ++ lo)%string) fs ++ map (fun f => (f ++ up)%string) fs)%list [] w u.
Proof.
  induction fs as [|f fs IH]; intros w ND H.
  - exists w. cbn [each]. split; [reflexivity|]. split; [intros f []|]. repeat split; auto.
  - assert (X : ~ In f (fs ++ map (fun f => (f ++ lo)%string) (f :: fs) ++ map (fun f => (f ++ up)%string) (f :: fs)) /\
      NoDup (fs ++ map (fun f => (f ++ lo)%string) (f :: fs) ++ map (fun f => (f ++ up)%string) (f :: fs))) by (inversion ND; auto).
    destruct X as (NI&ND1). cbn [map] in ND1, NI.
    pose proof (NoDup_remove_1 _ _ _ ND1) as ND2. pose proof (NoDup_remove_2 _ _ _ ND1) as NI2. rewrite app_assoc in ND2, NI2.
    pose proof (NoDup_remove_1 _ _ _ ND2) as ND3. pose proof (NoDup_remove_2 _ _ _ ND2) as NI3. rewrite <- app_assoc in ND3, NI3, NI2.
    rewrite !in_app_iff in NI, NI2, NI3. cbn [In] in NI, NI2. 
    destruct (H f (or_introl eq_refl)) as (Rf&p2&Ep&Lp).
    destruct (zip_exists fmul (map (fun x => fsign sn (fabs (fsub (fsign sn x) (Num 1)))) p2) (wf w f) (length (wf w f))) as (a&Ea&La); [rewrite map_length; exact Lp|reflexivity|].
    destruct (zip_exists fmul (map (fun x => fsign sn (fadd (fsign sn x) (Num 1))) p2) (wf w f) (length (wf w f))) as (b&Eb&Lb); [rewrite map_length; exact Lp|reflexivity|].
    fold (lowerPart sn p2 (wf w f)) in Ea. fold (upperPart sn p2 (wf w f)) in Eb.
    assert (Df : f <> (f ++ lo)%string) by (intros E; apply NI; right; left; left; auto).
    set (w1 := setF (setF w (f ++ lo) a) (f ++ up) b).
    assert (W1 : forall g, ~ (g = f ++ lo \/ g = f ++ up)%string -> wf w1 g = wf w g).
    { intros g Hg. unfold w1. rewrite !wf_setF. destruct (String.eqb_spec g (f ++ up)); [exfalso; auto|]. destruct (String.eqb_spec g (f ++ lo)); [exfalso; auto|reflexivity]. }
    assert (Wfs : forall g, In g fs -> wf w1 g = wf w g). { intros g Ig. apply W1. intros [->| ->]; [apply NI2|apply NI3]; tauto. }
    destruct (IH w1 ND3) as (u&Eu&Pu&Bu).
    { intros g Ig. rewrite Wfs by exact Ig. apply H. now right. }
    destruct Bu as (B1&B2&B3).
    exists u. cbn [each]. unfold splitField at 1. rewrite Rf. cbn [bind]. rewrite Ep. cbn [bind]. rewrite Ea. cbn [bind].
    assert (E2 : wf (setF w (f ++ lo) a) f = wf w f). { rewrite wf_setF. destruct (String.eqb_spec f (f ++ lo)); [contradiction|reflexivity]. }
    rewrite E2, Eb. cbn [bind]. fold w1. split; [exact Eu|]. split; [|split; [|split]].
    + intros g [<-|Ig].
      * exists p2. split; [exact Ep|]. split.
        -- rewrite B1 by (rewrite in_app_iff; tauto). unfold w1. rewrite !wf_setF, String.eqb_refl. destruct (String.eqb_spec (f ++ lo) (f ++ up)) as [E|]; [|exact Ea].
           exfalso. apply NI2. right. right. left. auto.
        -- rewrite B1 by (rewrite in_app_iff; tauto). unfold w1. rewrite wf_setF, String.eqb_refl. exact Eb.
      * destruct (Pu g Ig) as (q&Q1&Q2&Q3). rewrite Wfs in Q1, Q2, Q3 by exact Ig. eauto.
    + intros g Ng. cbn [map] in Ng. rewrite in_app_iff in Ng. cbn [In] in Ng. rewrite B1 by (rewrite in_app_iff; tauto). apply W1. intros [->| ->]; tauto.
    + intros g Ng. rewrite B2 by exact Ng. reflexivity.
    + rewrite B3. reflexivity.
Qed.

(** The parts for a number and for not-a-number. *)
Lemma lower_num sn s x : fmul (fsign sn (fabs (fsub (fsign sn (Num s)) (Num 1)))) (Num x) = Num (if Rle_dec s 0 then x else 0)%R.
Proof.
  cbn [fsign]. destruct (Rlt_dec 0 s), (Rle_dec s 0); try lra; [|destruct (Rlt_dec s 0)]; cbn [fsub fadd fneg fabs fsign].
  - replace (1 + - (1))%R with 0%R by ring. rewrite Rabs_R0. destruct (Rlt_dec 0 0); try lra. cbn [fmul]. f_equal. ring.
  - replace (-1 + - (1))%R with (-2)%R by ring. rewrite Rabs_left by lra. destruct (Rlt_dec 0 (- -2)); try lra. cbn [fmul]. f_equal. ring.
  - replace (0 + - (1))%R with (-1)%R by ring. rewrite Rabs_left by lra. destruct (Rlt_dec 0 (- -1)); try lra. cbn [fmul]. f_equal. ring.
Qed.
Lemma upper_num sn s x : fmul (fsign sn (fadd (fsign sn (Num s)) (Num 1))) (Num x) = Num (if Rle_dec 0 s then x else 0)%R.
Proof.
  cbn [fsign]. destruct (Rlt_dec 0 s), (Rle_dec 0 s); try lra; [|destruct (Rlt_dec s 0); try lra|destruct (Rlt_dec s 0); try lra]; cbn [fadd fsign].
  - destruct (Rlt_dec 0 (1 + 1)); try lra. cbn [fmul]. f_equal. ring.
  - destruct (Rlt_dec 0 (0 + 1)); try lra. cbn [fmul]. f_equal. ring.
  - destruct (Rlt_dec 0 (-1 + 1)); try lra. destruct (Rlt_dec (-1 + 1) 0); try lra. cbn [fmul]. f_equal. ring.
Qed.

(** First flux as a vector. *)
Lemma flux_vec k dec s n w : splittingOf k dec = Some s -> shaped k n 0 w -> (forall f, In f (propagated k) -> numbers (wf w f)) ->
  exists p, length p = n /\ (forall i, (i < n)%nat -> nth i p 0%R = sFlux s w i) /\
    forall sn k' der dxf dyf, wdecompose sn k k' dec der dxf dyf w = each (splitField sn (if sAlongX s then dxf else dyf) (map Num p) k' der (sNeg s) (sPos s)) (sFields s) w.
Proof.
  intros Hs (Sh&_) Hn. unfold splittingOf in Hs.
  assert (Ac : forall g, k = W2Dacoustic -> In g ["VX"; "VY"] -> exists p, zipR fmul (map fneg (wf w "P")) (wf w g) = Ok (map Num p) /\ length p = n /\ forall i, (i < n)%nat -> nth i p 0%R = (- num (wf w "P") i * num (wf w g) i)%R).
  { intros g -> Ig. destruct (numbers_list (wf w "P")) as (a&Ea); [apply Hn; cbn; tauto|]. destruct (numbers_list (wf w g)) as (b&Eb); [apply Hn; cbn in *; tauto|].
    assert (La : length a = n) by (rewrite <- (Sh "P"), Ea, map_length by (cbn; tauto); reflexivity). assert (Lb : length b = n) by (rewrite <- (Sh g), Eb, map_length by (cbn in *; tauto); reflexivity).
    destruct (map2_list fmul Rmult (map Ropp a) b) as (p&Ep&Lp&Np); [reflexivity|rewrite map_length; lia|]. rewrite map_length in *. exists p. rewrite Ea, Eb.
    split; [rewrite <- Ep, !map_map; reflexivity|]. split; [lia|]. intros i Hi. rewrite Np by lia. rewrite !num_nth. f_equal.
    rewrite nth_indep with (d' := (- 0)%R) by (rewrite map_length; lia). apply (map_nth Ropp). }
  assert (Tm : forall g, k = W2Dtmem -> In g ["HX"; "HY"] -> exists p, zipR fmul (wf w "EZ") (wf w g) = Ok (map Num p) /\ length p = n /\ forall i, (i < n)%nat -> nth i p 0%R = (num (wf w "EZ") i * num (wf w g) i)%R).
  { intros g -> Ig. destruct (numbers_list (wf w "EZ")) as (a&Ea); [apply Hn; cbn; tauto|]. destruct (numbers_list (wf w g)) as (b&Eb); [apply Hn; cbn in *; tauto|].
    assert (La : length a = n) by (rewrite <- (Sh "EZ"), Ea, map_length by (cbn; tauto); reflexivity). assert (Lb : length b = n) by (rewrite <- (Sh g), Eb, map_length by (cbn in *; tauto); reflexivity).
    destruct (map2_list fmul Rmult a b) as (p&Ep&Lp&Np); [reflexivity|lia|]. exists p. rewrite Ea, Eb. split; [exact Ep|]. split; [lia|]. intros i Hi. rewrite Np by lia. rewrite !num_nth. reflexivity. }
  destruct k; try discriminate; destruct dec as [|[p|[p|p|]|]|p]; try discriminate; injection Hs as <-; cbn [sFlux sAlongX sNeg sPos sFields].
  - destruct (Ac "VX") as (p&Ep&Lp&Np); [reflexivity|cbn; tauto|]. exists p. split; [exact Lp|]. split; [exact Np|]. intros. unfold wdecompose. cbn [Z.eqb Pos.eqb]. rewrite Ep. reflexivity.
  - destruct (Ac "VY") as (p&Ep&Lp&Np); [reflexivity|cbn; tauto|]. exists p. split; [exact Lp|]. split; [exact Np|]. intros. unfold wdecompose. cbn [Z.eqb Pos.eqb]. rewrite Ep. reflexivity.
  - destruct (Tm "HY") as (p&Ep&Lp&Np); [reflexivity|cbn; tauto|]. exists (map (fun x => x * -1)%R p). split; [rewrite map_length; exact Lp|]. split.
    + intros i Hi. rewrite nth_indep with (d' := (0 * -1)%R) by (rewrite map_length; lia). rewrite (map_nth (fun x => x * -1)%R). rewrite Np by exact Hi. reflexivity.
    + intros. unfold wdecompose. cbn [Z.eqb Pos.eqb]. rewrite Ep. cbn [bind]. unfold timesBy. rewrite !map_map. reflexivity.
  - destruct (Tm "HX") as (p&Ep&Lp&Np); [reflexivity|cbn; tauto|]. exists p. split; [exact Lp|]. split; [exact Np|]. intros. unfold wdecompose. cbn [Z.eqb Pos.eqb]. rewrite Ep. reflexivity.
Qed.
Lemma split_facts k dec s : splittingOf k dec = Some s -> NoDup (sFields s ++ parts s)%list /\ (forall f, In f (sFields s) -> In f (propagated k)).
Proof.
  intros H. unfold splittingOf in H. destruct k; try discriminate; destruct dec as [|[p|[p|p|]|]|p]; try discriminate; injection H as <-;
    (split; [apply nodupb_ok; vm_compute; reflexivity|apply subb_ok; vm_compute; reflexivity]).
Qed.
Lemma decompose_vec sn k dec s n w der dxf dyf : splittingOf k dec = Some s -> shaped k n 0 w -> shaped k n 0 der ->
  (forall f, In f (propagated k) -> numbers (wf w f) /\ numbers (wf der f)) ->
  let d := if sAlongX s then dxf else dyf in length (mrows d) = n -> mcols d = Z.of_nat n ->
  exists u, wdecompose sn k k dec der dxf dyf w = Ok u /\ same_but (parts s) [] w u /\
    forall f, In f (sFields s) -> exists r m1 m2, length r = n /\ largest m1 (sFlux s w) n /\ largest m2 (flux2 d w der f) n /\
      (m2 <> 0%R -> forall i, (i < n)%nat -> nth_error r i = Some (Num (flux2 d w der f i * (m1 / m2) + sFlux s w i)%R)) /\
      (m2 = 0%R -> forall i, (i < n)%nat -> nth_error r i = Some NaN) /\
      lowerPart sn r (wf w f) = Ok (wf u (f ++ sNeg s)) /\ upperPart sn r (wf w f) = Ok (wf u (f ++ sPos s)).
Proof.
  intros Hs Sw Sd Hn d Ld Cd. destruct (flux_vec k dec s n w Hs Sw (fun f I => proj1 (Hn f I))) as (p&Lp&Np&E). destruct (split_facts k dec s Hs) as (ND&Inc).
  assert (P : forall f, In f (sFields s) -> exists r m1 m2, poynting d (map Num p) (wf w f) (wf der f) = Ok r /\ length r = n /\ largest m1 (sFlux s w) n /\ largest m2 (flux2 d w der f) n /\
      (m2 <> 0%R -> forall i, (i < n)%nat -> nth_error r i = Some (Num (flux2 d w der f i * (m1 / m2) + sFlux s w i)%R)) /\ (m2 = 0%R -> forall i, (i < n)%nat -> nth_error r i = Some NaN)).
  { intros f I. destruct (Hn f (Inc f I)) as (N1&N2). apply numbers_list in N1 as (a&Ea). apply numbers_list in N2 as (b&Eb).
    assert (Im : In f (members k)) by (unfold members; apply in_or_app; left; apply Inc, I).
    assert (La : length a = n) by (rewrite <- (proj1 Sw f Im), Ea, map_length; reflexivity). assert (Lb : length b = n) by (rewrite <- (proj1 Sd f Im), Eb, map_length; reflexivity).
    destruct (poynting_num d p a b n Lp La Lb Ld Cd) as (r&m1&m2&Er&Lr&G1&G2&F1&F2). exists r, m1, m2. rewrite Ea, Eb. split; [exact Er|]. split; [exact Lr|].
    split; [eapply largest_ext; [exact Np|exact G1]|]. 
    assert (Q : forall i, (i < n)%nat -> (mean (nth i (mrows d) []) a * nth i b 0 * -1)%R = flux2 d w der f i). { intros i Hi. unfold flux2, applied. rewrite Ea, Eb, nums_map, num_nth. reflexivity. }
    split; [eapply largest_ext; [exact Q|exact G2]|]. split; [|exact F2]. intros Hm i Hi. rewrite (F1 Hm i Hi), (Q i Hi), (Np i Hi). reflexivity. }
  destruct (split_each sn d (map Num p) k der (sNeg s) (sPos s) (sFields s) w ND) as (u&Eu&Pu&Bu).
  { intros f I. assert (Im : In f (members k)) by (unfold members; apply in_or_app; left; apply Inc, I). split; [apply ref_member, Im|].
    destruct (P f I) as (r&m1&m2&Er&Lr&_). exists r. split; [exact Er|]. rewrite (proj1 Sw f Im). exact Lr. }
  exists u. split; [rewrite E; exact Eu|]. split; [exact Bu|]. intros f I. destruct (Pu f I) as (p2&Ep&El&Eu2). destruct (P f I) as (r&m1&m2&Er&Lr&G1&G2&F1&F2).
  rewrite Ep in Er. injection Er as ->. exists r, m1, m2. auto 10.
Qed.

(** Where the scaled sum of both fluxes is negative (positive) the field goes to the part of the negative (positive) direction; where it
    is zero it goes to both.  Nothing else changes. *)
Theorem C119_parts sn k dec s n w der dxf dyf m1 : splittingOf k dec = Some s -> shaped k n 0 w -> shaped k n 0 der ->
  (forall f, In f (propagated k) -> numbers (wf w f) /\ numbers (wf der f)) ->
  let d := if sAlongX s then dxf else dyf in length (mrows d) = n -> mcols d = Z.of_nat n -> largest m1 (sFlux s w) n ->
  exists u, wdecompose sn k k dec der dxf dyf w = Ok u /\ same_but (parts s) [] w u /\
    forall f m2 i, In f (sFields s) -> largest m2 (flux2 d w der f) n -> m2 <> 0%R -> (i < n)%nat ->
      let S := (flux2 d w der f i * (m1 / m2) + sFlux s w i)%R in let x := num (wf w f) i in
      val u (f ++ sNeg s) i = Some (Num (if Rle_dec S 0 then x else 0)) /\ val u (f ++ sPos s) i = Some (Num (if Rle_dec 0 S then x else 0)).
Proof.
  intros Hs Sw Sd Hn d Ld Cd G. destruct (decompose_vec sn k dec s n w der dxf dyf Hs Sw Sd Hn Ld Cd) as (u&Eu&Bu&P). exists u. split; [exact Eu|]. split; [exact Bu|].
  intros f m2 i I G2 Hm Hi S x. destruct (P f I) as (r&m1'&m2'&Lr&G1'&G2'&F1&_&El&Eup). destruct (split_facts k dec s Hs) as (_&Inc).
  rewrite (largest_unique _ _ _ _ G1' G), (largest_unique _ _ _ _ G2' G2) in F1. specialize (F1 Hm i Hi). fold d in F1. fold S in F1.
  destruct (Hn f (Inc f I)) as (N1&_). apply numbers_list in N1 as (a&Ea). assert (Im : In f (members k)) by (unfold members; apply in_or_app; left; apply Inc, I).
  assert (La : length a = n) by (rewrite <- (proj1 Sw f Im), Ea, map_length; reflexivity).
  assert (At : nth_error (wf w f) i = Some (Num x)). { unfold x. rewrite Ea, map_at, (nth_error_nth' a 0%R) by lia. cbn. rewrite num_nth. reflexivity. }
  unfold lowerPart in El. unfold upperPart in Eup. apply zipR_at in El as (_&_&Nl). apply zipR_at in Eup as (_&_&Nu). unfold val. rewrite Nl, Nu, !map_at, F1, At. cbn [option_map].
  rewrite lower_num, upper_num. auto.
Qed.
(** So the parts add up to the field except where the fluxes cancel: there they add up to twice the field. *)
Corollary C119_sum sn k dec s n w der dxf dyf m1 u f m2 i : splittingOf k dec = Some s -> shaped k n 0 w -> shaped k n 0 der ->
  (forall f, In f (propagated k) -> numbers (wf w f) /\ numbers (wf der f)) ->
  let d := if sAlongX s then dxf else dyf in length (mrows d) = n -> mcols d = Z.of_nat n -> largest m1 (sFlux s w) n ->
  wdecompose sn k k dec der dxf dyf w = Ok u -> In f (sFields s) -> largest m2 (flux2 d w der f) n -> m2 <> 0%R -> (i < n)%nat ->
  (num (wf u (f ++ sNeg s)) i + num (wf u (f ++ sPos s)) i = (if Req_EM_T (flux2 d w der f i * (m1 / m2) + sFlux s w i) 0 then 2 * num (wf w f) i else num (wf w f) i))%R.
Proof.
  intros Hs Sw Sd Hn d Ld Cd G Eu I G2 Hm Hi. destruct (C119_parts sn k dec s n w der dxf dyf m1 Hs Sw Sd Hn Ld Cd G) as (u'&Eu'&_&P). rewrite Eu in Eu'. injection Eu' as <-.
  destruct (P f m2 i I G2 Hm Hi) as (A&B). fold d in A, B. set (S := (flux2 d w der f i * (m1 / m2) + sFlux s w i)%R) in *.
  assert (V : forall v x, nth_error v i = Some (Num x) -> num v i = x). { intros v x Ex. unfold num, nums. erewrite nth_error_nth; [reflexivity|]. rewrite map_at, Ex. reflexivity. }
  rewrite (V _ _ A), (V _ _ B). destruct (Rle_dec S 0), (Rle_dec 0 S), (Req_EM_T S 0); try lra.
Qed.
(** If the second flux vanishes everywhere, the split no longer depends on the field: its values are those that the sign of
    not-a-number prescribes. *)
Theorem C119_flat sn k dec s n w der dxf dyf : splittingOf k dec = Some s -> shaped k n 0 w -> shaped k n 0 der ->
  (forall f, In f (propagated k) -> numbers (wf w f) /\ numbers (wf der f)) ->
  let d := if sAlongX s then dxf else dyf in length (mrows d) = n -> mcols d = Z.of_nat n ->
  exists u, wdecompose sn k k dec der dxf dyf w = Ok u /\
    forall f i, In f (sFields s) -> (forall j, (j < n)%nat -> flux2 d w der f j = 0%R) -> (i < n)%nat ->
      val u (f ++ sNeg s) i = Some (fmul (fsign sn (fabs (fsub sn (Num 1)))) (Num (num (wf w f) i))) /\
      val u (f ++ sPos s) i = Some (fmul (fsign sn (fadd sn (Num 1))) (Num (num (wf w f) i))).
Proof.
  intros Hs Sw Sd Hn d Ld Cd. destruct (decompose_vec sn k dec s n w der dxf dyf Hs Sw Sd Hn Ld Cd) as (u&Eu&Bu&P). exists u. split; [exact Eu|].
  intros f i I Hz Hi. destruct (P f I) as (r&m1&m2&Lr&_&G2&_&F2&El&Eup). destruct (split_facts k dec s Hs) as (_&Inc).
  assert (M : m2 = 0%R). { apply (largest_unique _ _ (flux2 d w der f) n G2). split; [|auto]. intros j Hj. rewrite Hz by exact Hj. rewrite Rabs_R0. lra. }
  specialize (F2 M i Hi). destruct (Hn f (Inc f I)) as (N1&_). apply numbers_list in N1 as (a&Ea). assert (Im : In f (members k)) by (unfold members; apply in_or_app; left; apply Inc, I).
  assert (La : length a = n) by (rewrite <- (proj1 Sw f Im), Ea, map_length; reflexivity).
  assert (At : nth_error (wf w f) i = Some (Num (num (wf w f) i))). { rewrite Ea, map_at, (nth_error_nth' a 0%R) by lia. cbn. rewrite num_nth. reflexivity. }
  unfold lowerPart in El. unfold upperPart in Eup. apply zipR_at in El as (_&_&Nl). apply zipR_at in Eup as (_&_&Nu). unfold val. rewrite Nl, Nu, !map_at, F2, At. auto.
Qed.
(** The other classes and the other values of the parameter do nothing. *)
Theorem C119_none sn k k' dec der dxf dyf w : splittingOf k dec = None -> wdecompose sn k k' dec der dxf dyf w = Ok w.
Proof.
  intros H. unfold splittingOf in H. unfold wdecompose. destruct k; try reflexivity.
  - destruct (Z.eqb_spec dec 1); [subst; discriminate|]. destruct (Z.eqb_spec dec 2); [subst; discriminate|reflexivity].
  - destruct (Z.eqb_spec dec 1); [subst; discriminate|]. destruct (Z.eqb_spec dec 2); [subst; discriminate|reflexivity].
Qed.
Example C119_example : exists w der d u, shaped W2Dtmem 1 0 w /\ shaped W2Dtmem 1 0 der /\ wdecompose NaN W2Dtmem W2Dtmem 1 der d d w = Ok u /\
  val u "EZup" 0 = Some (Num 3) /\ val u "EZdown" 0 = Some (Num 0) /\ val u "EZ" 0 = Some (Num 3).
Proof.
  set (z := winit W2Dtmem 1 0 wnew). set (w := setF (setF z "EZ" [Num 3]) "HX" [Num (-1)]). set (der := setF z "EZ" [Num 1]). set (d := mkMat 1 [[(0, 1%R)]]).
  assert (Sz : shaped W2Dtmem 1 0 z) by (apply C116_init; lia). destruct Sz as (A&B&C).
  assert (Sw : shaped W2Dtmem 1 0 w). { split; [|split]; [|exact B|exact C]. intros f I. unfold w. rewrite !wf_setF. destruct (String.eqb f "HX"); [reflexivity|]. destruct (String.eqb f "EZ"); [reflexivity|now apply A]. }
  assert (Sd : shaped W2Dtmem 1 0 der). { split; [|split]; [|exact B|exact C]. intros f I. unfold der. rewrite !wf_setF. destruct (String.eqb f "EZ"); [reflexivity|now apply A]. }
  destruct (C119_parts NaN W2Dtmem 1 (mkS ["EZ"] "up" "down" (fun w i => num (wf w "EZ") i * num (wf w "HX") i)%R false) 1 w der d d 3 eq_refl Sw Sd) as (u&Eu&(Bu&_)&P).
  - intros f I. cbn in I. destruct I as [<-|[<-|[<-|[]]]]; split; repeat constructor; eexists; reflexivity.
  - reflexivity.
  - reflexivity.
  - split; [intros [|i] Hi; [|lia]|right; exists 0%nat; split; [lia|]]; cbn; rewrite Rabs_left; lra.
  - exists w, der, d, u. split; [exact Sw|]. split; [exact Sd|]. split; [exact Eu|].
    assert (F : flux2 d w der "EZ" 0 = (-3)%R) by (unfold flux2, applied, num, mean, d; cbn; ring).
    destruct (P "EZ" 3%R 0%nat) as (Q1&Q2); [left; reflexivity| |lra|lia|].
    { cbn [sAlongX]. split; [intros [|i] Hi; [|lia]|right; exists 0%nat; split; [lia|]]; rewrite F, Rabs_left; lra. }
    cbn [sAlongX sNeg sPos sFlux append] in Q1, Q2. rewrite F in Q1, Q2. assert (N1 : num (wf w "EZ") 0 = 3%R) by reflexivity. assert (N2 : num (wf w "HX") 0 = (-1)%R) by reflexivity. rewrite N1, N2 in Q1, Q2.
    split; [rewrite Q1; destruct (Rle_dec _ 0); [reflexivity|lra]|]. split; [rewrite Q2; destruct (Rle_dec 0 _); [lra|reflexivity]|].
    unfold val. rewrite Bu; [reflexivity|]. cbn. intuition discriminate.
Qed.
(** The claim that the parts always add up to the field is false. *)
Theorem C119_refuted : exists w der d u, shaped W2Dtmem 1 0 w /\ shaped W2Dtmem 1 0 der /\ wdecompose NaN W2Dtmem W2Dtmem 1 der d d w = Ok u /\
  val u "EZup" 0 = Some (Num 3) /\ val u "EZdown" 0 = Some (Num 3) /\ val u "EZ" 0 = Some (Num 3).
Proof.
  set (z := winit W2Dtmem 1 0 wnew). set (w := setF (setF z "EZ" [Num 3]) "HX" [Num 1]). set (der := setF z "EZ" [Num 1]). set (d := mkMat 1 [[(0, 1%R)]]).
  assert (Sz : shaped W2Dtmem 1 0 z) by (apply C116_init; lia). destruct Sz as (A&B&C).
  assert (Sw : shaped W2Dtmem 1 0 w). { split; [|split]; [|exact B|exact C]. intros f I. unfold w. rewrite !wf_setF. destruct (String.eqb f "HX"); [reflexivity|]. destruct (String.eqb f "EZ"); [reflexivity|now apply A]. }
  assert (Sd : shaped W2Dtmem 1 0 der). { split; [|split]; [|exact B|exact C]. intros f I. unfold der. rewrite !wf_setF. destruct (String.eqb f "EZ"); [reflexivity|now apply A]. }
  destruct (C119_parts NaN W2Dtmem 1 (mkS ["EZ"] "up" "down" (fun w i => num (wf w "EZ") i * num (wf w "HX") i)%R false) 1 w der d d 3 eq_refl Sw Sd) as (u&Eu&(Bu&_)&P).
  - intros f I. cbn in I. destruct I as [<-|[<-|[<-|[]]]]; split; repeat constructor; eexists; reflexivity.
  - reflexivity.
  - reflexivity.
  - split; [intros [|i] Hi; [|lia]|right; exists 0%nat; split; [lia|]]; cbn; rewrite Rabs_right; lra.
  - exists w, der, d, u. split; [exact Sw|]. split; [exact Sd|]. split; [exact Eu|].
    assert (F : flux2 d w der "EZ" 0 = (-3)%R) by (unfold flux2, applied, num, mean, d; cbn; ring).
    destruct (P "EZ" 3%R 0%nat) as (Q1&Q2); [left; reflexivity| |lra|lia|].
    { cbn [sAlongX]. split; [intros [|i] Hi; [|lia]|right; exists 0%nat; split; [lia|]]; rewrite F, Rabs_left; lra. }
    cbn [sAlongX sNeg sPos sFlux append] in Q1, Q2. rewrite F in Q1, Q2. assert (N1 : num (wf w "EZ") 0 = 3%R) by reflexivity. assert (N2 : num (wf w "HX") 0 = 1%R) by reflexivity. rewrite N1, N2 in Q1, Q2.
    split; [rewrite Q1; destruct (Rle_dec _ 0); [reflexivity|lra]|]. split; [rewrite Q2; destruct (Rle_dec 0 _); [reflexivity|lra]|].
    unfold val. rewrite Bu; [reflexivity|]. cbn. intuition discriminate.
Qed.

(** ** C121 *)
Lemma shaped_setF k n L w f v : shaped k n L w -> length v = n -> shaped k n L (setF w f v).
Proof. intros (A&B&C) E. split; [|split; [exact B|exact C]]. intros g I. rewrite wf_setF. destruct (String.eqb g f); [exact E|apply A; exact I]. Qed.
(** A vector that is either not allocated or has one value per point. *)
Definition sized (n : Z) (v : vec) : Prop := v = [] \/ Z.of_nat (length v) = n.
Definition finiteAt (v : vec) (i : Z) : Prop := forall x, nth_error v (Z.to_nat i) = Some x -> exists r, x = Num r.
Lemma isFin_num x : isFin x = true <-> exists r, x = Num r.
Proof. destruct x; cbn; split; intros H; try discriminate; try (destruct H; discriminate); eauto. Qed.
Lemma checkAt_ok n v i : sized n v -> 0 <= i < n -> exists b, checkAt v i = Ok b /\ (b = true <-> finiteAt v i).
Proof.
  intros [->|S] Hi.
  - exists true. split; [reflexivity|]. split; [|auto]. intros _ x E. destruct (Z.to_nat i); discriminate.
  - destruct v as [|y v]; [cbn in S; lia|]. unfold checkAt. destruct (nth_error (y :: v) (Z.to_nat i)) as [x|] eqn:E; [|apply nth_error_None in E; lia].
    rewrite (proj2 (vget_nth _ i x ltac:(lia)) E). cbn [bind]. exists (isFin x). split; [reflexivity|]. rewrite isFin_num. unfold finiteAt. rewrite E. split.
    + intros H x' [= <-]. exact H.
    + intros H. now apply H.
Qed.
(** Seismic wavefields: one value of VX and one of VZ are looked at. *)
Theorem C121_seismic k n w : isSeismicW k = true -> 0 < n -> sized n (wf w "VX") -> sized n (wf w "VZ") ->
  exists b, wIsFinite k n w = Ok b /\ (b = true <-> finiteAt (wf w "VX") (n / 2) /\ finiteAt (wf w "VZ") (n / 2)).
Proof.
  intros K Hn S1 S2. unfold wIsFinite. rewrite K. assert (R : 0 <= n / 2 < n) by (split; [apply Z.div_pos; lia|apply Z.div_lt; lia]).
  destruct (checkAt_ok n _ _ S1 R) as (a&Ea&Ha). destruct (checkAt_ok n _ _ S2 R) as (b&Eb&Hb). rewrite Ea. cbn [bind]. rewrite Eb. cbn [bind].
  exists (a && b)%bool. split; [reflexivity|]. rewrite andb_true_iff, Ha, Hb. reflexivity.
Qed.
(** Electromagnetic wavefields: all values of EX and EZ. *)
Theorem C121_em k n w : isSeismicW k = false -> sized n (wf w "EX") -> sized n (wf w "EZ") ->
  exists b, wIsFinite k n w = Ok b /\ (b = true <-> forall i, 0 <= i < n -> finiteAt (wf w "EX") i /\ finiteAt (wf w "EZ") i).
Proof.
  intros K S1 S2. unfold wIsFinite. rewrite K.
  assert (G : forall is, (forall i, In i is -> 0 <= i < n) -> exists b, checkAll (wf w "EX") (wf w "EZ") is = Ok b /\ (b = true <-> forall i, In i is -> finiteAt (wf w "EX") i /\ finiteAt (wf w "EZ") i)).
  { induction is as [|i is IH]; intros H; cbn [checkAll].
    - exists true. split; [reflexivity|]. split; [intros _ i []|auto].
    - destruct (checkAt_ok n _ i S1) as (a&Ea&Ha); [apply H; now left|]. destruct (checkAt_ok n _ i S2) as (b&Eb&Hb); [apply H; now left|].
      destruct IH as (c&Ec&Hc); [intros j Ij; apply H; now right|]. rewrite Ea, Eb, Ec. cbn [bind]. exists (a && b && c)%bool. split; [reflexivity|].
      rewrite !andb_true_iff, Ha, Hb, Hc. split; [intros ((X&Y)&Z) j [<-|Ij]; auto|]. intros X. split; [apply X; now left|]. intros j Ij. apply X. now right. }
  destruct (G (zseq 0 (Z.to_nat n))) as (b&Eb&Hb). { intros i I. apply zseq_in in I. lia. }
  exists b. split; [exact Eb|]. rewrite Hb. split; intros H i Hi; apply H; apply zseq_in in Hi || apply zseq_in; lia.
Qed.
(** So an object that passes the check can hold invalid values: in other fields, and for seismic wavefields at other points. *)
Theorem C121_refuted : (exists w, shaped W2Dtmem 1 0 w /\ wIsFinite W2Dtmem 1 w = Ok true /\ In NaN (wf w "HX")) /\
  (exists w, shaped W2Dacoustic 3 0 w /\ wIsFinite W2Dacoustic 3 w = Ok true /\ In NaN (wf w "VX")) /\
  (exists w, shaped W2Dsh 1 0 w /\ wIsFinite W2Dsh 1 w = Ok true /\ In NaN (wf w "Sxz")).
Proof.
  assert (G : forall k n f v, length v = n -> shaped k n 0 (setF (winit k n 0 wnew) f v)) by (intros k n f v E; apply shaped_setF; [apply C116_init; lia|exact E]).
  split; [|split].
  - exists (setF (winit W2Dtmem 1 0 wnew) "HX" [NaN]). split; [apply G; reflexivity|]. split; [vm_compute; reflexivity|rewrite wf_setF; left; reflexivity].
  - exists (setF (winit W2Dacoustic 3 0 wnew) "VX" [NaN; Num 0; Num 0]). split; [apply G; reflexivity|]. split; [vm_compute; reflexivity|rewrite wf_setF; left; reflexivity].
  - exists (setF (winit W2Dsh 1 0 wnew) "Sxz" [NaN]). split; [apply G; reflexivity|]. split; [vm_compute; reflexivity|rewrite wf_setF; left; reflexivity].
Qed.

(** ** C122 *)
(** Number of vectors that an initialised object holds. *)
Definition vectors (k : wkind) (w : wave) : Z := Z.of_nat (length (members k)) + zsum (map (fun f => Z.of_nat (length (wr w f))) (memory k)).
Lemma vectors_count k n L w : shaped k n L w -> vectors k w = Z.of_nat (length (members k)) + L * Z.of_nat (length (memory k)).
Proof.
  intros (_&S&_). unfold vectors. f_equal. assert (G : forall l, (forall f, In f l -> Z.of_nat (length (wr w f)) = L) -> zsum (map (fun f => Z.of_nat (length (wr w f))) l) = L * Z.of_nat (length l)).
  { induction l as [|f l IH]; intros H; cbn [map zsum fold_right length]; [lia|]. unfold zsum in IH. rewrite IH by (intros g I; apply H; now right). rewrite (H f) by now left. lia. }
  apply G. intros f I. now apply S.
Qed.
(** The estimate is the size of the vectors in MB, except in the two classes with directional parts. *)
Theorem C122_estimate k n b L w : 0 <= L -> directional k = [] ->
  westimate k (Z.of_nat n) b L = (IZR (Z.of_nat n * b) / 1048576 * IZR (vectors k (winit k n L w)))%R.
Proof.
  intros PL D. destruct (C116_init k n L w PL) as (S&_). rewrite (vectors_count k n L _ S). unfold westimate.
  replace (IZR (Z.of_nat n * b) / 1024 / 1024)%R with (IZR (Z.of_nat n * b) / 1048576)%R by field. f_equal. f_equal.
  destruct k; try discriminate; unfold members; cbn [cls w2Dacoustic w2Delastic w2Dsh w2Dviscoelastic w2Dviscosh w3Dacoustic w3Delastic w3Dviscoelastic w2Demem w2Dtmem w2Dviscoemem w2Dviscotmem w3Demem w3Dviscoemem dEstimate propagated directional memory app length]; lia.
Qed.
Theorem C122_directional k n b L w : 0 <= L -> directional k <> [] ->
  vectors k (winit k n L w) = (match k with W2Dacoustic => 15 | _ => 7 end) /\ westimate k (Z.of_nat n) b L = (IZR (Z.of_nat n * b) / 1048576 * 3)%R.
Proof.
  intros PL D. destruct (C116_init k n L w PL) as (S&_). rewrite (vectors_count k n L _ S). unfold westimate.
  replace (IZR (Z.of_nat n * b) / 1024 / 1024)%R with (IZR (Z.of_nat n * b) / 1048576)%R by field.
  destruct k; try (contradiction D; reflexivity); unfold members; cbn [cls w2Dacoustic w2Dtmem dEstimate propagated directional memory app length]; (split; [lia|reflexivity]).
Qed.
Theorem C122_refuted : exists k n b L w, 0 <= L /\ (westimate k (Z.of_nat n) b L < IZR (Z.of_nat n * b) / 1048576 * IZR (vectors k (winit k n L w)))%R.
Proof.
  exists W2Dacoustic, 1%nat, 4, 0, wnew. split; [lia|]. destruct (C122_directional W2Dacoustic 1 4 0 wnew) as (A&B); [lia|discriminate|]. rewrite A, B. change (Z.of_nat 1 * 4) with 4. lra.
Qed.

(** ** C123 *)
(** The compensation is exp(sigma / epsilon * t * DT). *)
Theorem C123_value p dt t n : length (sigma p) = n -> length (eps p) = n ->
  exists c, getCompensation false p dt t = Ok c /\ length c = n /\
    forall i s e, at_ (sigma p) i s -> at_ (eps p) i e -> e <> 0%R -> at_ c i (exp (s / e * (IZR t * dt))).
Proof.
  intros L1 L2. unfold getCompensation. destruct (zip_exists fquot (sigma p) (eps p) n L1 L2) as (c&E&Lc). rewrite E. cbn [bind]. eexists. split; [reflexivity|].
  split; [unfold timesBy; rewrite !map_length; exact Lc|]. intros i s e Hs He Ne. apply zipR_at in E as (_&_&N). unfold at_ in *. unfold timesBy. rewrite !map_at, N, Hs, He. cbn. unfold fdiv.
  destruct (Req_EM_T e 0); [contradiction|]. reflexivity.
Qed.
Theorem C123_seismic p dt t : getCompensation true p dt t = Throw. Proof. reflexivity. Qed.
(** Multiplying once per step gives, after [t] steps, the compensation for [t] steps. *)
Theorem C123_steps p dt n c t w : length (sigma p) = n -> length (eps p) = n -> getCompensation false p dt 1 = Ok c ->
  forall ct, getCompensation false p dt (Z.of_nat t) = Ok ct ->
  forall i s e x, at_ (sigma p) i s -> at_ (eps p) i e -> e <> 0%R -> at_ w i x -> length w = n ->
  exists v, Nat.iter t (fun v => v <- v ;; zipR fmul v c) (Ok w) = Ok v /\ exists a, at_ ct i a /\ at_ v i (x * a).
Proof.
  intros L1 L2 E1 ct Et i s e x Hs He Ne Hx Lw. destruct (C123_value p dt 1 n L1 L2) as (c'&E1'&Lc&V1). rewrite E1 in E1'. injection E1' as <-.
  destruct (C123_value p dt (Z.of_nat t) n L1 L2) as (ct'&Et'&_&Vt). rewrite Et in Et'. injection Et' as <-. specialize (V1 i s e Hs He Ne). specialize (Vt i s e Hs He Ne).
  assert (G : forall m, exists v, Nat.iter m (fun v => v <- v ;; zipR fmul v c) (Ok w) = Ok v /\ length v = n /\ at_ v i (x * exp (s / e * (IZR (Z.of_nat m) * dt)))).
  { induction m as [|m (v&Ev&Lv&Av)].
    - exists w. split; [reflexivity|]. split; [exact Lw|]. cbn [Z.of_nat]. replace (s / e * (0 * dt))%R with 0%R by (field; exact Ne). rewrite exp_0. replace (x * 1)%R with x by ring. exact Hx.
    - cbn [Nat.iter nat_rect]. change (nat_rect _ _ _ m) with (Nat.iter m (fun v => v <- v ;; zipR fmul v c) (Ok w)). rewrite Ev. cbn [bind]. destruct (zip_exists fmul v c n Lv Lc) as (u&Eu&Lu). exists u. split; [exact Eu|]. split; [exact Lu|].
      pose proof (zip_num fmul Rmult v c u i _ _ (fun _ _ => eq_refl) Eu Av V1) as Q. replace (x * exp (s / e * (IZR (Z.of_nat (S m)) * dt)))%R with (x * exp (s / e * (IZR (Z.of_nat m) * dt)) * exp (s / e * (1 * dt)))%R; [exact Q|].
      rewrite Rmult_assoc, <- exp_plus. f_equal. f_equal. rewrite Nat2Z.inj_succ, succ_IZR. field. exact Ne. }
  destruct (G t) as (v&Ev&_&Av). exists v. split; [exact Ev|]. eexists. split; [exact Vt|exact Av].
Qed.
(** It undoes the damping exp(- sigma / epsilon * t * DT); with losses it never decreases a value. *)
Theorem C123_grows p dt t c i s e : getCompensation false p dt t = Ok c -> length (sigma p) = length (eps p) -> at_ (sigma p) i s -> at_ (eps p) i e -> (0 <= s)%R -> (0 < e)%R -> (0 <= IZR t * dt)%R ->
  exists a, at_ c i a /\ (1 <= a)%R /\ (a * exp (- (s / e * (IZR t * dt))) = 1)%R.
Proof.
  intros Ec L Hs He Ps Pe Pt. destruct (C123_value p dt t (length (sigma p)) eq_refl (eq_sym L)) as (c'&E'&_&V). rewrite Ec in E'. injection E' as <-.
  eexists. split; [apply (V i s e Hs He); lra|]. split.
  - rewrite <- exp_0. assert (H : (0 <= s / e * (IZR t * dt))%R). { apply Rmult_le_pos; [|exact Pt]. apply Rmult_le_pos; [exact Ps|]. left. now apply Rinv_0_lt_compat. }
    destruct H as [H|<-]; [left; now apply exp_increasing|right; reflexivity].
  - rewrite <- exp_plus, Rplus_opp_r, exp_0. reflexivity.
Qed.

(** ** C124 *)
Lemma unit_row c v : 0 <= c < Z.of_nat (length v) -> frowdot [(c, 1%R)] v = nth (Z.to_nat c) v (Num 0).
Proof.
  intros H. unfold frowdot. cbn [fold_right fst snd]. destruct (nth (Z.to_nat c) v (Num 0)); cbn; try reflexivity; [f_equal; ring| |]; unfold fscale; destruct (Req_EM_T 1 0); try lra; destruct (Rlt_dec 0 1); try lra; reflexivity.
Qed.
Lemma nth_error_eq {A} (a b : list A) : length a = length b -> (forall i, (i < length a)%nat -> nth_error a i = nth_error b i) -> a = b.
Proof.
  revert b. induction a as [|x a IH]; intros [|y b] L H; try discriminate; [reflexivity|]. injection L as L. f_equal; [specialize (H 0%nat); cbn in H; assert (Some x = Some y) by (apply H; lia); congruence|].
  apply IH; [exact L|]. intros i Hi. apply (H (S i)). cbn. lia.
Qed.
Lemma zseq_nth s n i : (i < n)%nat -> nth_error (zseq s n) i = Some (s + Z.of_nat i).
Proof. revert s i. induction n as [|n IH]; intros s i Hi; [lia|]. destruct i as [|i]; cbn [zseq nth_error]; [f_equal; lia|]. rewrite IH by lia. f_equal. lia. Qed.
Lemma zseq_len s n : length (zseq s n) = n. Proof. revert s. induction n as [|n IH]; intros s; cbn; [reflexivity|]. now rewrite IH. Qed.
(** Matrices with exactly one 1 per row. *)
Definition selects (m : matrix) (n : Z) (col : Z -> Z) : Prop := m = mkMat n (map (fun i => [(col i, 1%R)]) (zseq 0 (Z.to_nat n))).
Lemma selects_mul m n col v : selects m n col -> 0 <= n -> Z.of_nat (length v) = n -> (forall i, 0 <= i < n -> 0 <= col i < n) ->
  exists r, fmatvec m v = Ok r /\ Z.of_nat (length r) = n /\ forall i, 0 <= i < n -> nth_error r (Z.to_nat i) = nth_error v (Z.to_nat (col i)).
Proof.
  intros -> Hn Lv B. unfold fmatvec. cbn [mcols mrows]. rewrite Lv, Z.eqb_refl. eexists. split; [reflexivity|]. rewrite !map_length, zseq_len. split; [lia|]. intros i Hi.
  rewrite map_map, map_at, zseq_nth by lia. cbn [option_map]. rewrite Z2Nat.id, Z.add_0_l by lia. specialize (B i Hi). rewrite unit_row by lia. symmetry. apply nth_error_nth'. lia.
Qed.
Lemma filter_one (p : Z -> bool) a : forall s n, s <= a < s + Z.of_nat n -> (forall i, s <= i < s + Z.of_nat n -> (p i = true <-> i = a)) -> filter p (zseq s n) = [a].
Proof.
  intros s n. revert s. induction n as [|n IH]; intros s H P; [lia|]. cbn [zseq filter]. destruct (p s) eqn:E.
  - apply P in E; [|lia]. subst s. f_equal. assert (G : forall m t, a < t -> (forall i, t <= i < t + Z.of_nat m -> (p i = true <-> i = a)) -> filter p (zseq t m) = []).
    { induction m as [|m IHm]; intros t Ht Q; [reflexivity|]. cbn [zseq filter]. destruct (p t) eqn:Et; [apply Q in Et; lia|]. apply IHm; [lia|]. intros i Hi. apply Q. lia. }
    apply G; [lia|]. intros i Hi. apply P. lia.
  - assert (s <> a) by (intros ->; assert (p a = true) by (apply P; lia); congruence). apply IH; [lia|]. intros i Hi. apply P. lia.
Qed.
Lemma transpose_selects m n col inv : selects m n col -> 0 <= n -> (forall i, 0 <= i < n -> 0 <= col i < n /\ inv (col i) = i) -> (forall c, 0 <= c < n -> 0 <= inv c < n /\ col (inv c) = c) ->
  selects (transpose m n) n inv.
Proof.
  intros -> Hn A B. unfold selects, transpose. cbn [mrows mcols]. f_equal. apply map_ext_in. intros c Ic. apply zseq_in in Ic. assert (Hc : 0 <= c < n) by lia. rewrite map_length, zseq_len.
  assert (G : forall l, flat_map (fun ir : Z * row => map (fun e => (fst ir, snd e)) (filter (fun e => fst e =? c) (snd ir))) (combine l (map (fun i => [(col i, 1%R)]) l)) = map (fun i => (i, 1%R)) (filter (fun i => col i =? c) l)).
  { induction l as [|i l IH]; [reflexivity|]. cbn [map combine flat_map fst snd filter]. rewrite IH. destruct (col i =? c); reflexivity. }
  rewrite G. rewrite (filter_one _ (inv c)); [reflexivity|destruct (B c Hc); lia|]. intros i Hi. destruct (A i) as (A1&A2); [lia|]. destruct (B c Hc) as (B1&B2). split.
  - intros E. apply Z.eqb_eq in E. subst c. auto.
  - intros ->. apply Z.eqb_eq. exact B2.
Qed.
Definition colXZY (nx ny nz i : Z) : Z := let y := i / (nx * nz) in let r := i mod (nx * nz) in let z := r / nx in let x := r mod nx in y + x * ny + z * nx * ny.
Definition invXZY (nx ny nz c : Z) : Z := let z := c / (nx * ny) in let r := c mod (nx * ny) in let x := r / ny in let y := r mod ny in x + z * nx + y * nx * nz.
Lemma digits3 a b c na nb nc : 0 <= a < na -> 0 <= b < nb -> 0 <= c < nc ->
  let i := a + b * na + c * na * nb in 0 <= i < na * nb * nc /\ i / (na * nb) = c /\ (i mod (na * nb)) / na = b /\ (i mod (na * nb)) mod na = a.
Proof.
  intros Ha Hb Hc i. assert (Hab : 0 <= a + b * na < na * nb) by nia. assert (Ei : i = (a + b * na) + c * (na * nb)) by (unfold i; ring).
  assert (Q : i / (na * nb) = c). { rewrite Ei, Z.div_add by lia. rewrite Z.div_small by exact Hab. lia. }
  assert (R : i mod (na * nb) = a + b * na). { rewrite Ei, Z.mod_add by lia. apply Z.mod_small. exact Hab. }
  split; [rewrite Ei; nia|]. split; [exact Q|]. rewrite R. split; [rewrite Z.div_add, Z.div_small by lia; lia|rewrite Z.mod_add, Z.mod_small by lia; lia].
Qed.
Lemma split3 i na nb nc : 0 < na -> 0 < nb -> 0 <= i < na * nb * nc -> exists a b c, 0 <= a < na /\ 0 <= b < nb /\ 0 <= c < nc /\ i = a + b * na + c * na * nb.
Proof.
  intros Ha Hb Hi. exists ((i mod (na * nb)) mod na), ((i mod (na * nb)) / na), (i / (na * nb)). assert (P : 0 < na * nb) by nia.
  pose proof (Z.mod_pos_bound i (na * nb) P). split; [apply Z.mod_pos_bound; lia|]. split; [split; [apply Z.div_pos; lia|apply Z.div_lt_upper_bound; lia]|].
  split; [split; [apply Z.div_pos; lia|apply Z.div_lt_upper_bound; lia]|]. pose proof (Z.div_mod i (na * nb)). pose proof (Z.div_mod (i mod (na * nb)) na). nia.
Qed.
Lemma xzy_selects nx ny nz g : mk_regular nx ny nz = Ok g -> exists m, transformXZY g = Ok m /\ selects m (nx * ny * nz) (colXZY nx ny nz).
Proof.
  intros H. destruct (mk_regular_wf _ _ _ _ H) as (_&E1&E2&E3&E4&_). pose proof (mk_regular_inv _ _ _ _ H) as (Px&Py&Pz). destruct (regular_bijection _ _ _ _ H) as (B1&_).
  unfold transformXZY, fill. rewrite E1, E2, E4.
  assert (M : forall l, (forall i, In i l -> 0 <= i < nx * ny * nz) -> mapres (fun i => r <- (c <- index2coordinate g i;; Ok [(cy c + cx c * ny + cz c * nx * ny, 1%R)]);; Ok (assemble r)) l = Ok (map (fun i => [(colXZY nx ny nz i, 1%R)]) l)).
  { induction l as [|i l IH]; intros Hl; [reflexivity|]. cbn [mapres map]. destruct (B1 i) as ([x y z]&Ec&Hc&Ei); [apply Hl; now left|]. cbn [cx cy cz] in *. rewrite Ec. cbn [bind cx cy cz].
    rewrite (regular_formula nx ny nz g x y z H) in Ei by lia. injection Ei as <-. destruct (digits3 x z y nx nz ny) as (_&D1&D2&D3); [lia|lia|lia|].
    rewrite IH by (intros j Ij; apply Hl; now right). cbn [bind]. unfold assemble. cbn [fold_left put]. unfold colXZY. rewrite D1, D2, D3. reflexivity. }
  rewrite M. { cbn [bind]. eexists. split; reflexivity. } intros i I. apply zseq_in in I. nia.
Qed.
Lemma xzy_inverse nx ny nz : 0 < nx -> 0 < ny -> 0 < nz ->
  (forall i, 0 <= i < nx * ny * nz -> 0 <= colXZY nx ny nz i < nx * ny * nz /\ invXZY nx ny nz (colXZY nx ny nz i) = i) /\
  (forall c, 0 <= c < nx * ny * nz -> 0 <= invXZY nx ny nz c < nx * ny * nz /\ colXZY nx ny nz (invXZY nx ny nz c) = c).
Proof.
  intros Px Py Pz. split.
  - intros i Hi. destruct (split3 i nx nz ny) as (x&z&y&Hx&Hz&Hy&->); [lia|lia|nia|]. destruct (digits3 x z y nx nz ny Hx Hz Hy) as (_&D1&D2&D3). unfold colXZY. rewrite D1, D2, D3.
    destruct (digits3 y x z ny nx nz Hy Hx Hz) as (R&F1&F2&F3). replace (y + x * ny + z * nx * ny) with (y + x * ny + z * ny * nx) by ring. split; [nia|]. unfold invXZY. rewrite (Z.mul_comm nx ny), F1, F2, F3. reflexivity.
  - intros c Hc. destruct (split3 c ny nx nz) as (y&x&z&Hy&Hx&Hz&->); [lia|lia|nia|]. destruct (digits3 y x z ny nx nz Hy Hx Hz) as (_&F1&F2&F3). unfold invXZY. rewrite (Z.mul_comm nx ny), F1, F2, F3.
    destruct (digits3 x z y nx nz ny Hx Hz Hy) as (R&D1&D2&D3). split; [nia|]. unfold colXZY. rewrite D1, D2, D3. ring.
Qed.
(** The matrix reads a vector ordered with y fastest, then x, then z, and returns it in the order of the grid points. *)
Theorem C124_reorder nx ny nz g : mk_regular nx ny nz = Ok g ->
  exists m, transformXZY g = Ok m /\ forall v, Z.of_nat (length v) = nx * ny * nz ->
    exists r, fmatvec m v = Ok r /\ length r = length v /\
      forall x y z i, 0 <= x < nx -> 0 <= y < ny -> 0 <= z < nz -> coordinate2index g (mkC x y z) = Ok i -> nth_error r (Z.to_nat i) = nth_error v (Z.to_nat (y + x * ny + z * nx * ny)).
Proof.
  intros H. pose proof (mk_regular_inv _ _ _ _ H) as (Px&Py&Pz). destruct (xzy_selects _ _ _ _ H) as (m&Em&Sm). exists m. split; [exact Em|]. intros v Lv. destruct (xzy_inverse nx ny nz Px Py Pz) as (A&_).
  destruct (selects_mul m _ _ v Sm ltac:(nia) Lv (fun i Hi => proj1 (A i Hi))) as (r&Er&Lr&N). exists r. split; [exact Er|]. split; [lia|]. intros x y z i Hx Hy Hz Ei.
  rewrite (regular_formula nx ny nz g x y z H) in Ei by lia. injection Ei as <-. destruct (digits3 x z y nx nz ny Hx Hz Hy) as (R&D1&D2&D3). rewrite N by nia. unfold colXZY. rewrite D1, D2, D3. reflexivity.
Qed.
(** Its transpose undoes the reordering, in both orders. *)
Theorem C124_inverse nx ny nz g : mk_regular nx ny nz = Ok g ->
  exists m, transformXZY g = Ok m /\ forall v, Z.of_nat (length v) = nx * ny * nz ->
    (exists r, fmatvec m v = Ok r /\ fmatvec (transpose m (nx * ny * nz)) r = Ok v) /\ (exists r, fmatvec (transpose m (nx * ny * nz)) v = Ok r /\ fmatvec m r = Ok v).
Proof.
  intros H. pose proof (mk_regular_inv _ _ _ _ H) as (Px&Py&Pz). destruct (xzy_selects _ _ _ _ H) as (m&Em&Sm). exists m. split; [exact Em|]. intros v Lv. destruct (xzy_inverse nx ny nz Px Py Pz) as (A&B).
  assert (Pn : 0 <= nx * ny * nz) by nia. pose proof (transpose_selects m _ _ _ Sm Pn A B) as St. split.
  - destruct (selects_mul m _ _ v Sm Pn Lv (fun i Hi => proj1 (A i Hi))) as (r&Er&Lr&N). exists r. split; [exact Er|]. destruct (selects_mul _ _ _ r St Pn Lr (fun i Hi => proj1 (B i Hi))) as (q&Eq&Lq&M).
    rewrite Eq. f_equal. apply nth_error_eq; [lia|]. intros i Hi. rewrite <- (Nat2Z.id i). rewrite M by lia. destruct (B (Z.of_nat i)) as (B1&B2); [lia|]. rewrite N by exact B1. rewrite B2. reflexivity.
  - destruct (selects_mul _ _ _ v St Pn Lv (fun i Hi => proj1 (B i Hi))) as (r&Er&Lr&N). exists r. split; [exact Er|]. destruct (selects_mul m _ _ r Sm Pn Lr (fun i Hi => proj1 (A i Hi))) as (q&Eq&Lq&M).
    rewrite Eq. f_equal. apply nth_error_eq; [lia|]. intros i Hi. rewrite <- (Nat2Z.id i). rewrite M by lia. destruct (A (Z.of_nat i)) as (A1&A2); [lia|]. rewrite N by exact A1. rewrite A2. reflexivity.
Qed.
Example C124_example : exists g m r, mk_regular 2 2 1 = Ok g /\ transformXZY g = Ok m /\ fmatvec m [Num 10; Num 11; Num 12; Num 13] = Ok r /\ nth_error r 1 = Some (Num 12).
Proof.
  assert (G : exists g, mk_regular 2 2 1 = Ok g) by (rewrite mk_regular_ok by lia; eauto). destruct G as (g&H). destruct (C124_reorder 2 2 1 g H) as (m&Em&V). destruct (V [Num 10; Num 11; Num 12; Num 13] eq_refl) as (r&Er&_&N).
  exists g, m, r. split; [exact H|]. split; [exact Em|]. split; [exact Er|]. specialize (N 1 0 0 1). change (Z.to_nat 1) with 1%nat in N. rewrite N by (lia || (rewrite (regular_formula 2 2 1 g 1 0 0 H) by lia; reflexivity)). reflexivity.
Qed.

Print Assumptions C119_parts.
Print Assumptions C119_sum.
Print Assumptions C119_flat.
Print Assumptions C119_none.
Print Assumptions C119_refuted.
Print Assumptions C121_seismic.
Print Assumptions C121_em.
Print Assumptions C121_refuted.
Print Assumptions C122_estimate.
Print Assumptions C122_directional.
Print Assumptions C122_refuted.
Print Assumptions C123_value.
Print Assumptions C123_seismic.
Print Assumptions C123_steps.
Print Assumptions C123_grows.
Print Assumptions C124_reorder.
Print Assumptions C124_inverse.

(** C177: the frequencies of a source encoding in the frequency domain and the list of the supershots. *)
From Coq Require Import Reals Lra Sorted.
From Verif Require Import Base M_Grid M_Common M_Acq M_Freq S_Acq S_Freq L_AcqFile L_Acq L_Acq2 L_Freq L_Freq2.
Open Scope Z_scope.

(** The upper corner frequency: fc2, or twice the CPML centre frequency when fc2 is zero. *)
Definition upper (fc2 cpml : R) : R := if Req_EM_T fc2 0 then (cpml * 2)%R else fc2.

(** With an encoding the selectable frequencies are, each once, the even multiples of df between fc1 and fc2. *)
Theorem C177_frequencies : forall df fc1 fc2 cpml l, (0 < df)%R -> (0 <= fc1)%R ->
  frequencies true df fc1 fc2 cpml = Ok l ->
  NoDup l /\ forall f, In f l <-> grid_freq df fc1 (upper fc2 cpml) f.
Proof. exact grid_lem. Qed.
Print Assumptions C177_frequencies.
(** Without one: all multiples from half of fc1 to twice fc2. *)
Theorem C177_frequencies_plain : forall df fc1 fc2 cpml l, (0 < df)%R -> (0 <= fc1)%R ->
  frequencies false df fc1 fc2 cpml = Ok l ->
  NoDup l /\ forall f, In f l <-> wide_freq df fc1 (upper fc2 cpml) f.
Proof. exact wide_lem. Qed.
Print Assumptions C177_frequencies_plain.

(** Steady state: half of the nFFT samples hold a whole number of periods of every selectable frequency. *)
Theorem C177_steady : forall T DT fc1 fc2 cpml l f, (0 < DT)%R -> (0 <= fc1)%R ->
  let nFFT := calcNextPowTwo (truncR (T / DT + / 2) - 1) in 0 < nFFT ->
  frequencies true (freq_step T DT) fc1 fc2 cpml = Ok l -> In f l ->
  exists periods : Z, 1 <= periods /\ (f * (IZR nFFT / 2 * DT) = IZR periods)%R.
Proof.
  intros T DT fc1 fc2 cpml l f Hd H1 nFFT Hn H Hf.
  assert (Hn' : (0 < IZR nFFT)%R) by (apply (IZR_lt 0); exact Hn).
  assert (Hs : (0 < freq_step T DT)%R).
  { unfold freq_step. fold nFFT. apply Rdiv_lt_0_compat; [lra|]. apply Rmult_lt_0_compat; assumption. }
  apply (grid_lem _ _ _ _ _ Hs H1 H) in Hf. destruct Hf as (k & -> & K0 & K1 & _).
  apply Z.even_spec in K1. destruct K1 as [j ->]. exists j. split; [lia|].
  rewrite mult_IZR. unfold freq_step. fold nFFT. field. split; lra.
Qed.
Print Assumptions C177_steady.

(** Every source becomes a sine with one of the selectable frequencies and two sources of one supershot never share
    a frequency; nothing else about a source changes.  There must be as many supershots as shot domains. *)
Theorem C177_select : forall F rnd fuel (zero : F) fc12 l dom p l' fcs,
  (forall q, 0 <= rnd q) -> NoDup fc12 -> 1 <= dom ->
  selectFreq rnd fuel zero fc12 l dom p = Ok (l', fcs) ->
  exists nos, calcuniqueShotNo l = Ok nos /\ dom <= Z.of_nat (List.length nos) /\
  Forall2 same_but_signal l l' /\
  (forall i s', nth_error l' i = Some s' -> In (Z.abs (sourceNo s')) (firstn (Z.to_nat dom) nos) ->
     sine s' /\ In (fc s') fc12) /\
  (forall i s', nth_error l' i = Some s' -> ~ In (Z.abs (sourceNo s')) (firstn (Z.to_nat dom) nos) ->
     nth_error l i = Some s') /\
  (forall i j s t, i <> j -> nth_error l' i = Some s -> nth_error l' j = Some t ->
     Z.abs (sourceNo s) = Z.abs (sourceNo t) -> In (Z.abs (sourceNo s)) (firstn (Z.to_nat dom) nos) -> fc s <> fc t).
Proof.
  intros F rnd fuel zero fc12 l dom p l' fcs Hr ND Hd H. unfold selectFreq in H.
  replace (dom =? 0) with false in H by lia.
  destruct (Z.ltb_spec (Z.of_nat (List.length fc12)) (cceil (Z.of_nat (List.length l)) dom)) as [|Hc]; [discriminate|].
  apply bind_ok in H. destruct H as (nos & En & H). exists nos. split; [exact En|].
  assert (Hl : l <> []) by (destruct l; discriminate).
  destruct (unique_lem l Hl) as (nos' & En' & NN & _). rewrite En in En'. inversion En'; subst nos'.
  assert (Hn : (1 <= List.length fc12)%nat).
  { pose proof (cceil_spec (Z.of_nat (List.length l)) dom Hd) as [A1 A2].
    assert (L1 : 1 <= Z.of_nat (List.length l)) by (destruct l; [contradiction|cbn [List.length]; lia]).
    revert A1 A2 Hc. generalize (cceil (Z.of_nat (List.length l)) dom). intros c A1 A2 Hc.
    assert (1 <= c) by nia. lia. }
  destruct (pick_all_lem rnd Hr fuel fc12 nos ND NN Hn _ _ _ _ _ _ _ (Z.le_refl 0) H) as ((Q1 & Q2 & Q3 & Q4) & Q5).
  assert (In1 : forall no, In no (firstn (Z.to_nat dom) nos) ->
            exists j, (Z.to_nat 0 <= j < Z.to_nat 0 + Z.to_nat dom)%nat /\ nth_error nos j = Some no).
  { intros no Hin. apply In_nth_error in Hin. destruct Hin as [j Hj]. exists j.
    assert (Lj : (j < List.length (firstn (Z.to_nat dom) nos))%nat) by (apply nth_error_Some; congruence).
    rewrite firstn_length in Lj. split; [lia|]. rewrite <- (firstn_skipn (Z.to_nat dom) nos), nth_error_app1; [exact Hj|].
    rewrite firstn_length. lia. }
  assert (In2 : forall no, (exists j, (Z.to_nat 0 <= j < Z.to_nat 0 + Z.to_nat dom)%nat /\ nth_error nos j = Some no) ->
            In no (firstn (Z.to_nat dom) nos)).
  { intros no (j & Hj & Ej). assert (Lj : (j < List.length nos)%nat) by (apply nth_error_Some; congruence).
    apply (nth_error_In _ j). rewrite <- (firstn_skipn (Z.to_nat dom) nos), nth_error_app1 in Ej; [exact Ej|].
    rewrite firstn_length. lia. }
  split; [lia|]. split; [exact Q1|]. split; [|split].
  - intros i s' Hs' Hin. destruct (f2_nth _ _ _ _ Q1 Hs') as (s & Hs & (No & _)).
    apply (Q3 i s s' Hs Hs'). apply In1. rewrite <- No. exact Hin.
  - intros i s' Hs' Hin. destruct (f2_nth _ _ _ _ Q1 Hs') as (s & Hs & (No & _)). rewrite Hs. f_equal. symmetry.
    apply (Q2 i s s' Hs Hs'). intros K. apply Hin. rewrite No. apply In2. exact K.
  - intros i j s t Hij Hs Ht E Hin. apply (Q4 i j s t Hij Hs Ht E). apply In1. exact Hin.
Qed.
Print Assumptions C177_select.

(** The k-th entry of sourceFC begins with the frequencies of the sources of the k-th supershot; the entries that are
    left over are those of the supershot before it (zero for the first one). *)
Theorem C177_recorded : forall F rnd fuel (zero : F) fc12 l dom p l' fcs nos cap k no,
  (forall q, 0 <= rnd q) -> NoDup fc12 -> 1 <= dom -> capacity (Z.of_nat (List.length l)) dom cap ->
  selectFreq rnd fuel zero fc12 l dom p = Ok (l', fcs) -> calcuniqueShotNo l = Ok nos ->
  (k < Z.to_nat dom)%nat -> nth_error nos k = Some no ->
  let mine := map fc (filter (fun s => Z.abs (sourceNo s) =? no) l') in
  let before := match k with O => repeat zero (Z.to_nat cap) | S k' => nth k' fcs [] end in
  nth_error fcs k = Some (mine ++ skipn (List.length mine) before) /\
  Z.of_nat (List.length mine) <= cap /\ Z.of_nat (List.length fcs) = dom.
Proof.
  intros F rnd fuel zero fc12 l dom p l' fcs nos cap k no Hr ND Hd Hcap H En Hk Hno mine before.
  unfold selectFreq in H. replace (dom =? 0) with false in H by lia.
  assert (Hl : l <> []) by (destruct l; discriminate).
  assert (Ec : cceil (Z.of_nat (List.length l)) dom = cap).
  { pose proof (cceil_spec (Z.of_nat (List.length l)) dom Hd) as [A1 A2]. destruct Hcap as [B1 B2].
    revert A1 A2 B1 B2. generalize (cceil (Z.of_nat (List.length l)) dom) (Z.of_nat (List.length l)). intros c n. nia. }
  rewrite Ec in H. destruct (Z.ltb_spec (Z.of_nat (List.length fc12)) cap) as [|Hc]; [discriminate|].
  rewrite En in H. cbn [bind] in H.
  destruct (unique_lem l Hl) as (nos' & En' & NN & _). rewrite En in En'. inversion En'; subst nos'.
  assert (C1 : 1 <= cap). { destruct Hcap as [B1 B2]. destruct l; [contradiction|]. cbn [List.length] in B1. nia. }
  assert (Hn : (1 <= List.length fc12)%nat) by lia.
  destruct (pick_all_rec rnd Hr fuel fc12 nos ND NN Hn _ _ _ _ _ _ _ (Z.le_refl 0) H) as [I1 I2].
  destruct (I2 k no Hk Hno) as (v & V1 & V2 & V3). unfold of_shot in *. fold mine in V1, V2.
  rewrite repeat_length in V2. rewrite app_length in V2.
  split; [|split; lia]. rewrite V1, V3. do 2 f_equal. unfold mine, before. rewrite map_length. f_equal.
  destruct k as [|k']; [reflexivity|]. apply nth_indep. lia.
Qed.
Print Assumptions C177_recorded.

(** With a fair random generator, no supershot above the capacity and enough supershots, the selection ends. *)
Theorem C177_terminates : forall F rnd (zero : F) fc12 l dom cap nos p,
  (forall q, 0 <= rnd q) -> NoDup fc12 -> 1 <= dom -> capacity (Z.of_nat (List.length l)) dom cap ->
  calcuniqueShotNo l = Ok nos -> dom <= Z.of_nat (List.length nos) ->
  (forall no, Z.of_nat (members l no) <= cap) -> cap <= Z.of_nat (List.length fc12) ->
  fair rnd (Z.of_nat (List.length fc12)) ->
  exists fuel out, selectFreq rnd fuel zero fc12 l dom p = Ok out.
Proof.
  intros F rnd zero fc12 l dom cap nos p Hr ND Hd Hcap En Hdn Hm Hc Hf.
  assert (Hl : l <> []) by (destruct l; discriminate).
  assert (Ec : cceil (Z.of_nat (List.length l)) dom = cap).
  { pose proof (cceil_spec (Z.of_nat (List.length l)) dom Hd) as [A1 A2]. destruct Hcap as [B1 B2].
    revert A1 A2 B1 B2. generalize (cceil (Z.of_nat (List.length l)) dom) (Z.of_nat (List.length l)). intros c n. nia. }
  assert (C1 : 1 <= cap). { destruct Hcap as [B1 B2]. destruct l; [contradiction|]. cbn [List.length] in B1. nia. }
  destruct (pick_all_term rnd Hr fc12 zero nos ND ltac:(lia) Hf (Z.to_nat dom) 0 l p (repeat zero (Z.to_nat cap)))
    as (fuel & out & H).
  { lia. } { lia. } { intros no. rewrite repeat_length. specialize (Hm no). lia. } { rewrite repeat_length. lia. }
  exists fuel, out. unfold selectFreq. replace (dom =? 0) with false by lia. rewrite Ec.
  replace (Z.of_nat (List.length fc12) <? cap) with false by lia. rewrite En. exact H.
Qed.
Print Assumptions C177_terminates.

(** Too few frequencies are refused. *)
Theorem C177_too_few : forall F rnd fuel (zero : F) fc12 l dom cap p, 1 <= dom ->
  capacity (Z.of_nat (List.length l)) dom cap -> Z.of_nat (List.length fc12) < cap ->
  selectFreq rnd fuel zero fc12 l dom p = Throw.
Proof.
  intros F rnd fuel zero fc12 l dom cap p Hd Hcap Hc. unfold selectFreq. replace (dom =? 0) with false by lia.
  assert (Ec : cceil (Z.of_nat (List.length l)) dom = cap).
  { pose proof (cceil_spec (Z.of_nat (List.length l)) dom Hd) as [A1 A2]. destruct Hcap as [B1 B2].
    revert A1 A2 B1 B2. generalize (cceil (Z.of_nat (List.length l)) dom) (Z.of_nat (List.length l)). intros c n. nia. }
  rewrite Ec. replace (_ <? cap) with true by lia. reflexivity.
Qed.
Print Assumptions C177_too_few.

(** The file of the supershots: one line per shot domain with the number of the supershot and, in increasing order,
    the numbers of its shots.  With fewer supershots than domains the code reads past the end of a vector. *)
Theorem C177_listing : forall F (l : list (source F)) nos dom, calcuniqueShotNo l = Ok nos -> 0 <= dom ->
  (dom <= Z.of_nat (List.length nos) ->
   exists out, writeSourceEncode l (Z.of_nat (List.length l)) dom = Ok out /\
     map fst out = firstn (Z.to_nat dom) nos /\
     forall no shots, In (no, shots) out -> StronglySorted Z.lt shots /\
       forall x, In x shots <-> 1 <= x /\ exists s, nth_error l (Z.to_nat (x - 1)) = Some s /\ Z.abs (sourceNo s) = no) /\
  (Z.of_nat (List.length nos) < dom -> writeSourceEncode l (Z.of_nat (List.length l)) dom = UB) /\
  (forall numshots, numshots <> Z.of_nat (List.length l) -> writeSourceEncode l numshots dom = Throw).
Proof.
  intros F l nos dom En Hd. unfold writeSourceEncode. rewrite En. cbn [bind].
  rewrite Z.eqb_refl. cbn [negb]. split; [|split].
  - intros Hn. rewrite lines_ok by lia. eexists. split; [reflexivity|]. cbn [Z.to_nat skipn]. split.
    + rewrite map_map. cbn [fst]. apply map_id.
    + intros no shots Hin. apply in_map_iff in Hin. destruct Hin as (no' & E & _). inversion E; subst.
      split; [apply shots_of_sorted|]. intros x. rewrite shots_of_in. split.
      * intros (i & s & H1 & H2 & ->). split; [lia|]. exists s. split; [|exact H2].
        replace (Z.to_nat (0 + Z.of_nat i + 1 - 1)) with i by lia. exact H1.
      * intros (Hx & s & H1 & H2). exists (Z.to_nat (x - 1)), s. repeat split; auto. lia.
  - intros Hn. apply lines_ub; lia.
  - intros numshots Hne. replace (_ =? numshots) with false; [reflexivity|]. symmetry. apply Z.eqb_neq. congruence.
Qed.
Print Assumptions C177_listing.

(** ** Cases *)
Definition one (n : Z) : source Z := mkSrc n (mkC n 20 0) 1 3 1 5 7 0 n.

(** Five shots, four domains, useSourceEncode = 3: there are only three supershots, so both the selection of the
    frequencies and the writing of the list read past the end of uniqueShotNosEncode. *)
Theorem C177_past_the_end_refuted : exists (l : list (source Z)) dom fc12, 1 <= dom <= Z.of_nat (List.length l) /\
  NoDup fc12 /\ forall rnd fuel, exists l', encode Z.opp rnd fuel 3 l dom = Ok l' /\
    writeSourceEncode l' (Z.of_nat (List.length l')) dom = UB /\
    selectFreq (fun p => Z.of_nat p) 9 0 fc12 l' dom 0 = UB.
Proof.
  exists [one 1; one 2; one 3; one 4; one 5], 4, [10; 12; 14]. split; [cbn; lia|]. split.
  { repeat constructor; cbn; intuition lia. }
  intros rnd fuel. eexists. split; [reflexivity|]. split; vm_compute; reflexivity.
Qed.
Print Assumptions C177_past_the_end_refuted.

(** Three shots in two supershots: the record of the second supershot still holds a frequency of the first one, which
    none of its sources has. *)
Theorem C177_left_over_refuted : exists (l l' : list (source Z)) fcs u f,
  encode Z.opp (fun p => Z.of_nat p) 9 2 [one 1; one 2; one 3] 2 = Ok l /\
  selectFreq (fun p => Z.of_nat p) 9 0 [10; 12; 14] l 2 0 = Ok (l', fcs) /\
  nth_error fcs 1 = Some u /\ In f u /\ f <> 0 /\
  forall s, In s l' -> Z.abs (sourceNo s) = 20002 -> fc s <> f.
Proof.
  eexists. eexists. eexists. eexists. exists 12. split; [reflexivity|]. split; [vm_compute; reflexivity|].
  split; [reflexivity|]. split; [right; left; reflexivity|]. split; [lia|].
  intros s Hs Hn. cbn in Hs. destruct Hs as [<-|[<-|[<-|[]]]]; cbn in *; lia.
Qed.
Print Assumptions C177_left_over_refuted.

(** Six shots in two supershots with four frequencies: the hypotheses of the theorems are met and the result is
    not trivial. *)
Definition six : list (source Z) := [one 20001; one 20002; one (-20001); one 20002; one 20001; one 20002].
Example C177_ex : capacity (Z.of_nat (List.length six)) 2 3 /\ calcuniqueShotNo six = Ok [20001; 20002] /\
  (forall no, Z.of_nat (members six no) <= 3) /\ NoDup [10; 12; 14; 16] /\ fair (fun p => Z.of_nat p) 4 /\
  exists l' , selectFreq (fun p => Z.of_nat p) 9 0 [10; 12; 14; 16] six 2 0 =
    Ok (l', [[10; 12; 14]; [16; 10; 12]]) /\ map fc l' = [10; 16; 12; 10; 14; 12] /\ map waveletShape l' = [9; 9; 9; 9; 9; 9].
Proof.
  split; [unfold capacity; cbn; lia|]. split; [reflexivity|]. split.
  { intros no. unfold members, six. cbn -[Z.eqb Z.of_nat].
    destruct (Z.eqb_spec 20001 no); destruct (Z.eqb_spec 20002 no); cbn; lia. }
  split; [repeat constructor; cbn; intuition lia|]. split.
  { intros r p Hr. exists (4 * p + Z.to_nat r)%nat. split; [lia|].
    replace (Z.of_nat (4 * p + Z.to_nat r)) with (r + Z.of_nat p * 4) by lia.
    rewrite Z.rem_mod_nonneg by lia. rewrite Z.mod_add by lia. apply Z.mod_small. lia. }
  eexists. split; [vm_compute; reflexivity|]. split; reflexivity.
Qed.
Example C177_ex_listing : writeSourceEncode six 6 2 = Ok [(20001, [1; 3; 5]); (20002, [2; 4; 6])].
Proof. reflexivity. Qed.
(** Five even multiples of df = 1 between 3 and 12 (4, 6, 8, 10 and 12). *)
Example C177_ex_frequencies : exists l, frequencies true 1 3 12 0 = Ok l /\ List.length l = 5%nat /\ In 4%R l.
Proof.
  assert (C : forall k, ceilR (IZR k / 1) = k).
  { intros k. unfold Rdiv. rewrite Rinv_1, Rmult_1_r. unfold ceilR. rewrite <- opp_IZR.
    assert (E : Int_part (IZR (- k)) = - k).
    { destruct (base_Int_part (IZR (- k))) as [H1 H2]. apply le_IZR in H1.
      assert (K : (IZR (- k) < IZR (Int_part (IZR (- k)) + 1))%R) by (rewrite plus_IZR; lra).
      apply lt_IZR in K. lia. }
    rewrite E. lia. }
  unfold frequencies. destruct (Req_EM_T 12 0) as [E|_]; [exfalso; lra|]. rewrite !C.
  cbn [number_freq first_ind step_ind Z.eqb Pos.eqb Z.rem Z.quotrem]. eexists. split; [reflexivity|].
  split; [reflexivity|]. left. cbn. lra.
Qed.

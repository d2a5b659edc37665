(** Properties C28-C38: acquisition geometry, shot distribution, source encoding. *)
From Coq Require Import Ascii String QArith Qround Permutation Sorted.
From Verif Require Import Base M_Grid M_Acq S_Acq L_AcqFile L_Acq L_Acq2 L_Acq3.
Open Scope Z_scope.

(** ** C28 *)
(** [stof] is the conversion of a floating point column (None when std::stof throws).  Row numbers count
    the data lines from 0. *)
Theorem C28_sources : forall F (stof : str -> option F) content ls dl out,
  file_lines content ls -> select data_line ls dl ->
  (readAllSources F stof (Some content) = Ok out <->
   Forall2 (source_columns stof) dl out /\ map row out = zseq 0 (List.length out)).
Proof.
  intros F stof content ls dl out Hf Hs. unfold readAllSources. rewrite (getlines_spec _ _ Hf).
  exact (sources_iff stof ls dl Hs (-1) out).
Qed.
Print Assumptions C28_sources.
Theorem C28_sources_or_error : forall F (stof : str -> option F) file,
  (exists out, readAllSources F stof file = Ok out) \/ readAllSources F stof file = Throw.
Proof.
  intros F stof [content|]; [|right; reflexivity]. apply clean_sources.
Qed.
Print Assumptions C28_sources_or_error.
Theorem C28_sources_wrong_columns : forall F (stof : str -> option F) content ls l ts,
  file_lines content ls -> In l ls -> data_line l -> fields l ts -> List.length ts <> 10%nat ->
  readAllSources F stof (Some content) = Throw.
Proof.
  intros F stof content ls l ts Hf Hin Hd Ht Hn.
  destruct (C28_sources_or_error F stof (Some content)) as [[out E]|E]; [|exact E].
  destruct (select_ex ls) as [dl Hs]. apply (C28_sources F stof content ls dl out Hf Hs) in E. destruct E as [E _].
  assert (Hdl : In l dl).
  { clear - Hs Hin Hd. induction Hs as [|a l1 l2 Ha _ IH|a l1 l2 Ha _ IH]; [destruct Hin| |];
      destruct Hin as [->|Hin]; try (left; reflexivity); try (right; auto); try contradiction; auto. }
  exfalso. clear - E Hdl Ht Hn. induction E as [|a b l1 l2 Hab _ IH]; [destruct Hdl|].
  destruct Hdl as [->|Hdl]; [|auto]. destruct Hab as (t0&t1&t2&t3&t4&t5&t6&t7&t8&t9&Hf&_).
  rewrite (fields_det _ _ _ Ht Hf) in Hn. apply Hn. reflexivity.
Qed.
Print Assumptions C28_sources_wrong_columns.
(** Every content has lines and data lines, so the previous theorems speak about every file. *)
Theorem C28_every_file : forall content, exists ls dl, file_lines content ls /\ select data_line ls dl.
Proof.
  intros content. exists (getlines content). destruct (select_ex (getlines content)) as [dl Hs].
  exists dl. split; [apply getlines_file|exact Hs].
Qed.
Print Assumptions C28_every_file.
Theorem C28_receivers : forall content ls dl out, file_lines content ls -> select data_line ls dl ->
  (readAllReceivers (Some content) = Ok out <-> Forall2 receiver_columns dl out).
Proof.
  intros content ls dl out Hf Hs. unfold readAllReceivers. rewrite (getlines_spec _ _ Hf).
  exact (receivers_iff ls dl Hs out).
Qed.
Print Assumptions C28_receivers.
Theorem C28_receivers_or_error : forall file,
  (exists out, readAllReceivers file = Ok out) \/ readAllReceivers file = Throw.
Proof. intros [content|]; [apply clean_receivers|right; reflexivity]. Qed.
Print Assumptions C28_receivers_or_error.
Theorem C28_receivers_wrong_columns : forall content ls l ts,
  file_lines content ls -> In l ls -> data_line l -> fields l ts -> List.length ts <> 4%nat ->
  readAllReceivers (Some content) = Throw.
Proof.
  intros content ls l ts Hf Hin Hd Ht Hn.
  destruct (C28_receivers_or_error (Some content)) as [[out E]|E]; [|exact E].
  destruct (select_ex ls) as [dl Hs]. apply (C28_receivers content ls dl out Hf Hs) in E.
  assert (Hdl : In l dl).
  { clear - Hs Hin Hd. induction Hs as [|a l1 l2 Ha _ IH|a l1 l2 Ha _ IH]; [destruct Hin| |];
      destruct Hin as [->|Hin]; try (left; reflexivity); try (right; auto); try contradiction; auto. }
  exfalso. clear - E Hdl Ht Hn. induction E as [|a b l1 l2 Hab _ IH]; [destruct Hdl|].
  destruct Hdl as [->|Hdl]; [|auto]. destruct Hab as (t0&t1&t2&t3&Hf&_).
  rewrite (fields_det _ _ _ Ht Hf) in Hn. apply Hn. reflexivity.
Qed.
Print Assumptions C28_receivers_wrong_columns.

(** A file with a comment, a blank line and two data lines, the last one without a newline. *)
Definition text (s : string) : str := list_ascii_of_string s.
Definition file1 : str :=
  (text "# no x y z" ++ newline :: text "  " ++ newline :: text "7 1 2 3 1 2 1 5 4 0" ++ newline ::
   text "-8 10 20 30	4 1 1 6 5 1x")%list.
Example C28_example : readAllSources str (fun s => Some s) (Some file1) =
  Ok [mkSrc 7 (mkC 1 2 3) 1 2 1 (text "5") (text "4") (text "0") 0;
      mkSrc (-8) (mkC 10 20 30) 4 1 1 (text "6") (text "5") (text "1x") 1].
Proof. vm_compute. reflexivity. Qed.
Example C28_example_bad : readAllReceivers (Some (text "1 2 3 4 5")) = Throw.
Proof. vm_compute. reflexivity. Qed.
Example C28_example_bad_meets : exists ts, fields (text "1 2 3 4 5") ts /\ List.length ts = 5%nat.
Proof. exists (words (text "1 2 3 4 5")). split; [apply words_fields|reflexivity]. Qed.

(** ** C29 *)
Theorem C29_unique : forall F (l : list (source F)), l <> [] ->
  exists u, calcuniqueShotNo l = Ok u /\ first_occurrences (map shot_of l) u.
Proof. exact @unique_lem. Qed.
Print Assumptions C29_unique.
Theorem C29_partition : forall F (l : list (source F)) u, calcuniqueShotNo l = Ok u ->
  Permutation (flat_map (createSettingsForShot l) u) l /\
  forall n s, In s (createSettingsForShot l n) <-> In s l /\ shot_of s = n.
Proof.
  intros F l u E. split.
  - destruct l as [|s0 r]; [discriminate|].
    destruct (unique_lem (s0 :: r)) as (u' & E' & H1 & H2 & _); [discriminate|].
    rewrite E in E'. inversion E'; subst u'.
    apply (partition_lem shot_of (s0 :: r) u H1). intros s Hs. apply H2. apply in_map. exact Hs.
  - intros n s. unfold createSettingsForShot, shot_of. rewrite filter_In, Z.eqb_eq. reflexivity.
Qed.
Print Assumptions C29_partition.
Theorem C29_index : forall F (l : list (source F)) u d s, calcuniqueShotNo l = Ok u -> In s l ->
  exists k, getuniqueShotInd d u (shot_of s) = Z.of_nat k /\ nth_error u k = Some (shot_of s).
Proof.
  intros F l u d s E Hs. destruct l as [|s0 r]; [destruct Hs|].
  destruct (unique_lem (s0 :: r)) as (u' & E' & H1 & H2 & _); [discriminate|].
  rewrite E in E'. inversion E'; subst u'.
  destruct (find_ind_spec u 0 d (shot_of s)) as (k & K1 & K2 & _).
  { apply H2. apply in_map. exact Hs. }
  exists k. split; [unfold getuniqueShotInd; rewrite K1; lia|exact K2].
Qed.
Print Assumptions C29_index.
Definition src (n x : Z) : source Q := mkSrc n (mkC x 20 0) 1 1 1 5%Q 5%Q 0%Q 0.
Example C29_example : calcuniqueShotNo [src 4 0; src (-4) 1; src 2 2; src 4 3; src 9 4] = Ok [4; 2; 9] /\
  getuniqueShotInd 77 [4; 2; 9] 2 = 1 /\ getuniqueShotInd 77 [4; 2; 9] 3 = 77.
Proof. vm_compute. auto. Qed.
(** The precondition is needed: an empty source list is read out of range. *)
Theorem C29_empty_list : forall F, calcuniqueShotNo (F := F) [] = UB.
Proof. reflexivity. Qed.

(** ** C30 *)
Theorem C30_partial : forall F (all : list (source F)) cuts NX NY NZ BW out,
  getSettingsPerShot all cuts NX NY NZ BW = Ok out -> 0 <= BW ->
  List.length out = List.length all /\
  (forall i s c, nth_error all i = Some s -> nth_error cuts i = Some c ->
     exists s', nth_error out i = Some s' /\ moved s c s') /\
  Forall (fun s => off_frame (cx (sourceCoords s)) NX BW /\ off_frame (cy (sourceCoords s)) NY BW /\
                   (2 * BW < NZ -> inside_window (sourceCoords s) NX NY NZ /\ off_frame (cz (sourceCoords s)) NZ BW)) out.
Proof.
  intros F all cuts NX NY NZ BW out H HB.
  destruct (window_lem all cuts NX NY NZ BW out H) as ((c' & L1 & (c'' & Ec) & L2 & Hm) & Hf).
  split; [exact L2|]. split.
  - intros i s c Hs Hc. apply (Hm i s c Hs).
    assert (i < List.length c')%nat. { rewrite L1. apply nth_error_Some. congruence. }
    rewrite Ec, nth_error_app1 in Hc by assumption. exact Hc.
  - eapply Forall_impl; [|exact Hf]. cbn beta. intros s (A & B & C). split; [exact A|]. split; [exact B|].
    intros HZ. specialize (C HZ). unfold inside_window, off_frame in *. split; [lia|exact C].
Qed.
Print Assumptions C30_partial.
Theorem C30_or_error : forall F (all : list (source F)) cuts NX NY NZ BW,
  (List.length all <= List.length cuts)%nat ->
  (exists out, getSettingsPerShot all cuts NX NY NZ BW = Ok out) \/ getSettingsPerShot all cuts NX NY NZ BW = Throw.
Proof. intros F all cuts NX NY NZ BW. exact (window_clean all cuts NX NY NZ BW). Qed.
Print Assumptions C30_or_error.
Theorem C30_receivers_partial : forall all cut NX NY NZ BW out,
  getReceiversPerShot all cut NX NY NZ BW = Ok out ->
  Forall2 (fun r r' => receiverType r' = receiverType r /\
    receiverCoords r' = mkC (cx (receiverCoords r) - cx cut) (cy (receiverCoords r) - cy cut)
                            (cz (receiverCoords r) - cz cut)) all out /\
  Forall (fun s => off_frame (cx (receiverCoords s)) NX BW /\ off_frame (cy (receiverCoords s)) NY BW /\
                   (2 * BW < NZ -> off_frame (cz (receiverCoords s)) NZ BW)) out.
Proof. exact rwindow_lem. Qed.
Print Assumptions C30_receivers_partial.
(** A 2-D window (NZ = 1): the z coordinate is not looked at. *)
Theorem C30_z_refuted : exists (all : list (source Q)) cuts NX NY NZ BW out s,
  1 <= NZ /\ getSettingsPerShot all cuts NX NY NZ BW = Ok out /\ In s out /\
  ~ inside_window (sourceCoords s) NX NY NZ.
Proof.
  exists [mkSrc 1 (mkC 15 5 7) 1 1 1 5%Q 5%Q 0%Q 0], [mkC 10 0 0], 20, 20, 1, 2. eexists. eexists.
  split; [lia|]. split; [vm_compute; reflexivity|]. split; [left; reflexivity|].
  unfold inside_window. cbn. lia.
Qed.
Print Assumptions C30_z_refuted.
Example C30_example : getSettingsPerShot [src 1 15; src 2 18] [mkC 10 0 0; mkC 13 0 0] 20 40 1 4 =
  Ok [src 1 5; src 2 5] /\ getSettingsPerShot [src 1 15] [mkC 12 0 0] 20 40 1 4 = Throw.
Proof. vm_compute. auto. Qed.

(** ** C31 *)
(** LAMA's block distribution of [n] shots over [p] shot domains. *)
Theorem C31_one_domain : forall n p i, 1 <= p -> 0 <= i < n ->
  exists! r, 0 <= r < p /\ block_lb n p r <= i < block_ub n p r.
Proof. intros n p i Hp Hi. apply block_unique; lia. Qed.
Print Assumptions C31_one_domain.
(** The shot loops of all domains together simulate the list of shots, in order, each entry once. *)
Theorem C31_every_shot_once : forall n dom nos, 1 <= dom -> Z.of_nat (List.length nos) <= n ->
  dom <= Z.of_nat (List.length nos) -> (dom | Z.of_nat (List.length nos)) ->
  exists done : Z -> list Z,
    (forall r, 0 <= r < dom -> shots_of_domain 0 n dom 0 nos r = Ok (done r)) /\
    concat (map done (zseq 0 (Z.to_nat dom))) = nos.
Proof.
  intros n dom nos Hd Hn Hge Hdiv. exists (segment nos (Z.of_nat (List.length nos)) dom). split.
  - intros r Hr. rewrite (shots_lem 0 n dom 0 nos r) by
      (try assumption; try (intros _; apply Z.mod_divide; [lia|exact Hdiv]); intros K; exfalso; apply K; reflexivity).
    reflexivity.
  - apply segment_concat. exact Hd.
Qed.
Print Assumptions C31_every_shot_once.
(** Otherwise all domains stop with an error. *)
Theorem C31_else_error : forall n dom dec nos r, 1 <= dom ->
  (Z.of_nat (List.length nos) < dom \/ ~ (dom | Z.of_nat (List.length nos))) ->
  shots_of_domain 0 n dom dec nos r = Throw.
Proof.
  intros n dom dec nos r Hd H. unfold shots_of_domain. cbn [Z.eqb].
  destruct (Z.leb_spec dom (Z.of_nat (List.length nos))) as [Hle|]; [|reflexivity]. cbn [assert bind].
  destruct H as [H|H]; [lia|]. unfold crem. replace (dom =? 0) with false by lia. cbn [bind].
  rewrite Z.rem_mod_nonneg by lia.
  destruct (Z.eqb_spec (Z.of_nat (List.length nos) mod dom) 0) as [E|E]; [|reflexivity].
  exfalso. apply H. apply Z.mod_divide; [lia|exact E].
Qed.
Print Assumptions C31_else_error.
(** With source encoding each domain simulates its own supershot. *)
Theorem C31_encoded : forall mode n dom nos, mode <> 0 -> 1 <= dom -> dom <= n ->
  Z.of_nat (List.length nos) = dom ->
  exists done : Z -> list Z,
    (forall r, 0 <= r < dom -> shots_of_domain mode n dom 0 nos r = Ok (done r)) /\
    concat (map done (zseq 0 (Z.to_nat dom))) = nos.
Proof.
  intros mode n dom nos Hm Hd Hn HL. exists (segment nos (Z.of_nat (List.length nos)) dom). split.
  - intros r Hr. rewrite (shots_lem mode n dom 0 nos r); try lia. reflexivity.
  - apply segment_concat. exact Hd.
Qed.
Print Assumptions C31_encoded.
(** With wavefield decomposition (two passes) every domain runs its shots twice. *)
Theorem C31_decomposition : forall n dom dec nos r, dec <> 0 -> 1 <= dom -> 0 <= r < dom ->
  Z.of_nat (List.length nos) <= n -> dom <= Z.of_nat (List.length nos) -> (dom | Z.of_nat (List.length nos)) ->
  exists done, shots_of_domain 0 n dom 0 nos r = Ok done /\ shots_of_domain 0 n dom dec nos r = Ok (done ++ done)%list.
Proof.
  intros n dom dec nos r Hdec Hd Hr Hn Hge Hdiv. eexists.
  rewrite !(shots_lem 0 n dom) by
      (try assumption; try (intros _; apply Z.mod_divide; [lia|exact Hdiv]); intros K; exfalso; apply K; reflexivity).
  split; [reflexivity|]. rewrite (proj2 (Z.eqb_neq dec 0) Hdec). reflexivity.
Qed.
Print Assumptions C31_decomposition.
Example C31_example : map (shots_of_domain 0 6 3 0 [11; 5; 7; 3; 2; 13]) [0; 1; 2] = [Ok [11; 5]; Ok [7; 3]; Ok [2; 13]] /\
  shots_of_domain 0 6 4 0 [11; 5; 7; 3; 2; 13] 0 = Throw.
Proof. vm_compute. auto. Qed.

(** ** C32 *)
(** [d] = number of shot domains actually used (at most one per process). *)
Theorem C32_even : forall dom size, 1 <= dom -> 1 <= size -> let d := Z.min dom size in
  ((exists rank, 0 <= rank < size /\ getShotDomain 0 dom size rank 0 None true = Throw) <-> ~ (d | size)) /\
  ((d | size) -> exists np, size = d * np /\
     forall rank, 0 <= rank < size ->
       exists k, getShotDomain 0 dom size rank 0 None true = Ok k /\ 0 <= k < d /\ k * np <= rank < (k + 1) * np).
Proof.
  intros dom size Hd Hs d.
  assert (Hd' : 1 <= d <= size) by (unfold d; lia).
  assert (Hdec : size mod d = 0 <-> (d | size)) by (apply Z.mod_divide; lia). split.
  - split.
    + intros (rank & Hr & E) K. apply Hdec in K. rewrite (shot_domain_lem dom size rank Hd Hs Hr) in E. fold d in E.
      rewrite K in E. discriminate E.
    + intros K. exists 0. split; [lia|]. rewrite (shot_domain_lem dom size 0 Hd Hs ltac:(lia)). fold d.
      destruct (Z.eqb_spec (size mod d) 0) as [E|E]; [exfalso; apply K, Hdec; exact E|reflexivity].
  - intros K. exists (size / d). apply Hdec in K. pose proof (Z.div_mod size d ltac:(lia)) as Hdm.
    assert (1 <= size / d) by (apply Z.div_le_lower_bound; lia). set (np := size / d) in *.
    split; [lia|]. intros rank Hr. exists (rank / np).
    rewrite (shot_domain_lem dom size rank Hd Hs Hr). fold d np. rewrite K. split; [reflexivity|].
    pose proof (Z.mul_div_le rank np ltac:(lia)). pose proof (Z.mul_succ_div_gt rank np ltac:(lia)).
    assert (0 <= rank / np) by (apply Z.div_pos; lia). assert (rank / np < d) by (apply Z.div_lt_upper_bound; lia). lia.
Qed.
Print Assumptions C32_even.
(** Reading "number of domains" as the configured NumShotDomains: with more domains than processes the
    number is silently reduced and no error is raised. *)
Theorem C32_configured_refuted : exists dom size rank k, 1 <= dom /\ 0 <= rank < size /\ ~ (dom | size) /\
  getShotDomain 0 dom size rank 0 None true = Ok k.
Proof.
  exists 4, 3, 2, 2. split; [lia|]. split; [lia|]. split; [|reflexivity].
  intros K. apply Z.mod_divide in K; [discriminate K|lia].
Qed.
Print Assumptions C32_configured_refuted.
(** With definition 1 (compute nodes) or 2 (environment variable) nothing enforces an even division: the
    domain is whatever the node number or variable says. *)
Theorem C32_other_definitions : forall dom size rank node e,
  getShotDomain 1 dom size rank node None true = Ok node /\
  getShotDomain 2 dom size rank node (Some e) true = Ok e /\
  getShotDomain 2 dom size rank node (Some e) false = Throw.
Proof. intros. repeat split. Qed.
Print Assumptions C32_other_definitions.
Example C32_example : map (fun r => getShotDomain 0 2 6 r 0 None true) [0; 1; 2; 3; 4; 5] =
  [Ok 0; Ok 0; Ok 0; Ok 1; Ok 1; Ok 1] /\ getShotDomain 0 4 6 0 0 None true = Throw.
Proof. vm_compute. auto. Qed.

(** ** C33 *)
(** Mode 1: whatever is returned is what the property says; the history counts the new draws and a drawn
    shot was below the limit. *)
Theorem C33_mode1 : forall rnd fuel inds shist N mc i' s', (forall p, 0 <= rnd p) -> 1 <= N ->
  Z.of_nat (List.length shist) = N ->
  getRandomShotInds rnd fuel 1 inds shist N mc = Ok (i', s') ->
  drawn N (List.length inds) i' /\ List.length s' = List.length shist /\
  (forall x, In x i' -> nth (Z.to_nat x) shist 0 < mc) /\
  (forall x, 0 <= x < N -> nth (Z.to_nat x) s' 0 = nth (Z.to_nat x) shist 0 + Z.of_nat (count_occ Z.eq_dec i' x)).
Proof.
  intros rnd fuel inds shist N mc i' s' Hp HN L H. unfold getRandomShotInds in H. cbn [Z.eqb Pos.eqb] in H.
  destruct (random1_lem rnd Hp N mc (Z.of_nat (List.length inds)) HN fuel 0 0 (repeat 0 (List.length inds)) inds shist i' s')
    as (A1 & A2 & A3 & A4 & A5 & A6); try exact H; try lia; try reflexivity.
  - rewrite repeat_length. reflexivity.
  - constructor.
  - constructor.
  - split; [|split; [exact A4|split]].
    + split; [lia|]. split; [exact A2|exact A3].
    + intros x Hx. destruct (A6 x Hx) as [K|K]; [destruct K|exact K].
    + intros x Hx. specialize (A5 x Hx). cbn [Z.to_nat firstn] in A5. unfold hits in A5. cbn [count_occ] in A5. lia.
Qed.
Print Assumptions C33_mode1.
(** Mode 1 terminates for every random sequence that hits every shot again and again, if enough shots are
    below the limit. *)
Theorem C33_mode1_terminates : forall rnd inds shist N mc, (forall p, 0 <= rnd p) -> 1 <= N -> fair rnd N ->
  Z.of_nat (List.length shist) = N -> (List.length inds <= List.length (available shist mc))%nat ->
  exists fuel out, getRandomShotInds rnd fuel 1 inds shist N mc = Ok out.
Proof.
  intros rnd inds shist N mc Hp HN Hf L Hav. unfold getRandomShotInds. cbn [Z.eqb Pos.eqb].
  apply (random1_term rnd Hp N mc (Z.of_nat (List.length inds)) shist HN Hf) with (k := List.length inds); try lia; try reflexivity.
  - assert (E : List.length (avail shist mc N) = List.length (available shist mc)).
    { unfold avail, available. rewrite <- L, Nat2Z.id.
      assert (K : forall n a, List.length (filter (fun x => nth (Z.to_nat x) shist 0 <? mc) (zseq (Z.of_nat a) n)) =
                         List.length (filter (fun i => nth i shist 0 <? mc) (seq a n))).
      { induction n as [|n IH]; intros a; [reflexivity|]. cbn [zseq seq filter]. rewrite Nat2Z.id.
        replace (Z.of_nat a + 1) with (Z.of_nat (S a)) by lia.
        destruct (_ <? _); cbn [List.length]; rewrite IH; reflexivity. }
      exact (K _ 0%nat). }
    lia.
  - rewrite repeat_length. reflexivity.
Qed.
Print Assumptions C33_mode1_terminates.
(** Without these conditions it can run for ever: a constant random sequence, or not enough shots left. *)
Theorem C33_terminates_refuted : exists rnd inds shist N mc, (forall p, 0 <= rnd p) /\
  Z.of_nat (List.length shist) = N /\ Z.of_nat (List.length inds) <= N /\
  forall fuel, getRandomShotInds rnd fuel 1 inds shist N mc = Fuel.
Proof.
  exists (fun _ => 0), [0; 0], [0; 0], 2, 10. split; [intros; lia|]. split; [reflexivity|]. split; [cbn; lia|].
  intros fuel. unfold getRandomShotInds. cbn [Z.eqb Pos.eqb].
  destruct fuel as [|fuel]; [reflexivity|]. vm_compute (Z.of_nat _).
  cbn [random1 repeat List.length]. cbn.
  assert (K : forall fuel p, random1 (fun _ => 0) fuel p 1 2 2 10 [0; 0] [0; 0] [1; 0] = Fuel).
  { clear. induction fuel as [|fuel IH]; intros p; [reflexivity|]. cbn [random1]. cbn. apply IH. }
  apply K.
Qed.
Print Assumptions C33_terminates_refuted.
Theorem C33_limit_refuted : exists inds shist N mc, Z.of_nat (List.length shist) = N /\
  Z.of_nat (List.length inds) <= N /\
  forall rnd fuel, (forall p, 0 <= rnd p) -> getRandomShotInds rnd fuel 1 inds shist N mc = Fuel.
Proof.
  exists [0], [1], 1, 1. split; [reflexivity|]. split; [cbn; lia|]. intros rnd fuel Hp.
  unfold getRandomShotInds. cbn [Z.eqb Pos.eqb].
  assert (K : forall p rh, List.length rh = 1%nat -> random1 rnd fuel p 0 1 1 1 rh [0] [1] = Fuel).
  { induction fuel as [|fuel IH]; intros p rh Hl; [reflexivity|]. cbn [random1 Z.ltb Z.compare].
    unfold crem. cbn [Z.eqb]. rewrite Z.rem_1_r. cbn [bind].
    destruct rh as [|a [|]]; try discriminate Hl. cbn. apply IH. reflexivity. }
  exact (K 0%nat [0] eq_refl).
Qed.
Print Assumptions C33_limit_refuted.
Example C33_mode1_example : getRandomShotInds (fun p => Z.of_nat p * 7 + 3) 20 1 [0; 0; 0] [2; 0; 1; 0; 0] 5 2 =
  Ok ([3; 2; 4], [2; 0; 2; 1; 1]).
Proof. vm_compute. reflexivity. Qed.
Lemma cycle_fair N : 1 <= N -> fair (fun p => Z.of_nat p) N.
Proof.
  intros HN r p Hr. exists (Z.to_nat r + p * Z.to_nat N)%nat. split; [nia|].
  rewrite Z.rem_mod_nonneg by lia. rewrite Nat2Z.inj_add, Nat2Z.inj_mul, !Z2Nat.id by lia.
  rewrite Z_mod_plus_full. apply Z.mod_small. lia.
Qed.
Example C33_fair_example : fair (fun p => Z.of_nat p) 5 /\ (3 <= List.length (available [2; 0; 1; 0; 0]%Z 2%Z))%nat.
Proof. split; [apply cycle_fair; lia|]. vm_compute. lia. Qed.

(** Modes 2 and 3 always return; the indices are in range, and distinct exactly under the stated condition. *)
Theorem C33_mode2_partial : forall rnd fuel inds shist N mc step, 1 <= N -> inds <> [] ->
  N <= Z.of_nat (List.length shist) -> Forall (fun h => 0 <= h) shist ->
  capacity N (Z.of_nat (List.length inds)) step ->
  exists i' s', getRandomShotInds rnd fuel 2 inds shist N mc = Ok (i', s') /\
    List.length i' = List.length inds /\ Forall (fun x => 0 <= x < N) i' /\
    (NoDup i' <-> Z.of_nat (List.length inds) <= N / Z.gcd step N).
Proof.
  intros rnd fuel inds shist N mc step HN Hi L Hs Hstep. unfold getRandomShotInds. cbn [Z.eqb Pos.eqb].
  set (D := Z.of_nat (List.length inds)) in *.
  assert (HD : 1 <= D) by (unfold D; destruct inds; [contradiction|cbn [List.length]; lia]).
  assert (Hsum : 0 <= zsum shist).
  { clear - Hs. unfold zsum. induction Hs; cbn [fold_right]; lia. }
  unfold cdiv. replace (D =? 0) with false by lia. cbn [bind].
  rewrite Z.quot_div_nonneg by lia. assert (0 <= zsum shist / D) by (apply Z.div_pos; lia).
  set (s0 := zsum shist / D) in *.
  assert (Est : cceil N D = step).
  { pose proof (cceil_spec N D HD) as [A1 A2]. destruct Hstep as [B1 B2]. nia. }
  assert (Hst : 1 <= step) by (destruct Hstep; nia).
  destruct (random_seq_lem (fun d => s0 + d * cceil N D) N HN (List.length inds) 0 inds shist) as [s' E].
  { intros j Hj. rewrite Est. nia. }
  { lia. }
  { lia. }
  { exact L. }
  eexists. exists s'. split; [exact E|]. cbn [Z.to_nat firstn app]. rewrite Est. split; [|split].
  - rewrite map_length. apply zseq_length.
  - apply Forall_forall. intros x Hx. apply in_map_iff in Hx. destruct Hx as (j & <- & _). apply Z.mod_pos_bound. lia.
  - rewrite <- (Nat2Z.id (List.length inds)). fold D. apply progression_distinct; assumption.
Qed.
Print Assumptions C33_mode2_partial.
Theorem C33_mode3_partial : forall rnd fuel inds shist N mc, 1 <= N -> inds <> [] ->
  N <= Z.of_nat (List.length shist) -> Forall (fun h => 0 <= h) shist ->
  exists i' s', getRandomShotInds rnd fuel 3 inds shist N mc = Ok (i', s') /\
    List.length i' = List.length inds /\ Forall (fun x => 0 <= x < N) i' /\
    (NoDup i' <-> Z.of_nat (List.length inds) <= N).
Proof.
  intros rnd fuel inds shist N mc HN Hi L Hs. unfold getRandomShotInds. cbn [Z.eqb Pos.eqb].
  set (D := Z.of_nat (List.length inds)) in *.
  assert (HD : 1 <= D) by (unfold D; destruct inds; [contradiction|cbn [List.length]; lia]).
  assert (Hsum : 0 <= zsum shist).
  { clear - Hs. unfold zsum. induction Hs; cbn [fold_right]; lia. }
  unfold cdiv. replace (D =? 0) with false by lia. cbn [bind].
  rewrite Z.quot_div_nonneg by lia. assert (0 <= zsum shist / D) by (apply Z.div_pos; lia).
  set (s0 := zsum shist / D) in *.
  destruct (random_seq_lem (fun d => s0 * D + d) N HN (List.length inds) 0 inds shist) as [s' E].
  { intros j Hj. nia. }
  { lia. }
  { lia. }
  { exact L. }
  eexists. exists s'. split; [exact E|]. cbn [Z.to_nat firstn app]. split; [|split].
  - rewrite map_length. apply zseq_length.
  - apply Forall_forall. intros x Hx. apply in_map_iff in Hx. destruct Hx as (j & <- & _). apply Z.mod_pos_bound. lia.
  - pose proof (progression_distinct (s0 * D) 1 N D HN ltac:(lia)) as K.
    rewrite Z.gcd_1_l, Z.div_1_r in K. rewrite <- K.
    replace (Z.to_nat D) with (List.length inds) by (unfold D; lia).
    erewrite map_ext; [reflexivity|]. intros j. cbn beta. rewrite Z.mul_1_r. reflexivity.
Qed.
Print Assumptions C33_mode3_partial.
(** Mode 2 repeats a shot: 4 shots, 3 domains, step ceil(4/3) = 2 gives 0, 2, 0. *)
Theorem C33_mode2_refuted : exists inds shist N mc, Z.of_nat (List.length shist) = N /\
  Z.of_nat (List.length inds) <= N /\
  forall rnd fuel, exists i' s', getRandomShotInds rnd fuel 2 inds shist N mc = Ok (i', s') /\ ~ NoDup i'.
Proof.
  exists [0; 0; 0], [0; 0; 0; 0], 4, 10. split; [reflexivity|]. split; [cbn; lia|]. intros rnd fuel.
  exists [0; 2; 0]. eexists. split; [reflexivity|]. intros K. inversion K as [|? ? K1 _]; subst. apply K1. cbn. auto.
Qed.
Print Assumptions C33_mode2_refuted.
Example C33_mode2_example : capacity 6 3 2 /\ 3 <= 6 / Z.gcd 2 6 /\
  getRandomShotInds (fun _ => 0) 0 2 [0; 0; 0] [1; 0; 1; 0; 1; 0] 6 9 = Ok ([1; 3; 5], [1; 1; 1; 1; 1; 1]).
Proof. split; [unfold capacity; lia|]. split; [vm_compute; discriminate|]. vm_compute. reflexivity. Qed.

(** ** C34 *)
Lemma super_same {F} (neg : F -> F) dom (l l' : list (source F)) : Forall2 (in_super dom) l l' ->
  Forall2 (fun s s' => same_source neg s s' /\ exists k, 0 <= k < dom /\ sourceNo s' = dom * 10000 + 1 + k) l l'.
Proof.
  intros H. eapply Forall2_impl; [|exact H]. cbn beta. intros s s' (k & Hk & ->). split.
  - repeat split. left. reflexivity.
  - exists k. split; [exact Hk|reflexivity].
Qed.
Lemma nth_repeat0 n i : nth i (repeat 0 n) 0 = 0.
Proof. revert i. induction n as [|n IH]; intros [|i]; try reflexivity. apply IH. Qed.
Theorem C34_mode1_partial : forall F (neg : F -> F) rnd fuel l dom cap l', (forall p, 0 <= rnd p) -> 1 <= dom ->
  capacity (Z.of_nat (List.length l)) dom cap -> encode neg rnd fuel 1 l dom = Ok l' ->
  supershots neg l l' dom cap /\ (dom <= Z.of_nat (List.length l) -> none_empty l' dom).
Proof.
  intros F neg rnd fuel l dom cap l' Hp Hd Hcap H.
  destruct l as [|s0 r].
  { cbn in H. unfold encode in H. replace (dom =? 0) with false in H by lia. cbn in H. inversion H; subst.
    split; [|intros K; cbn in K; lia]. split; [constructor|]. intros k Hk. unfold occupancy. cbn. destruct Hcap. cbn in *. nia. }
  set (l := s0 :: r) in *. unfold encode in H. replace (dom =? 0) with false in H by lia. cbn [Z.eqb Pos.eqb] in H.
  assert (Ec : cceil (Z.of_nat (List.length l)) dom = cap).
  { pose proof (cceil_spec (Z.of_nat (List.length l)) dom Hd) as [A1 A2]. destruct Hcap as [B1 B2].
    revert A1 A2 B1 B2. generalize (cceil (Z.of_nat (List.length l)) dom) (Z.of_nat (List.length l)). intros c n. nia. }
  assert (Hc1 : 1 <= cap). { destruct Hcap as [B1 B2]. unfold l in B1. cbn [List.length] in B1. nia. }
  rewrite Ec in H. apply bind_ok in H. destruct H as ([m p] & Em & H). injection H as H'.
  assert (Hrep : forall j, nth (Z.to_nat j) (repeat 0 (Z.to_nat dom)) 0 = 0).
  { intros j. apply nth_repeat0. }
  destruct (encode1_lem rnd Hp dom cap fuel Hd Hc1 l 0 0 (repeat 0 (Z.to_nat dom)) m p) as (A & B & C).
  - lia.
  - rewrite repeat_length. lia.
  - intros j _. rewrite Hrep. lia.
  - intros j _. apply Hrep.
  - exact Em.
  - pose proof (encode1_sign_lem neg rnd m p) as Sg. rewrite H' in Sg.
    assert (Hocc : forall n, occupancy l' n = occupancy m n).
    { intros n. apply occupancy_same. eapply Forall2_impl; [|exact Sg]. cbn beta. intros a b [_ K]. exact K. }
    split; [split|].
    + clear H' Hocc Em Ec Hcap. clear - A Sg. revert l' Sg.
      induction A as [|s s1 l m (k & Hk & E) _ IH]; intros l' Sg; inversion Sg as [|? s2 ? ? [K1 K2] K3]; subst;
        constructor; [|apply IH; exact K3].
      destruct K1 as (b1&b2&b3&b4&b5&b6&b7&b8). cbn in *. split; [repeat split; assumption|].
      exists k. split; [exact Hk|exact K2].
    + intros k Hk. rewrite Hocc. specialize (B k Hk). rewrite Hrep in B. exact B.
    + intros Hn k Hk. rewrite Hocc. apply C; lia.
Qed.
Print Assumptions C34_mode1_partial.
(** Mode 1 terminates for every random sequence that hits every supershot again and again. *)
Theorem C34_mode1_terminates : forall F (neg : F -> F) rnd l dom, (forall p, 0 <= rnd p) -> 1 <= dom -> fair rnd dom ->
  exists fuel out, encode neg rnd fuel 1 l dom = Ok out.
Proof.
  intros F neg rnd l dom Hp Hd Hf. unfold encode. replace (dom =? 0) with false by lia. cbn [Z.eqb Pos.eqb].
  destruct (cceil_spec (Z.of_nat (List.length l)) dom Hd) as [A1 _].
  destruct (encode1_term rnd Hp dom (cceil (Z.of_nat (List.length l)) dom) Hd Hf l 0 0 (repeat 0 (Z.to_nat dom))) as (fuel & [m p] & E).
  - lia.
  - rewrite repeat_length. lia.
  - clear. induction (Z.to_nat dom) as [|n IH]; [reflexivity|]. cbn. exact IH.
  - lia.
  - exists fuel. eexists. rewrite E. cbn [bind]. reflexivity.
Qed.
Print Assumptions C34_mode1_terminates.
Theorem C34_mode1_terminates_refuted : exists rnd (l : list (source Q)) dom, (forall p, 0 <= rnd p) /\
  1 <= dom <= Z.of_nat (List.length l) /\ forall fuel, encode Qopp rnd fuel 1 l dom = Fuel.
Proof.
  exists (fun _ => 0), [src 1 0; src 2 1; src 3 2; src 4 3], 2. split; [intros; lia|]. split; [cbn; lia|].
  intros fuel. unfold encode. cbn [Z.eqb Pos.eqb].
  change (cceil (Z.of_nat (List.length [src 1 0; src 2 1; src 3 2; src 4 3])) 2) with 2.
  change (repeat 0 (Z.to_nat 2)) with [0; 0].
  assert (K : forall p, draw (fun _ => 0) fuel p 2 2 [2; 1] = Fuel).
  { induction fuel as [|fuel IH]; intros p; [reflexivity|]. cbn [draw]. cbn. apply IH. }
  assert (E4 : encode1_loop (fun _ => 0) fuel [src 4 3] 3 1 2 2 [2; 1] = Fuel).
  { cbn [encode1_loop]. change (3 <? 2) with false. cbn iota. rewrite K. reflexivity. }
  assert (E3 : encode1_loop (fun _ => 0) fuel [src 3 2; src 4 3] 2 0 2 2 [1; 1] = Fuel).
  { change (encode1_loop (fun _ => 0) fuel [src 3 2; src 4 3] 2 0 2 2 [1; 1]) with
      (' (ind, p') <- draw (fun _ => 0) fuel 0 2 2 [1; 1] ;;
       h <- vget [1; 1] ind ;; hist' <- vset [1; 1] ind (h + 1) ;;
       ' (rest, p'') <- encode1_loop (fun _ => 0) fuel [src 4 3] 3 p' 2 2 hist' ;;
       Ok (set_no (src 3 2) (super_no 2 ind) :: rest, p'')).
    clear K. destruct fuel as [|n]; [reflexivity|].
    change (draw (fun _ => 0) (S n) 0 2 2 [1; 1]) with (Ok (0, 1%nat)). cbn [bind].
    change (vget [1; 1] 0) with (Ok 1). cbn [bind]. change (vset [1; 1] 0 (1 + 1)) with (Ok [2; 1]). cbn [bind].
    rewrite E4. reflexivity. }
  change (encode1_loop (fun _ => 0) fuel [src 1 0; src 2 1; src 3 2; src 4 3] 0 0 2 2 [0; 0]) with
    (' (rest, p'') <- (' (rest, p'') <- encode1_loop (fun _ => 0) fuel [src 3 2; src 4 3] 2 0 2 2 [1; 1] ;;
       Ok (set_no (src 2 1) (super_no 2 1) :: rest, p'')) ;;
     Ok (set_no (src 1 0) (super_no 2 0) :: rest, p'')).
  rewrite E3. reflexivity.
Qed.
Print Assumptions C34_mode1_terminates_refuted.
Theorem C34_mode2 : forall F (neg : F -> F) rnd fuel l dom cap, 1 <= dom ->
  capacity (Z.of_nat (List.length l)) dom cap ->
  exists l', encode neg rnd fuel 2 l dom = Ok l' /\ supershots neg l l' dom cap /\
    (dom <= Z.of_nat (List.length l) -> none_empty l' dom).
Proof.
  intros F neg rnd fuel l dom cap Hd [B1 B2]. unfold encode. replace (dom =? 0) with false by lia. cbn [Z.eqb Pos.eqb].
  destruct (encode2_lem l 0 dom Hd ltac:(lia)) as (l' & E & L & H).
  destruct (encode_numbers (fun i => i mod dom) dom l l' 0 Hd H L) as [A O].
  { intros i _. apply Z.mod_pos_bound. lia. }
  assert (HO : forall j, 0 <= j < dom -> occupancy l' (dom * 10000 + 1 + j) = cnt_in (fun i => i mod dom) 0 (List.length l) j) by exact O.
  exists l'. split; [exact E|]. split; [split|].
  - apply super_same. exact A.
  - intros k Hk. rewrite HO by exact Hk. pose proof (cnt_mod dom k (List.length l) Hd Hk) as (C1 & C2 & C3).
    set (c := cnt_in _ _ _ _) in *. nia.
  - intros Hn k Hk. rewrite HO by exact Hk. pose proof (cnt_mod dom k (List.length l) Hd Hk) as (C1 & C2 & C3).
    set (c := cnt_in _ _ _ _) in *. nia.
Qed.
Print Assumptions C34_mode2.
Theorem C34_mode3_partial : forall F (neg : F -> F) rnd fuel l dom cap, 1 <= dom -> l <> [] ->
  capacity (Z.of_nat (List.length l)) dom cap ->
  exists l', encode neg rnd fuel 3 l dom = Ok l' /\ supershots neg l l' dom cap /\
    (none_empty l' dom <-> (dom - 1) * cap < Z.of_nat (List.length l)).
Proof.
  intros F neg rnd fuel l dom cap Hd Hl Hcap. unfold encode. replace (dom =? 0) with false by lia. cbn [Z.eqb Pos.eqb].
  assert (Ec : cceil (Z.of_nat (List.length l)) dom = cap).
  { pose proof (cceil_spec (Z.of_nat (List.length l)) dom Hd) as [A1 A2]. destruct Hcap as [B1 B2].
    revert A1 A2 B1 B2. generalize (cceil (Z.of_nat (List.length l)) dom) (Z.of_nat (List.length l)). intros c n. nia. }
  destruct Hcap as [B1 B2].
  assert (Hc1 : 1 <= cap). { destruct l; [contradiction|]. cbn [List.length] in B1. nia. }
  destruct (encode3_lem l 0 dom cap Hc1 ltac:(lia)) as (l' & E & L & H).
  destruct (encode_numbers (fun i => i / cap) dom l l' 0 Hd H L) as [A O].
  { intros i Hi. split; [apply Z.div_pos; lia|apply Z.div_lt_upper_bound; lia]. }
  assert (HO : forall j, 0 <= j < dom -> occupancy l' (dom * 10000 + 1 + j) = Z.min (Z.max (Z.of_nat (List.length l) - j * cap) 0) cap).
  { intros j Hj. rewrite <- cnt_div by lia. apply O. exact Hj. }
  exists l'. rewrite Ec. split; [exact E|]. split; [split|].
  - apply super_same. exact A.
  - intros k Hk. rewrite HO by exact Hk. lia.
  - split.
    + intros K. specialize (K (dom - 1) ltac:(lia)). rewrite HO in K by lia. lia.
    + intros K k Hk. rewrite HO by exact Hk. nia.
Qed.
Print Assumptions C34_mode3_partial.
(** Mode 3 leaves the last supershot empty: 5 shots in 4 supershots of capacity 2. *)
Theorem C34_mode3_refuted : exists (l : list (source Q)) dom, 1 <= dom <= Z.of_nat (List.length l) /\
  forall rnd fuel, exists l' k, encode Qopp rnd fuel 3 l dom = Ok l' /\ 0 <= k < dom /\
    occupancy l' (dom * 10000 + 1 + k) = 0.
Proof.
  exists [src 1 0; src 2 1; src 3 2; src 4 3; src 5 4], 4. split; [cbn; lia|]. intros rnd fuel.
  eexists. exists 3. split; [reflexivity|]. split; [lia|]. vm_compute. reflexivity.
Qed.
Print Assumptions C34_mode3_refuted.
Example C34_example : exists l', encode Qopp (fun p => Z.of_nat p) 9 1 [src 1 0; src 2 1; src 3 2; src 4 3] 3 = Ok l' /\
  map sourceNo l' = [30001; 30002; 30003; 30001] /\ capacity 4 3 2.
Proof. eexists. split; [reflexivity|]. split; [reflexivity|]. unfold capacity. lia. Qed.

(** ** C35 *)
(** Whatever is returned is an ordered subset of the shots that starts with the first one. *)
Theorem C35_subset_partial : forall F fuel (all : list (source F)) shotIncr DH inds out, all <> [] -> (0 < DH)%Q ->
  thin fuel all shotIncr DH = Ok (inds, out) ->
  increasing inds /\ (exists r, inds = 0 :: r) /\ picked all inds out.
Proof.
  intros F fuel all shotIncr DH inds out Ha HD H. destruct (thin_lem fuel all shotIncr DH inds out Ha HD H) as (A & B & C & D).
  split; [exact A|]. split; [|exact D]. destruct inds as [|i r]; [contradiction|]. cbn in B. subst i. exists r. reflexivity.
Qed.
Print Assumptions C35_subset_partial.
(** It terminates on a line of sources in the x direction whose positions do not decrease and whose gaps
    are not larger than the increment. *)
Theorem C35_terminates_partial : forall F (s0 s1 : source F) rest shotIncr DH G, let all := s0 :: s1 :: rest in
  (0 < DH)%Q -> 1 <= G -> (inject_Z G * DH <= shotIncr)%Q ->
  Z.abs (cy (sourceCoords s0) - cy (sourceCoords s1)) < Z.abs (cx (sourceCoords s0) - cx (sourceCoords s1)) ->
  (forall i a b, nth_error all i = Some a -> nth_error all (S i) = Some b ->
     0 <= cx (sourceCoords b) - cx (sourceCoords a) <= G) ->
  exists fuel out, forall k, thin (fuel + k) all shotIncr DH = Ok out.
Proof.
  intros F s0 s1 rest shotIncr DH G all HD HG Hi Hdir Hgap.
  assert (E : source_line all = map (fun s => cx (sourceCoords s)) all).
  { unfold source_line, all. replace (_ <? _) with true by lia. reflexivity. }
  apply (thin_term_lem all shotIncr DH G HD HG Hi); rewrite E; [discriminate|].
  intros i a b Ha Hb. rewrite nth_error_map in Ha, Hb.
  destruct (nth_error all i) as [sa|] eqn:Ea; [|discriminate]. destruct (nth_error all (S i)) as [sb|] eqn:Eb; [|discriminate].
  inversion Ha; inversion Hb; subst. exact (Hgap i sa sb Ea Eb).
Qed.
Print Assumptions C35_terminates_partial.
(** On a line with constant source spacing [s] cells and an increment of [m] spacings every [m]-th shot is
    kept; the kept shots are exactly the increment apart. *)
Theorem C35_uniform_partial : forall F (all : list (source F)) x0 s m DH shotIncr, 1 <= s -> 1 <= m -> 1 < m * s ->
  (0 < DH)%Q -> (shotIncr == inject_Z (m * s) * DH)%Q -> (2 <= List.length all)%nat ->
  (forall i a, nth_error all i = Some a -> cx (sourceCoords a) = x0 + Z.of_nat i * s) ->
  (forall a b, In a all -> In b all -> cy (sourceCoords a) = cy (sourceCoords b)) ->
  exists fuel out, forall k, thin (fuel + k) all shotIncr DH =
    Ok (map (fun k => k * m) (zseq 0 (Z.to_nat ((Z.of_nat (List.length all) - 1) / m + 1))), out).
Proof.
  intros F all x0 s m DH shotIncr Hs Hm Hms HD He HN Hx Hy.
  assert (E : source_line all = map (fun s => cx (sourceCoords s)) all).
  { unfold source_line. destruct all as [|a [|b r]]; [cbn in HN; lia|cbn in HN; lia|].
    pose proof (Hx 0%nat a eq_refl). pose proof (Hx 1%nat b eq_refl).
    pose proof (Hy a b (or_introl eq_refl) (or_intror (or_introl eq_refl))).
    replace (_ <? _) with true by lia. reflexivity. }
  apply (thin_uniform_lem all x0 s m DH shotIncr Hs Hm Hms HD He HN); rewrite E.
  - intros i a Ha. rewrite nth_error_map in Ha. destruct (nth_error all i) as [sa|] eqn:Ea; [|discriminate].
    inversion Ha; subst. exact (Hx i sa Ea).
  - destruct all; [cbn in HN; lia|discriminate].
Qed.
Print Assumptions C35_uniform_partial.
(** Sources 10 cells apart, increment 3 cells: the loop never leaves the first pair. *)
Theorem C35_terminates_refuted : exists (all : list (source Q)) shotIncr DH, (0 < DH)%Q /\
  forall fuel, thin fuel all shotIncr DH = Fuel.
Proof.
  exists [src 0 0; src 1 10; src 2 20], 3%Q, 1%Q. split; [reflexivity|]. intros fuel.
  unfold thin. cbn [List.length]. change (source_line [src 0 0; src 1 10; src 2 20]) with [0; 10; 20].
  change ((1 <? Z.of_nat 3) && negb (Qle_bool 3 1)) with true. cbn iota. change (vget [0; 10; 20] 0) with (Ok 0).
  cbn [bind]. change (Z.of_nat 3) with 3.
  assert (E3 : forall n, thin_loop [0; 10; 20] 3 1 0 3 n 0 0 3 [0] = Fuel).
  { induction n as [|n IH]; [reflexivity|].
    change (thin_loop [0; 10; 20] 3 1 0 3 (S n) 0 0 3 [0]) with (thin_loop [0; 10; 20] 3 1 0 3 n 0 0 3 [0]). exact IH. }
  destruct fuel as [|n]; [reflexivity|].
  change (thin_loop [0; 10; 20] 3 1 0 3 (S n) 0 0 0 [0]) with (thin_loop [0; 10; 20] 3 1 0 3 n 0 0 3 [0]).
  rewrite E3. reflexivity.
Qed.
Print Assumptions C35_terminates_refuted.
(** Sources at 0, 4 and 7 with increment 5: the kept shots 0 and 1 are only 4 apart. *)
Theorem C35_spacing_refuted : exists (all : list (source Q)) shotIncr DH inds out a b, (0 < DH)%Q /\
  (forall k, thin (10 + k) all shotIncr DH = Ok (inds, out)) /\ nth_error out 0 = Some a /\ nth_error out 1 = Some b /\
  (inject_Z (Z.abs (cx (sourceCoords b) - cx (sourceCoords a))) * DH < shotIncr)%Q.
Proof.
  exists [src 0 0; src 1 4; src 2 7], 5%Q, 1%Q. do 4 eexists. split; [reflexivity|].
  split; [intros k; vm_compute; reflexivity|]. split; [reflexivity|]. split; [reflexivity|]. vm_compute. reflexivity.
Qed.
Print Assumptions C35_spacing_refuted.
(** Two first sources on the diagonal: the list of positions stays empty and is read out of range. *)
Theorem C35_diagonal_refuted : exists (all : list (source Q)) shotIncr DH, (0 < DH)%Q /\
  forall fuel, thin fuel all shotIncr DH = UB.
Proof.
  exists [mkSrc 0 (mkC 0 0 0) 1 1 1 5%Q 5%Q 0%Q 0; mkSrc 1 (mkC 3 3 0) 1 1 1 5%Q 5%Q 0%Q 1], 5%Q, 1%Q.
  split; [reflexivity|]. intros fuel. reflexivity.
Qed.
Print Assumptions C35_diagonal_refuted.
Example C35_example : exists out, thin 40 (map (fun i => src i (100 + 4 * i)) (zseq 0 8)) 60 5 = Ok ([0; 3; 6], out) /\
  (60 == inject_Z (3 * 4) * 5)%Q.
Proof. eexists. split; [vm_compute; reflexivity|reflexivity]. Qed.
Example C35_example_gaps : exists out, thin 40 [src 0 1; src 1 3; src 2 4; src 3 9; src 4 12; src 5 13] (5 # 1) 1 =
  Ok ([0; 2; 4], out) /\ (inject_Z 5 * 1 <= 5 # 1)%Q.
Proof. eexists. split; [vm_compute; reflexivity|discriminate]. Qed.

(** ** C36 *)
(** [tc] = the list of (component, grid point) of the receivers. *)
Theorem C36_components : forall tc, Forall (fun p => 1 <= fst p <= 4) tc ->
  exists c1 c2 c3 c4, initSeismogramHandler tc = Ok [c1; c2; c3; c4] /\
    c1 = map snd (filter (fun p => fst p =? 1) tc) /\ c2 = map snd (filter (fun p => fst p =? 2) tc) /\
    c3 = map snd (filter (fun p => fst p =? 3) tc) /\ c4 = map snd (filter (fun p => fst p =? 4) tc) /\
    (List.length c1 + List.length c2 + List.length c3 + List.length c4 = List.length tc)%nat.
Proof.
  intros tc H. do 4 eexists. split; [apply handler_lem; exact H|]. do 4 (split; [reflexivity|]).
  induction H as [|[t x] tc Ht _ IH]; [reflexivity|]. cbn in Ht.
  unfold of_type in *. cbn [filter fst]. rewrite !map_length in *.
  assert (t = 1 \/ t = 2 \/ t = 3 \/ t = 4) as [E|[E|[E|E]]] by lia; rewrite E; cbn [Z.eqb Pos.eqb List.length]; lia.
Qed.
Print Assumptions C36_components.
(** A type outside 1..4 (guarded by a debug assertion only) indexes outside the arrays. *)
Theorem C36_bad_type : forall tc, Exists (fun p => ~ 1 <= fst p <= 4) tc -> initSeismogramHandler tc = UB.
Proof. exact handler_bad. Qed.
Print Assumptions C36_bad_type.
Example C36_example : initSeismogramHandler [(1, 50); (3, 60); (1, 10); (2, 70); (3, 5)] = Ok [[50; 10]; [70]; [60; 5]; []].
Proof. vm_compute. reflexivity. Qed.

(** ** C37 *)
(** [owner c] = process that owns grid point [c]; the result on process [p] are positions in the global list. *)
Theorem C37_local_global : forall coords (owner : Z -> Z) procs size, NoDup procs ->
  Forall (fun c => 0 <= c < size /\ In (owner c) procs) coords ->
  exists loc : Z -> list Z,
    (forall p, Global2Local coords (fun c => owner c =? p) size = Ok (loc p)) /\
    (forall p, increasing (loc p)) /\
    (forall p i, In i (loc p) <-> 0 <= i /\ exists c, nth_error coords (Z.to_nat i) = Some c /\ owner c = p) /\
    Permutation (flat_map loc procs) (zseq 0 (List.length coords)).
Proof.
  intros coords owner procs size Hp H. exists (fun p => positions coords (fun c => owner c =? p) 0).
  split; [|split; [|split]].
  - intros p. apply g2l_lem. eapply Forall_impl; [|exact H]. cbn beta. tauto.
  - intros p. apply positions_sorted.
  - intros p i. rewrite positions_in, Z.sub_0_r. split; intros (A & c & B & C); (split; [exact A|]); exists c; split; auto; lia.
  - apply positions_partition; [exact Hp|]. intros c Hc. rewrite Forall_forall in H. apply H. exact Hc.
Qed.
Print Assumptions C37_local_global.
Theorem C37_outside : forall coords isLocal size, Exists (fun c => ~ 0 <= c < size) coords ->
  Global2Local coords isLocal size = Throw.
Proof. intros coords isLocal size H. unfold Global2Local. rewrite g2l_check_throw by exact H. reflexivity. Qed.
Print Assumptions C37_outside.
Example C37_example : map (fun p => Global2Local [7; 2; 9; 2; 4] (fun c => c mod 3 =? p) 10) [0; 1; 2] =
  [Ok [2]; Ok [0; 4]; Ok [1; 3]].
Proof. vm_compute. reflexivity. Qed.

(** ** C38 *)
(** The amplitude is stored as an integer (truncated) before its sign is taken. *)
Theorem C38_partial : forall wtype ampl trace, wtype <> 1 ->
  ((1 <= ampl)%Q -> file_signal wtype ampl trace = map (fun x => x * 1)%Q trace) /\
  ((ampl < 1)%Q -> file_signal wtype ampl trace = map (fun x => x * -1)%Q trace).
Proof.
  intros wtype ampl trace Hw. unfold file_signal. rewrite (proj2 (Z.eqb_neq wtype 1) Hw).
  assert (M : forall s, map_signal s trace = map (fun x => x * inject_Z s)%Q trace).
  { intros s. induction trace as [|x r IH]; [reflexivity|]. cbn. rewrite IH. reflexivity. }
  rewrite M. unfold signAmp. split; intros H.
  - rewrite (proj2 (trunc_pos ampl) H). reflexivity.
  - destruct (0 <? trunc ampl) eqn:E; [|reflexivity]. apply trunc_pos in E. exfalso. exact (Qlt_not_le _ _ H E).
Qed.
Print Assumptions C38_partial.
Theorem C38_refuted : exists wtype ampl trace, wtype <> 1 /\ (0 < ampl)%Q /\
  file_signal wtype ampl trace = [-(2)]%Q /\ trace = [2%Q].
Proof. exists 2, (1 # 2)%Q, [2%Q]. split; [lia|]. split; [reflexivity|]. split; [vm_compute; reflexivity|reflexivity]. Qed.
Print Assumptions C38_refuted.
Example C38_example : file_signal 3 5 [1; 2]%Q = [1; 2]%Q /\ file_signal 3 (-5) [1; 2]%Q = [-(1); -(2)]%Q.
Proof. vm_compute. auto. Qed.

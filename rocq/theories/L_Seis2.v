(** Lemmas about resampling and SU files. *)
From Coq Require Import QArith Qround Lqa.
From Verif Require Import Base M_Grid M_Acq S_Acq L_AcqFile L_Acq L_Acq2 L_Acq3 M_Seis S_Seis.
Open Scope Z_scope.
Local Notation length := List.length.

(** ** Resampling *)
Lemma resample_row_index n c r e : In e (resample_row n c r) -> snd (fst e) = r.
Proof.
  unfold resample_row. rewrite in_app_iff.
  destruct (_ <? n); destruct (_ <? n); cbn; intros H; repeat (destruct H as [H|H]); try tauto; subst; reflexivity.
Qed.
Lemma filter_all {A} (f : A -> bool) l : (forall x, In x l -> f x = true) -> filter f l = l.
Proof.
  induction l as [|x l IH]; intros H; cbn; [reflexivity|]. rewrite H by (left; reflexivity).
  f_equal. apply IH. intros y Hy. apply H. right; exact Hy.
Qed.
Lemma filter_none {A} (f : A -> bool) l : (forall x, In x l -> f x = false) -> filter f l = [].
Proof.
  induction l as [|x l IH]; intros H; cbn; [reflexivity|]. rewrite H by (left; reflexivity).
  apply IH. intros y Hy. apply H. right; exact Hy.
Qed.
Lemma resample_filter n c r : forall m s, s <= r < s + Z.of_nat m ->
  filter (fun e => snd (fst e) =? r) (flat_map (resample_row n c) (zseq s m)) = resample_row n c r.
Proof.
  induction m as [|m IH]; intros s H; [lia|]. cbn [zseq flat_map]. rewrite filter_app.
  destruct (Z.eq_dec s r) as [->|N].
  - rewrite (filter_all _ (resample_row n c r)) by (intros e He; apply resample_row_index in He; lia).
    rewrite (filter_none _ (flat_map _ _)); [apply app_nil_r|].
    intros e He. apply in_flat_map in He. destruct He as (q & Hq & He). apply zseq_in in Hq.
    apply resample_row_index in He. lia.
  - rewrite (filter_none _ (resample_row n c s)) by (intros e He; apply resample_row_index in He; lia).
    cbn [app]. apply IH. lia.
Qed.

Section Resample.
  Variable n : Z.
  Variable c : Q.
  Hypothesis n_pos : 1 <= n.
  Hypothesis c_pos : (0 < c)%Q.
  Lemma cols_pos : 1 <= resample_cols n c.
  Proof.
    unfold resample_cols. assert (0 <= Qfloor (inject_Z (n - 1) / c)); [|lia].
    rewrite <- (Qfloor_Z 0). apply Qfloor_resp_le. apply Qle_shift_div_l; [exact c_pos|].
    setoid_replace (inject_Z 0 * c)%Q with (inject_Z 0) by (unfold inject_Z; ring). rewrite <- Zle_Qle. lia.
  Qed.
  (** the new samples are exactly the multiples of [c] inside the trace *)
  Lemma cols_spec r : r < resample_cols n c <-> (inject_Z r * c <= inject_Z (n - 1))%Q.
  Proof.
    unfold resample_cols. set (q := (inject_Z (n - 1) / c)%Q). split; intros H.
    - assert (H1 : (inject_Z r <= q)%Q).
      { apply Qle_trans with (inject_Z (Qfloor q)); [rewrite <- Zle_Qle; lia|apply Qfloor_le]. }
      setoid_replace (inject_Z (n - 1)) with (q * c)%Q by (unfold q; field; lra).
      apply Qmult_le_compat_r; [exact H1|lra].
    - assert (H1 : (inject_Z r <= q)%Q) by (apply Qle_shift_div_l; assumption).
      assert (r <= Qfloor q); [|lia]. rewrite <- (Qfloor_Z r). apply Qfloor_resp_le, H1.
  Qed.
  Variable r : Z.
  Hypothesis r_range : 0 <= r < resample_cols n c.
  Let x := (inject_Z r * c)%Q.
  Let k := Qfloor x.
  Lemma x_range : (0 <= x)%Q /\ (x <= inject_Z (n - 1))%Q.
  Proof.
    split; [|apply cols_spec; lia]. unfold x. apply Qmult_le_0_compat; [|lra].
    change 0%Q with (inject_Z 0). rewrite <- Zle_Qle. lia.
  Qed.
  Lemma k_range : 0 <= k <= n - 1.
  Proof.
    destruct x_range as [H1 H2]. unfold k. split.
    - rewrite <- (Qfloor_Z 0). apply Qfloor_resp_le. exact H1.
    - rewrite <- (Qfloor_Z (n - 1)). apply Qfloor_resp_le. exact H2.
  Qed.
  Lemma k_bounds : (inject_Z k <= x)%Q /\ (x < inject_Z (k + 1))%Q.
  Proof. split; [apply Qfloor_le|apply Qlt_floor]. Qed.
  Lemma row_eq : resample_row n c r =
    (k, r, (1 - fmod1 x)%Q) :: (if k + 1 <? n then [(k + 1, r, fmod1 x)] else []).
  Proof.
    unfold resample_row. fold x. fold k. pose proof k_range. replace (k <? n) with true by lia. reflexivity.
  Qed.
  Lemma last_exact : k + 1 < n \/ (x == inject_Z k)%Q.
  Proof.
    destruct (Z_lt_dec (k + 1) n) as [|H]; [left; assumption|right].
    pose proof k_range. destruct x_range as [_ H2]. destruct k_bounds as [H3 _].
    replace (n - 1) with k in H2 by lia. apply Qle_antisym; assumption.
  Qed.
  Lemma sample_eq tr : Z.of_nat (length tr) = n ->
    interpolates tr x (resample_sample (resample_entries n c) tr r).
  Proof.
    intros L. unfold resample_sample, resample_entries.
    rewrite resample_filter by lia. rewrite row_eq. exists k. pose proof k_range. destruct k_bounds as [B1 B2].
    split; [lia|]. split; [exact B1|]. split; [apply Qlt_le_weak, B2|]. split; [lia|]. rewrite L.
    pose proof last_exact as LE. split; [exact LE|].
    rewrite inject_Z_plus. change (inject_Z 1) with 1%Q.
    destruct (Z.ltb_spec (k + 1) n) as [H1|H1]; cbn [map qsum fold_right fst snd]; unfold fmod1; fold k.
    - ring.
    - destruct LE as [LE|LE]; [lia|]. rewrite LE. ring.
  Qed.
  Lemma weights : (forall e, In e (filter (fun e => snd (fst e) =? r) (resample_entries n c)) -> (0 <= snd e)%Q /\ 0 <= fst (fst e) < n) /\
    (qsum (map snd (filter (fun e => snd (fst e) =? r) (resample_entries n c))) == 1)%Q.
  Proof.
    unfold resample_entries. rewrite resample_filter by lia. rewrite row_eq.
    pose proof k_range. destruct k_bounds as [B1 B2]. rewrite inject_Z_plus in B2. change (inject_Z 1) with 1%Q in B2.
    pose proof last_exact as LE.
    destruct (Z.ltb_spec (k + 1) n) as [H1|H1]; cbn [map qsum fold_right fst snd]; unfold fmod1; fold k; split.
    - intros e [<-|[<-|[]]]; cbn [fst snd]; (split; [lra|lia]).
    - ring.
    - intros e [<-|[]]; cbn [fst snd]; (split; [lra|lia]).
    - destruct LE as [LE|LE]; [lia|]. rewrite LE. ring.
  Qed.
End Resample.

Lemma resample_length c tr : length (resample c tr) = Z.to_nat (resample_cols (Z.of_nat (length tr)) c).
Proof. unfold resample. rewrite map_length, zseq_length. reflexivity. Qed.
Lemma resample_nth c tr r : (r < length (resample c tr))%nat ->
  nth r (resample c tr) 0%Q = resample_sample (resample_entries (Z.of_nat (length tr)) c) tr (Z.of_nat r).
Proof.
  intros H. rewrite resample_length in H. apply nth_error_nth. unfold resample.
  rewrite nth_error_map, zseq_nth_error by exact H. reflexivity.
Qed.
Lemma interpolates_int tr k v : interpolates tr (inject_Z k) v -> (v == nth (Z.to_nat k) tr 0)%Q.
Proof.
  intros (j & H0 & H1 & H2 & _ & _ & E). rewrite E. rewrite <- Zle_Qle in H1, H2.
  assert (C : j = k \/ j + 1 = k) by lia. destruct C as [->|<-].
  - rewrite inject_Z_plus. change (inject_Z 1) with 1%Q. ring.
  - rewrite inject_Z_plus. change (inject_Z 1) with 1%Q. ring.
Qed.
Lemma interpolates_comp tr x y v : (x == y)%Q -> interpolates tr x v -> interpolates tr y v.
Proof.
  intros E (k & H0 & H1 & H2 & H3 & H4 & H5). exists k. rewrite <- E. repeat (split; [assumption|]). exact H5.
Qed.

(** ** Bytes *)
Lemma le_length w v : length (le w v) = w.
Proof. revert v. induction w as [|w IH]; intros v; cbn; [reflexivity|]. rewrite IH. reflexivity. Qed.
Lemma ule_le w : forall v, ule (le w v) = v mod 256 ^ Z.of_nat w.
Proof.
  induction w as [|w IH]; intros v; cbn [le ule].
  - rewrite Z.mod_1_r. reflexivity.
  - rewrite IH. replace (Z.of_nat (S w)) with (Z.of_nat w + 1) by lia. rewrite Z.pow_add_r, Z.pow_1_r by lia.
    rewrite (Z.mul_comm (256 ^ _)), Z.rem_mul_r; [reflexivity|lia|]. apply Z.pow_pos_nonneg; lia.
Qed.
Lemma sle_le w v : (1 <= w)%nat -> - (256 ^ Z.of_nat w) <= 2 * v < 256 ^ Z.of_nat w -> sle (le w v) = v.
Proof.
  intros Hw H. unfold sle. rewrite ule_le, le_length. set (m := 256 ^ Z.of_nat w) in *.
  assert (Hm : 0 < m) by (apply Z.pow_pos_nonneg; lia).
  destruct (Z_lt_dec v 0) as [N|N].
  - assert (E : v mod m = v + m).
    { rewrite <- (Z.mod_small (v + m) m) by lia. rewrite <- Z.add_mod_idemp_r, Z.mod_same, Z.add_0_r by lia. reflexivity. }
    rewrite E. destruct (Z.ltb_spec (2 * (v + m)) m); lia.
  - rewrite Z.mod_small by lia. destruct (Z.ltb_spec (2 * v) m); lia.
Qed.

Lemma words4_le samples rest : Forall (fun s => 0 <= s < 2 ^ 32) samples ->
  words4 (length samples) (flat_map (le 4) samples ++ rest) = samples.
Proof.
  induction 1 as [|s samples H Hs IH]; [reflexivity|]. cbn [flat_map length words4].
  assert (E : forall a b : list Z, firstn 4 ((le 4 s ++ a) ++ b) = le 4 s) by reflexivity.
  assert (E' : forall a b : list Z, skipn 4 ((le 4 s ++ a) ++ b) = a ++ b) by reflexivity.
  rewrite E, E', IH, ule_le. f_equal. apply Z.mod_small. exact H.
Qed.
Lemma samples_length samples : length (flat_map (le 4) samples) = (4 * length samples)%nat.
Proof. induction samples as [|s l IH]; [reflexivity|]. cbn [flat_map]. rewrite app_length, IH. cbn. lia. Qed.

Definition hdr (h : segy) : list Z := flat_map (fun f => le (fst f) (snd f)) (layout h).
Lemma hdr_length h : length (hdr h) = 210%nat.
Proof. reflexivity. Qed.
Lemma header_length junk h : (30 <= length junk)%nat -> length (header_bytes junk h) = 240%nat.
Proof. intros H. unfold header_bytes. rewrite app_length. fold (hdr h). rewrite hdr_length, firstn_length. lia. Qed.
Lemma field_app off w a b : (off + w <= length a)%nat -> field off w (a ++ b) = field off w a.
Proof.
  intros H. unfold field. rewrite skipn_app, firstn_app, skipn_length.
  replace (w - (length a - off))%nat with 0%nat by lia. cbn [firstn]. apply app_nil_r.
Qed.
Lemma field_header junk h off w : (off + w <= 210)%nat -> field off w (header_bytes junk h) = field off w (hdr h).
Proof. intros H. unfold header_bytes. apply field_app. fold (hdr h). rewrite hdr_length. exact H. Qed.
Lemma field_ns junk h : field 114 2 (header_bytes junk h) = le 2 (hns h).
Proof. rewrite field_header by lia. reflexivity. Qed.

Lemma ule_ns junk h : ule (field 114 2 (header_bytes junk h)) = hns h mod 65536.
Proof. rewrite field_ns, ule_le. reflexivity. Qed.

Ltac fld := rewrite field_header by lia; change (field _ _ (hdr _)) with (le 4 _) || idtac.
Lemma f_gelev junk h : field 40 4 (header_bytes junk h) = le 4 (gelev h).
Proof. rewrite field_header by lia. reflexivity. Qed.
Lemma f_sdepth junk h : field 48 4 (header_bytes junk h) = le 4 (sdepth h).
Proof. rewrite field_header by lia. reflexivity. Qed.
Lemma f_scalel junk h : field 68 2 (header_bytes junk h) = le 2 (scalel h).
Proof. rewrite field_header by lia. reflexivity. Qed.
Lemma f_scalco junk h : field 70 2 (header_bytes junk h) = le 2 (scalco h).
Proof. rewrite field_header by lia. reflexivity. Qed.
Lemma f_sx junk h : field 72 4 (header_bytes junk h) = le 4 (sx h).
Proof. rewrite field_header by lia. reflexivity. Qed.
Lemma f_sy junk h : field 76 4 (header_bytes junk h) = le 4 (sy h).
Proof. rewrite field_header by lia. reflexivity. Qed.
Lemma f_gx junk h : field 80 4 (header_bytes junk h) = le 4 (gx h).
Proof. rewrite field_header by lia. reflexivity. Qed.
Lemma f_gy junk h : field 84 4 (header_bytes junk h) = le 4 (gy h).
Proof. rewrite field_header by lia. reflexivity. Qed.

(** ** Files *)
Lemma blocks_concat {A B} (f : list A -> list B) (l : list A) p :
  (forall a b, f (a ++ b) = f a ++ f b) -> f [] = [] -> 1 <= p ->
  forall k, flat_map (fun r => f (firstn (Z.to_nat (block_ub (Z.of_nat (length l)) p r - block_lb (Z.of_nat (length l)) p r))
                                 (skipn (Z.to_nat (block_lb (Z.of_nat (length l)) p r)) l))) (zseq 0 k)
  = f (firstn (Z.to_nat (block_lb (Z.of_nat (length l)) p (Z.of_nat k))) l).
Proof.
  intros Fa F0 Hp. set (n := Z.of_nat (length l)). induction k as [|k IH].
  - cbn [zseq flat_map]. unfold block_lb. replace (Z.to_nat _) with 0%nat by lia. cbn. symmetry. exact F0.
  - replace (S k) with (k + 1)%nat by lia. rewrite zseq_app, flat_map_app, IH. cbn [zseq flat_map].
    rewrite app_nil_r, Z.add_0_l, <- Fa. f_equal.
    destruct (block_lb_mono n p (Z.of_nat k) Hp ltac:(lia) ltac:(lia)) as [H1 H2].
    rewrite block_ub_lb in *. replace (Z.of_nat (k + 1)) with (Z.of_nat k + 1) by lia.
    set (a := block_lb n p (Z.of_nat k)) in *. set (b := block_lb n p (Z.of_nat k + 1)) in *.
    rewrite <- (firstn_skipn (Z.to_nat a) l) at 3. rewrite firstn_app, firstn_firstn, firstn_length.
    replace (Nat.min (Z.to_nat b) (Z.to_nat a)) with (Z.to_nat a) by lia. f_equal. f_equal. lia.
Qed.
Lemma blocks_all {A B} (f : list A -> list B) (l : list A) p :
  (forall a b, f (a ++ b) = f a ++ f b) -> f [] = [] -> 1 <= p ->
  flat_map (fun r => f (firstn (Z.to_nat (block_ub (Z.of_nat (length l)) p r - block_lb (Z.of_nat (length l)) p r))
                                 (skipn (Z.to_nat (block_lb (Z.of_nat (length l)) p r)) l))) (zseq 0 (Z.to_nat p)) = f l.
Proof.
  intros Fa F0 Hp. rewrite blocks_concat by assumption. rewrite Z2Nat.id by lia. rewrite block_end by lia.
  rewrite Nat2Z.id, firstn_all. reflexivity.
Qed.

Section Su.
  Variable junk : list Z.
  Hypothesis junk_len : (30 <= length junk)%nat.
  Variable ns : nat.
  (** what writeSU is called with: every trace has [ns] samples, each a 32-bit pattern, and the header
      field ns is the number of samples *)
  Definition good (t : segy * list Z) : Prop :=
    length (snd t) = ns /\ Forall (fun s => 0 <= s < 2 ^ 32) (snd t) /\ hns (fst t) = Z.of_nat ns.
  Definition tb (t : segy * list Z) : list Z := trace_bytes junk (fst t) (snd t).
  Lemma tb_length t : good t -> length (tb t) = (240 + 4 * ns)%nat.
  Proof using junk_len.
    intros (H & _ & _). unfold tb, trace_bytes. rewrite app_length, header_length, samples_length by exact junk_len. lia.
  Qed.
  Lemma write_eq p traces : 1 <= p -> writeSU junk p traces = flat_map tb traces.
  Proof.
    intros Hp. unfold writeSU.
    apply (blocks_all (fun l => flat_map tb l) traces p); [|reflexivity|exact Hp].
    intros a b. apply flat_map_app.
  Qed.
  Lemma skip_traces traces k : Forall good traces ->
    skipn (k * (240 + 4 * ns)) (flat_map tb traces) = flat_map tb (skipn k traces).
  Proof using junk_len.
    intros H. revert k. induction H as [|t traces H Hs IH]; intros k.
    - cbn [flat_map]. rewrite !skipn_nil. reflexivity.
    - destruct k as [|k]; [reflexivity|]. cbn [flat_map skipn]. rewrite skipn_app, (tb_length t H).
      rewrite skipn_all2 by (rewrite tb_length by exact H; nia). cbn [app].
      rewrite <- IH. f_equal. nia.
  Qed.
  Lemma skip_header t rest : good t ->
    skipn 240 (tb t ++ rest) = flat_map (le 4) (snd t) ++ rest.
  Proof using junk_len.
    intros H. unfold tb, trace_bytes. rewrite <- !app_assoc, skipn_app, header_length by exact junk_len.
    rewrite skipn_all2 by (rewrite header_length by exact junk_len; lia). reflexivity.
  Qed.
  Lemma read_traces_eq traces rest : Forall good traces -> forall m, (m <= length traces)%nat ->
    read_traces ns m (flat_map tb traces ++ rest) = map snd (firstn m traces).
  Proof using junk_len.
    intros H. induction H as [|t traces H Hs IH]; intros m Hm; cbn [length] in Hm.
    - replace m with 0%nat by lia. reflexivity.
    - destruct m as [|m]; [reflexivity|]. cbn [read_traces firstn map flat_map].
      rewrite <- app_assoc, skip_header by exact H. destruct H as (L & W & _).
      pose proof (samples_length (snd t)) as SL. rewrite L in SL.
      rewrite firstn_app, SL, Nat.sub_diag. cbn [firstn]. rewrite app_nil_r, firstn_all2 by lia.
      rewrite <- L at 1. rewrite <- (app_nil_r (flat_map (le 4) (snd t))) at 1. rewrite words4_le by exact W.
      f_equal. rewrite skipn_app, SL, Nat.sub_diag. rewrite skipn_all2 by lia. cbn [app skipn]. apply IH. lia.
  Qed.
  Lemma readDataSU_eq p q r traces : Forall good traces -> 1 <= p -> 1 <= q -> 0 <= r ->
    let n := Z.of_nat (length traces) in
    readDataSU (writeSU junk p traces) (Z.of_nat ns) n q r
    = map snd (firstn (Z.to_nat (block_ub n q r - block_lb n q r)) (skipn (Z.to_nat (block_lb n q r)) traces)).
  Proof using junk_len.
    intros H Hp Hq Hr n. unfold readDataSU. rewrite write_eq by exact Hp.
    destruct (block_lb_mono n q r Hq ltac:(lia) Hr) as [H1 H2].
    replace (Z.to_nat (block_lb n q r * (240 + 4 * Z.of_nat ns))) with (Z.to_nat (block_lb n q r) * (240 + 4 * ns))%nat by nia.
    rewrite skip_traces by exact H. rewrite Nat2Z.id.
    rewrite <- (app_nil_r (flat_map tb _)). apply read_traces_eq.
    - apply Forall_forall. intros t Ht. rewrite Forall_forall in H. apply H. rewrite <- (firstn_skipn (Z.to_nat (block_lb n q r)) traces). apply in_or_app. right; exact Ht.
    - rewrite skipn_length. lia.
  Qed.
  Lemma readDataSU_all p q traces : Forall good traces -> 1 <= p -> 1 <= q ->
    flat_map (readDataSU (writeSU junk p traces) (Z.of_nat ns) (Z.of_nat (length traces)) q) (zseq 0 (Z.to_nat q))
    = map snd traces.
  Proof using junk_len.
    intros H Hp Hq.
    rewrite <- (blocks_all (map (@snd segy (list Z))) traces q); [|intros; apply map_app|reflexivity|exact Hq].
    rewrite !flat_map_concat_map. f_equal. apply map_ext_in. intros r Hr. apply zseq_in in Hr.
    apply readDataSU_eq; (assumption || lia).
  Qed.

  Lemma fread_first old t rest : good t -> fread240 old (tb t ++ rest) = header_bytes junk (fst t) ++ skipn 240 old.
  Proof using junk_len.
    intros H. unfold fread240, tb, trace_bytes. rewrite <- !app_assoc, firstn_app, header_length by exact junk_len.
    rewrite firstn_all2 by (rewrite header_length by exact junk_len; lia).
    cbn [Nat.sub firstn]. rewrite app_nil_r, header_length by exact junk_len. reflexivity.
  Qed.
  Lemma ns_first old t rest : good t -> ule (field 114 2 (fread240 old (tb t ++ rest))) = Z.of_nat ns mod 65536.
  Proof using junk_len.
    intros H. rewrite fread_first by exact H. rewrite field_app by (rewrite header_length by exact junk_len; lia).
    rewrite ule_ns. destruct H as (_ & _ & ->). reflexivity.
  Qed.

  Lemma skipn_cons {A} (l : list A) k d : (k < length l)%nat -> skipn k l = nth k l d :: skipn (S k) l.
  Proof.
    revert k. induction l as [|x l IH]; intros k H; cbn [length] in H; [lia|].
    destruct k as [|k]; [reflexivity|]. cbn [skipn nth]. apply IH. lia.
  Qed.

  Lemma skipn_skipn' {A} (a b : nat) : forall (l : list A), skipn a (skipn b l) = skipn (a + b) l.
  Proof.
    induction b as [|b IH]; intros l; [rewrite Nat.add_0_r; reflexivity|].
    rewrite Nat.add_succ_r. destruct l as [|x l]; [rewrite !skipn_nil; reflexivity|]. cbn [skipn]. apply IH.
  Qed.
  Lemma readSingle_eq p old traces k d : Forall good traces -> 1 <= p -> Z.of_nat ns <= 65535 -> (k < length traces)%nat ->
    readSingleDataSU old (writeSU junk p traces) (Z.of_nat k) = snd (nth k traces d).
  Proof using junk_len.
    intros H Hp Hns Hk. rewrite write_eq by exact Hp. unfold readSingleDataSU.
    assert (Hne : exists t l, traces = t :: l) by (destruct traces as [|t l]; [cbn in Hk; lia|eauto]).
    assert (E : ule (field 114 2 (fread240 old (flat_map tb traces))) = Z.of_nat ns).
    { destruct Hne as (t & l & ->). cbn [flat_map]. rewrite ns_first; [apply Z.mod_small; lia|]. inversion H; assumption. }
    rewrite E.
    replace (Z.to_nat ((240 + Z.of_nat ns * 4) * Z.of_nat k)) with (k * (240 + 4 * ns))%nat by nia.
    assert (SS : forall (a b : nat) (l : list Z), skipn a (skipn b l) = skipn b (skipn a l)).
    { intros a b l. rewrite !skipn_skipn'. f_equal. lia. }
    rewrite SS, skip_traces by exact H.
    rewrite (skipn_cons traces k d Hk). cbn [flat_map].
    assert (G : good (nth k traces d)).
    { rewrite Forall_forall in H. apply H. apply nth_In, Hk. }
    rewrite skip_header by exact G. destruct G as (L & W & _).
    rewrite app_length, samples_length, L.
    replace (Nat.min (Z.to_nat (Z.of_nat ns)) _) with ns.
    - rewrite <- L at 1. apply words4_le. exact W.
    - rewrite Nat2Z.id, Nat.min_l; [reflexivity|]. apply Nat.div_le_lower_bound; lia.
  Qed.
  Lemma readSingle_wrap p old traces k : Forall good traces -> 1 <= p -> 65536 <= Z.of_nat ns -> traces <> [] ->
    (length (readSingleDataSU old (writeSU junk p traces) k) < ns)%nat.
  Proof using junk_len.
    intros H Hp Hns Hne. rewrite write_eq by exact Hp. unfold readSingleDataSU.
    assert (E : ule (field 114 2 (fread240 old (flat_map tb traces))) = Z.of_nat ns mod 65536).
    { destruct traces as [|t l]; [congruence|]. cbn [flat_map]. rewrite ns_first; [reflexivity|]. inversion H; assumption. }
    rewrite E. assert (WL : forall m (bs : list Z), length (words4 m bs) = m).
    { induction m as [|m IHm]; intros bs; cbn; [reflexivity|]. rewrite IHm. reflexivity. }
    rewrite WL. pose proof (Z.mod_pos_bound (Z.of_nat ns) 65536 ltac:(lia)). lia.
  Qed.

  Lemma readHeader_eq traces : Forall good traces -> Z.of_nat ns <= 65535 ->
    forall fuel old, length old = 240%nat -> (length traces < fuel)%nat ->
    readHeaderSU fuel old (flat_map tb traces) = Ok (map (fun t => header_bytes junk (fst t)) traces).
  Proof using junk_len.
    intros H Hns. induction H as [|t traces H Hs IH]; intros fuel old Ho Hf; cbn [length] in Hf;
      (destruct fuel as [|fuel]; [lia|]).
    - reflexivity.
    - cbn [flat_map map readHeaderSU].
      assert (Hne : exists b r, tb t ++ flat_map tb traces = b :: r).
      { destruct (tb t) as [|b r] eqn:E; [|cbn; eauto]. pose proof (tb_length t H) as L. rewrite E in L. cbn in L. lia. }
      destruct Hne as (b & r & Hne). rewrite Hne, <- Hne.
      rewrite ns_first by exact H. rewrite Z.mod_small by lia. rewrite skip_header by exact H.
      rewrite fread_first by exact H. rewrite (skipn_all2 old) by lia. rewrite app_nil_r.
      destruct H as (L & W & N). replace (Z.to_nat (4 * Z.of_nat ns)) with (length (flat_map (le 4) (snd t)))
        by (rewrite samples_length; lia).
      rewrite skipn_app, skipn_all, Nat.sub_diag. cbn [app skipn].
      rewrite IH; [reflexivity| |lia]. apply header_length, junk_len.
  Qed.
End Su.

(** ** Coordinates *)
Lemma truncQ_floor q : (0 <= q)%Q -> truncQ q = Qfloor q.
Proof.
  destruct q as [a b]. unfold truncQ, Qfloor. cbn [Qnum Qden]. intros H. apply Z.quot_div_nonneg; [|lia].
  unfold Qle in H. cbn in H. lia.
Qed.
Lemma floor_unique q x : (inject_Z x <= q)%Q -> (q < inject_Z (x + 1))%Q -> Qfloor q = x.
Proof.
  intros H1 H2. pose proof (Qfloor_le q). pose proof (Qlt_floor q).
  assert (inject_Z x < inject_Z (Qfloor q + 1))%Q by lra. assert (inject_Z (Qfloor q) < inject_Z (x + 1))%Q by lra.
  rewrite <- Zlt_Qlt in *. lia.
Qed.
Lemma trunc_unique q x : 0 <= x -> (inject_Z x <= q)%Q -> (q < inject_Z (x + 1))%Q -> truncQ q = x.
Proof.
  intros H0 H1 H2. rewrite truncQ_floor; [apply floor_unique; assumption|].
  apply Qle_trans with (inject_Z x); [|exact H1]. change 0%Q with (inject_Z 0). rewrite <- Zle_Qle. exact H0.
Qed.
Lemma round_bounds q : (0 <= q)%Q -> (inject_Z (round_half q) <= q + (1#2))%Q /\ (q - (1#2) < inject_Z (round_half q))%Q.
Proof.
  intros H. rewrite round_nonneg by exact H. pose proof (Qfloor_le (q + (1#2))). pose proof (Qlt_floor (q + (1#2))) as L.
  rewrite inject_Z_plus in L. change (inject_Z 1) with 1%Q in L. split; lra.
Qed.

Section Coord.
  Variable DH : Q.
  Hypothesis DH_mm : (1 # 1000 < DH)%Q.
  Variable x : Z.
  Hypothesis x_pos : 0 <= x.
  Let m := millimetres DH x.
  Lemma xq : (0 <= inject_Z x)%Q.
  Proof. change 0%Q with (inject_Z 0). rewrite <- Zle_Qle. exact x_pos. Qed.
  Lemma mm_bounds : (inject_Z m <= inject_Z x * DH * 1000 + (1#2))%Q /\ (inject_Z x * DH * 1000 - (1#2) < inject_Z m)%Q.
  Proof. apply round_bounds. pose proof xq. nra. Qed.
  (** the quotient the reader computes *)
  Lemma quotient : (inject_Z m * pow10 (-3) / DH == inject_Z m / (DH * 1000))%Q.
  Proof. change (pow10 (-3)) with (1 / inject_Z 1000)%Q. change (inject_Z 1000) with 1000%Q. field. lra. Qed.
  Lemma src_exact : truncQ (inject_Z m * pow10 (-3) / DH + (1#2)) = x.
  Proof.
    destruct mm_bounds as [B1 B2]. set (d := (DH * 1000)%Q). assert (Hd : (1 < d)%Q) by (unfold d; lra).
    assert (E1 : (inject_Z x * DH * 1000 == inject_Z x * d)%Q) by (unfold d; ring). rewrite E1 in B1, B2.
    assert (L1 : (inject_Z x - (1#2) <= inject_Z m / d)%Q) by 
      (apply Qle_shift_div_l; [lra|]; setoid_replace ((inject_Z x - (1#2)) * d)%Q with (inject_Z x * d - (1#2) * d)%Q by ring; lra).
    assert (L2 : (inject_Z m / d < inject_Z x + (1#2))%Q) by
      (apply Qlt_shift_div_r; [lra|]; setoid_replace ((inject_Z x + (1#2)) * d)%Q with (inject_Z x * d + (1#2) * d)%Q by ring; lra).
    apply trunc_unique; [exact x_pos| |].
    - rewrite quotient. fold d. lra.
    - rewrite quotient. fold d. rewrite inject_Z_plus. change (inject_Z 1) with 1%Q. lra.
  Qed.
  (** the receiver's coordinate is recovered exactly when rounding to millimetres did not go down *)
  Lemma rec_exact : truncQ (inject_Z m * pow10 (-3) / DH) = x <-> (inject_Z x * DH * 1000 <= inject_Z m)%Q.
  Proof.
    destruct mm_bounds as [B1 B2]. set (d := (DH * 1000)%Q). assert (Hd : (1 < d)%Q) by (unfold d; lra).
    assert (E1 : (inject_Z x * DH * 1000 == inject_Z x * d)%Q) by (unfold d; ring). rewrite E1 in *.
    assert (M0 : (0 <= inject_Z m)%Q).
    { unfold m, millimetres. change 0%Q with (inject_Z 0). rewrite <- Zle_Qle.
      pose proof xq. rewrite round_nonneg by nra. rewrite <- (Qfloor_Z 0). apply Qfloor_resp_le. change (inject_Z 0) with 0%Q. nra. }
    assert (Q0 : (0 <= inject_Z m / d)%Q) by (apply Qle_shift_div_l; lra).
    split; intros H.
    - rewrite <- H. rewrite truncQ_floor by (rewrite quotient; exact Q0).
      pose proof (Qfloor_le (inject_Z m * pow10 (-3) / DH)) as F. rewrite quotient in F at 2. fold d in F.
      set (fl := inject_Z (Qfloor (inject_Z m * pow10 (-3) / DH))) in *.
      assert (E : (inject_Z m == inject_Z m / d * d)%Q) by (field; lra). rewrite E. nra.
    - apply trunc_unique; [exact x_pos| |].
      + rewrite quotient. fold d. apply Qle_shift_div_l; lra.
      + rewrite quotient. fold d. rewrite inject_Z_plus. change (inject_Z 1) with 1%Q. apply Qlt_shift_div_r; [lra|].
        setoid_replace ((inject_Z x + 1) * d)%Q with (inject_Z x * d + d)%Q by ring. lra.
  Qed.
End Coord.

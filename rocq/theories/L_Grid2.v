(** Construction of layered grids. *)
From Verif Require Import Base M_Grid S_Grid L_Grid.

(** ** Powers of three *)
Lemma pow3_pos d : pow3 d -> 1 <= d.
Proof. intros (n&->). pose proof (Z.pow_pos_nonneg 3 (Z.of_nat n)). lia. Qed.

Lemma pow3_S d : pow3 d -> d = 1 \/ exists e, pow3 e /\ d = 3 * e.
Proof.
  intros (n&->). destruct n as [|n]; [now left|right]. exists (3 ^ Z.of_nat n). split; [now exists n|].
  rewrite Nat2Z.inj_succ, Z.pow_succ_r by lia. ring.
Qed.

Lemma pow3_mul3 d : pow3 d -> pow3 (3 * d).
Proof. intros (n&->). exists (S n). rewrite Nat2Z.inj_succ, Z.pow_succ_r by lia. ring. Qed.

Lemma pow3_odd d : pow3 d -> exists k, d = 2 * k + 1.
Proof.
  intros (n&->). induction n as [|n (k&IH)]; [now exists 0|].
  exists (3 * k + 1). rewrite Nat2Z.inj_succ, Z.pow_succ_r, IH by lia. ring.
Qed.

Lemma is_pow3_fuel_sound n d : is_pow3_fuel n d = true -> pow3 d.
Proof.
  revert d; induction n as [|n IH]; simpl; intros d H; [discriminate|].
  apply orb_true_iff in H as [H|H].
  - exists 0%nat. simpl. lia.
  - rewrite !andb_true_iff in H. destruct H as ((H1&H2)&H3). apply IH, pow3_mul3 in H3.
    replace d with (3 * Z.quot d 3); auto. pose proof (Z.quot_rem' d 3). lia.
Qed.

Lemma is_pow3_fuel_complete n d : pow3 d -> d < 2 ^ Z.of_nat n -> is_pow3_fuel n d = true.
Proof.
  revert d; induction n as [|n IH]; intros d Hp Hb; simpl.
  - apply pow3_pos in Hp. simpl in Hb. lia.
  - destruct (pow3_S _ Hp) as [->|(e&He&->)]; [reflexivity|].
    apply orb_true_iff; right. pose proof (pow3_pos _ He).
    replace (Z.quot (3 * e) 3) with e by (rewrite Z.mul_comm, Z.quot_mul; lia).
    rewrite !andb_true_iff. repeat split.
    + lia.
    + rewrite Z.mul_comm, Z.rem_mul by lia. reflexivity.
    + apply IH; auto. rewrite Nat2Z.inj_succ, Z.pow_succ_r in Hb by lia. lia.
Qed.

Lemma is_pow3_iff d : is_pow3 d = true <-> pow3 d.
Proof.
  split; [apply is_pow3_fuel_sound|]. intros H. apply is_pow3_fuel_complete; auto.
  pose proof (pow3_pos _ H). pose proof (Z.log2_spec d ltac:(lia)).
  rewrite Nat2Z.inj_succ, Z2Nat.id by apply Z.log2_nonneg. lia.
Qed.

Lemma pow3_divide d e : pow3 d -> pow3 e -> d <= e -> (d | e).
Proof.
  intros (n&->) (m&->) H.
  assert (n <= m)%nat.
  { destruct (le_lt_dec n m); auto. exfalso.
    assert (3 ^ Z.of_nat m < 3 ^ Z.of_nat n) by (apply Z.pow_lt_mono_r; lia). lia. }
  exists (3 ^ Z.of_nat (m - n)). rewrite <- Z.pow_add_r by lia. f_equal. lia.
Qed.

(** ** The largest factor *)
Lemma dh_max_spec_aux l m : fold_left (fun m d => if d >? m then d else m) l m = m \/ In (fold_left (fun m d => if d >? m then d else m) l m) l.
Proof.
  revert m; induction l as [|a l IH]; simpl; intros m; [now left|].
  destruct (IH (if a >? m then a else m)) as [H|H]; [|now right; right].
  rewrite H. destruct (a >? m); auto.
Qed.
Lemma dh_max_ub l m : m <= fold_left (fun m d => if d >? m then d else m) l m /\ forall d, In d l -> d <= fold_left (fun m d => if d >? m then d else m) l m.
Proof.
  revert m; induction l as [|a l IH]; simpl; intros m; [split; [lia|tauto]|].
  destruct (IH (if a >? m then a else m)) as (H1&H2). destruct (a >? m) eqn:E; split; try lia; intros d [->|Hd]; auto; lia.
Qed.

Lemma dh_max_is_max dhs : dhs <> [] -> (forall d, In d dhs -> 1 <= d) -> is_max (dh_max dhs) dhs.
Proof.
  intros Hne H1. destruct (dh_max_ub dhs 0) as (H0&Hu). split; [|exact Hu].
  destruct (dh_max_spec_aux dhs 0) as [E|E]; [|exact E].
  destruct dhs as [|a l]; [congruence|]. unfold dh_max in *.
  specialize (Hu a (or_introl eq_refl)). specialize (H1 a (or_introl eq_refl)). rewrite E in Hu. lia.
Qed.

(** ** Aligned chains of interfaces *)
Definition need_of (d : Z) (dhs' : list Z) := match dhs' with d' :: _ => if d <? d' then 0 else d | [] => 0 end.
Definition off_of (d : Z) (dhs' : list Z) := match dhs' with d' :: _ => if d <? d' then d' else 0 | [] => 0 end.

Fixpoint chain (base off : Z) (dhs is : list Z) : Prop :=
  match dhs, is with
  | d :: dhs', i :: is' =>
      (d | i - base) /\ off + need_of d dhs' <= i - base /\ chain i (off_of d dhs') dhs' is'
  | _, _ => True
  end.

Definition off_ok (off : Z) (dhs : list Z) := 0 <= off /\ match dhs with d :: _ => (d | off) | [] => True end.

Lemma off_of_ok d dhs : (forall e, In e dhs -> 1 <= e) -> off_ok (off_of d dhs) dhs.
Proof.
  intros H. unfold off_ok, off_of. destruct dhs as [|e l]; [split; auto; lia|].
  pose proof (H e (or_introl eq_refl)). destruct (d <? e); (split; [lia|]); auto using Z.divide_0_r, Z.divide_refl.
Qed.

Lemma need_of_div d dhs : 1 <= d -> 0 <= need_of d dhs /\ (d | need_of d dhs).
Proof.
  intros H. unfold need_of. destruct dhs as [|e l]; [split; [lia|apply Z.divide_0_r]|].
  destruct (d <? e); (split; [lia|]); auto using Z.divide_0_r, Z.divide_refl.
Qed.

Lemma align_le fuel base d i r m : 1 <= d -> align fuel base d i = Ok r -> (d | m) -> base + m <= i -> base + m <= r.
Proof.
  intros Hd H Hm Hle. destruct (align_sound _ _ _ _ _ H) as (H1&H2&H3).
  destruct (Z_lt_le_dec r (base + m)) as [Hlt|]; auto. exfalso.
  apply (H3 (base + m)); [lia|]. apply rem_0_divide; [lia|]. now replace (base + m - base) with m by ring.
Qed.

Lemma align_rest_corrected fuel base dhs is r : (forall d, In d dhs -> 1 <= d) ->
  align_rest fuel base dhs is = Ok r -> corrected base dhs is r.
Proof.
  revert base is r; induction dhs as [|d dhs IH]; intros base is r Hd H; simpl in *.
  - injection H as <-. destruct is; exact I.
  - destruct is as [|i is]; [injection H as <-; exact I|].
    apply bind_ok in H as (i'&E1&H). apply bind_ok in H as (r'&E2&H). injection H as <-.
    pose proof (Hd d (or_introl eq_refl)).
    destruct (align_sound _ _ _ _ _ E1) as (H1&H2&_). pose proof (align_gap _ _ d _ _ ltac:(lia) E1).
    split; [apply rem_0_divide in H2; [auto|lia]|]. split; [lia|]. apply IH; auto.
Qed.

Lemma align_all_rest fuel dhs is : align_all fuel dhs is = align_rest fuel 0 dhs is.
Proof. destruct dhs, is; reflexivity. Qed.

Lemma align_rest_terminates fuel base dhs is : (forall d, In d dhs -> 1 <= d <= Z.of_nat fuel) ->
  exists r, align_rest fuel base dhs is = Ok r.
Proof.
  revert base is; induction dhs as [|d dhs IH]; intros base is Hd; simpl; [eauto|].
  destruct is as [|i is]; [eauto|].
  destruct (align_terminates fuel base d i) as (r&E); [specialize (Hd d (or_introl eq_refl)); lia..|].
  rewrite E. cbn [bind]. destruct (IH r is) as (r'&E'); [intros; apply Hd; now right|].
  rewrite E'. simpl. eauto.
Qed.

Lemma corrected_length base dhs is is' : corrected base dhs is is' -> length dhs = length is -> length is' = length is.
Proof.
  revert base is is'; induction dhs as [|d dhs IH]; intros base is is' H L; destruct is, is'; simpl in *; try lia; try tauto.
  destruct H as (_&_&H). f_equal. eapply IH; [eassumption|lia].
Qed.

Lemma corrected_chain base base0 off dhs is is' : (forall d, In d dhs -> 1 <= d) -> off_ok off dhs ->
  length dhs = length is ->
  base <= base0 -> thick base0 off dhs is -> corrected base dhs is is' -> chain base off dhs is'.
Proof.
  revert base base0 off is is'; induction dhs as [|d dhs IH]; intros base base0 off is is' Hd Ho L Hb Ht Hc; [exact I|].
  destruct is as [|i is]; [discriminate|]. destruct is' as [|j is']; simpl in *; [tauto|].
  destruct Ht as (Ht1&Ht2). destruct Hc as (Hdiv&Hj&Hc). fold (need_of d dhs) in Ht1. fold (off_of d dhs) in Ht2.
  pose proof (Hd d (or_introl eq_refl)) as Hd1. destruct (need_of_div d dhs Hd1) as (Hn0&Hn).
  destruct Ho as (Ho0&Ho).
  split; [assumption|]. split.
  - (* j - base and off + need are both multiples of d, j > i - d *)
    destruct Hdiv as (a&Ha). destruct (Z.divide_add_r _ _ _ Ho Hn) as (b&Hb').
    rewrite Ha, Hb' in *. assert (b <= a) by nia. nia.
  - eapply IH; try eassumption; try lia; auto. apply off_of_ok; auto.
Qed.

Lemma thick_chain1 base off dhs is : (forall d, In d dhs -> d = 1) -> thick base off dhs is -> chain base off dhs is.
Proof.
  revert base off is; induction dhs as [|d dhs IH]; intros base off is Hd Ht; [exact I|].
  destruct is as [|i is]; [exact I|]. simpl in *. destruct Ht as (H1&H2).
  split; [rewrite (Hd d) by auto; apply Z.divide_1_l|]. split; [exact H1|]. apply IH; auto.
Qed.

(** ** Layer tables *)
Definition fits (N d : Z) : Prop := d = 1 \/ ~ (d | N).

Lemma mk_layer_ok nx nz start d en tr : 1 <= d -> 0 < nx -> 0 < nz -> start <= en ->
  exists l, mk_layer nx nz start d en tr = Ok l /\ ldh l = d /\ lstart l = start /\ lend l = en /\ ltrans l = tr /\
    lny l = (en - start) / d + 1 /\ lcnt l = lnx l * lny l * lnz l /\
    lnx l = (if d >? 1 then nx / d + 1 else nx / d) /\ lnz l = (if d >? 1 then nz / d + 1 else nz / d).
Proof.
  intros Hd Hx Hz Hs. unfold mk_layer. rewrite !cdiv_nonneg by lia. cbn [bind].
  eexists; split; [reflexivity|]. cbn. repeat split.
Qed.

Lemma fits_bounds N d n : 1 <= d -> 0 < N -> fits N d -> n = (if d >? 1 then N / d + 1 else N / d) ->
  0 < n /\ (n - 1) * d < N /\ N <= n * d.
Proof.
  intros Hd HN Hf ->. pose proof (Z.div_mod N d ltac:(lia)) as E. pose proof (Z.mod_pos_bound N d ltac:(lia)) as B.
  pose proof (Z.div_pos N d ltac:(lia) ltac:(lia)) as P.
  destruct (d >? 1) eqn:G.
  - assert (N mod d <> 0). { intros H0. destruct Hf as [|Hf]; [lia|]. apply Hf. apply Z.mod_divide; lia. }
    repeat split; nia.
  - assert (d = 1) by lia. subst d. rewrite Z.div_1_r in *. repeat split; lia.
Qed.

Lemma chain_last base off dhs is : (forall d, In d dhs -> 1 <= d) -> 0 <= off ->
  length dhs = length is -> chain base off dhs is -> base <= last is base.
Proof.
  revert base off is; induction dhs as [|d dhs IH]; intros base off is Hd Ho L Hc; destruct is as [|i is]; try discriminate; simpl in *; [lia|].
  destruct Hc as (_&H&Hc). pose proof (need_of_div d dhs (Hd d (or_introl eq_refl))).
  destruct is as [|i2 is]; [simpl in *; lia|].
  assert (Hi : i <= last (i2 :: is) i).
  { eapply IH; [| |simpl in *; lia|exact Hc]; auto. destruct (off_of_ok d dhs) as (?&?); auto. }
  assert (E : forall (l : list Z) a b c, last (a :: l) b = last (a :: l) c).
  { clear. induction l as [|x l IH]; intros a b c; [reflexivity|]. change (last (x :: l) b = last (x :: l) c). apply IH. }
  rewrite (E is i2 base i). lia.
Qed.

Lemma last_indep (l : list Z) a b c : last (a :: l) b = last (a :: l) c.
Proof. revert a; induction l as [|x l IH]; intros a; [reflexivity|]. change (last (x :: l) b = last (x :: l) c). apply IH. Qed.

Lemma build_layers_cons nx nz start d d' dhs i is : build_layers nx nz start (d :: d' :: dhs) (i :: is) =
  let '(tr, en, st') := if d <? d' then (1, i, i + d') else if d >? d' then (-1, i - d, i) else (0, i - d, i) in
  l <- mk_layer nx nz start d en tr ;; r <- build_layers nx nz st' (d' :: dhs) is ;; Ok (l :: r).
Proof. reflexivity. Qed.

Lemma build_wf nx nz NY dhs : forall base off start lo is,
  0 < nx -> 0 < nz -> (forall d, In d dhs -> 1 <= d) -> (forall d, In d dhs -> fits nx d) -> (forall d, In d dhs -> fits nz d) ->
  length dhs = length is -> off_ok off dhs -> chain base off dhs is ->
  start = base + off -> lo <= start -> 0 <= start -> last is base < NY ->
  exists ls, build_layers nx nz start dhs is = Ok ls /\ wf_layers nx NY nz lo ls /\ length ls = length dhs /\ map ldh ls = dhs.
Proof.
  induction dhs as [|d dhs IH]; intros base off start lo is Hx Hz Hd Hfx Hfz L Ho Hc Hst Hlo Hs0 HNY.
  { exists []. destruct is; simpl in *; auto. }
  destruct is as [|i is]; [discriminate|]. simpl in Hc. destruct Hc as (Hdiv&Hth&Hc).
  pose proof (Hd d (or_introl eq_refl)) as Hd1. destruct (need_of_div d dhs Hd1) as (Hn0&Hn). destruct Ho as (Ho0&Ho).
  pose proof (Hfx d (or_introl eq_refl)) as Hfx1. pose proof (Hfz d (or_introl eq_refl)) as Hfz1.
  assert (Hil : i <= last (i :: is) base).
  { destruct is as [|i2 is]; [simpl; lia|]. change (last (i :: i2 :: is) base) with (last (i2 :: is) base).
    rewrite (last_indep is i2 base i). apply (chain_last i (off_of d dhs) dhs); [intros; apply Hd; now right| |simpl in *; lia|exact Hc].
    destruct (off_of_ok d dhs); auto. intros; apply Hd; now right. }
  assert (W : forall en tr ls', start <= en -> en <= i -> (d | en - start) -> wf_layers nx NY nz (en + 1) ls' ->
     exists l, mk_layer nx nz start d en tr = Ok l /\ ldh l = d /\ wf_layers nx NY nz lo (l :: ls')).
  { intros en tr ls' H1 H2 H3 H4.
    destruct (mk_layer_ok nx nz start d en tr Hd1 Hx Hz H1) as (l&El&E1&E2&E3&E4&E5&E6&E7&E8).
    destruct (fits_bounds nx d (lnx l) Hd1 Hx Hfx1 E7) as (B1&B2&B3).
    destruct (fits_bounds nz d (lnz l) Hd1 Hz Hfz1 E8) as (C1&C2&C3).
    exists l. split; [assumption|]. split; [assumption|]. simpl. rewrite E1, E2, E3.
    assert (En : en - start = (lny l - 1) * d).
    { rewrite E5. destruct H3 as (k&Hk). rewrite Hk, Z.div_mul by lia. ring. }
    assert (0 < lny l). { rewrite E5. pose proof (Z.div_pos (en - start) d ltac:(lia) ltac:(lia)). lia. }
    repeat split; try assumption; try lia. }
  assert (Hoff : 0 <= off_of d dhs). { destruct (off_of_ok d dhs); auto. intros; apply Hd; now right. }
  assert (Div : (d | i - start)). { rewrite Hst. replace (i - (base + off)) with (i - base - off) by ring. apply Z.divide_sub_r; auto. }
  destruct dhs as [|d' dhs].
  - unfold need_of in Hth. destruct (W i 0 []) as (l&El&Ed&Wl); [lia|lia|assumption|exact I|].
    exists [l]. split; [cbn [build_layers]; now rewrite El|]. split; [exact Wl|]. split; [reflexivity|]. now rewrite <- Ed.
  - assert (R : exists st' en tr, (if d <? d' then (1, i, i + d') else if d >? d' then (-1, i - d, i) else (0, i - d, i)) = (tr, en, st') /\
        st' = i + off_of d (d' :: dhs) /\ en = i - need_of d (d' :: dhs) /\ en < st').
    { unfold need_of, off_of. pose proof (Hd d' (or_intror (or_introl eq_refl))).
      destruct (d <? d') eqn:E1; [|destruct (d >? d') eqn:E2]; do 3 eexists; repeat split; lia. }
    destruct R as (st'&en&tr&ER&Est&Een&Hlt).
    destruct (IH i (off_of d (d' :: dhs)) st' (en + 1) is) as (ls&El&Wls&Ll&Dl); auto; try lia.
    + intros; apply Hd; now right.
    + intros; apply Hfx; now right.
    + intros; apply Hfz; now right.
    + apply off_of_ok. intros; apply Hd; now right.
    + destruct is as [|i2 is]; [discriminate|]. rewrite (last_indep is i2 i base). exact HNY.
    + destruct (W en tr ls) as (l&Elx&Ed&Wl); auto; try lia.
      { rewrite Een. replace (i - need_of d (d' :: dhs) - start) with (i - start - need_of d (d' :: dhs)) by ring.
        apply Z.divide_sub_r; auto. }
      exists (l :: ls). split; [|split; [exact Wl|split; [simpl; now rewrite Ll|simpl; now rewrite Ed, Dl]]].
      rewrite build_layers_cons, ER, Elx. cbn [bind]. now rewrite El.
Qed.

(** the reduced widths are not divisible by any factor *)
Lemma reduced_fits dm d N : pow3 dm -> pow3 d -> d <= dm -> 0 <= N -> Z.rem N dm = 1 + Z.quot dm 2 -> fits N d.
Proof.
  intros Hm Hd Hle HN Hr. destruct (Z.eq_dec d 1) as [->|Hne]; [now left|right].
  intros (k&Hk). destruct (pow3_divide d dm Hd Hm Hle) as (m&Hm').
  destruct (pow3_odd dm Hm) as (h&Hh). pose proof (pow3_pos _ Hm). pose proof (pow3_pos _ Hd).
  rewrite Z.quot_div_nonneg in Hr by lia.
  assert (Hq : dm / 2 = h). { symmetry. apply Z.div_unique with (r := 1); lia. }
  rewrite Hq in Hr. pose proof (Z.quot_rem' N dm) as E. rewrite Hr in E. set (q := Z.quot N dm) in *.
  (* 2N = (2q+1) dm + 1 *)
  assert (E2 : 1 = 2 * N - (2 * q + 1) * dm) by lia.
  assert (D1 : (d | 1)). { rewrite E2. apply Z.divide_sub_r.
    - exists (2 * k). rewrite Hk. ring.
    - exists ((2 * q + 1) * m). rewrite Hm'. ring. }
  apply Z.divide_1_r_nonneg in D1; lia.
Qed.

Lemma reduced_pos d N r fuel : 3 <= d -> 0 < N -> reduceN fuel d N = Ok r -> 0 < r.
Proof.
  intros Hd HN H. destruct (reduceN_sound _ _ _ _ H) as (H1&H2&_).
  assert (0 <= Z.quot d 2) by (apply Z.quot_pos; lia).
  destruct (Z_lt_le_dec 0 r); auto. exfalso.
  pose proof (Z.rem_nonpos r d ltac:(lia) ltac:(lia)). lia.
Qed.

(** What the fuel has to be: the loops stop after at most dhMax steps. *)
Definition enough (fuel : nat) (dhs : list Z) := forall d, In d dhs -> d <= Z.of_nat fuel.

Definition shrink (fuel : nat) (dhs itf : list Z) (nx nz : Z) : res (Z * Z * list Z) :=
  if dh_max dhs =? 1 then Ok (nx, nz, itf)
  else nx' <- reduceN fuel (dh_max dhs) nx ;;
       nz' <- (if nz =? 1 then Ok nz else reduceN fuel (dh_max dhs) nz) ;;
       itf' <- align_all fuel dhs itf ;;
       Ok (nx', nz', itf').
Definition finish (dhs : list Z) (t : Z * Z * list Z) : res grid :=
  let '(nx', nz', itf') := t in
  ls <- build_layers nx' nz' 0 dhs itf' ;;
  Ok (mkG nx' (last itf' 0 + 1) nz' (length dhs) (zsum (map lcnt ls)) ls (-1 :: itf')).

Lemma init_variable_unfold fuel nx ny nz dhs ifs :
  (forall d, In d dhs -> pow3 d) -> length dhs = S (length ifs) -> 0 < nx -> 0 < ny -> 0 < nz ->
  init_variable fuel nx ny nz dhs ifs = bind (shrink fuel dhs (ifs ++ [ny - 1]) nx nz) (finish dhs).
Proof.
  intros Hp L Hx Hy Hz. unfold init_variable.
  replace (negb (Nat.eqb (length dhs) 0)) with true by (rewrite L; reflexivity).
  replace (Nat.eqb (length ifs) (length dhs - 1)) with true by (rewrite L; symmetry; apply Nat.eqb_eq; lia).
  replace (0 <? nx) with true by lia. replace (0 <? ny) with true by lia. replace (0 <? nz) with true by lia.
  cbn [assert bind].
  replace (forallb dh_accepted dhs) with true.
  2:{ symmetry. apply forallb_forall. intros d Hd. unfold dh_accepted. rewrite (proj2 (is_pow3_iff d)); auto. apply orb_true_r. }
  replace (existsb (Z.eqb 0) dhs) with false.
  2:{ symmetry. apply not_true_is_false. intros H. apply existsb_exists in H as (d&Hd&E).
      apply Hp, pow3_pos in Hd. lia. }
  cbn [assert bind]. reflexivity.
Qed.

Lemma init_variable_ok fuel nx ny nz dhs ifs : good_request nx ny nz dhs ifs -> enough fuel dhs ->
  exists g, init_variable fuel nx ny nz dhs ifs = Ok g /\ wf g /\ map ldh (layers g) = dhs /\
    0 < gNX g <= nx /\ 0 < gNZ g <= nz /\
    (forall dm, is_max dm dhs -> nx - dm < gNX g /\ nz - dm < gNZ g) /\
    exists itf, interface g = -1 :: itf /\ gNY g = last itf 0 + 1 /\ corrected 0 dhs (ifs ++ [ny - 1]) itf /\
      build_layers (gNX g) (gNZ g) 0 dhs itf = Ok (layers g) /\ chain 0 0 dhs itf /\ length itf = length dhs.
Proof.
  intros (Hp&L&Hx&Hy&Hz&Hw&Ht) Hf.
  rewrite init_variable_unfold by assumption.
  assert (Hd1 : forall d, In d dhs -> 1 <= d) by (intros; apply pow3_pos; auto).
  assert (Hne : dhs <> []) by (intros ->; discriminate).
  assert (L' : length dhs = length (ifs ++ [ny - 1])) by (rewrite app_length; simpl; lia).
  pose proof (dh_max_is_max dhs Hne Hd1) as (Mi&Mu).
  pose proof (Hp _ Mi) as Hpm. pose proof (pow3_pos _ Hpm) as Hm1.
  assert (Off0 : off_ok 0 dhs). { split; [lia|]. destruct dhs; auto. apply Z.divide_0_r. }
  assert (S : exists nx' nz' itf, shrink fuel dhs (ifs ++ [ny - 1]) nx nz = Ok (nx', nz', itf) /\
     0 < nx' <= nx /\ 0 < nz' <= nz /\ nx - dh_max dhs < nx' /\ nz - dh_max dhs < nz' /\
     (forall d, In d dhs -> fits nx' d) /\ (forall d, In d dhs -> fits nz' d) /\
     corrected 0 dhs (ifs ++ [ny - 1]) itf /\ chain 0 0 dhs itf /\ length itf = length dhs).
  { unfold shrink. destruct (dh_max dhs =? 1) eqn:Em.
    - exists nx, nz, (ifs ++ [ny - 1]). split; [reflexivity|].
      assert (H1 : forall d, In d dhs -> d = 1). { intros d Hd. specialize (Hd1 d Hd). specialize (Mu d Hd). lia. }
      split; [lia|]. split; [lia|]. split; [lia|]. split; [lia|].
      split; [intros d Hd; left; auto|]. split; [intros d Hd; left; auto|].
      split; [|split; [now apply thick_chain1|lia]].
      assert (G : forall base ds is, (forall d, In d ds -> d = 1) -> length ds = length is -> corrected base ds is is).
      { clear. intros base ds; revert base; induction ds as [|d ds IH]; intros base is H L; destruct is; simpl in *; try discriminate; auto.
        rewrite (H d) by auto. split; [apply Z.divide_1_l|]. split; [lia|]. apply IH; auto. }
      apply G; auto.
    - assert (Hm3 : 3 <= dh_max dhs).
      { destruct (pow3_S _ Hpm) as [E|(e&He&E)]; [lia|]. apply pow3_pos in He. lia. }
      destruct (Hw _ Mi) as (Hwx&Hwz).
      assert (Hfm : (Z.to_nat (dh_max dhs) <= fuel)%nat). { specialize (Hf _ Mi). lia. }
      destruct (reduceN_terminates (dh_max dhs) nx) as (nx'&Ex); [lia|rewrite Z.quot_div_nonneg by lia; lia|].
      apply (reduceN_more_fuel _ _ fuel) in Ex; [|exact Hfm]. rewrite Ex. cbn [bind].
      destruct (reduceN_sound _ _ _ _ Ex) as (X1&X2&X3).
      pose proof (reduced_pos _ _ _ _ Hm3 Hx Ex) as X4.
      assert (Hgap : forall N r, reduceN fuel (dh_max dhs) N = Ok r -> 0 < r -> N - dh_max dhs < r).
      { intros N r E Hr. destruct (reduceN_sound _ _ _ _ E) as (Y1&Y2&Y3).
        destruct (Z_lt_le_dec (N - dh_max dhs) r) as [|Hle]; auto. exfalso.
        apply (Y3 (r + dh_max dhs)); [lia|]. rewrite <- Y2.
        replace (r + dh_max dhs) with (r + 1 * dh_max dhs) by ring. clear - Hr Hm3. apply Z.rem_add; [lia|apply Z.mul_nonneg_nonneg; lia]. }
      assert (Z' : exists nz', (if nz =? 1 then Ok nz else reduceN fuel (dh_max dhs) nz) = Ok nz' /\ 0 < nz' <= nz /\
          nz - dh_max dhs < nz' /\ (forall d, In d dhs -> fits nz' d)).
      { destruct (nz =? 1) eqn:E1.
        - exists nz. repeat split; try lia. intros d Hd. destruct (Z.eq_dec d 1); [now left|right].
          intros Hdiv. replace nz with 1 in Hdiv by lia. apply Z.divide_1_r_nonneg in Hdiv; [lia|]. specialize (Hd1 d Hd). lia.
        - destruct (reduceN_terminates (dh_max dhs) nz) as (nz'&Ez); [lia|rewrite Z.quot_div_nonneg by lia; lia|].
          apply (reduceN_more_fuel _ _ fuel) in Ez; [|exact Hfm]. exists nz'.
          destruct (reduceN_sound _ _ _ _ Ez) as (Z1&Z2&Z3). pose proof (reduced_pos _ _ _ _ Hm3 Hz Ez) as Z4.
          split; [exact Ez|]. split; [lia|]. split; [eapply Hgap; eauto|].
          intros d Hd. eapply reduced_fits; eauto; lia. }
      destruct Z' as (nz'&Ez&Z1&Z2&Z3). rewrite Ez. cbn [bind].
      rewrite align_all_rest. destruct (align_rest_terminates fuel 0 dhs (ifs ++ [ny - 1])) as (itf&Ei); [intros; split; auto|].
      rewrite Ei. cbn [bind]. exists nx', nz', itf. split; [reflexivity|].
      pose proof (align_rest_corrected _ _ _ _ _ Hd1 Ei) as Hc.
      split; [lia|]. split; [lia|]. split; [eapply Hgap; eauto|]. split; [lia|].
      split; [intros d Hd; eapply reduced_fits; eauto; lia|]. split; [exact Z3|]. split; [exact Hc|].
      split; [|rewrite (corrected_length _ _ _ _ Hc); lia].
      eapply corrected_chain; eauto; lia. }
  destruct S as (nx'&nz'&itf&Es&S1&S2&S3&S4&S5&S6&S7&S8&S9). rewrite Es. cbn [bind].
  destruct (build_wf nx' nz' (last itf 0 + 1) dhs 0 0 0 0 itf) as (ls&El&Wl&Ll&Dl); auto; try lia.
  unfold finish. rewrite El. cbn [bind]. eexists. split; [reflexivity|].
  split; [unfold wf; cbn; repeat split; auto|]. cbn.
  split; [assumption|]. split; [assumption|]. split; [assumption|].
  split. { intros dm (M1&M2). assert (dm = dh_max dhs) by (specialize (M2 _ Mi); specialize (Mu _ M1); lia). subst; lia. }
  exists itf. repeat split; auto.
Qed.

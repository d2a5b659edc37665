(** Lemmas about reading columns of integers (C167) and about the setup of the derivatives (C168). *)
From Coq Require Import Ascii String.
From Verif Require Import Base M_Grid M_Deriv M_Acq M_Conf S_Acq L_AcqFile M_GridFile S_GridFile.
Open Scope Z_scope.

Lemma skip_digits_app ds v rest : decimal ds v -> (forall c r d, rest = c :: r -> ~ is_digit c d) ->
  skip_digits (ds ++ rest) = rest.
Proof.
  intros H Hr. induction H as [|c d l v Hd _ IH].
  - destruct rest as [|c r]; [reflexivity|]. cbn. destruct (isdigit c) eqn:E; [|reflexivity].
    exfalso. exact (Hr c r _ eq_refl (isdigit_spec c E)).
  - cbn [app skip_digits]. rewrite (proj1 (isdigit_of c d Hd)). exact IH.
Qed.

Lemma sign_not_space : ~ space "-"%char /\ ~ space "+"%char.
Proof. split; apply isspace_false; reflexivity. Qed.
Lemma digit_not_space c d : is_digit c d -> ~ space c.
Proof.
  intros [H1 H2]. apply isspace_false. unfold isspace.
  assert (48 <= nat_of_ascii c <= 57)%nat by lia.
  destruct (Nat.eqb_spec (nat_of_ascii c) 32); [lia|].
  destruct (Nat.leb_spec 9 (nat_of_ascii c)), (Nat.leb_spec (nat_of_ascii c) 13); cbn; lia || reflexivity.
Qed.

Lemma read_whole t n rest : whole_int t n -> (forall c r d, rest = c :: r -> ~ is_digit c d) ->
  read_int (t ++ rest) = Some (n, rest).
Proof.
  intros (sign & ds & v & -> & Hds & Hv & Hsign & Hr) Hrest.
  assert (Hp : exists sg, skip_space ((sign ++ ds) ++ rest) = ((sign ++ ds) ++ rest)%list /\
      split_sign ((sign ++ ds) ++ rest) = (sg, (ds ++ rest)%list) /\ n = sg * v).
  { inversion Hv as [|c d l v' Hd Hl Ev E2]; [subst; contradiction|].
    assert (E1 : (c :: l)%list = ds) by assumption. 
    destruct Hsign as [[-> En]|[[-> En]|[-> En]]].
    - exists 1. subst ds. cbn [app]. split; [|split; [|lia]].
      + cbn [skip_space]. rewrite (proj2 (isspace_false c) (digit_not_space c d Hd)). reflexivity.
      + unfold split_sign. destruct (digit_not_sign c d Hd) as [A B]. rewrite A, B. reflexivity.
    - exists 1. split; [reflexivity|]. split; [reflexivity|lia].
    - exists (-1). split; [reflexivity|]. split; [reflexivity|lia]. }
  destruct Hp as (sg & E1 & E2 & En). unfold read_int. rewrite E1, E2.
  rewrite (starts_digit_dec ds v rest Hv Hds), (digits_val_app ds v Hv rest 0 Hrest), (skip_digits_app ds v rest Hv Hrest).
  replace (sg * (0 * 10 ^ Z.of_nat (List.length ds) + v)) with n by (rewrite En; ring).
  change (2 ^ 31) with 2147483648 in Hr. replace ((-2147483648 <=? n) && (n <=? 2147483647)) with true by lia. reflexivity.
Qed.

Lemma space_not_digit c d : space c -> ~ is_digit c d.
Proof. intros H K. exact (digit_not_space c d K H). Qed.

Lemma ints_blank n l : fields l [] -> read_ints_loop n l = [].
Proof.
  intros H. destruct n; [reflexivity|]. cbn [read_ints_loop].
  assert (E : skip_space l = []).
  { remember (@nil str) as ts. induction H as [|c l ts Hc _ IH| |]; try discriminate; [reflexivity|].
    cbn [skip_space]. rewrite (proj2 (isspace_spec c) Hc). auto. }
  unfold read_int. rewrite E. reflexivity.
Qed.

Lemma ints_begin l ts : fields l ts -> forall ts1 more ns n, ts = (ts1 ++ more)%list -> Forall2 whole_int ts1 ns ->
  (List.length l <= n)%nat -> exists ms, read_ints_loop n l = (ns ++ ms)%list /\ (more = [] -> ms = []).
Proof.
  induction 1 as [|c l ts Hc Hl IH|t Ht Hn|t c l ts Ht Hn Hc Hl IH]; intros ts1 more ns n E HF Hlen.
  - destruct ts1; [|discriminate]. inversion HF; subst. exists []. split; [|reflexivity].
    rewrite ints_blank; [reflexivity|constructor].
  - destruct n as [|n]; [cbn in Hlen; lia|].
    destruct (IH ts1 more ns (S n) E HF) as (ms & E1 & E2); [cbn in Hlen; lia|].
    exists ms. split; [|exact E2]. rewrite <- E1. cbn [read_ints_loop]. unfold read_int. cbn [skip_space].
    rewrite (proj2 (isspace_spec c) Hc). reflexivity.
  - destruct ts1 as [|t1 ts1].
    + inversion HF; subst. eexists. split; [reflexivity|]. intros K. rewrite K in E. discriminate.
    + inversion E; subst. destruct ts1; [|discriminate]. destruct more; [|discriminate].
      inversion HF as [|? m ? ms Hw HF']; subst. inversion HF'; subst.
      destruct n as [|n]; [destruct t1; [contradiction|cbn in Hlen; lia]|].
      exists []. split; [|reflexivity]. cbn [read_ints_loop]. rewrite <- (app_nil_r t1), (read_whole t1 m []) by (exact Hw || discriminate).
      rewrite ints_blank; [reflexivity|constructor].
  - destruct ts1 as [|t1 ts1].
    + inversion HF; subst. eexists. split; [reflexivity|]. intros K. rewrite K in E. discriminate.
    + inversion E; subst. inversion HF as [|? m ? ms Hw HF']; subst.
      rewrite app_length in Hlen. cbn [List.length] in Hlen.
      destruct n as [|n]; [lia|]. cbn [read_ints_loop].
      rewrite (read_whole t1 m (c :: l)); [|exact Hw|intros c' r d E'; inversion E'; subst; now apply space_not_digit].
      destruct n as [|n]; [destruct t1; [contradiction|cbn in Hlen; lia]|].
      destruct (IH ts1 more ms (S n) eq_refl HF') as (ms' & E1 & E2); [destruct t1; [contradiction|cbn in Hlen; lia]|].
      exists ms'. split; [|exact E2]. rewrite <- app_comm_cons, <- E1. f_equal. cbn [read_ints_loop]. unfold read_int. cbn [skip_space].
      rewrite (proj2 (isspace_spec c) Hc). reflexivity.
Qed.

Lemma begins_ints l ns : begins_with l ns -> exists ms, read_ints l = (ns ++ ms)%list.
Proof.
  intros (ts & more & Hf & HF). destruct (ints_begin l _ Hf ts more ns (List.length l) eq_refl HF ltac:(lia)) as (ms & E & _).
  exists ms. exact E.
Qed.
Lemma consists_ints l ns : consists_of l ns -> read_ints l = ns.
Proof.
  intros (ts & Hf & HF).
  destruct (ints_begin l ts Hf ts [] ns (List.length l)) as (ms & E & K); [now rewrite app_nil_r|exact HF|lia|].
  unfold read_ints. rewrite E, (K eq_refl), app_nil_r. reflexivity.
Qed.

Lemma vget_nth {A} (l : list A) k a : nth_error l k = Some a -> vget l (Z.of_nat k) = Ok a.
Proof.
  intros H. unfold vget. replace (Z.of_nat k <? 0) with false by lia. rewrite Nat2Z.id, H. reflexivity.
Qed.

Lemma column_loop ls dl : select data_line ls dl -> forall vs c values, Forall2 (column_of c) dl vs ->
  read_column_loop ls values c = Ok (values ++ vs)%list.
Proof.
  induction 1 as [|l ls dl Hl _ IH|l ls dl Hl _ IH]; intros vs c values HF; cbn [read_column_loop].
  - inversion HF; subst. now rewrite app_nil_r.
  - rewrite (proj2 (skipped_spec l) Hl). inversion HF as [|? v ? vs' (ns & Hb & Hn) HF']; subst.
    destruct (begins_ints l ns Hb) as (ms & E).
    assert (E2 : nth_error (read_ints l) c = Some v).
    { rewrite E, nth_error_app1; [exact Hn|]. apply nth_error_Some. congruence. }
    assert (E3 : (c < List.length (read_ints l))%nat) by (apply nth_error_Some; congruence).
    replace (Nat.ltb (List.length (read_ints l)) (c + 1)) with false by (symmetry; apply Nat.ltb_ge; lia).
    rewrite (vget_nth _ _ _ E2). cbn [bind]. rewrite (IH vs' c _ HF'), <- app_assoc. reflexivity.
  - destruct (skipped l) eqn:E; [now apply IH|]. exfalso. apply Hl, skipped_spec, E.
Qed.

Lemma column_clean ls values c : clean (read_column_loop ls values c).
Proof.
  revert values. induction ls as [|l ls IH]; intros values; cbn [read_column_loop]; [apply clean_ok|].
  destruct (skipped l); [apply IH|].
  destruct (Nat.ltb_spec (List.length (read_ints l)) (c + 1)) as [H|H]; [right; reflexivity|].
  destruct (nth_error (read_ints l) c) as [v|] eqn:E.
  - rewrite (vget_nth _ _ _ E). cbn [bind]. apply IH.
  - apply nth_error_None in E. lia.
Qed.

Lemma column_short ls dl l ns c values : select data_line ls dl -> In l dl -> consists_of l ns -> (List.length ns <= c)%nat ->
  read_column_loop ls values c = Throw.
Proof.
  intros Hs. revert values. induction Hs as [|a ls dl Ha Hs IH|a ls dl Ha Hs IH]; intros values Hin Hc Hn; [destruct Hin| |].
  - cbn [read_column_loop]. rewrite (proj2 (skipped_spec a) Ha).
    destruct (Nat.ltb_spec (List.length (read_ints a)) (c + 1)) as [H|H]; [reflexivity|].
    destruct Hin as [<-|Hin].
    + rewrite (consists_ints a ns Hc) in H. lia.
    + destruct (nth_error (read_ints a) c) as [v|] eqn:E; [|apply nth_error_None in E; lia].
      rewrite (vget_nth _ _ _ E). cbn [bind]. now apply IH.
  - cbn [read_column_loop]. destruct (skipped a) eqn:E; [now apply IH|].
    exfalso. apply Ha, skipped_spec, E.
Qed.

(** every line gives a number or the whole file is refused *)
Lemma column_length ls dl : select data_line ls dl -> forall c values out, read_column_loop ls values c = Ok out ->
  exists vs, out = (values ++ vs)%list /\ List.length vs = List.length dl.
Proof.
  induction 1 as [|l ls dl Hl _ IH|l ls dl Hl _ IH]; intros c values out; cbn [read_column_loop].
  - intros H. inversion H; subst. exists []. now rewrite app_nil_r.
  - rewrite (proj2 (skipped_spec l) Hl).
    destruct (Nat.ltb (List.length (read_ints l)) (c + 1)); [discriminate|].
    destruct (vget (read_ints l) (Z.of_nat c)) as [v| | |]; cbn [bind]; try discriminate. intros H.
    destruct (IH c _ _ H) as (vs & -> & E). exists (v :: vs). rewrite <- app_assoc. split; [reflexivity|cbn; lia].
  - destruct (skipped l) eqn:E; [apply IH|]. exfalso. apply Hl, skipped_spec, E.
Qed.

Lemma data_lines_get content dl : data_lines content dl -> select data_line (getlines content) dl.
Proof. intros (ls & H1 & H2). rewrite (getlines_spec content ls H1). exact H2. Qed.

Lemma select_det {A} (P : A -> Prop) l a : select P l a -> forall b, select P l b -> a = b.
Proof.
  induction 1 as [|x l a Hx _ IH|x l a Hx _ IH]; intros b Hb; inversion Hb; subst; try contradiction; try reflexivity.
  - f_equal. now apply IH.
  - now apply IH.
Qed.
Lemma select_ex ls : exists dl, select data_line ls dl.
Proof.
  induction ls as [|l ls (dl & H)]; [exists []; constructor|].
  destruct (skipped l) eqn:E.
  - exists dl. apply select_drop; [|exact H]. intros K. apply skipped_spec in K. congruence.
  - exists (l :: dl). apply select_keep; [|exact H]. now apply skipped_spec.
Qed.

(** grids *)
Lemma increase_spec l : interfaces_increase l = true <-> increasing l.
Proof.
  induction l as [|a [|b l] IH].
  - split; [|reflexivity]. intros _ k x y H. destruct k; discriminate.
  - split; [|reflexivity]. intros _ [|k] x y H1 H2; cbn in H2; [discriminate|]. destruct k; discriminate.
  - cbn [interfaces_increase]. rewrite andb_true_iff. rewrite IH. split.
    + intros [H1 H2] [|k] x y Hx Hy; [cbn in Hx, Hy; inversion Hx; inversion Hy; subst; lia|exact (H2 k x y Hx Hy)].
    + intros H. split; [specialize (H 0%nat a b eq_refl eq_refl); lia|]. intros k x y Hx Hy. exact (H (S k) x y Hx Hy).
Qed.
Lemma factor_one a b : 0 < a -> 0 < b -> (exists n, a = 3 ^ Z.of_nat n) -> ((b =? a * 3) || (b =? Z.quot a 3) || (b =? a) = true <-> b = a \/ b = 3 * a \/ a = 3 * b).
Proof.
  intros Ha Hb (n & En). destruct n as [|n].
  - cbn in En. subst a. change (Z.quot 1 3) with 0. lia.
  - rewrite Nat2Z.inj_succ, Z.pow_succ_r in En by lia. rewrite En at 2.
    replace (3 * 3 ^ Z.of_nat n) with (3 ^ Z.of_nat n * 3) by ring. rewrite Z.quot_mul by lia. lia.
Qed.
Lemma factors_spec l : Forall (fun d => exists n, d = 3 ^ Z.of_nat n) l -> (factors_match l = true <-> factor_three l).
Proof.
  induction l as [|a [|b l] IH]; intros HF.
  - split; [|reflexivity]. intros _ k x y H. destruct k; discriminate.
  - split; [|reflexivity]. intros _ [|k] x y H1 H2; cbn in H2; [discriminate|]. destruct k; discriminate.
  - cbn [factors_match]. rewrite andb_true_iff. inversion HF as [|? ? Ha HF']; subst. rewrite (IH HF').
    assert (Hb : exists n, b = 3 ^ Z.of_nat n) by (inversion HF'; assumption).
    rewrite factor_one; [| |destruct Hb as (k & ->); apply Z.pow_pos_nonneg; lia|exact Ha].
    2:{ destruct Ha as (k & ->). apply Z.pow_pos_nonneg; lia. }
    split.
    + intros [H1 H2] [|k] x y Hx Hy; [cbn in Hx, Hy; inversion Hx; inversion Hy; subst; exact H1|exact (H2 k x y Hx Hy)].
    + intros H. split; [exact (H 0%nat a b eq_refl eq_refl)|]. intros k x y Hx Hy. exact (H (S k) x y Hx Hy).
Qed.

Lemma align_rest_length fuel : forall dhs prev is js, align_rest fuel prev dhs is = Ok js -> List.length dhs = List.length is ->
  List.length js = List.length is.
Proof.
  induction dhs as [|d dhs IH]; intros prev [|i is] js H E; try discriminate; cbn [align_rest] in H.
  - now inversion H.
  - destruct (align fuel prev d i) as [i'| | |]; cbn [bind] in H; try discriminate.
    destruct (align_rest fuel i' dhs is) as [r| | |] eqn:Er; cbn [bind] in H; try discriminate. inversion H; subst. cbn.
    rewrite (IH i' is r Er); [reflexivity|]. now inversion E.
Qed.
Lemma align_all_length fuel dhs is js : align_all fuel dhs is = Ok js -> List.length dhs = List.length is ->
  List.length js = List.length is.
Proof.
  destruct dhs as [|d dhs], is as [|i is]; intros H E; try discriminate; cbn [align_all] in H.
  - now inversion H.
  - destruct (align fuel 0 d i) as [i'| | |]; cbn [bind] in H; try discriminate.
    destruct (align_rest fuel i' dhs is) as [r| | |] eqn:Er; cbn [bind] in H; try discriminate. inversion H; subst. cbn.
    rewrite (align_rest_length fuel dhs i' is r Er); [reflexivity|]. now inversion E.
Qed.
Lemma init_variable_shape fuel nx ny nz dhs ifs g : init_variable fuel nx ny nz dhs ifs = Ok g ->
  numLayers g = List.length dhs /\ List.length (interface g) = S (S (List.length ifs)) /\ List.length dhs = S (List.length ifs).
Proof.
  unfold init_variable. unfold assert.
  destruct (Nat.eqb_spec (List.length dhs) 0) as [|H0]; cbn [negb bind]; [discriminate|].
  destruct (Nat.eqb_spec (List.length ifs) (List.length dhs - 1)) as [H1|]; cbn [bind]; [|discriminate].
  do 3 (destruct (0 <? _); cbn [bind]; [|discriminate]).
  destruct (forallb dh_accepted dhs); cbn [bind]; [|discriminate].
  destruct (existsb (Z.eqb 0) dhs); [discriminate|].
  assert (Hl : List.length dhs = List.length (ifs ++ [ny - 1])) by (rewrite app_length; cbn; lia).
  destruct (dh_max dhs =? 1); cbn [bind].
  - destruct (build_layers _ _ _ _ _) as [ls| | |]; cbn [bind]; try discriminate. intros H. inversion H; subst. cbn.
    rewrite app_length. cbn. lia.
  - destruct (reduceN fuel (dh_max dhs) nx) as [nx'| | |]; cbn [bind]; try discriminate.
    destruct (if nz =? 1 then Ok nz else reduceN fuel (dh_max dhs) nz) as [nz'| | |]; cbn [bind]; try discriminate.
    destruct (align_all fuel dhs (ifs ++ [ny - 1])) as [itf| | |] eqn:E; cbn [bind]; try discriminate.
    destruct (build_layers _ _ _ _ _) as [ls| | |]; cbn [bind]; try discriminate. intros H. inversion H; subst. cbn.
    rewrite (align_all_length fuel dhs _ itf E Hl), app_length. cbn. lia.
Qed.

Lemma moved_spec new : forall ifs i, 0 <= i -> i + 1 + Z.of_nat (List.length ifs) <= Z.of_nat (List.length new) ->
  exists m, moved_interfaces i ifs new = Ok m /\
    forall k y n, In (k, y, n) m <-> exists j, k = i + 1 + Z.of_nat j /\ nth_error ifs j = Some y /\
      nth_error new (Z.to_nat k) = Some n /\ y <> n.
Proof.
  induction ifs as [|y ifs IH]; intros i Hi Hlen; cbn [moved_interfaces].
  - exists []. split; [reflexivity|]. intros k a n. split; [intros []|]. intros (j & _ & H & _). destruct j; discriminate.
  - cbn [List.length] in Hlen. destruct (nth_error new (Z.to_nat (i + 1))) as [n|] eqn:E.
    2:{ apply nth_error_None in E. lia. }
    replace (vget new (i + 1)) with (Ok n).
    2:{ symmetry. rewrite <- (Z2Nat.id (i + 1)) by lia. now apply vget_nth. }
    cbn [bind]. destruct (IH (i + 1)) as (m & -> & Hm); [lia|lia|]. cbn [bind]. eexists. split; [reflexivity|].
    intros k a b. destruct (Z.eqb_spec y n) as [Ey|Ey]; cbn [negb].
    + rewrite Hm. split.
      * intros (j & Ek & H1 & H2 & H3). exists (S j). split; [lia|]. split; [exact H1|]. now split.
      * intros ([|j] & Ek & H1 & H2 & H3).
        { exfalso. cbn in H1. inversion H1; subst. replace (i + 1 + Z.of_nat 0) with (i + 1) in H2 by lia. congruence. }
        exists j. split; [lia|]. split; [exact H1|]. now split.
    + cbn [In]. rewrite Hm. split.
      * intros [K|(j & Ek & H1 & H2 & H3)].
        { inversion K; subst. exists 0%nat. split; [lia|]. split; [reflexivity|]. split; [exact E|exact Ey]. }
        exists (S j). split; [lia|]. split; [exact H1|]. now split.
      * intros ([|j] & Ek & H1 & H2 & H3).
        { left. cbn in H1. inversion H1; subst. replace (i + 1 + Z.of_nat 0) with (i + 1) in * by lia.
          rewrite E in H2. inversion H2; subst. reflexivity. }
        right. exists j. split; [lia|]. split; [exact H1|]. now split.
Qed.

Lemma supported_spec p : supported p = true <-> known_order p.
Proof. unfold supported, known_order. cbn [In]. lia. Qed.

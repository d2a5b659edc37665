(** C167: the grid configuration file.  C168: setup of the derivatives. *)
From Coq Require Import Ascii String.
From Verif Require Import Base M_Grid M_Deriv M_Acq M_Conf S_Acq S_Grid L_AcqFile M_GridFile S_GridFile L_GridFile P_Grid L_Conf.
Open Scope Z_scope.

(** ** C167 *)
(** If column c of every data line is an integer (and the columns before it too), exactly these integers are appended, in order,
    whatever comments, blank lines and further columns the file has. *)
Theorem C167_column content dl c vs values : data_lines content dl -> Forall2 (column_of c) dl vs ->
  readColumnFromFile (Some content) values c = Ok (values ++ vs)%list.
Proof. intros H HF. cbn. exact (column_loop _ dl (data_lines_get _ _ H) vs c values HF). Qed.
Print Assumptions C167_column.

(** A missing file and a data line with too few columns are errors; no file leads to undefined behaviour; and if there is no error,
    every data line has contributed one number. *)
Theorem C167_errors :
  (forall values c, readColumnFromFile None values c = Throw) /\
  (forall content dl l ns values c, data_lines content dl -> In l dl -> consists_of l ns -> (List.length ns <= c)%nat ->
     readColumnFromFile (Some content) values c = Throw) /\
  (forall file values c, (exists out, readColumnFromFile file values c = Ok out) \/ readColumnFromFile file values c = Throw) /\
  (forall content dl values c out, data_lines content dl -> readColumnFromFile (Some content) values c = Ok out ->
     exists vs, out = (values ++ vs)%list /\ List.length vs = List.length dl).
Proof.
  repeat split.
  - intros content dl l ns values c H Hin Hc Hn. cbn. exact (column_short _ dl l ns c values (data_lines_get _ _ H) Hin Hc Hn).
  - intros [content|] values c; cbn; [apply column_clean|right; reflexivity].
  - intros content dl values c out H E. exact (column_length _ dl (data_lines_get _ _ H) c values out E).
Qed.
Print Assumptions C167_errors.

(** The test is not strict: a column that is not an integer can be taken for one, and one column for two. *)
Theorem C167_text_refuted : exists content dl l ts,
  data_lines content dl /\ In l dl /\ fields l ts /\
  nth_error ts 1 = Some (txt "3.9") /\ (forall n, ~ whole_int (txt "3.9") n) /\
  readColumnFromFile (Some content) [] 1 = Ok [1; 3] /\
  exists l', fields l' [txt "40-9"] /\ readColumnFromFile (Some (l' ++ [newline])%list) [] 1 = Ok [-9].
Proof.
  exists (txt "0 1" ++ [newline] ++ txt "40 3.9")%list, [txt "0 1"; txt "40 3.9"], (txt "40 3.9"), [txt "40"; txt "3.9"].
  split.
  { exists [txt "0 1"; txt "40 3.9"]. split.
    - change [txt "0 1"; txt "40 3.9"] with (getlines (txt "0 1" ++ [newline] ++ txt "40 3.9")%list). apply getlines_file.
    - repeat (apply select_keep; [apply skipped_spec; reflexivity|]). constructor. }
  split; [right; left; reflexivity|]. split; [exact (words_fields (txt "40 3.9"))|]. split; [reflexivity|]. split.
  { intros n (sign & ds & v & E & Hds & Hv & Hs & _).
    assert (Hdot : In "."%char ds).
    { assert (K : In "."%char (txt "3.9")) by (right; left; reflexivity). rewrite E, in_app_iff in K. destruct K as [K|K]; [|exact K].
      destruct Hs as [[-> _]|[[-> _]|[-> _]]]; cbn in K; [contradiction| |]; destruct K as [K|[]]; discriminate K. }
    clear - Hv Hdot. induction Hv as [|c d l v Hd _ IH]; [destruct Hdot|]. destruct Hdot as [->|K]; [|exact (IH K)].
    destruct Hd as [Hr Hd]. change (Z.of_nat (nat_of_ascii ".")) with 46 in Hd. lia. }
  split; [vm_compute; reflexivity|]. exists (txt "40-9"). split; [exact (words_fields (txt "40-9"))|vm_compute; reflexivity].
Qed.
Print Assumptions C167_text_refuted.

Definition with_file (c : gconfig) (content : str) : Prop := gc_file c = Some content.
(** [rows]: interface and factor at the beginning of each data line *)
Definition rows_of (content : str) (rows : list (Z * Z)) : Prop :=
  exists dl, data_lines content dl /\ Forall2 (fun l r => begins_with l [fst r; snd r]) dl rows.

Lemma rows_columns content rows : rows_of content rows ->
  readColumnFromFile (Some content) [] 0 = Ok (map fst rows) /\ readColumnFromFile (Some content) [] 1 = Ok (map snd rows).
Proof.
  intros (dl & Hd & HF). split; [apply (C167_column content dl 0 (map fst rows) [])|apply (C167_column content dl 1 (map snd rows) [])]; try exact Hd; clear Hd; induction HF as [|l r dl rows Hb _ IH]; constructor; try exact IH.
  - exists [fst r; snd r]. split; [exact Hb|reflexivity].
  - exists [fst r; snd r]. split; [exact Hb|reflexivity].
Qed.

(** The grid made from a file with the rows (y, factor): accepted only if the first y is 0, the others increase and neighbouring
    factors agree up to a factor 3; then it is the layered grid with these interfaces and factors, of the size of the
    configuration (or of the larger width per shot). *)
Theorem C167_grid fuel c content rows nxps : with_file c content -> gc_varGrid c = true -> rows_of content rows ->
  Forall (fun r => pow3 (snd r)) rows ->
  (forall y0 f0 rest, rows = (y0, f0) :: rest -> y0 = 0 -> increasing (map fst rest) -> factor_three (map snd rows) ->
     init_config fuel c 1 nxps = init_variable fuel (Z.max (gc_NX c) nxps) (gc_NY c) (gc_NZ c) (map snd rows) (map fst rest)) /\
  ((forall y0 f0 rest, rows = (y0, f0) :: rest -> y0 <> 0 \/ ~ increasing (map fst rest) \/ ~ factor_three (map snd rows)) ->
     init_config fuel c 1 nxps = Throw).
Proof.
  intros Hc Hv Hrows Hp. destruct (rows_columns content rows Hrows) as [E0 E1]. unfold with_file in Hc.
  assert (Hp' : Forall (fun d => exists n, d = 3 ^ Z.of_nat n) (map snd rows)).
  { clear - Hp. induction Hp as [|r rows H _ IH]; constructor; assumption. }
  assert (Hcd : forall a, ceil_div a 1 = a) by (intros a; unfold ceil_div; rewrite Z.div_1_r; lia).
  assert (Hnx : (if nxps <? gc_NX c then gc_NX c else nxps) = Z.max (gc_NX c) nxps) by (destruct (Z.ltb_spec nxps (gc_NX c)); lia).
  split.
  - intros y0 f0 rest -> -> Hi Hf. unfold init_config. rewrite Hv, Hc, E0. cbn [bind map fst drop_first_zero Z.eqb]. rewrite E1. cbn [bind].
    rewrite (proj2 (increase_spec _) Hi). cbn [assert bind]. rewrite (proj2 (factors_spec _ Hp') Hf). cbn [assert bind].
    rewrite !Hcd, Hnx. reflexivity.
  - intros H. unfold init_config. rewrite Hv, Hc, E0. cbn [bind]. destruct rows as [|[y0 f0] rest]; [reflexivity|].
    cbn [map fst drop_first_zero]. destruct (Z.eqb_spec y0 0) as [->|Hy]; [|reflexivity]. cbn [bind]. rewrite E1. cbn [bind].
    destruct (H 0 f0 rest eq_refl) as [K|[K|K]]; [lia| |].
    + replace (interfaces_increase (map fst rest)) with false; [reflexivity|]. symmetry. apply not_true_is_false. rewrite increase_spec. exact K.
    + destruct (interfaces_increase (map fst rest)); [|reflexivity]. cbn [assert bind].
      replace (factors_match (map snd ((0, f0) :: rest))) with false; [reflexivity|]. symmetry. apply not_true_is_false. rewrite (factors_spec _ Hp'). exact K.
Qed.
Print Assumptions C167_grid.

(** Without a variable grid only the first column counts and every layer has spacing factor 1 (variable operators), or the file is
    not read at all. *)
Theorem C167_others fuel c content dl ys nxps : with_file c content -> gc_varGrid c = false ->
  data_lines content dl -> Forall2 (column_of 0) dl ys ->
  (gc_varFD c = true -> forall rest, ys = 0 :: rest ->
     init_config fuel c 1 nxps = init_variable fuel (Z.max (gc_NX c) nxps) (gc_NY c) (gc_NZ c) (repeat 1 (S (List.length rest))) rest) /\
  (gc_varFD c = true -> (forall rest, ys <> 0 :: rest) -> init_config fuel c 1 nxps = Throw) /\
  (gc_varFD c = false -> init_config fuel c 1 nxps = mk_regular (Z.max (gc_NX c) nxps) (gc_NY c) (gc_NZ c)).
Proof.
  intros Hc Hv Hd HF. pose proof (C167_column content dl 0 ys [] Hd HF) as E0. unfold with_file in Hc.
  assert (Hcd : forall a, ceil_div a 1 = a) by (intros a; unfold ceil_div; rewrite Z.div_1_r; lia).
  assert (Hnx : (if nxps <? gc_NX c then gc_NX c else nxps) = Z.max (gc_NX c) nxps) by (destruct (Z.ltb_spec nxps (gc_NX c)); lia).
  unfold init_config. rewrite Hv, Hc, E0, !Hcd, Hnx. cbn [bind app]. repeat split.
  - intros -> rest ->. cbn [drop_first_zero Z.eqb bind]. rewrite Nat.add_1_r. reflexivity.
  - intros -> K. destruct ys as [|y ys]; [reflexivity|]. cbn [drop_first_zero]. destruct (Z.eqb_spec y 0) as [->|]; [|reflexivity].
    exfalso. exact (K ys eq_refl).
  - intros ->. reflexivity.
Qed.
Print Assumptions C167_others.

(** For the inversion grid the extents are the quotients rounded up: the grid is that of a configuration with these extents. *)
Definition rounded_up (n d m : Z) : Prop := (m - 1) * d < n <= m * d.
Theorem C167_inversion fuel c d nxps : 1 <= d -> exists mx my mz,
  rounded_up (Z.max (gc_NX c) nxps) d mx /\ rounded_up (gc_NY c) d my /\ rounded_up (gc_NZ c) d mz /\
  init_config fuel c d nxps =
  init_config fuel (mkGC mx my mz (gc_varGrid c) (gc_varFD c) (gc_file c) (gc_order c) (gc_type c) (gc_partitioning c) (gc_stencil c) (gc_hybrid c)) 1 mx.
Proof.
  intros Hd. exists (ceil_div (Z.max (gc_NX c) nxps) d), (ceil_div (gc_NY c) d), (ceil_div (gc_NZ c) d).
  assert (R : forall n, rounded_up n d (ceil_div n d)).
  { intros n. unfold rounded_up, ceil_div. pose proof (Z.div_mod (- n) d ltac:(lia)). pose proof (Z.mod_pos_bound (- n) d ltac:(lia)). nia. }
  repeat (split; [apply R|]). assert (Hcd : forall a, ceil_div a 1 = a) by (intros a; unfold ceil_div; rewrite Z.div_1_r; lia).
  assert (Hnx : (if nxps <? gc_NX c then ceil_div (gc_NX c) d else ceil_div nxps d) = ceil_div (Z.max (gc_NX c) nxps) d).
  { destruct (Z.ltb_spec nxps (gc_NX c)); f_equal; lia. }
  unfold init_config. cbn [gc_NX gc_NY gc_NZ gc_varGrid gc_varFD gc_file]. rewrite Hnx, !Hcd, Z.ltb_irrefl. reflexivity.
Qed.
Print Assumptions C167_inversion.

(** checkVariableGrid never fails for a grid made from the same file, says whether the size was changed, and lists exactly the
    interfaces that were moved, with their old and new rows. *)
Theorem C167_moved fuel c content rows f0 rest nxps g : with_file c content -> gc_varGrid c = true -> rows_of content rows ->
  rows = (0, f0) :: rest -> init_config fuel c 1 nxps = Ok g ->
  exists altered m, checkVariableGrid c g = Ok (altered, m) /\
    (altered = true <-> (gc_NX c, gc_NY c, gc_NZ c) <> (gNX g, gNY g, gNZ g)) /\
    forall k y n, In (k, y, n) m <->
      exists f, 1 <= k /\ nth_error rows (Z.to_nat k) = Some (y, f) /\ nth_error (interface g) (Z.to_nat k) = Some n /\ y <> n.
Proof.
  intros Hc Hv Hrows -> E. destruct (rows_columns content _ Hrows) as [E0 E1]. unfold with_file in Hc.
  unfold init_config in E. rewrite Hv, Hc, E0 in E. cbn [bind map fst drop_first_zero Z.eqb] in E. rewrite E1 in E. cbn [bind] in E.
  destruct (interfaces_increase _); cbn [assert bind] in E; [|discriminate].
  destruct (factors_match _); cbn [assert bind] in E; [|discriminate].
  destruct (init_variable_shape _ _ _ _ _ _ _ E) as (_ & Hl & _).
  destruct (moved_spec (interface g) (map fst rest) 0) as (m & Em & Hm); [lia|rewrite Hl; lia|].
  unfold checkVariableGrid. rewrite Hc, E0. cbn [bind map fst drop_first_zero Z.eqb]. rewrite Em. cbn [bind].
  eexists. exists m. split; [reflexivity|]. split.
  - split.
    + intros H K. inversion K. lia.
    + intros H. destruct (Z.eqb_spec (gc_NX c) (gNX g)), (Z.eqb_spec (gc_NY c) (gNY g)), (Z.eqb_spec (gc_NZ c) (gNZ g)); cbn; congruence.
  - intros k y n. rewrite Hm. split.
    + intros (j & Ek & H1 & H2 & H3). rewrite nth_error_map in H1. destruct (nth_error rest j) as [[y' f]|] eqn:Er; [|discriminate].
      cbn in H1. inversion H1; subst y'. exists f. split; [lia|]. split; [|now split].
      replace (Z.to_nat k) with (S j) by lia. exact Er.
    + intros (f & Hk & H1 & H2 & H3). exists (Z.to_nat k - 1)%nat. split; [lia|]. split; [|now split].
      replace (Z.to_nat k) with (S (Z.to_nat k - 1)) in H1 by lia. cbn in H1. rewrite nth_error_map, H1. reflexivity.
Qed.
Print Assumptions C167_moved.

(** A file that suits the grid is accepted; the grid has one layer per data line. *)
Theorem C167_layers fuel c content f0 rest nxps : with_file c content -> gc_varGrid c = true -> rows_of content ((0, f0) :: rest) ->
  good_request (Z.max (gc_NX c) nxps) (gc_NY c) (gc_NZ c) (f0 :: map snd rest) (map fst rest) ->
  increasing (map fst rest) -> factor_three (f0 :: map snd rest) -> (forall d, In d (f0 :: map snd rest) -> d <= Z.of_nat fuel) ->
  exists g dl, init_config fuel c 1 nxps = Ok g /\ data_lines content dl /\ numLayers g = List.length dl.
Proof.
  intros Hc Hv Hrows Hg Hi Hf Hfuel.
  destruct (C167_grid fuel c content _ nxps Hc Hv Hrows) as [H _].
  { apply Forall_forall. intros r Hr. apply (proj1 Hg). change (f0 :: map snd rest) with (map snd ((0, f0) :: rest)). now apply in_map. }
  specialize (H 0 f0 rest eq_refl eq_refl Hi Hf). cbn [map snd] in H. rewrite H.
  destruct (C02_variable_roundtrip_partial fuel _ _ _ _ _ Hg Hfuel) as (g & E & _). exists g.
  destruct Hrows as (dl & Hd & HF). exists dl. split; [exact E|]. split; [exact Hd|].
  rewrite (proj1 (init_variable_shape _ _ _ _ _ _ _ E)). assert (Hl : List.length dl = List.length ((0, f0) :: rest)) by (clear - HF; induction HF; cbn; congruence).
  rewrite Hl. cbn. now rewrite map_length.
Qed.
Print Assumptions C167_layers.

(** What is not checked: an interface below the model is accepted and gives a layer with a negative number of points; a factor 0 is
    accepted and divided by. *)
Definition cfg0 (nx ny nz : Z) (vg vf : bool) (s : str) : gconfig :=
  mkGC nx ny nz vg vf (Some s) 2 (txt "acoustic") 2 None None.
Theorem C167_outside_refuted :
  (exists c g l, gc_varGrid c = true /\ init_config 100 c 1 (gc_NX c) = Ok g /\ In l (layers g) /\ lcnt l < 0) /\
  (exists c, gc_varGrid c = true /\ gc_file c = Some (txt "0 1" ++ [newline] ++ txt "20 0")%list /\ init_config 100 c 1 (gc_NX c) = UB).
Proof.
  split.
  - exists (cfg0 10 10 10 true false (txt "0 1" ++ [newline] ++ txt "-20 1" ++ [newline] ++ txt "50 1")%list).
    eexists. eexists. split; [reflexivity|]. split; [vm_compute; reflexivity|]. split; [left; reflexivity|vm_compute; reflexivity].
  - exists (cfg0 10 30 10 true false (txt "0 1" ++ [newline] ++ txt "20 0")%list). repeat split.
Qed.
Print Assumptions C167_outside_refuted.

(** A file with a comment, a blank line and a third column. *)
Definition ex_file : str := (txt "# interface factor order" ++ [newline] ++ txt "0 1 4" ++ [newline] ++ [newline] ++ txt "  7 3 6" ++ [newline] ++
  txt "20 +9 6 deep" ++ [newline] ++ txt "47 3 12")%list.
Lemma digits_decimal ds : forallb isdigit ds = true -> decimal ds (digits_val ds 0).
Proof.
  intros H. assert (K : exists v, decimal ds v).
  { induction ds as [|c ds IH]; [exists 0; constructor|]. cbn in H. apply andb_true_iff in H. destruct H as [H1 H2].
    destruct (IH H2) as (v & Hv). eexists. constructor; [apply isdigit_spec; exact H1|exact Hv]. }
  destruct K as (v & Hv). pose proof (digits_val_app ds v Hv [] 0) as E. rewrite app_nil_r in E. rewrite E by discriminate. exact Hv.
Qed.
Lemma whole_ex (t : str) (n : Z) : let '(sg, ds) := split_sign t in
  (forallb isdigit ds && negb (Nat.eqb (List.length ds) 0) && (n =? sg * digits_val ds 0) && (-2147483648 <=? n) && (n <=? 2147483647)) = true ->
  whole_int t n.
Proof.
  destruct (split_sign t) as [sg ds] eqn:E. rewrite !andb_true_iff. intros ((((H1 & H2) & H3) & H4) & H5).
  assert (Hn : ds <> []) by (intros ->; discriminate H2).
  assert (Hs : exists sign, t = (sign ++ ds)%list /\ (sign = [] /\ sg = 1 \/ sign = ["+"%char] /\ sg = 1 \/ sign = ["-"%char] /\ sg = -1)).
  { unfold split_sign in E. destruct t as [|c t].
    - inversion E; subst. contradiction.
    - destruct (Ascii.eqb_spec c "-"%char) as [->|_]; [inversion E; subst; exists ["-"%char]; split; [reflexivity|tauto]|].
      destruct (Ascii.eqb_spec c "+"%char) as [->|_]; [inversion E; subst; exists ["+"%char]; split; [reflexivity|tauto]|].
      inversion E; subst. exists []. split; [reflexivity|tauto]. }
  destruct Hs as (sign & -> & Hs). exists sign, ds, (digits_val ds 0). split; [reflexivity|]. split; [exact Hn|].
  split; [exact (digits_decimal ds H1)|]. split.
  - destruct Hs as [[-> ->]|[[-> ->]|[-> ->]]]; [left|right; left|right; right]; (split; [reflexivity|lia]).
  - change (2 ^ 31) with 2147483648. lia.
Qed.
Ltac whole := lazymatch goal with |- whole_int ?t ?n => apply (whole_ex t n); reflexivity end.

Definition ex_lines : list str := [txt "0 1 4"; txt "  7 3 6"; txt "20 +9 6 deep"; txt "47 3 12"].
Lemma ex_data : data_lines ex_file ex_lines.
Proof.
  exists (getlines ex_file). split; [apply getlines_file|].
  change (getlines ex_file) with [txt "# interface factor order"; txt "0 1 4"; []; txt "  7 3 6"; txt "20 +9 6 deep"; txt "47 3 12"].
  apply select_drop; [intros K; apply skipped_spec in K; discriminate K|].
  apply select_keep; [apply skipped_spec; reflexivity|].
  apply select_drop; [intros K; apply skipped_spec in K; discriminate K|].
  repeat (apply select_keep; [apply skipped_spec; reflexivity|]). constructor.
Qed.
Lemma ex_three : Forall2 (fun l r => begins_with l r) ex_lines [[0; 1; 4]; [7; 3; 6]; [20; 9; 6]; [47; 3; 12]].
Proof.
  repeat constructor.
  - exists [txt "0"; txt "1"; txt "4"], []. split; [exact (words_fields (txt "0 1 4"))|]. repeat (constructor; [whole|]). constructor.
  - exists [txt "7"; txt "3"; txt "6"], []. split; [exact (words_fields (txt "  7 3 6"))|]. repeat (constructor; [whole|]). constructor.
  - exists [txt "20"; txt "+9"; txt "6"], [txt "deep"]. split; [exact (words_fields (txt "20 +9 6 deep"))|]. repeat (constructor; [whole|]). constructor.
  - exists [txt "47"; txt "3"; txt "12"], []. split; [exact (words_fields (txt "47 3 12"))|]. repeat (constructor; [whole|]). constructor.
Qed.
Lemma begins_less l a b c : begins_with l [a; b; c] -> begins_with l [a; b].
Proof.
  intros (ts & more & Hf & HF). inversion HF as [|t0 ? ts1 ? H0 HF1]; subst. inversion HF1 as [|t1 ? ts2 ? H1 HF2]; subst.
  exists [t0; t1], (ts2 ++ more)%list. split; [exact Hf|]. repeat constructor; assumption.
Qed.
Lemma ex_rows : rows_of ex_file [(0, 1); (7, 3); (20, 9); (47, 3)].
Proof.
  exists ex_lines. split; [exact ex_data|]. pose proof ex_three as H. unfold ex_lines in *.
  repeat (match goal with K : Forall2 _ (_ :: _) _ |- _ => inversion K; subst; clear K end).
  repeat constructor; cbn [fst snd]; eapply begins_less; eassumption.
Qed.
Example C167_ex : let c := cfg0 30 70 30 true true ex_file in
  rows_of ex_file [(0, 1); (7, 3); (20, 9); (47, 3)] /\ increasing [7; 20; 47] /\ factor_three [1; 3; 9; 3] /\
  good_request 30 70 30 [1; 3; 9; 3] [7; 20; 47] /\
  (exists g, init_config 9 c 1 30 = Ok g /\ numLayers g = 4%nat /\ interface g = [-1; 7; 19; 46; 67] /\
     checkVariableGrid c g = Ok (true, [(2, 20, 19); (3, 47, 46)])) /\
  readColumnFromFile (Some ex_file) [] 2 = Ok [4; 6; 6; 12] /\ readColumnFromFile (Some ex_file) [] 3 = Throw /\
  consists_of (txt "0 1 4") [0; 1; 4].
Proof.
  cbv zeta. split; [exact ex_rows|]. split; [apply increase_spec; reflexivity|].
  split; [apply factors_spec; [|reflexivity]; repeat constructor; [exists 0%nat|exists 1%nat|exists 2%nat|exists 1%nat]; reflexivity|].
  split; [exact good_request_ex|]. split; [eexists; vm_compute; repeat split; reflexivity|].
  split; [vm_compute; reflexivity|]. split; [vm_compute; reflexivity|].
  exists [txt "0"; txt "1"; txt "4"]. split; [exact (words_fields (txt "0 1 4"))|]. repeat (constructor; [whole|]). constructor.
Qed.

(** ** C168 *)
(** The conditions under which a new object accepts a configuration, and the orders it then uses: in every layer the one of the
    configuration or, with variable operators, the third column of the data line of the layer. *)
Theorem C168_setup c : 
  let stencil := gc_stencil c = Some true in
  let fine := (stencil -> gc_partitioning c = 1) /\ (gc_hybrid c = Some true -> stencil) /\ (stencil -> gc_varFD c = false) in
  (gc_varFD c = false ->
     (fine /\ known_order (gc_order c) ->
        exists d, setup c new_derivatives = Ok d /\ forall layer, order_at d layer = Ok (gc_order c)) /\
     (~ (fine /\ known_order (gc_order c)) -> setup c new_derivatives = Throw)) /\
  (gc_varFD c = true -> forall content dl ps, gc_file c = Some content -> data_lines content dl -> Forall2 (column_of 2) dl ps -> dl <> [] ->
     (fine /\ Forall known_order ps ->
        exists d, setup c new_derivatives = Ok d /\
          forall k p, nth_error ps k = Some p -> order_at d (Z.of_nat k) = Ok p) /\
     (~ (fine /\ Forall known_order ps) -> setup c new_derivatives = Throw)).
Proof.
  cbv zeta. split.
  - intros Hv. unfold setup. rewrite Hv. cbn [d_orders new_derivatives negb].
    split.
    + intros ((H1 & H2 & _) & H4). unfold or_false.
      destruct (gc_stencil c) as [[|]|]; [specialize (H1 eq_refl); rewrite H1| |]; cbn [negb andb Z.eqb Pos.eqb];
        rewrite ?andb_false_r; destruct (gc_hybrid c) as [[|]|]; cbn [negb andb]; try (specialize (H2 eq_refl); discriminate);
        cbn [assert bind]; unfold setFDOrder; rewrite (proj2 (supported_spec _) H4); cbn [assert bind app];
        (eexists; split; [reflexivity|]; intros layer; reflexivity).
    + intros H. unfold or_false.
      destruct (supported (gc_order c)) eqn:Es.
      2:{ unfold setFDOrder. rewrite Es. destruct (gc_stencil c) as [[|]|], (gc_hybrid c) as [[|]|], (gc_partitioning c =? 1); reflexivity. }
      apply supported_spec in Es.
      destruct (gc_stencil c) as [[|]|], (gc_hybrid c) as [[|]|], (Z.eqb_spec (gc_partitioning c) 1) as [Ep|Ep]; try reflexivity;
        exfalso; apply H; (split; [|exact Es]); repeat split; intros; try assumption; try discriminate; try reflexivity.
  - intros Hv content dl ps Hc Hd HF Hne. pose proof (C167_column content dl 2 ps [] Hd HF) as E. cbn [app] in E.
    assert (Hps : ps <> []) by (intros ->; inversion HF; subst; contradiction).
    unfold setup. rewrite Hv, Hc. cbn [d_orders new_derivatives negb]. unfold setFDOrder_file. rewrite E. cbn [bind].
    assert (Hf : forallb supported ps = true <-> Forall known_order ps).
    { rewrite forallb_forall, Forall_forall. split; intros K p Hp; apply supported_spec, K, Hp. }
    split.
    + intros ((H1 & H2 & H3) & H4). rewrite (proj2 Hf H4). unfold or_false.
      destruct (gc_stencil c) as [[|]|]; [specialize (H3 eq_refl); congruence| |]; cbn [negb andb];
        rewrite ?andb_false_r; destruct (gc_hybrid c) as [[|]|]; cbn [negb andb]; try (specialize (H2 eq_refl); discriminate);
        cbn [assert bind app];
        (eexists; split; [reflexivity|]; intros k p Hk; unfold order_at; cbn [d_orders d_varFD]; destruct ps as [|p0 ps]; [contradiction|];
         now apply vget_nth).
    + intros H. unfold or_false. destruct (forallb supported ps) eqn:Es.
      2:{ destruct (gc_stencil c) as [[|]|], (gc_hybrid c) as [[|]|], (gc_partitioning c =? 1); reflexivity. }
      assert (Es' : Forall known_order ps) by (apply Hf; reflexivity). clear Es. rename Es' into Es.
      destruct (gc_stencil c) as [[|]|], (gc_hybrid c) as [[|]|], (Z.eqb_spec (gc_partitioning c) 1) as [Ep|Ep]; try reflexivity;
        exfalso; apply H; (split; [|exact Es]); repeat split; intros; try assumption; try discriminate; try reflexivity.
Qed.
Print Assumptions C168_setup.

(** Whatever the text of the file: if the grid and the derivatives are made from the same configuration without an error, every
    layer of the grid has one of the known orders. *)
Theorem C168_every_layer fuel c dhi nxps g d : init_config fuel c dhi nxps = Ok g -> setup c new_derivatives = Ok d ->
  forall layer, 0 <= layer < Z.of_nat (numLayers g) -> exists p, order_at d layer = Ok p /\ known_order p.
Proof.
  intros Hg Hs layer Hl. unfold setup in Hs. cbn [d_orders new_derivatives] in Hs.
  destruct (negb (gc_partitioning c =? 1) && or_false (gc_stencil c)); [discriminate|].
  destruct (negb (or_false (gc_stencil c)) && or_false (gc_hybrid c)); [discriminate|].
  destruct (gc_varFD c) eqn:Hv.
  - destruct (or_false (gc_stencil c)); cbn [negb andb assert bind] in Hs; [discriminate|].
    unfold setFDOrder_file in Hs. destruct (gc_file c) as [content|] eqn:Hc; [|discriminate].
    destruct (readColumnFromFile (Some content) [] 2) as [ps| | |] eqn:E2; cbn [bind] in Hs; try discriminate.
    destruct (forallb supported ps) eqn:Ef; cbn [assert bind] in Hs; [|discriminate]. inversion Hs; subst; clear Hs.
    assert (Hlen : List.length ps = numLayers g).
    { destruct (select_ex (getlines content)) as (dl & Hdl).
      assert (Hd : data_lines content dl) by (exists (getlines content); split; [apply getlines_file|exact Hdl]).
      destruct (column_length _ dl Hdl 2 [] ps E2) as (vs & Ev & Hvs). cbn [app] in Ev. subst vs.
      unfold init_config in Hg. rewrite Hv, Hc in Hg.
      destruct (readColumnFromFile (Some content) [] 0) as [ys| | |] eqn:E0; cbn [bind] in Hg; try (destruct (gc_varGrid c); discriminate).
      destruct (column_length _ dl Hdl 0 [] ys E0) as (vs & Ev & Hvs0). cbn [app] in Ev. subst vs.
      destruct (drop_first_zero ys) as [rest| | |] eqn:Er; cbn [bind] in Hg; try (destruct (gc_varGrid c); discriminate).
      assert (Hr : List.length ys = S (List.length rest)).
      { destruct ys as [|y ys]; [discriminate|]. cbn in Er. destruct (y =? 0); [|discriminate]. now inversion Er. }
      destruct (gc_varGrid c).
      - destruct (readColumnFromFile (Some content) [] 1) as [fs| | |] eqn:E1; cbn [bind] in Hg; try discriminate.
        destruct (column_length _ dl Hdl 1 [] fs E1) as (vs & Ev & Hvs1). cbn [app] in Ev. subst vs.
        destruct (interfaces_increase rest); cbn [assert bind] in Hg; [|discriminate].
        destruct (factors_match fs); cbn [assert bind] in Hg; [|discriminate].
        rewrite (proj1 (init_variable_shape _ _ _ _ _ _ _ Hg)). lia.
      - rewrite (proj1 (init_variable_shape _ _ _ _ _ _ _ Hg)), repeat_length. lia. }
    unfold order_at. cbn [d_orders d_varFD].
    destruct (nth_error ps (Z.to_nat layer)) as [p|] eqn:En; [|apply nth_error_None in En; lia].
    exists p. split.
    + destruct ps as [|p0 ps]; [destruct (Z.to_nat layer); discriminate|]. rewrite <- (Z2Nat.id layer) by lia. now apply vget_nth.
    + apply supported_spec. rewrite forallb_forall in Ef. apply Ef. now apply nth_error_In in En.
  - rewrite andb_false_r in Hs. cbn [negb assert bind] in Hs. unfold setFDOrder in Hs. destruct (supported (gc_order c)) eqn:Es; cbn [assert bind app] in Hs; [|discriminate].
    inversion Hs; subst. exists (gc_order c). split; [reflexivity|]. now apply supported_spec.
Qed.
Print Assumptions C168_every_layer.

(** A second setup does not replace the first ("Existing Derivative Setup will be overwritten"): the order of the first one stays
    in use, and an elastic type is never forgotten. *)
Theorem C168_second_setup c1 c2 d1 d2 : gc_varFD c1 = false -> gc_varFD c2 = false ->
  setup c1 new_derivatives = Ok d1 -> setup c2 d1 = Ok d2 ->
  (forall layer, order_at d2 layer = Ok (gc_order c1)) /\ (d_elastic d2 = elastic_type (gc_type c1) || elastic_type (gc_type c2)).
Proof.
  intros H1 H2 E1 E2. unfold setup in E1, E2. rewrite H1 in E1. rewrite H2 in E2. rewrite andb_false_r in E1, E2.
  cbn [d_orders d_elastic d_varFD new_derivatives negb assert bind] in E1.
  destruct (_ && _) in E1; [discriminate|]. destruct (_ && _) in E1; [discriminate|].
  destruct (_ && _) in E2; [discriminate|]. destruct (_ && _) in E2; [discriminate|]. cbn [negb assert bind] in E2.
  unfold setFDOrder in *. destruct (supported (gc_order c1)); cbn [assert bind app] in E1; [|discriminate].
  destruct (supported (gc_order c2)); cbn [assert bind app] in E2; [|discriminate].
  inversion E1; subst; clear E1. cbn [d_orders d_elastic d_varFD] in E2. inversion E2; subst; clear E2. split.
  - intros layer. reflexivity.
  - cbn. destruct (elastic_type (gc_type c1)), (elastic_type (gc_type c2)); reflexivity.
Qed.
Print Assumptions C168_second_setup.
Theorem C168_overwrite_refuted : exists c1 c2 d1 d2, setup c1 new_derivatives = Ok d1 /\ setup c2 d1 = Ok d2 /\
  gc_order c2 = 8 /\ gc_varFD c2 = false /\ gc_type c2 = txt "acoustic" /\ order_at d2 0 = Ok 2 /\ d_elastic d2 = true.
Proof.
  exists (mkGC 10 10 10 false false None 2 (txt "Elastic") 2 None None), (mkGC 10 10 10 false false None 8 (txt "acoustic") 2 None None).
  eexists. eexists. split; [vm_compute; reflexivity|]. split; [vm_compute; reflexivity|]. repeat split.
Qed.
Print Assumptions C168_overwrite_refuted.

(** Nor does a second setup from a file: its orders come after those of the first one. *)
Theorem C168_second_file c1 c2 d1 d2 content1 content2 dl1 dl2 ps1 ps2 : gc_varFD c1 = true -> gc_varFD c2 = true ->
  gc_file c1 = Some content1 -> data_lines content1 dl1 -> Forall2 (column_of 2) dl1 ps1 ->
  gc_file c2 = Some content2 -> data_lines content2 dl2 -> Forall2 (column_of 2) dl2 ps2 ->
  setup c1 new_derivatives = Ok d1 -> setup c2 d1 = Ok d2 ->
  forall k p, nth_error (ps1 ++ ps2) k = Some p -> order_at d2 (Z.of_nat k) = Ok p.
Proof.
  intros V1 V2 F1 D1 C1 F2 D2 C2 E1 E2 k p Hk. unfold setup in E1, E2. rewrite V1 in E1. rewrite V2 in E2.
  destruct (negb (gc_partitioning c1 =? 1) && or_false (gc_stencil c1)); [discriminate|]. destruct (negb (or_false (gc_stencil c1)) && or_false (gc_hybrid c1)); [discriminate|].
  destruct (negb (gc_partitioning c2 =? 1) && or_false (gc_stencil c2)); [discriminate|]. destruct (negb (or_false (gc_stencil c2)) && or_false (gc_hybrid c2)); [discriminate|].
  destruct (or_false (gc_stencil c1)); cbn [negb andb assert bind] in E1; [discriminate|]. destruct (or_false (gc_stencil c2)); cbn [negb andb assert bind] in E2; [discriminate|].
  unfold setFDOrder_file in E1, E2. rewrite F1 in E1. rewrite F2 in E2. rewrite (C167_column content1 dl1 2 ps1 _ D1 C1) in E1. cbn [bind d_orders new_derivatives app] in E1.
  destruct (forallb supported ps1); cbn [assert bind] in E1; [|discriminate]. injection E1 as <-. cbn [d_orders] in E2.
  rewrite (C167_column content2 dl2 2 ps2 _ D2 C2) in E2. cbn [bind] in E2. destruct (forallb supported (ps1 ++ ps2)); cbn [assert bind] in E2; [|discriminate]. injection E2 as <-.
  unfold order_at. cbn [d_orders d_varFD]. destruct (ps1 ++ ps2)%list as [|q l] eqn:E; [destruct k; discriminate|]. now apply vget_nth.
Qed.
Print Assumptions C168_second_file.

(** Orders given as a vector replace the old ones; the orders are checked, their number is not.  Stencil partitioning is refused. *)
Theorem C168_vector c l d : (gc_partitioning c <> 1 /\ Forall known_order l ->
  exists d', setup_vec c l d = Ok d' /\ (forall k p, nth_error l k = Some p -> order_at d' (Z.of_nat k) = Ok p) /\
    (l <> [] -> forall k, (List.length l <= k)%nat -> order_at d' (Z.of_nat k) = UB)) /\
  (~ (gc_partitioning c <> 1 /\ Forall known_order l) -> setup_vec c l d = Throw).
Proof.
  split.
  2:{ intros H. unfold setup_vec, setFDOrder_vec. destruct (gc_partitioning c =? 1) eqn:Ep; [reflexivity|]. cbn [negb assert bind].
    destruct (forallb supported l) eqn:Ef; [|reflexivity]. exfalso. apply H. split; [lia|]. apply Forall_forall. intros p Hin. apply supported_spec. exact (proj1 (forallb_forall _ _) Ef p Hin). }
  intros (Hp & HF). unfold setup_vec, setFDOrder_vec. replace (gc_partitioning c =? 1) with false by lia. cbn [negb assert bind].
  assert (forallb supported l = true) as ->.
  { apply forallb_forall. intros p Hin. apply supported_spec. rewrite Forall_forall in HF. now apply HF. }
  cbn [assert bind]. eexists. split; [reflexivity|]. split.
  - intros k p Hk. unfold order_at. cbn [d_orders d_varFD]. destruct l as [|q l]; [destruct k; discriminate|]. now apply vget_nth.
  - intros Hn k Hk. unfold order_at. cbn [d_orders d_varFD]. destruct l as [|q l]; [contradiction|]. unfold vget.
    replace (Z.of_nat k <? 0) with false by lia. rewrite Nat2Z.id. now rewrite (proj2 (nth_error_None _ _) Hk).
Qed.
Print Assumptions C168_vector.

Example C168_ex : exists g d, let c := cfg0 30 70 30 true true ex_file in
  init_config 9 c 1 30 = Ok g /\ setup c new_derivatives = Ok d /\ numLayers g = 4%nat /\
  order_at d 0 = Ok 4 /\ order_at d 3 = Ok 12 /\ Forall2 (column_of 2) ex_lines [4; 6; 6; 12] /\ Forall known_order [4; 6; 6; 12].
Proof.
  eexists. eexists. cbv zeta. split; [vm_compute; reflexivity|]. split; [vm_compute; reflexivity|].
  split; [reflexivity|]. split; [reflexivity|]. split; [reflexivity|]. split.
  - pose proof ex_three as H. unfold ex_lines in *.
    repeat (match goal with K : Forall2 _ (_ :: _) _ |- _ => inversion K; subst; clear K end).
    repeat constructor; eexists; (split; [eassumption|reflexivity]).
  - repeat constructor; unfold known_order; cbn [In]; lia.
Qed.

Example C168_second_ex : exists d1 d2, let c := cfg0 30 70 30 true true ex_file in
  setup c new_derivatives = Ok d1 /\ setup c d1 = Ok d2 /\ order_at d2 3 = Ok 12 /\ order_at d2 4 = Ok 4 /\
  init_config 9 (cfg0 30 70 31 false false ex_file) 3 30 = mk_regular 10 24 11.
Proof. eexists. eexists. cbv zeta. split; [vm_compute; reflexivity|]. split; [vm_compute; reflexivity|]. repeat split. Qed.

(** The switches after a setup of a new object. *)
Theorem C168_switches c d : setup c new_derivatives = Ok d ->
  d_varGrid d = gc_varGrid c /\ (d_stencil d = true <-> gc_stencil c = Some true) /\ (d_hybrid d = true <-> gc_hybrid c = Some true) /\
  d_varFD d = gc_varFD c /\ d_isSetup d = true /\
  (d_elastic d = true <-> exists t, In t [txt "sh"; txt "viscosh"; txt "elastic"; txt "viscoelastic"] /\ map tolower (gc_type c) = t).
Proof.
  assert (Hel : (if elastic_type (gc_type c) then true else false) = true <->
    exists t, In t [txt "sh"; txt "viscosh"; txt "elastic"; txt "viscoelastic"] /\ map tolower (gc_type c) = t).
  { unfold elastic_type, lower. generalize (map tolower (gc_type c)). intros s. split.
    - intros H. exists s. split; [|reflexivity]. destruct (_ || _ || _ || _) eqn:E in H; [|discriminate].
      rewrite !orb_true_iff in E. cbn [In].
      destruct E as [[[E|E]|E]|E]; apply str_eqb_true in E; subst s; tauto.
    - intros (t & Ht & <-). cbn [In] in Ht.
      destruct Ht as [<-|[<-|[<-|[<-|[]]]]]; reflexivity. }
  unfold setup. cbn [d_orders d_elastic d_varFD new_derivatives].
  destruct (negb (gc_partitioning c =? 1) && or_false (gc_stencil c)); [discriminate|].
  destruct (negb (or_false (gc_stencil c)) && or_false (gc_hybrid c)); [discriminate|].
  assert (Hof : forall b, or_false b = true <-> b = Some true) by (intros [[|]|]; cbn; split; congruence).
  destruct (negb (or_false (gc_stencil c)) && gc_varFD c) eqn:Ev.
  - destruct (setFDOrder_file _ _) as [o| | |]; cbn [bind]; try discriminate. intros E. inversion E; subst; clear E. cbn.
    apply andb_true_iff in Ev. destruct Ev as [_ Ev]. rewrite Ev. repeat split; try apply Hof; try apply Hel.
  - destruct (gc_varFD c); cbn [negb assert bind]; [discriminate|].
    destruct (setFDOrder _ _) as [o| | |]; cbn [bind]; try discriminate. intros E. inversion E; subst; clear E. cbn.
    repeat split; try apply Hof; try apply Hel.
Qed.
Print Assumptions C168_switches.

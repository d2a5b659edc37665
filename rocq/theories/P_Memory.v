(** C176: the memory estimates of the derivative matrices. *)
From Coq Require Import QArith.
From Verif Require Import Base M_Grid S_Grid L_Grid L_Grid2 M_Deriv S_Bound L_GridP M_Memory S_Memory L_Memory.
From Verif Require M_PerShot M_Average M_GridFile.
Open Scope Z_scope.
Local Notation length := List.length.

(** Orders of the layers: one for each of them, or the first for all. *)
Definition orders_for (orders : list Z) (useVar : bool) (n : nat) (ps : list Z) : Prop :=
  if useVar then (exists rest, orders = ps ++ rest) /\ length ps = n /\ ps <> [] else exists p rest, orders = p :: rest /\ ps = repeat p n.

(** The estimate for one matrix. *)
Theorem C176_bytes : forall g orders useVar ps sv si, built g -> orders_for orders useVar (length (layers g)) ps -> (forall p, In p ps -> 2 <= p) ->
  ((forall l p, In (l, p) (combine (layers g) ps) -> lcnt l * p < 2 ^ 31) ->
    getMemorySparseMatrix g orders useVar sv si =
    Ok (zsum (map (fun lp => lcnt (fst lp) * snd lp * (sv + si) + 2 * lcnt (fst lp) * si) (combine (layers g) ps)))) /\
  ((exists l p, In (l, p) (combine (layers g) ps) /\ 2 ^ 31 <= lcnt l * p) -> getMemorySparseMatrix g orders useVar sv si = UB).
Proof.
  intros g orders useVar ps sv si Hg Ho Hp. destruct (built_wf _ Hg) as (W1&W2&W3). pose proof (wf_counts _ _ _ _ _ W3) as Hc.
  assert (X : exists p0, M_PerShot.at_ orders 0 = Ok p0 /\ length ps = length (layers g) /\
    forall k q, nth_error ps k = Some q -> (if useVar then M_PerShot.at_ orders (Z.of_nat (length (@nil layer) + k)) else Ok p0) = Ok q).
  { unfold orders_for in Ho. destruct useVar.
    - destruct Ho as ((rest&->)&L&N). destruct ps as [|p0 ps]; [contradiction|]. exists p0. split; [reflexivity|]. split; [exact L|].
      intros k q Hk. cbn [length Nat.add]. apply at_nth. rewrite nth_error_app1 by (apply nth_error_Some; congruence). exact Hk.
    - destruct Ho as (p0&rest&->&->). exists p0. split; [reflexivity|]. split; [apply repeat_length|].
      intros k q Hk. f_equal. apply nth_error_In in Hk. apply repeat_spec in Hk. congruence. }
  destruct X as (p0&E0&L&Q). unfold getMemorySparseMatrix. rewrite E0. cbn [bind]. rewrite W1.
  change 0 with (Z.of_nat (length (@nil layer))). split; intros H.
  - apply (layers_ok g orders useVar p0 sv si (layers g) ps []); auto.
  - apply (layers_ub g orders useVar p0 sv si (layers g) ps []); auto.
Qed.
Print Assumptions C176_bytes.

(** With one order for the whole grid: the formula of the documentation, on layered grids too, and the other overload agrees. *)
Theorem C176_constant : forall g p rest sv si, built g -> 2 <= p -> nGridpoints g * p < 2 ^ 31 ->
  getMemorySparseMatrix g (p :: rest) false sv si = Ok (nGridpoints g * p * (sv + si) + 2 * nGridpoints g * si) /\
  getMemorySparseMatrix1 (nGridpoints g) (p :: rest) sv si = getMemorySparseMatrix g (p :: rest) false sv si.
Proof.
  intros g p rest sv si Hg Hp H. destruct (built_wf _ Hg) as (W1&W2&W3). pose proof (wf_counts _ _ _ _ _ W3) as Hc.
  assert (A : getMemorySparseMatrix g (p :: rest) false sv si = Ok (nGridpoints g * p * (sv + si) + 2 * nGridpoints g * si)).
  { destruct (C176_bytes g (p :: rest) false (repeat p (length (layers g))) sv si Hg) as (A&_).
    - exists p, rest. auto.
    - intros q Hq. apply repeat_spec in Hq. lia.
    - rewrite A.
      + rewrite combine_repeat. f_equal. rewrite W2. apply sum_constant.
      + intros l q I. rewrite combine_repeat in I. apply in_map_iff in I as (l'&[= <- <-]&I).
        assert (lcnt l' <= nGridpoints g); [|nia]. rewrite W2. clear - Hc I. induction (layers g) as [|a ls IH]; [destruct I|].
        cbn [map]. unfold zsum in *. cbn [fold_right].
        assert (0 <= fold_right Z.add 0 (map lcnt ls)).
        { clear - Hc. induction ls as [|b ls IH]; [cbn; lia|]. cbn [map fold_right]. pose proof (Hc b (or_intror (or_introl eq_refl))).
          assert (0 <= fold_right Z.add 0 (map lcnt ls)) by (apply IH; intros l [<-|Hl]; [apply Hc; now left|apply Hc; right; now right]). lia. }
        pose proof (Hc a (or_introl eq_refl)). destruct I as [->|I]; [lia|]. specialize (IH (fun l Hl => Hc l (or_intror Hl)) I). lia. }
  split; [exact A|]. rewrite A. unfold getMemorySparseMatrix1. rewrite at_first. cbn [bind]. apply sparseBytes_ok; try lia.
  rewrite W2. apply (wf_layers_nonneg _ _ _ _ _ W3).
Qed.
Print Assumptions C176_constant.

(** The estimate is enough for each of the derivative matrices when one order is used. *)
Theorem C176_enough : forall m fuel g p rest useVarGrid hybrid DH rows sv si b, built g -> 2 <= p -> 0 <= sv -> 0 <= si ->
  rows_of m fuel g (p :: rest) false useVarGrid hybrid DH rows ->
  getMemorySparseMatrix g (p :: rest) false sv si = Ok b -> bytes rows sv si <= b.
Proof.
  intros m fuel g p rest uvg hy DH rows sv si b Hg Hp Hv Hs (L&R) E.
  destruct (built_wf _ Hg) as (W1&W2&W3). pose proof (wf_counts _ _ _ _ _ W3) as Hc.
  assert (Hb : b = nGridpoints g * p * (sv + si) + 2 * nGridpoints g * si).
  { destruct (C176_bytes g (p :: rest) false (repeat p (length (layers g))) sv si Hg) as (A&B).
    - exists p, rest. auto.
    - intros q Hq. apply repeat_spec in Hq. lia.
    - assert (D : (forall l q, In (l, q) (combine (layers g) (repeat p (length (layers g)))) -> lcnt l * q < 2 ^ 31) \/
        exists l q, In (l, q) (combine (layers g) (repeat p (length (layers g)))) /\ 2 ^ 31 <= lcnt l * q).
      { clear. generalize (combine (layers g) (repeat p (length (layers g)))). intros c. induction c as [|[l q] c IH]; [left; intros ? ? []|].
        destruct (Z.lt_ge_cases (lcnt l * q) (2 ^ 31)) as [F|F]; [|right; exists l, q; split; [now left|exact F]].
        destruct IH as [IH|(l'&q'&I&F')]; [left; intros l' q' [[= <- <-]|I]; auto|right; exists l', q'; split; [now right|exact F']]. }
      destruct D as [D|D]; [|rewrite (B D) in E; discriminate]. rewrite (A D) in E. injection E as <-. rewrite combine_repeat, W2. apply sum_constant. }
  subst b. unfold bytes. rewrite L. apply Z.add_le_mono_r. apply Z.mul_le_mono_nonneg_r; [lia|]. rewrite <- L. apply entries_le; [lia|].
  intros r Hr. apply In_nth_error in Hr as (i&Hi). apply R in Hi. apply drow_len in Hi as (c&k&q&_&_&Eo&Hl). cbn in Eo. injection Eo as <-. lia.
Qed.
Print Assumptions C176_enough.

(** With an order for each layer a row has no more entries than the order of the layer getLayer gives for its point. *)
Theorem C176_rows : forall m fuel g orders useVar useVarGrid hybrid DH i row, drow m fuel g orders useVar useVarGrid hybrid DH i = Ok row ->
  exists c k p, index2coordinate g i = Ok c /\ getLayer g (cy c) = Ok k /\ order_at orders useVar k = Ok p /\ Z.of_nat (length row) <= Z.max 2 p.
Proof. exact drow_len. Qed.
Print Assumptions C176_rows.

(** But the estimate counts the points of an interface with the order of the finer layer, while their rows have the order of the
    coarser one: with an order for each layer it can be too small. *)
Theorem C176_var_refuted : exists g orders rows b, built g /\ Forall (fun p => In p [2; 4; 6; 8; 10; 12]) orders /\
  length orders = length (layers g) /\ rows_of Dxf 40 g orders true true false 1%Q rows /\
  getMemorySparseMatrix g orders true 4 4 = Ok b /\ b < bytes rows 4 4.
Proof.
  destruct (init_variable 50 101 6 1 [1; 3] [2]) as [g| | |] eqn:E; try (vm_compute in E; discriminate E).
  assert (Hb : built g).
  { right. exists 50%nat, 101, 6, 1, [1; 3], [2]. split; [|split; [intros d [<-|[<-|[]]]; lia|exact E]].
    split. { intros d [<-|[<-|[]]]; [exists 0%nat|exists 1%nat]; reflexivity. }
    split; [reflexivity|]. repeat (split; [lia|]). split; [|simpl; lia]. intros d [<-|[<-|[]]]; simpl; lia. }
  vm_compute in E. injection E as <-. eexists _, [2; 12], _, _. split; [exact Hb|]. split; [apply Forall_forall; intros p [<-|[<-|[]]]; cbn; tauto|]. split; [reflexivity|].
  split; [apply rows_of_mapres; [cbn; lia|vm_compute; reflexivity]|]. split; [vm_compute; reflexivity|vm_compute; reflexivity].
Qed.
Print Assumptions C176_var_refuted.

(** The number of matrix entries is computed in the type of the indices: for large grids it does not fit although the number of
    grid points does. *)
Theorem C176_overflow_refuted : exists nx ny nz g p, mk_regular nx ny nz = Ok g /\ nGridpoints g < 2 ^ 31 /\ In p [2; 4; 6; 8; 10; 12] /\
  forall sv si, getMemorySparseMatrix g [p] false sv si = UB.
Proof.
  destruct (mk_regular 600 600 600) as [g| | |] eqn:E; try (vm_compute in E; discriminate E).
  assert (Hb : built g) by (left; eauto). exists 600, 600, 600, g, 12. split; [exact E|].
  destruct (mk_regular_wf _ _ _ _ E) as (_&_&_&_&N&Ly). split; [rewrite N; reflexivity|]. split; [cbn; tauto|]. intros sv si.
  destruct (C176_bytes g [12] false (repeat 12 (length (layers g))) sv si Hb) as (_&B).
  - exists 12, []. auto.
  - intros q Hq. apply repeat_spec in Hq. lia.
  - apply B. rewrite Ly. eexists _, 12. split; [left; reflexivity|]. cbn [lcnt]. lia.
Qed.
Print Assumptions C176_overflow_refuted.

(** The estimate as a whole, in MByte: the matrices times their number, plus the interpolation matrices on layered grids. *)
Theorem C176_total : forall (threeD fs : bool) g d p rest sv si, built g -> 2 <= p -> nGridpoints g * p < 2 ^ 31 ->
  M_GridFile.d_orders d = p :: rest -> M_GridFile.d_varFD d = false ->
  let n := nGridpoints g in
  let v := M_GridFile.d_varGrid d in let e := M_GridFile.d_elastic d in
  let one := if M_GridFile.d_stencil d then n * si else n * p * (sv + si) + 2 * n * si in
  let matrices := if threeD then (if e then if v then 10 else if fs then 8 else 6 else 6) else (if e then if v then 6 else if fs then 6 else 4 else 4) in
  let interp := if v then if threeD then if e then 4 else 3 else 2 else 0 in
  estimateMemory threeD fs g d sv si =
    (if M_GridFile.d_isSetup d then Ok (inject_Z one / inject_Z (1024 * 1024) * inject_Z matrices +
       (if v then inject_Z (n * (sv + si) + 2 * n * si) / inject_Z (1024 * 1024) * inject_Z interp else 0))%Q else Throw).
Proof.
  intros threeD fs g d p rest sv si Hg Hp H Ho Hv n v e one matrices interp.
  destruct (C176_constant g p rest sv si Hg Hp H) as (A&_). destruct (built_wf _ Hg) as (_&W2&W3).
  assert (N0 : 0 <= n) by (unfold n; rewrite W2; apply (wf_layers_nonneg _ _ _ _ _ W3)).
  assert (I : getMemoryInterpolationMatrix n sv si = Ok (n * (sv + si) + 2 * n * si)).
  { unfold getMemoryInterpolationMatrix, imul. fold n in H. replace ((- 2 ^ 31 <=? 2 * n) && (2 * n <? 2 ^ 31)) with true by nia. reflexivity. }
  unfold estimateMemory. destruct (M_GridFile.d_isSetup d); [|reflexivity]. cbn [assert bind].
  unfold getMemoryUsage. rewrite Ho, Hv, A. fold n. fold v. fold e. rewrite I. unfold one, matrices, interp, numD3D, numD2D, numI3D, numI2D, getMemoryStencilMatrix. fold n.
  destruct threeD, (M_GridFile.d_stencil d), v, e, fs; reflexivity.
Qed.
Print Assumptions C176_total.

(** A regular grid with order 4 and a layered one with order 6, in single precision. *)
Example C176_ex : exists g h rows, mk_regular 20 10 1 = Ok g /\ rows_of Dxf 40 g [4] false false false 1%Q rows /\
  getMemorySparseMatrix g [4] false 4 4 = Ok 8000 /\ bytes rows 4 4 = 7520 /\
  init_variable 50 101 6 1 [1; 3] [2] = Ok h /\ getMemorySparseMatrix h [6] false 4 4 = Ok 18872.
Proof.
  do 3 eexists. split; [reflexivity|]. split; [apply rows_of_mapres; [cbn; lia|vm_compute; reflexivity]|].
  repeat split; vm_compute; reflexivity.
Qed.
